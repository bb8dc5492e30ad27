(* Sessions kept in files: the steps of the machine, and the files against the hooks that have returned. *)
From Coq Require Import List Arith NArith ZArith Lia Bool.
From Verif Require Import BaseBytes BaseConc ModelMessage ModelHandle ModelSession ModelGetter ModelPath ModelFiles ModelKeep.
From Verif Require Import SpecFiles SpecSession SpecKeep ProofPath ProofFiles ProofFiles2 ProofFiles3 ProofFiles4 ProofSession.
Import ListNotations.
Open Scope nat_scope.

Definition entered (s : house) (e : ev) : Prop :=
  match e with
  | EvStep i _ => h_pend s i = None /\ exists t, nth_error (s_ts (h_sys s)) i = Some t /\
      (site_of t = None \/ exists c, site_of t = Some (AtClosed c) /\ g_sess (s_srv (h_sys s)) c = None)
  | _ => True
  end.
Definition not_close (h : hook blob) : Prop := match h with HClose _ => False | _ => True end.
Definition returns (h : hook blob) (r : ModelFiles.result blob) : option choice :=
  match h with HCreate _ _ _ _ => Some Go | HLookup _ _ => Some (ChLook (looked r)) | HClose _ => None end.
Notation crashed s := (g_crashed (s_srv (h_sys s))).
Section Cases.
Variable z : setting.
Inductive hcase (s : house) : hev -> house -> Prop :=
| Hc_restart : hcase s HRestart (MkHouse new_server (h_fs s) (fun _ => None) (h_done s) (h_past s ++ [slog (h_sys s)]))
| Hc_sess e y : crashed s = false -> entered s e -> sstep (g_cfg z) (h_sys s) e = Some y -> hcase s (HSess e) (set_sys y s)
| Hc_get i t c x : crashed s = false -> nth_error (s_ts (h_sys s)) i = Some t -> site_of t = Some (AtCreated c) -> h_pend s i = None ->
    getter z (s_srv (h_sys s)) c SgSession = Some (SvSession (Some x)) -> hcase s (HGet i) (set_pend i (Some (PGot x)) s)
| Hc_panic i t c : crashed s = false -> nth_error (s_ts (h_sys s)) i = Some t -> site_of t = Some (AtCreated c) -> h_pend s i = None ->
    getter z (s_srv (h_sys s)) c SgSession = Some (SvSession None) -> hcase s (HGet i) (panic s)
| Hc_open i now h : crashed s = false -> next_call z s i now = Some h -> not_close h ->
    hcase s (HCall i now) (set_pend i (Some (PRun h (code (g_json z) (g_path z) h))) s)
| Hc_close i now k y : crashed s = false -> next_call z s i now = Some (HClose k) ->
    sstep (g_cfg z) (h_sys s) (EvStep i (ChHook false)) = Some y ->
    hcase s (HCall i now) (set_sys y (set_pend i (Some (PRun (HClose k) (code (g_json z) (g_path z) (HClose k)))) s))
| Hc_sys i w h pr d pr' : crashed s = false -> h_pend s i = Some (PRun h pr) -> step (g_env z) (h_fs s) pr w = Some (d, pr') ->
    hcase s (HSys i w) (MkHouse (h_sys s) d (upd (h_pend s) i (Some (PRun h pr'))) (h_done s) (h_past s))
| Hc_ret i h r ch y : crashed s = false -> h_pend s i = Some (PRun h (Ret r)) -> returns h r = Some ch ->
    sstep (g_cfg z) (h_sys s) (EvStep i ch) = Some y ->
    hcase s (HRet i) (MkHouse y (h_fs s) (upd (h_pend s) i None) (h_done s ++ [(h, r)]) (h_past s))
| Hc_return i k r : crashed s = false -> h_pend s i = Some (PRun (HClose k) (Ret r)) ->
    hcase s (HRet i) (MkHouse (h_sys s) (h_fs s) (upd (h_pend s) i None) (h_done s ++ [(HClose k, r)]) (h_past s)).
Lemma hstep_inv s e s' : hstep z s e = Some s' -> hcase s e s'.
Proof.
  unfold hstep, serverstep. destruct e as [e|i|i now|i w|i|].
  - destruct (crashed s) eqn:C; [discriminate|]. intros H.
    assert (G : forall y, sstep (g_cfg z) (h_sys s) e = Some y -> entered s e -> s' = set_sys y s -> hcase s (HSess e) s')
      by (intros y E EN ->; constructor; assumption).
    destruct e as [c info|c|c m|c m|c|k|i ch].
    1-6: match type of H with (let? y := ?X in _) = _ => destruct X as [y|] eqn:E; [|discriminate] end; injection H as <-; eapply G; [reflexivity|exact Logic.I|reflexivity].
    destruct (h_pend s i) as [p|] eqn:P; [discriminate|]. destruct (nth_error (s_ts (h_sys s)) i) as [t|] eqn:N; [|discriminate].
    assert (H1 : (site_of t = None \/ exists c, site_of t = Some (AtClosed c) /\ g_sess (s_srv (h_sys s)) c = None) /\
                 (let? y := sstep (g_cfg z) (h_sys s) (EvStep i ch) in Some (set_sys y s)) = Some s').
    { destruct (site_of t) as [[c|k|c]|] eqn:S; try discriminate.
      - destruct (g_sess (s_srv (h_sys s)) c) eqn:GS; [discriminate|]. split; [right; eauto|exact H].
      - split; [left; reflexivity|exact H]. }
    destruct H1 as [H1 H2]. destruct (sstep (g_cfg z) (h_sys s) (EvStep i ch)) as [y|] eqn:E; [|discriminate]. injection H2 as <-.
    constructor; [exact C| |exact E]. split; [exact P|]. eauto.
  - destruct (crashed s) eqn:C; [discriminate|]. destruct (nth_error (s_ts (h_sys s)) i) as [t|] eqn:N; [|discriminate].
    destruct (site_of t) as [[c|k|c]|] eqn:S; try discriminate. destruct (h_pend s i) as [p|] eqn:P; [discriminate|].
    destruct (getter z (s_srv (h_sys s)) c SgSession) as [[b|[x|]|k|t0|v]|] eqn:G; try discriminate; intros [= <-].
    + eapply Hc_get; eauto.
    + eapply Hc_panic; eauto.
  - destruct (crashed s) eqn:C; [discriminate|]. destruct (next_call z s i now) as [h|] eqn:N; [|discriminate]. destruct h as [k cr lo info|k n|k].
    + intros [= <-]. apply Hc_open; [exact C|exact N|exact Logic.I].
    + intros [= <-]. apply Hc_open; [exact C|exact N|exact Logic.I].
    + cbn [h_sys set_pend]. destruct (sstep (g_cfg z) (h_sys s) (EvStep i (ChHook false))) as [y|] eqn:E; [|discriminate]. intros [= <-]. eapply Hc_close; eauto.
  - destruct (crashed s) eqn:C; [discriminate|]. destruct (h_pend s i) as [[x|h pr]|] eqn:P; try discriminate.
    destruct (step (g_env z) (h_fs s) pr w) as [[d pr']|] eqn:E; [|discriminate]. intros [= <-]. cbn [fst snd]. eapply Hc_sys; eauto.
  - destruct (crashed s) eqn:C; [discriminate|]. destruct (h_pend s i) as [[x|h pr]|] eqn:P; try discriminate. destruct pr as [r| | | | |]; try discriminate.
    destruct h as [k cr lo info|k n|k].
    + cbn [h_sys]. destruct (sstep (g_cfg z) (h_sys s) (EvStep i Go)) as [y|] eqn:E; [|discriminate]. intros [= <-]. unfold set_sys. cbn [h_fs h_pend h_done h_past]. eapply Hc_ret; eauto. reflexivity.
    + cbn [h_sys]. destruct (sstep (g_cfg z) (h_sys s) (EvStep i (ChLook (looked r)))) as [y|] eqn:E; [|discriminate]. intros [= <-]. unfold set_sys. cbn [h_fs h_pend h_done h_past]. eapply Hc_ret; eauto. reflexivity.
    + intros [= <-]. apply Hc_return; assumption.
  - intros [= <-]. constructor.
Qed.
End Cases.

(* what the server does to itself is a run of ModelSession, up to a panic in OnSessionCreated *)
Definition shown (y y' : sys) : Prop := y' = y \/ y' = MkSys (crash (s_srv y)) (s_ts y).
Lemma shown_view y y' : shown y y' -> slog y' = slog y /\ s_ts y' = s_ts y /\ (forall c, g_sess (s_srv y') c = g_sess (s_srv y) c) /\ reg y' = reg y /\
  (forall c, g_lock (s_srv y') c = g_lock (s_srv y) c).
Proof. intros [->| ->]; auto. Qed.
Lemma house_sys z (good : house -> hev -> house -> Prop) (ok : sys -> Prop) s : (forall s e s', good s e s' -> ok (h_sys s')) -> hreach z good s ->
  exists y, sreach (g_cfg z) ok y /\ shown y (h_sys s) /\ (crashed s = false -> y = h_sys s).
Proof.
  intros OK R. induction R as [|s e s' R IH H G].
  - exists new_server. split; [constructor|]. split; [left; reflexivity|reflexivity].
  - destruct IH as (y & RY & SH & CR). apply hstep_inv in H. pose proof (OK _ _ _ G) as K.
    assert (SAME : h_sys s' = h_sys s -> exists y, sreach (g_cfg z) ok y /\ shown y (h_sys s') /\ (crashed s' = false -> y = h_sys s')) by (intros ->; eauto).
    assert (GO : forall e0 y', crashed s = false -> sstep (g_cfg z) (h_sys s) e0 = Some y' -> h_sys s' = y' -> exists y, sreach (g_cfg z) ok y /\ shown y (h_sys s') /\ (crashed s' = false -> y = h_sys s')).
    { intros e0 y' C ST EQ. exists y'. split; [|split; [left; exact EQ|intros _; symmetry; exact EQ]]. rewrite (CR C) in RY. econstructor; [exact RY|exact ST|]. rewrite <- EQ. exact K. }
    destruct H; try (apply SAME; reflexivity); try (eapply GO; [assumption|eassumption|reflexivity]).
    + exists new_server. split; [constructor|]. split; [left; reflexivity|reflexivity].
    + cbn [panic h_sys set_sys]. exists y. split; [exact RY|]. rewrite (CR H). split; [right; reflexivity|cbn; discriminate].
Qed.

(* ----- the files ----- *)
(* the sessions stored after the hooks l *)
Definition kept (z : setting) (norm : blob -> blob) (l : list (hook blob * ModelFiles.result blob)) : smap blob :=
  serve_all (g_json z) norm no_sessions (map fst l).
Section Store.
Variables (z : setting) (norm : blob -> blob).
Hypothesis FA : faithful (g_json z) norm.
Hypothesis ND : g_path z <> [].
Notation J := (g_json z).
Notation file k := (file_of (e_cwd (g_env z)) (g_path z) k).
Notation K s := (kept z norm (h_done s)).
Record stored (s : house) : Prop := {
  Sd_wf : SpecFiles.wf (h_fs s);
  Sd_rest : forall k, plain k -> (forall h, calling s h -> hook_key h <> k) -> means J (K s k) (contents (h_fs s) (file k));
  Sd_run : forall i h pr, h_pend s i = Some (PRun h pr) -> usable (g_env z) (g_path z) h /\
    (exists own, only (g_env z) (file (hook_key h)) own pr /\ safe (h_fs s) (file (hook_key h)) own) /\
    leads (g_env z) (file (hook_key h)) (fst (serve J norm (K s) h)) (means J (snd (serve J norm (K s) h) (hook_key h))) (entry (h_fs s) (file (hook_key h))) pr;
  Sd_one : forall i j h h' pr pr', h_pend s i = Some (PRun h pr) -> h_pend s j = Some (PRun h' pr') -> hook_key h = hook_key h' -> i = j;
  Sd_done : forall l1 h r l2, h_done s = l1 ++ (h, r) :: l2 -> r = fst (serve J norm (kept z norm l1) h) }.
Lemma kept_snoc l h r : kept z norm (l ++ [(h, r)]) = snd (serve J norm (kept z norm l) h).
Proof. unfold kept. rewrite map_app, serve_all_app. reflexivity. Qed.
Lemma stored_new : stored new_house.
Proof.
  split; cbn.
  - split; [intros l n E; discriminate|intros l l' n E; discriminate].
  - intros k _ _. reflexivity.
  - discriminate.
  - discriminate.
  - intros [|] ? ? ? E; discriminate.
Qed.
(* steps that change neither files, nor calls in progress, nor the list of calls *)
Lemma stored_same s s' : stored s -> h_fs s' = h_fs s -> (forall i h pr, h_pend s' i = Some (PRun h pr) <-> h_pend s i = Some (PRun h pr)) -> h_done s' = h_done s -> stored s'.
Proof.
  intros [W R U O D] E1 E2 E3. split; rewrite ?E1, ?E3.
  - exact W.
  - intros k P N. apply R; [exact P|]. intros h (i & pr & H). apply N. exists i, pr. apply E2, H.
  - intros i h pr H. apply (U i). apply E2, H.
  - intros i j h h' pr pr' H H'. apply (O i j h h' pr pr'); apply E2; assumption.
  - exact D.
Qed.
Lemma upd_run (f : nat -> option pending) i p j q : upd f i p j = Some q -> (j = i /\ p = Some q) \/ (j <> i /\ f j = Some q).
Proof. unfold upd. destruct (Nat.eqb_spec j i); auto. Qed.
Lemma stored_call s s' i h : stored s -> h_fs s' = h_fs s -> h_done s' = h_done s -> h_pend s' = upd (h_pend s) i (Some (PRun h (code J (g_path z) h))) ->
  (forall h' pr', h_pend s i <> Some (PRun h' pr')) ->
  usable (g_env z) (g_path z) h -> (forall h', calling s h' -> hook_key h' <> hook_key h) -> stored s'.
Proof.
  intros [W R U O D] E1 E2 E3 FR US AP. split; rewrite ?E1, ?E2, ?E3.
  - exact W.
  - intros k P N. apply R; [exact P|]. intros h' (j & pr & H). apply N. exists j, pr. rewrite E3. unfold upd. destruct (Nat.eqb_spec j i) as [->|]; [|exact H]. exfalso. exact (FR _ _ H).
  - intros j h' pr H. apply upd_run in H. destruct H as [[-> [= <- <-]]|[NJ H]]; [|apply (U j), H].
    split; [exact US|]. split; [exists (fun _ => False); split; [apply code_only|apply none_safe]|].
    apply code_leads; [exact FA|exact US|]. rewrite <- entry_contents. apply R; [apply US|exact AP].
  - intros j j' h1 h2 p1 p2 H1 H2 EQ. apply upd_run in H1. apply upd_run in H2.
    destruct H1 as [[-> [= <- <-]]|[N1 H1]], H2 as [[-> [= <- <-]]|[N2 H2]]; [reflexivity| | |eapply O; eauto].
    + exfalso. apply (AP h2); [exists j', p2; exact H2|]. congruence.
    + exfalso. apply (AP h1); [exists j, p1; exact H1|]. congruence.
  - exact D.
Qed.
Lemma stored_sys s s' i w h pr d pr' : stored s -> h_pend s i = Some (PRun h pr) -> step (g_env z) (h_fs s) pr w = Some (d, pr') -> works w ->
  h_fs s' = d -> h_done s' = h_done s -> h_pend s' = upd (h_pend s) i (Some (PRun h pr')) -> stored s'.
Proof.
  intros [W R U O D] P ST WK E1 E2 E3. destruct (U i h pr P) as (US & (own & ON & SF) & LE).
  destruct (step_isolated _ _ _ _ _ _ _ _ W ON SF ST) as (W1 & _ & OS & X). pose proof (step_entry _ _ _ _ _ _ _ _ W ON SF ST) as SE.
  split; rewrite ?E1, ?E2, ?E3.
  - exact W1.
  - intros k PL N. assert (NK : k <> hook_key h).
    { intros ->. apply (N h); [|reflexivity]. exists i, pr'. rewrite E3. unfold upd. rewrite Nat.eqb_refl. reflexivity. }
    rewrite entry_contents, SE, <- entry_contents.
    + apply R; [exact PL|]. intros h' (j & p & H). destruct (Nat.eq_dec j i) as [->|NJ]; [congruence|]. apply (N h'). exists j, p. rewrite E3. unfold upd.
      destruct (Nat.eqb_spec j i); [congruence|exact H].
    + intros EQ. apply NK. apply file_distinct in EQ; [exact EQ|exact ND|exact PL|apply US].
  - intros j h' p H. apply upd_run in H. destruct H as [[-> [= <- <-]]|[NJ H]].
    + split; [exact US|]. split; [exact OS|]. eapply step_leads; [apply US|exact LE|exact WK|exact ST].
    + destruct (U j h' p H) as (US' & (own' & ON' & SF') & LE'). split; [exact US'|]. split; [exists own'; split; [exact ON'|apply X, SF']|].
      rewrite SE; [exact LE'|]. intros EQ. apply file_distinct in EQ; [|exact ND|apply US'|apply US]. apply NJ. eapply O; eauto.
  - intros j j' h1 h2 p1 p2 H1 H2 EQ. apply upd_run in H1. apply upd_run in H2.
    destruct H1 as [[-> [= <- <-]]|[N1 H1]], H2 as [[-> [= <- <-]]|[N2 H2]]; [reflexivity| | |eapply O; eauto].
    + eapply O; eauto.
    + eapply O; eauto.
  - exact D.
Qed.
Lemma stored_ret s s' i h r : stored s -> h_pend s i = Some (PRun h (Ret r)) -> h_fs s' = h_fs s -> h_done s' = h_done s ++ [(h, r)] ->
  h_pend s' = upd (h_pend s) i None -> stored s'.
Proof.
  intros [W R U O D] P E1 E2 E3. destruct (U i h _ P) as (US & _ & LE). apply ret_leads in LE. destruct LE as [ER ME]. rewrite <- entry_contents in ME.
  split; rewrite ?E1, ?E2, ?E3.
  - exact W.
  - intros k PL N. rewrite kept_snoc. destruct (list_eq_dec Byte.byte_eq_dec k (hook_key h)) as [->|NK]; [exact ME|].
    rewrite serve_other by exact NK. apply R; [exact PL|]. intros h' (j & p & H). destruct (Nat.eq_dec j i) as [->|NJ]; [congruence|].
    apply (N h'). exists j, p. rewrite E3. unfold upd. destruct (Nat.eqb_spec j i); [congruence|exact H].
  - intros j h' p H. apply upd_run in H. destruct H as [[_ H]|[NJ H]]; [discriminate|]. destruct (U j h' p H) as (US' & OS & LE). split; [exact US'|]. split; [exact OS|].
    rewrite kept_snoc. assert (NK : hook_key h' <> hook_key h) by (intros EQ; apply NJ; eapply O; eauto).
    destruct (serve_own J norm (snd (serve J norm (K s) h)) (K s) h') as [EA EB]; [apply serve_other, NK|]. rewrite EA, EB. exact LE.
  - intros j j' h1 h2 p1 p2 H1 H2 EQ. apply upd_run in H1. apply upd_run in H2.
    destruct H1 as [[_ H1]|[N1 H1]]; [discriminate|]. destruct H2 as [[_ H2]|[N2 H2]]; [discriminate|]. eapply O; eauto.
  - intros l1 h' r' l2 E. destruct l2 as [|q l2] using rev_ind.
    + apply app_inj_tail in E. destruct E as [<- [= <- <-]]. exact ER.
    + clear IHl2. rewrite app_comm_cons, app_assoc in E. apply app_inj_tail in E. destruct E as [E _]. eapply D, E.
Qed.
Lemma next_call_fresh s i now h : next_call z s i now = Some h -> forall h' pr', h_pend s i <> Some (PRun h' pr').
Proof.
  unfold next_call. destruct (nth_error (s_ts (h_sys s)) i) as [t|]; [|discriminate]. intros H h' pr' E. rewrite E in H. destruct (site_of t) as [[]|]; discriminate.
Qed.
Lemma stored_all (good : house -> hev -> house -> Prop) s : (forall s e s', good s e s' -> calm z s e s') -> hreach z good s -> stored s.
Proof.
  intros CA R. induction R as [|s e s' R IH H G]; [apply stored_new|]. apply CA in G. apply hstep_inv in H. destruct H; cbn in G.
  - apply (stored_same s); [exact IH|reflexivity| |reflexivity]. cbn. intros i h pr. split; [discriminate|]. intros E. exfalso. apply (G h). exists i, pr. exact E.
  - apply (stored_same s); [exact IH|reflexivity|reflexivity|reflexivity].
  - apply (stored_same s); [exact IH|reflexivity| |reflexivity]. cbn. intros j h pr. unfold upd. destruct (Nat.eqb_spec j i) as [->|]; [|reflexivity]. rewrite H2. split; discriminate.
  - apply (stored_same s); [exact IH|reflexivity|reflexivity|reflexivity].
  - destruct (G h H0) as [US AP]. eapply stored_call; try exact US; try exact AP; try exact IH; try reflexivity. apply (next_call_fresh _ _ _ _ H0).
  - destruct (G _ H0) as [US AP]. eapply stored_call; try exact US; try exact AP; try exact IH; try reflexivity. apply (next_call_fresh _ _ _ _ H0).
  - eapply stored_sys; eauto; reflexivity.
  - eapply stored_ret; eauto; reflexivity.
  - eapply stored_ret; eauto; reflexivity.
Qed.
End Store.
