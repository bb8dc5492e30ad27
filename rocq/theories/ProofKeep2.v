(* Sessions kept in files: answers to restoration requests. *)
From Coq Require Import List Arith NArith ZArith Lia Bool.
From Verif Require Import BaseBytes BaseConc ModelMessage ModelHandle ModelSession ModelGetter ModelPath ModelFiles ModelKeep.
From Verif Require Import SpecFiles SpecSession SpecKeep ProofPath ProofFiles ProofFiles2 ProofFiles3 ProofFiles4 ProofSession ProofSession4 ProofKeep.
Import ListNotations.
Open Scope nat_scope.

(* why a thread of the server makes a step *)
Inductive why (z : setting) (s s' : house) (i : nat) : thread -> choice -> Prop :=
| Why_free t ch : h_pend s i = None -> (site_of t = None \/ exists c, site_of t = Some (AtClosed c) /\ g_sess (s_srv (h_sys s)) c = None) ->
    h_pend s' = h_pend s -> h_done s' = h_done s -> why z s s' i t ch
| Why_close t now k : next_call z s i now = Some (HClose k) -> h_pend s' = upd (h_pend s) i (Some (PRun (HClose k) (code (g_json z) (g_path z) (HClose k)))) ->
    h_done s' = h_done s -> why z s s' i t (ChHook false)
| Why_ret t h r ch : h_pend s i = Some (PRun h (Ret r)) -> returns h r = Some ch -> h_pend s' = upd (h_pend s) i None ->
    h_done s' = h_done s ++ [(h, r)] -> why z s s' i t ch.
Inductive moves (z : setting) (s s' : house) : Prop :=
| Mv_none : slog (h_sys s') = slog (h_sys s) -> s_ts (h_sys s') = s_ts (h_sys s) -> moves z s s'
| Mv_begin e t : begin e = Some t -> h_sys s' = MkSys (s_srv (h_sys s)) (s_ts (h_sys s) ++ [t]) -> h_pend s' = h_pend s -> h_done s' = h_done s -> moves z s s'
| Mv_step i ch t g' t' : nth_error (s_ts (h_sys s)) i = Some t -> tcase (g_cfg z) i (s_srv (h_sys s)) t ch g' t' ->
    h_sys s' = MkSys g' (set_nth (s_ts (h_sys s)) i t') -> why z s s' i t ch -> moves z s s'.
Lemma hcase_moves z s e s' : hcase z s e s' -> e <> HRestart -> moves z s s'.
Proof.
  intros H NR. destruct H; try (apply Mv_none; reflexivity).
  - congruence.
  - apply step_inv in H1 as [_ [(t & B & ->)|(i & ch & t & g' & t' & -> & N & T & ->)]].
    + eapply Mv_begin; eauto.
    + destruct H0 as (P & t0 & N0 & S). rewrite N in N0. injection N0 as <-. eapply Mv_step; [exact N|apply tstep_inv, T|reflexivity|]. apply Why_free; auto.
  - apply step_inv in H1 as [_ [(t & B & ->)|(i' & ch & t & g' & t' & E & N & T & ->)]]; [discriminate B|]. injection E as <- <-.
    eapply Mv_step; [exact N|apply tstep_inv, T|reflexivity|]. eapply Why_close; eauto.
  - apply step_inv in H2 as [_ [(t & B & ->)|(i' & ch' & t & g' & t' & E & N & T & ->)]]; [discriminate B|]. injection E as <- <-.
    eapply Mv_step; [exact N|apply tstep_inv, T|reflexivity|]. eapply Why_ret; eauto.
Qed.
Lemma done_grows z s e s' : hcase z s e s' -> exists l, h_done s' = h_done s ++ l.
Proof. intros H. destruct H; cbn; try (exists []; rewrite app_nil_r; reflexivity); eexists; reflexivity. Qed.

(* hooks in progress belong to their threads *)
Definition belongs (p : pending) (t : thread) : Prop :=
  match p with
  | PGot _ | PRun (HCreate _ _ _ _) _ => exists c, site_of t = Some (AtCreated c)
  | PRun (HLookup k _) _ => site_of t = Some (AtLookup k)
  | PRun (HClose _) _ => True
  end.
Definition fits (s : house) : Prop := forall i p, h_pend s i = Some p -> exists t, nth_error (s_ts (h_sys s)) i = Some t /\ belongs p t.
Lemma ts_keep f y e y' j t : sstep f y e = Some y' -> nth_error (s_ts y) j = Some t -> (forall ch, e <> EvStep j ch) -> nth_error (s_ts y') j = Some t.
Proof.
  intros H N D. apply step_inv in H as [_ [(u & B & ->)|(i0 & ch & u & g' & u' & -> & N0 & T & ->)]]; cbn [s_ts].
  - apply nth_error_snoc_some. auto.
  - apply (set_nth_some _ _ _ _ N0). right. split; [|exact N]. intros <-. exact (D ch eq_refl).
Qed.
Lemma ts_own f y i ch y' : sstep f y (EvStep i ch) = Some y' -> exists t', nth_error (s_ts y') i = Some t'.
Proof.
  intros H. apply step_inv in H as [_ [(u & B & ->)|(i0 & ch0 & u & g' & u' & E & N0 & T & ->)]]; [discriminate B|]. injection E as <- <-. cbn [s_ts]. exists u'.
  apply (set_nth_some _ _ _ _ N0). auto.
Qed.
Lemma next_site z s i now h : next_call z s i now = Some h -> exists t, nth_error (s_ts (h_sys s)) i = Some t /\
  match h with
  | HCreate k cr lo info => exists c x, site_of t = Some (AtCreated c) /\ h_pend s i = Some (PGot x) /\ getter z (s_srv (h_sys s)) c SgKey = Some (SvKey k) /\
      cr = x_creation x /\ lo = x_last x /\ info = SessionInfoToVarMap z (x_info x)
  | HLookup k n => site_of t = Some (AtLookup k) /\ h_pend s i = None /\ n = now
  | HClose k => exists c x, site_of t = Some (AtClosed c) /\ h_pend s i = None /\ g_sess (s_srv (h_sys s)) c = Some x /\ x_key x = k
  end.
Proof.
  unfold next_call. destruct (nth_error (s_ts (h_sys s)) i) as [t|]; [|discriminate]. intros H. exists t. split; [reflexivity|].
  destruct (site_of t) as [[c|k|c]|] eqn:S; try discriminate.
  - destruct (h_pend s i) as [[x|]|] eqn:P; try discriminate. destruct (getter z (s_srv (h_sys s)) c SgKey) as [[]|] eqn:G; try discriminate. injection H as <-. exists c, x. auto 7.
  - destruct (h_pend s i) eqn:P; [discriminate|]. injection H as <-. auto.
  - destruct (h_pend s i) eqn:P; [discriminate|]. destruct (g_sess (s_srv (h_sys s)) c) as [x|] eqn:G; [|discriminate]. injection H as <-. eauto 6.
Qed.
Lemma fits_all z good s : hreach z good s -> fits s.
Proof.
  intros R. induction R as [|s e s' R IH H G]; [intros i p; discriminate|]. apply hstep_inv in H.
  destruct H as [|e y C EN ST|i t c x C N S P0 GE|i t c C N S P0 GE|i now h C NX NC|i now k y C NX ST|i w h pr d pr' C P0 ST|i h r ch y C P0 RT ST|i k r C P0];
    cbn [h_sys h_pend set_sys set_pend panic s_ts]; intros j p P; cbn [h_sys h_pend set_sys set_pend panic s_ts] in *; try (apply upd_run in P; destruct P as [[-> P]|[NJ P]]; [try discriminate P|]);
    try (exact (IH j p P)).
  - discriminate.
  - destruct (IH j p P) as (t & N & B). exists t. split; [|exact B]. eapply ts_keep; [exact ST|exact N|]. intros ch ->. cbn in EN. destruct EN; congruence.
  - injection P as <-. exists t. split; [exact N|]. cbn. eauto.
  - injection P as <-. destruct (next_site _ _ _ _ _ NX) as (t & N & X). exists t. split; [exact N|]. destruct h; cbn in *; [|apply X|exact Logic.I]. destruct X as (c & x & X & _). eauto.
  - injection P as <-. destruct (ts_own _ _ _ _ _ ST) as [t' N]. exists t'. split; [exact N|exact Logic.I].
  - destruct (IH j p P) as (t & N & B). exists t. split; [|exact B]. eapply ts_keep; [exact ST|exact N|]. intros ch [= E _]. congruence.
  - injection P as <-. destruct (IH _ _ P0) as (t & N & B). exists t. split; [exact N|]. destruct h; exact B.
  - destruct (IH j p P) as (t & N & B). exists t. split; [|exact B]. eapply ts_keep; [exact ST|exact N|]. intros ch0 [= E _]. congruence.
Qed.

(* ----- restarts ----- *)
Lemma later_reach z good s1 s2 : hreach z good s1 -> hlater z good s1 s2 -> hreach z good s2.
Proof. intros R H. induction H; [exact R|]. econstructor; eauto. Qed.
Lemma later_trans z good s1 s2 s3 : hlater z good s1 s2 -> hlater z good s2 s3 -> hlater z good s1 s3.
Proof. intros H H'. induction H'; [exact H|]. econstructor; eauto. Qed.
Lemma later_done z good s1 s2 : hlater z good s1 s2 -> exists l, h_done s2 = h_done s1 ++ l.
Proof.
  intros H. induction H as [|s e s' H [l IH] ST NR G]; [exists []; rewrite app_nil_r; reflexivity|].
  apply hstep_inv, done_grows in ST as [l' E]. exists (l ++ l'). rewrite E, IH, app_assoc. reflexivity.
Qed.
(* the beginning of the process *)
Lemma process_start z good s : hreach z good s -> exists s0, hreach z good s0 /\ hlater z good s0 s /\ h_sys s0 = new_server.
Proof.
  intros R. induction R as [|s e s' R (s0 & R0 & L & N) H G]; [exists new_house; repeat constructor|].
  destruct e as [e|i|i now|i w|i|].
  1-5: (exists s0; split; [exact R0|split; [|exact N]]; econstructor; [exact L|exact H|discriminate|exact G]).
  exists s'. split; [eapply HR_step; [exact R|exact H|exact G]|]. split; [constructor|]. apply hstep_inv in H. inversion H. reflexivity.
Qed.

(* ----- answers ----- *)
(* the answer to a restoration request for session k when v is what is stored for k *)
Definition told (z : setting) (k : key) (v : option (Z * Z * blob)) : answer :=
  match v with
  | None => AFail ESessNotFound
  | Some (cr, la, info) => match f_json (g_cfg z) k cr la info with Some enc => AOk (Utf8, enc) | None => AFail ENil end
  end.
Inductive decided (z : setting) good (norm : blob -> blob) (k : key) (s1 s2 : house) : answer -> Prop :=
| DC_disabled : f_enabled (g_cfg z) = false -> decided z good norm k s1 s2 (AFail ESessDisabled)
| DC_full s : f_enabled (g_cfg z) = true -> hlater z good s1 s -> hlater z good s s2 -> ~ has_room (g_cfg z) (h_sys s) k ->
    decided z good norm k s1 s2 (AFail EMaxSessConns)
| DC_told l now r l' : f_enabled (g_cfg z) = true -> h_done s2 = h_done s1 ++ l ++ (HLookup k now, r) :: l' ->
    decided z good norm k s1 s2 (told z k (kept z norm (h_done s1 ++ l) k)).
Section Answers.
Variables (z : setting) (norm : blob -> blob) (good : house -> hev -> house -> Prop).
Hypothesis FA : faithful (g_json z) norm.
Hypothesis ND : g_path z <> [].
Hypothesis CA : forall s e s', good s e s' -> calm z s e s'.
Variable s1 : house.
Hypothesis R1 : hreach z good s1.
Notation dec k s := (decided z good norm k s1 s).
Lemma decided_later k s e s' a : hlater z good s1 s -> hstep z s e = Some s' -> e <> HRestart -> good s e s' -> dec k s a -> dec k s' a.
Proof.
  intros L ST NR G D. destruct D as [F|x F L1 L2 NR'|l now r l' F E].
  - constructor; exact F.
  - eapply DC_full; [exact F|exact L1| |exact NR']. econstructor; eauto.
  - apply hstep_inv, done_grows in ST as [l2 E2]. eapply DC_told with (l' := l' ++ l2); [exact F|]. rewrite E2, E, <- !app_assoc. cbn. reflexivity.
Qed.
Definition progress (s : house) (i : nat) (m : message) (st : rstate) : Prop :=
  match st with
  | RStart => True
  | RCount | RLook => f_enabled (g_cfg z) = true
  | RSet _ enc | RReg enc => dec (payload_of m) s (AOk (Utf8, enc))
  | RRep a => dec (payload_of m) s a
  | ModelSession.RDone => forall c' m' a st', In (LReply i c' m' a st') (slog (h_sys s)) -> dec (payload_of m) s a
  end.
Lemma no_reply_yet s i c m st : hreach z good s -> nth_error (s_ts (h_sys s)) i = Some (TRestore c m st) -> st <> ModelSession.RDone ->
  forall c' m' a st', ~ In (LReply i c' m' a st') (slog (h_sys s)).
Proof.
  intros R N D c' m' a st' IN. destruct (house_sys z good (fun _ => True) s (fun _ _ _ _ => Logic.I) R) as (y & RY & SH & _).
  destruct (shown_view _ _ SH) as (EL & ET & _). rewrite EL in IN. rewrite ET in N.
  destruct (reply_owner _ _ _ RY _ _ _ _ _ IN) as [E|E]; rewrite N in E; congruence.
Qed.
Lemma progress_log s s' i m st : progress s i m st -> (forall a, dec (payload_of m) s a -> dec (payload_of m) s' a) ->
  (forall c' m' a st', In (LReply i c' m' a st') (slog (h_sys s')) -> In (LReply i c' m' a st') (slog (h_sys s))) -> progress s' i m st.
Proof. destruct st; cbn; auto. intros P D L c' m' a st' IN. apply D, (P c' m' a st'), L, IN. Qed.
(* a lookup ends when its hook has returned *)
Lemma look_ret s s' i c m r : hreach z good s -> nth_error (s_ts (h_sys s)) i = Some (TRestore c m RLook) -> why z s s' i (TRestore c m RLook) (ChLook r) ->
  exists now x, h_done s' = h_done s ++ [(HLookup (payload_of m) now, x)] /\ r = looked x.
Proof.
  intros R N W. inversion W as [t ch P S EP ED|t now k NX EP ED|t h x ch P RT EP ED]; subst.
  - destruct S as [S|(c0 & S & _)]; discriminate.
  - destruct (fits_all _ _ _ R _ _ P) as (t & N' & B). rewrite N in N'. injection N' as <-. destruct h as [k cr lo i0|k now|k]; try discriminate RT.
    cbn in B. injection B as <-. injection RT as <-. eauto.
Qed.
Lemma look_said s s' i c m r : hreach z good s -> hreach z good s' -> hlater z good s1 s -> f_enabled (g_cfg z) = true ->
  nth_error (s_ts (h_sys s)) i = Some (TRestore c m RLook) -> why z s s' i (TRestore c m RLook) (ChLook r) ->
  dec (payload_of m) s' (match r with LkErr => AFail ESessNotFound | LkNil => AFail ESessNotFound | LkFound cr la info => told z (payload_of m) (Some (cr, la, info)) end) /\ r <> LkErr.
Proof.
  intros R R' L EN N W. destruct (look_ret _ _ _ _ _ _ R N W) as (now & x & D & ->). destruct (later_done _ _ _ _ L) as [l E].
  assert (X : x = fst (serve (g_json z) norm (kept z norm (h_done s1 ++ l)) (HLookup (payload_of m) now))).
  { apply (Sd_done z norm s' (stored_all z norm FA ND good s' CA R') (h_done s1 ++ l) _ x []). rewrite D, E. reflexivity. }
  assert (DC : dec (payload_of m) s' (told z (payload_of m) (kept z norm (h_done s1 ++ l) (payload_of m)))).
  { eapply DC_told with (now := now) (r := x) (l' := []); [exact EN|]. rewrite D, E, <- app_assoc. reflexivity. }
  cbn in X. destruct (kept z norm (h_done s1 ++ l) (payload_of m)) as [[[cr la] info]|]; subst x; cbn; (split; [exact DC|discriminate]).
Qed.
Lemma progress_all s : hlater z good s1 s -> forall i c m st, length (s_ts (h_sys s1)) <= i ->
  nth_error (s_ts (h_sys s)) i = Some (TRestore c m st) -> progress s i m st.
Proof.
  intros L. induction L as [|s e s' L IH ST NR G]; intros i c m st LE N.
  - assert (i < length (s_ts (h_sys s1))) by (apply nth_error_Some; congruence). lia.
  - pose proof (later_reach _ _ _ _ R1 L) as R. pose proof (hstep_inv _ _ _ _ ST) as HC.
    assert (DL : forall k a, dec k s a -> dec k s' a) by (intros k a; eapply decided_later; eauto).
    destruct (hcase_moves _ _ _ _ HC NR) as [EL ET|e0 t B E EP ED|j ch t g' t' NJ TC E W].
    + rewrite ET in N. eapply progress_log; [eapply IH; eauto|apply DL|]. rewrite EL. auto.
    + rewrite E in N. cbn in N. apply nth_error_snoc_some in N as [N|[EI ET]].
      * eapply progress_log; [eapply IH; eauto|apply DL|]. rewrite E. auto.
      * destruct e0; cbn in B; try discriminate; injection B as <-; try discriminate ET. injection ET as -> -> ->. exact Logic.I.
    + rewrite E in N. cbn [s_ts] in N. apply (set_nth_some _ _ _ _ NJ) in N as [[<- ET]|[D N]].
      2: { eapply progress_log; [eapply IH; eauto|apply DL|]. rewrite E. cbn [s_srv]. intros c' m' a st' IN.
           destruct (reply_owner_effect _ _ _ _ _ _ _ TC) as [EL|(ev & EL & OW)]; rewrite EL in IN; [exact IN|]. apply in_app_iff in IN as [IN|[IN|[]]]; [exact IN|].
           destruct (OW _ _ _ _ _ IN) as [-> _]. congruence. }
      subst t'. inversion TC as [| |c0 m0 st0 ch0 g0 st1 RC| | |]; subst.
      pose proof (IH j c m st0 LE NJ) as PR. pose proof (no_reply_yet s j c m st0 R NJ) as NRP.
      destruct RC; cbn in *.
      * constructor; assumption.
      * assumption.
      * eapply DC_full with (s := s); [exact PR|exact L|econstructor; [constructor|exact ST|exact NR|exact G]|]. intros [F|F]; [contradiction|]. cbn in F. lia.
      * exact PR.
      * destruct (look_said _ _ _ _ _ _ R (later_reach _ _ _ _ R1 (HL_step _ _ _ _ _ _ L ST NR G)) L PR NJ W) as [_ F]. congruence.
      * exact (proj1 (look_said _ _ _ _ _ _ R (later_reach _ _ _ _ R1 (HL_step _ _ _ _ _ _ L ST NR G)) L PR NJ W)).
      * destruct (look_said _ _ _ _ _ _ R (later_reach _ _ _ _ R1 (HL_step _ _ _ _ _ _ L ST NR G)) L PR NJ W) as [D _].
        cbn [told] in D. rewrite H in D. exact D.
      * destruct (look_said _ _ _ _ _ _ R (later_reach _ _ _ _ R1 (HL_step _ _ _ _ _ _ L ST NR G)) L PR NJ W) as [D _].
        cbn [told] in D. rewrite H in D. exact D.
      * apply DL, PR.
      * apply DL, PR.
      * apply DL, PR.
      * apply DL, PR.
      * apply DL, PR.
      * intros c' m' a' st' IN. rewrite E in IN. cbn in IN. apply in_app_iff in IN as [IN|[[= -> -> -> ->]|[]]].
        -- exfalso. eapply NRP; [discriminate|exact IN].
        -- apply DL, PR.
Qed.
Definition lawful (l : list (hook blob * ModelFiles.result blob)) : Prop :=
  forall l1 h r l2, l = l1 ++ (h, r) :: l2 -> r = fst (serve (g_json z) norm (kept z norm l1) h).
Lemma lawful_snoc l p : lawful (l ++ [p]) -> lawful l.
Proof. intros H l1 h r l2 E. apply (H l1 h r (l2 ++ [p])). rewrite E, <- app_assoc. reflexivity. Qed.
Lemma kept_live k l : lawful l -> match kept z norm l k with
  | Some (cr, la, info) => live norm k l cr la info
  | None => forall cr la info, ~ live norm k l cr la info
  end.
Proof.
  induction l as [|[h r] l IH] using rev_ind; intros LW.
  - cbn. intros cr la info (l1 & lo & i & l2 & E & _). destruct l1; discriminate.
  - specialize (IH (lawful_snoc _ _ LW)). pose proof (LW l h r [] eq_refl) as ER. rewrite kept_snoc.
    assert (ADD : forall cr la la' info, spares k (h, r) -> live norm k l cr la info -> (forall t (hs : list (hook blob * ModelFiles.result blob)), last_lookup k t (map fst hs) = la -> last_lookup k t (map fst hs ++ [h]) = la') ->
      live norm k (l ++ [(h, r)]) cr la' info).
    { intros cr la la' info SP (l1 & lo & i & l2 & E & F & LA & NI) LL. exists l1, lo, i, (l2 ++ [(h, r)]). split; [rewrite E, <- app_assoc; reflexivity|].
      split; [apply Forall_app; split; [exact F|constructor; [exact SP|constructor]]|]. split; [|exact NI]. rewrite map_app. symmetry. apply LL. auto. }
    assert (DROP : forall cr la info, live norm k (l ++ [(h, r)]) cr la info -> (exists lo i, h = HCreate k cr lo i /\ r = RDone) \/ (spares k (h, r) /\ exists la', live norm k l cr la' info)).
    { intros cr la info (l1 & lo & i & l2 & E & F & LA & NI). destruct l2 as [|p l2] using rev_ind.
      - apply app_inj_tail in E as [-> [= -> ->]]. left. eauto.
      - right. clear IHl2. rewrite app_comm_cons, app_assoc in E. apply app_inj_tail in E as [-> <-]. apply Forall_app in F as [F F2]. inversion F2; subst. split; [assumption|].
        exists (last_lookup k lo (map fst l2)). exists l1, lo, i, l2. auto. }
    destruct h as [k' cr' lo' i'|k' now|k']; cbn [serve] in *.
    + destruct (marshal (g_json z) (MkSfile cr' lo' i')) as [b|] eqn:MA; cbn in *.
      * unfold put. destruct (bytes_eqb_spec k k') as [<-|D].
        -- exists l, lo', i', []. subst r. repeat split. constructor.
        -- destruct (kept z norm l k) as [[[cr la] info]|].
           ++ eapply ADD; [subst r; cbn; congruence|exact IH|]. intros t hs <-. clear. revert t. induction hs as [|[[| |] ?] hs IH]; intros t; cbn; auto.
           ++ intros cr la info LV. destruct (DROP _ _ _ LV) as [(lo & i & [= -> _] & _)|[_ [la' LV']]]; [congruence|]. eapply IH; eauto.
      * destruct (kept z norm l k) as [[[cr la] info]|].
        -- eapply ADD; [subst r; exact Logic.I|exact IH|]. intros t hs <-. clear. revert t. induction hs as [|[[| |] ?] hs IH]; intros t; cbn; auto.
        -- intros cr la info LV. destruct (DROP _ _ _ LV) as [(lo & i & _ & E)|[_ [la' LV']]]; [congruence|]. eapply IH; eauto.
    + assert (IN : forall t hs, last_lookup k t (hs ++ [@HLookup blob k' now]) = if bytes_eqb k' k then now else last_lookup k t hs).
      { clear. intros t hs. revert t. induction hs as [|[| |] hs IH]; intros t; cbn; auto. }
      destruct (kept z norm l k') as [[[cr' lo'] i']|] eqn:KP; cbn.
      * unfold put. destruct (bytes_eqb_spec k k') as [<-|D].
        -- rewrite KP in IH. eapply ADD; [exact Logic.I|exact IH|]. intros t hs _. rewrite IN, bytes_eqb_refl. reflexivity.
        -- destruct (kept z norm l k) as [[[cr la] info]|].
           ++ eapply ADD; [exact Logic.I|exact IH|]. intros t hs <-. rewrite IN, bytes_eqb_ne by congruence. reflexivity.
           ++ intros cr la info LV. destruct (DROP _ _ _ LV) as [(lo & i & E & _)|[_ [la' LV']]]; [discriminate|]. eapply IH; eauto.
      * destruct (kept z norm l k) as [[[cr la] info]|] eqn:KP'.
        -- eapply ADD; [exact Logic.I|exact IH|]. intros t hs <-. rewrite IN, bytes_eqb_ne by congruence. reflexivity.
        -- intros cr la info LV. destruct (DROP _ _ _ LV) as [(lo & i & E & _)|[_ [la' LV']]]; [discriminate|]. eapply IH; eauto.
    + assert (IN : forall t (hs : list (hook blob * ModelFiles.result blob)), last_lookup k t (map fst hs ++ [HClose k']) = last_lookup k t (map fst hs)).
      { clear. intros t hs. revert t. induction hs as [|[[| |] ?] hs IH]; intros t; cbn; auto. }
      assert (NO : k' = k -> forall cr la info, ~ live norm k (l ++ [(HClose k', r)]) cr la info).
      { intros -> cr la info LV. destruct (DROP _ _ _ LV) as [(lo & i & E & _)|[SP _]]; [discriminate|]. apply SP. reflexivity. }
      assert (KEEP : k' <> k -> match kept z norm l k with Some (cr, la, info) => live norm k (l ++ [(HClose k', r)]) cr la info
        | None => forall cr la info, ~ live norm k (l ++ [(HClose k', r)]) cr la info end).
      { intros D. destruct (kept z norm l k) as [[[cr la] info]|].
        - eapply ADD; [exact D|exact IH|]. intros t hs <-. apply IN.
        - intros cr la info LV. destruct (DROP _ _ _ LV) as [(lo & i & E & _)|[_ [la' LV']]]; [discriminate|]. eapply IH; eauto. }
      destruct (kept z norm l k') as [v|] eqn:KP; cbn.
      * unfold put. destruct (bytes_eqb_spec k k') as [<-|D]; [apply NO; reflexivity|apply KEEP; congruence].
      * destruct (bytes_eqb_spec k k') as [<-|D]; [rewrite KP; apply NO; reflexivity|apply KEEP; congruence].
Qed.
Lemma lawful_all s : hreach z good s -> lawful (h_done s).
Proof. intros R l1 h r l2 E. apply (Sd_done z norm s (stored_all z norm FA ND good s CA R) l1 h r l2 E). Qed.
Lemma lawful_app l l' : lawful (l ++ l') -> lawful l.
Proof. intros H l1 h r l2 E. apply (H l1 h r (l2 ++ l')). rewrite E, <- app_assoc. reflexivity. Qed.
Lemma decided_answered k s2 a : hreach z good s2 -> dec k s2 a -> answered z good norm k s1 s2 a.
Proof.
  intros R2 D. destruct D as [F|x F L1 L2 NR|l now r l' F E].
  - constructor; exact F.
  - eapply AN_full; eauto.
  - pose proof (lawful_all _ R2) as LW. rewrite E, app_assoc in LW. apply lawful_app in LW. pose proof (kept_live k _ LW) as KL.
    destruct (kept z norm (h_done s1 ++ l) k) as [[[cr la] info]|]; cbn [told].
    + destruct (f_json (g_cfg z) k cr la info) as [enc|] eqn:J; [eapply AN_found|eapply AN_unencodable]; eauto.
    + eapply AN_notfound; eauto.
Qed.
End Answers.

Lemma answer_all z norm (good : house -> hev -> house -> Prop) s1 c m s1' s2 : faithful (g_json z) norm -> g_path z <> [] -> (forall s e s', good s e s' -> calm z s e s') ->
  hreach z good s1 -> hstep z s1 (HSess (EvRestore c m)) = Some s1' -> good s1 (HSess (EvRestore c m)) s1' -> hlater z good s1' s2 ->
  forall c' m' a st, In (LReply (length (s_ts (h_sys s1))) c' m' a st) (slog (h_sys s2)) -> c' = c /\ m' = m /\ answered z good norm (payload_of m) s1 s2 a.
Proof.
  intros FA ND CA R1 ST G L c' m' a st IN.
  assert (L' : hlater z good s1 s2).
  { eapply later_trans; [|exact L]. econstructor; [constructor|exact ST|discriminate|exact G]. }
  pose proof (later_reach _ _ _ _ R1 L') as R2. set (i := length (s_ts (h_sys s1))) in *.
  assert (T : forall s, hlater z good s1' s -> exists st0, nth_error (s_ts (h_sys s)) i = Some (TRestore c m st0)).
  { clear IN R2 L' L. intros s L. induction L as [|s e s' L [st0 N] ST' NR G'].
    - pose proof ST as ST'. apply hstep_inv in ST'. inversion ST' as [|e y C EN SS| | | | | | |]; subst. apply step_inv in SS as [_ [(u & B & ->)|(i0 & ch & u & g' & u' & E & _)]]; [|discriminate].
      cbn in B. injection B as <-. exists RStart. cbn. rewrite nth_error_app2 by (unfold i; lia). unfold i. rewrite Nat.sub_diag. reflexivity.
    - apply hstep_inv in ST'. destruct (hcase_moves _ _ _ _ ST' NR) as [EL ET|e0 t B E EP ED|j ch t g' t' NJ TC E W].
      + rewrite ET. eauto.
      + rewrite E. cbn. exists st0. apply nth_error_snoc_some. auto.
      + rewrite E. cbn. destruct (Nat.eq_dec j i) as [->|D].
        * rewrite N in NJ. injection NJ as <-. inversion TC; subst. eexists. apply (set_nth_some _ _ _ _ N). left. eauto.
        * exists st0. apply (set_nth_some _ _ _ _ NJ). auto. }
  destruct (T _ L) as [st0 N].
  destruct (house_sys z good (fun _ => True) s2 (fun _ _ _ _ => Logic.I) R2) as (y & RY & SH & _).
  destruct (shown_view _ _ SH) as (EL & ET & _). pose proof IN as IN'. rewrite EL in IN'. pose proof N as N'. rewrite ET in N'.
  destruct (reply_owner _ _ _ RY _ _ _ _ _ IN') as [E|E]; rewrite N' in E; [|discriminate]. injection E as -> -> ->. split; [reflexivity|]. split; [reflexivity|].
  eapply decided_answered; eauto. apply (progress_all z norm good FA ND CA s1 R1 s2 L' i c' m' ModelSession.RDone (le_n _) N _ _ _ _ IN).
Qed.
