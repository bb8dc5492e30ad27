(* Session getters: proofs. *)
From Coq Require Import List Arith NArith ZArith Bool Lia.
From Verif Require Import BaseBytes BaseConc ModelMessage ModelSession ModelGetter SpecWire SpecMessage SpecHandle SpecSession SpecGetter.
From Verif Require Import ProofSession ProofSession2 ProofSession3 ProofSession4 ProofSession8 ProofSession9.
Import ListNotations.
Open Scope nat_scope.

Lemma changing_holds c t : changing c t = holdsL c t.
Proof.
  destruct t as [? ? []|? []| | | |? [| |? ? [] ?|]]; cbn; try reflexivity; try apply andb_comm; rewrite ?andb_true_r, ?andb_false_r; reflexivity.
Qed.
Lemma getter_waits f ok s copy value c : sreach f ok s ->
  ((exists i t, nth_error (s_ts s) i = Some t /\ changing c t = true) -> waits (get_session copy value (s_srv s) c)) /\
  ((forall i t, nth_error (s_ts s) i = Some t -> changing c t = false) -> forall q, get_session copy value (s_srv s) c q <> None).
Proof.
  intros R. unfold waits, get_session, locked. pose proof (locks _ _ _ R c) as L. split.
  - intros (i & t & N & H) q. rewrite changing_holds in H. rewrite (proj2 (L i)) by eauto. reflexivity.
  - intros H q. destruct (g_lock (s_srv s) c) as [i|]; [|discriminate].
    destruct (proj1 (L i) eq_refl) as (t & N & H1). specialize (H i t N). rewrite changing_holds in H. congruence.
Qed.

(* keys of sessions are not empty *)
Definition thread_key (t : thread) : option key :=
  match t with
  | TCreate _ _ (CNote x | CSet x) => Some (x_key x)
  | TRestore _ _ (RSet x _) => Some (x_key x)
  | _ => None
  end.
Definition keyed (s : sys) : Prop :=
  (forall c x, g_sess (s_srv s) c = Some x -> x_key x <> []) /\
  (forall i t k, nth_error (s_ts s) i = Some t -> thread_key t = Some k -> k <> []).
Lemma key_effect f i g t ch g' t' : tcase f i g t ch g' t' ->
  (forall c x, g_sess g' c = Some x -> g_sess g c = Some x \/ thread_key t = Some (x_key x)) /\
  (forall k, thread_key t' = Some k -> thread_key t = Some k \/ k <> [] \/ exists c m st, t = TRestore c m st /\ k = payload_of m).
Proof.
  intros H. tcases H; cbn [qdone] in *; try discriminate;
  (split; [intros c1 x1 E; first [left; exact E|idtac]|intros k1 E; first [discriminate E|left; exact E|idtac]]).
  all: cbn in *; unfold upd in *.
  all: try (destruct (c1 =? c); [first [discriminate E|injection E as <-; right; reflexivity]|left; exact E]).
  all: try (injection E as <-; right; left; destruct k; [discriminate|discriminate]).
  all: try (injection E as <-; right; right; eauto 6; fail).
  all: injection E as <-; right; left; assumption.
Qed.
Lemma restore_key m b k : received m b k -> k_type k = 32%N -> payload_of m <> [].
Proof.
  intros H T. rewrite (received_payload _ _ _ H). destruct H as (m0 & _ & _ & F & _). destruct F; cbn in *; try discriminate; try assumption.
  all: try (match type of T with _ ?e = _ => destruct e; discriminate T end).
  lia.
Qed.
Lemma keyed_reach f (ok : sys -> Prop) s : (forall s, ok s -> from_frames s) -> sreach f ok s -> keyed s.
Proof.
  intros FF R. revert s R. apply reach_ind.
  - split; [discriminate|]. intros [|i]; discriminate.
  - intros s e t _ [I1 I2] B _. split; [exact I1|]. cbn. intros j u k N K. apply nth_error_snoc_some in N as [N|[_ ->]]; [eauto|].
    destruct e; cbn in B; try discriminate; injection B as <-; discriminate.
  - intros s i ch t g' t' _ [I1 I2] _ N H Ok. pose proof (FF _ Ok) as F. apply tstep_inv in H.
    destruct (key_effect _ _ _ _ _ _ _ H) as [K1 K2]. split; cbn [s_srv s_ts].
    + intros c x E. destruct (K1 c x E) as [E1|E1]; eauto.
    + intros j u k Nu Ku. apply (set_nth_some _ _ _ _ N) in Nu as [[<- ->]|[D Nu]]; [|eauto].
      destruct (K2 k Ku) as [K3|[K3|(c & m & st & -> & ->)]]; [eauto|exact K3|].
      assert (exists st', t' = TRestore c m st') as [st' ->] by (inversion H; eauto).
      destruct (F i c m st') as (b & k & Rc & T); [apply (set_nth_some _ _ _ _ N); left; auto|]. exact (restore_key _ _ _ Rc T).
Qed.

(* what requests are stays as it is *)
Lemma frames_step f s e s' : sstep f s e = Some s' -> from_frames s' -> from_frames s.
Proof.
  intros H F i c m st N. apply step_inv in H as [_ [(u & B & ->)|(j & ch & u & g' & u' & -> & Nj & T & ->)]].
  - apply (F i c m st). apply nth_error_snoc_some. auto.
  - destruct (Nat.eq_dec j i) as [->|D].
    + rewrite Nj in N. injection N as ->. apply tstep_inv in T.
      assert (exists st', u' = TRestore c m st') as [st' ->] by (inversion T; eauto).
      apply (F i c m st'). apply (set_nth_some _ _ _ _ Nj). auto.
    + apply (F i c m st). apply (set_nth_some _ _ _ _ Nj). auto.
Qed.
Lemma frames_reach f ok s : sreach f ok s -> from_frames s -> sreach f from_frames s.
Proof.
  induction 1 as [|s e s' R IH H Ok]; intros F; [constructor|]. econstructor; [apply IH; eapply frames_step; eauto|exact H|exact F].
Qed.
Lemma keyed_of f ok s : sreach f ok s -> from_frames s -> keyed s.
Proof. intros R F. apply (keyed_reach f from_frames); [auto|eapply frames_reach; eauto]. Qed.

Lemma agreeing f ok s copy value c : sreach f ok s -> from_frames s ->
  let get := get_session copy value (s_srv s) c in
  waits get \/ tells_none get \/ exists x, x_key x <> [] /\ tells copy value get x.
Proof.
  intros R FF. destruct (keyed_of _ _ _ R FF) as [K _]. specialize (K c). cbv zeta. unfold waits, tells_none, tells, get_session.
  destruct (locked (s_srv s) c); [auto|]. right. destruct (g_sess (s_srv s) c) as [x|]; [right; exists x|left; intuition].
  split; [auto|]. split; [reflexivity|]. split; [reflexivity|]. split; [reflexivity|]. cbn. split.
  - intros E. rewrite E. cbn. destruct x; cbn in *; subst. auto.
  - intros E. apply N.eqb_neq in E. rewrite E. auto.
Qed.
Lemma getter_listed f (ok : sys -> Prop) s copy value c k : (forall s, ok s -> orderly f s) -> sreach f ok s -> from_frames s -> idle s c ->
  get_session copy value (s_srv s) c SgKey = Some (SvKey k) /\ k <> [] <-> listed s c k.
Proof.
  intros AL R FF I. rewrite (listed_iff f ok s c k AL R I). destruct (keyed_of _ _ _ R FF) as [K _]. specialize (K c).
  assert (L : locked (s_srv s) c = false).
  { unfold locked. destruct (g_lock (s_srv s) c) as [i|] eqn:E; [|reflexivity]. apply (locks _ _ _ R) in E as (t & N & H).
    apply holds_busy in H. rewrite (I t) in H; [discriminate|]. eapply nth_error_In; eauto. }
  unfold get_session, has_key. rewrite L. destruct (g_sess (s_srv s) c) as [x|]; split.
  - intros [[= <-] _]. eauto.
  - intros (y & [= <-] & <-). auto.
  - intros [[= <-] X]. congruence.
  - intros (y & [=] & _).
Qed.

(* ----- OnSessionCreated ----- *)
Definition made (i : nat) (g : srv) (t : thread) : Prop :=
  match t with
  | TCreate c info (CNote x) => x_info x = info
  | TCreate c info (CSet x) => x_info x = info /\ exists enc calls, In (LNotifyCreated i c x enc calls) (g_log g)
  | TCreate c info (CReg | CHook) => exists x enc calls, g_sess g c = Some x /\ x_info x = info /\ In (LNotifyCreated i c x enc calls) (g_log g)
  | _ => True
  end.
Lemma made_self f i g t ch g' t' : tcase f i g t ch g' t' -> made i g t -> made i g' t'.
Proof.
  intros H M. tcases H; cbn in *; try exact M; try exact Logic.I; try reflexivity.
  - split; [exact M|]. exists enc, calls. apply in_or_app. right. left. reflexivity.
  - destruct M as (M & enc & calls & I). exists x, enc, calls. unfold upd. rewrite Nat.eqb_refl. auto.
  - destruct M as (x0 & enc & calls & I1 & I2 & I3). exists x0, enc, calls. rewrite in_app_iff. auto.
Qed.
Lemma made_reach f (ok : sys -> Prop) s : (forall s, ok s -> exclusive s) -> sreach f ok s ->
  forall i t, nth_error (s_ts s) i = Some t -> made i (s_srv s) t.
Proof.
  intros Ex. revert s. apply (reach_ind f ok (fun s => forall i t, nth_error (s_ts s) i = Some t -> made i (s_srv s) t)).
  - intros [|i]; discriminate.
  - intros s e t _ IH B _ i u N. cbn. apply nth_error_snoc_some in N as [N|[_ ->]]; [auto|].
    destruct e; cbn in B; try discriminate; injection B as <-; exact Logic.I.
  - intros s i ch t g' t' R IH _ N H _ j u Nj. apply tstep_inv in H. cbn [s_srv].
    assert (X : exclusive s) by (destruct R; [apply exclusive_new|apply Ex; assumption]).
    apply (set_nth_some _ _ _ _ N) in Nj as [[<- ->]|[D Nj]]; [eapply made_self; eauto|].
    assert (LG : forall e, In e (g_log (s_srv s)) -> In e (g_log g')).
    { intros e I. destruct (reply_owner_effect _ _ _ _ _ _ _ H) as [->|(e' & -> & _)]; [exact I|]. apply in_or_app; auto. }
    assert (SE : forall c, busy c u = true -> g_sess g' c = g_sess (s_srv s) c).
    { intros c B. destruct (sess_touch _ _ _ _ _ _ _ c H) as [E|T]; [exact E|]. exfalso. eapply (X i j t u c); eauto. apply touch_busy, T. }
    specialize (IH j u Nj). destruct u as [c info st| | | | |]; try exact Logic.I. destruct st; cbn in *; try exact IH.
    + destruct IH as (I1 & enc & calls & I2). eauto 8.
    + rewrite SE by apply Nat.eqb_refl. destruct IH as (y & enc & calls & I1 & I2 & I3). eauto 10.
    + rewrite SE by apply Nat.eqb_refl. destruct IH as (y & enc & calls & I1 & I2 & I3). eauto 10.
Qed.
Lemma alone_unlocked f ok s i c t : sreach f ok s -> exclusive s -> nth_error (s_ts s) i = Some t ->
  busy c t = true -> changing c t = false -> locked (s_srv s) c = false.
Proof.
  intros R X N B C. unfold locked. destruct (g_lock (s_srv s) c) as [j|] eqn:E; [|reflexivity]. exfalso.
  apply (locks _ _ _ R) in E as (u & Nu & H). rewrite changing_holds in C.
  destruct (Nat.eq_dec i j) as [<-|D]; [congruence|]. eapply (X i j t u c); eauto. apply holds_busy, H.
Qed.
Lemma tells_sess copy value g c x : locked g c = false -> g_sess g c = Some x -> tells copy value (get_session copy value g c) x.
Proof.
  intros L E. unfold tells, get_session. rewrite L, E. split; [reflexivity|]. split; [reflexivity|]. split; [reflexivity|]. cbn. split.
  - intros Z. rewrite Z. cbn. destruct x; cbn in *; subst. auto.
  - intros Z. apply N.eqb_neq in Z. rewrite Z. auto.
Qed.
Lemma created_hook f (ok : sys -> Prop) s copy value i c info : (forall s, ok s -> exclusive s) -> sreach f ok s -> in_created s i c info ->
  exists x enc calls, In (LNotifyCreated i c x enc calls) (slog s) /\ x_info x = info /\
    tells copy value (get_session copy value (s_srv s) c) x.
Proof.
  intros Ex R H. pose proof (made_reach _ _ _ Ex R _ _ H) as (x & enc & calls & I1 & I2 & I3).
  exists x, enc, calls. split; [exact I3|]. split; [exact I2|]. apply tells_sess; [|exact I1].
  assert (X : exclusive s) by (destruct R; [apply exclusive_new|apply Ex; assumption]).
  eapply (alone_unlocked f ok s i c _ R X H); [apply Nat.eqb_refl|reflexivity].
Qed.

(* ----- OnSessionClosed ----- *)
Lemma others_run f es i : forall s s' t, srun f s es = Some s' -> (forall e, In e es -> others i e) ->
  nth_error (s_ts s) i = Some t -> nth_error (s_ts s') i = Some t.
Proof.
  induction es as [|e es IH]; cbn; intros s s' t H O N; [congruence|].
  destruct (sstep f s e) as [s1|] eqn:E; [|discriminate]. eapply IH; eauto.
  apply step_inv in E as [_ [(u & B & ->)|(j & ch & u & g' & u' & -> & Nj & _ & ->)]]; cbn.
  - apply nth_error_snoc_some. auto.
  - apply (set_nth_some _ _ _ _ Nj). right. split; [|exact N]. intros <-. eapply (O _ (or_introl eq_refl)). reflexivity.
Qed.
Lemma ending_changing c t : ending t = Some c -> unsynced t = false -> changing c t = true.
Proof.
  destruct t as [? ? []|? [| |[]| | |]| |? ? [| |[]| | |]|? [[]| | |]|? [| |? ? [| |[]| | |] ?|]]; cbn; try discriminate; intros [= <-] _; apply Nat.eqb_refl.
Qed.
Lemma closed_hook_blocked f s copy value i c t es s' : sreach f anything s -> in_closed s i c t -> unsynced t = false ->
  (forall e, In e es -> others i e) -> srun f s es = Some s' -> waits (get_session copy value (s_srv s') c).
Proof.
  intros R [N E] U O H. eapply (getter_waits f anything); [eapply srun_reach; eauto|].
  exists i, t. split; [eapply others_run; eauto|apply ending_changing; assumption].
Qed.
Lemma ending_facts c t : ending t = Some c -> unsynced t = true -> busy c t = true /\ changing c t = false /\ must_some c t = true.
Proof.
  unfold must_some.
  destruct t as [? ? []|? [| |[]| | |]| |? ? [| |[]| | |]|? [[]| | |]|? [| |? ? [| |[]| | |] ?|]]; cbn; try discriminate; intros [= <-] _;
    rewrite Nat.eqb_refl; auto.
Qed.
Lemma closure_hook f (ok : sys -> Prop) s copy value i c t : (forall s, ok s -> exclusive s) -> sreach f ok s ->
  in_closed s i c t -> unsynced t = true ->
  exists x, tells copy value (get_session copy value (s_srv s) c) x /\
    forall s', sstep f s (EvStep i (ChHook false)) = Some s' -> slog s' = slog s ++ [LDestroy i (x_key x)].
Proof.
  intros Ex R [N E] U. destruct (ending_facts _ _ E U) as (B & C & M).
  assert (X : exclusive s) by (destruct R; [apply exclusive_new|apply Ex; assumption]).
  pose proof (never_nil _ _ _ Ex R _ _ _ N M) as S1. destruct (g_sess (s_srv s) c) as [x|] eqn:G; [|congruence].
  exists x. split; [apply tells_sess; [eapply alone_unlocked; eauto|exact G]|].
  intros s' H. apply step_inv in H as [_ [(u & Bu & ->)|(j & ch & u & g' & u' & [= <- <-] & Nj & T & ->)]]; [discriminate Bu|].
  rewrite N in Nj. injection Nj as <-. cbn.
  destruct t as [? ? []|? [| |[]| | |]| |? ? [| |[]| | |]|? [[]| | |]|? [| |? ? [| |[]| | |] ?|]]; cbn in E; try discriminate E; try discriminate U; injection E as ->;
    cbn in T; rewrite G in T; injection T as <- <-; reflexivity.
Qed.
