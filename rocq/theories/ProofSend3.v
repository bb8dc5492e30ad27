(* Close of a writer in any run of the in-memory transport. *)
From Coq Require Import Strings.String.
From Coq Require Import List Arith NArith Lia Bool.
From Verif Require Import BaseBytes BaseConc ModelErrors ModelMemchan SpecMemchan SpecReport SpecSend2 ProofMemchan ProofMemchan2 ProofSend2.
From Verif Require ModelReport ModelSend SpecSend.
Import ListNotations.
Open Scope list_scope.
Open Scope nat_scope.

Lemma handed_one k l e : handed k (l ++ [e]) = handed k l ++ match e with LSend _ k' _ b => if sock_eqb k' k then [b] else [] | _ => [] end.
Proof. rewrite handed_app. cbn. destruct e; rewrite ?app_nil_r; try reflexivity. Qed.
Lemma trel_handed ts i n t n' t' w k : trel ts i n t n' t' w -> (forall s, t <> TWrite k s) -> handed k (n_log n') = handed k (n_log n).
Proof.
  intros T X. destruct T as [k1 s n1 s1 H|k1 m d s n1 s1 w H|t k1 s n1 s1 w H H0|p s n1 s1 H|s n1 s1 H].
  - assert (D : sock_eqb k1 k = false) by (destruct (sock_eqb_spec k1 k) as [->|]; [exfalso; eapply X; reflexivity|reflexivity]).
    inversion H; subst; netu; netc; rewrite ?handed_one, ?D, ?app_nil_r; reflexivity.
  - inversion H; subst; netu; netc; rewrite ?handed_one, ?app_nil_r; reflexivity.
  - assert (Q : n_log n1 = n_log n) by (destruct H0; reflexivity).
    destruct t as [| ? ? ? []| | |[]]; try discriminate H; destruct s1; cbn [end_close]; rewrite ?Q; auto.
    netu; netc. rewrite handed_one, Q, app_nil_r. reflexivity.
  - inversion H; subst; netu; netc; rewrite ?handed_one, ?app_nil_r; reflexivity.
  - inversion H; subst; netu; netc; rewrite ?handed_one, ?app_nil_r; reflexivity.
Qed.
(* nobody touches a buffer another one has locked *)
Lemma others_keep ts n i k st j t n' t' w : locks n ts -> nth_error ts i = Some (TWrite k st) -> hb k (TWrite k st) = true ->
  j <> i -> nth_error ts j = Some t -> trel ts j n t n' t' w ->
  u_buf (n_sock n' k) = u_buf (n_sock n k) /\ u_blk (n_sock n' k) = u_blk (n_sock n k) /\ handed k (n_log n') = handed k (n_log n).
Proof.
  intros L I H D J T. pose proof (holder_b _ _ L _ _ _ I H) as B.
  assert (C : (exists s, t = TWrite k s) \/ forall s, t <> TWrite k s).
  { destruct t as [k1 s| | | |]; try (right; discriminate). destruct (sock_eqb_spec k1 k) as [->|N]; [left; eauto|right; congruence]. }
  destruct C as [[s ->]|C].
  - inversion T as [? ? ? ? R| | ? ? ? ? ? ? Cl| |]; subst; [|discriminate Cl].
    pose proof (holder_b _ _ L _ _ _ J) as BJ. cbn [hb] in BJ. rewrite sock_eqb_refl in BJ.
    inversion R; subst; try congruence; try (exfalso; specialize (BJ eq_refl); congruence);
      netu; netc; rewrite ?handed_one, ?app_nil_r, ?sock_eqb_refl; netc; auto.
  - destruct (trel_buf _ _ _ _ _ _ _ _ T C) as (X & Y & _). pose proof (trel_handed _ _ _ _ _ _ _ _ T C). auto.
Qed.

(* thread i is in Close, which began when the socket was w *)
Definition progress (w : ModelSend.wire) (k : sock) (st : wstate) (n : net) : Prop :=
  (b_len (ModelSend.w_buf w) <? 1) = false /\ u_buf (n_sock n k) = ModelSend.w_buf w /\
  match st with
  | WFlush | WSend | WBlock => handed k (n_log n) = ModelSend.w_sent w
  | WSent | WParked => handed k (n_log n) = ModelSend.w_sent w ++ [flush w]
  | WReset r => r = WrClosed /\ handed k (n_log n) = ModelSend.w_sent w \/
                (r = WrRead \/ r = WrSockClosed) /\ handed k (n_log n) = ModelSend.w_sent w ++ [flush w]
  | _ => False
  end.
Definition over (w : ModelSend.wire) (k : sock) (r : wrres) (n : net) : Prop :=
  exists v, ModelSend.close (match r with WrClosed => false | _ => true end) (fun _ => told r) w = (v, told r) /\
    SpecSend.but_writer v (view k n).
Lemma progress_hb w k st n : progress w k st n -> hb k (TWrite k st) = true.
Proof. intros (_ & _ & P). destruct st; try contradiction; cbn; apply sock_eqb_refl. Qed.
Lemma progress_keep w k st n n' : u_buf (n_sock n' k) = u_buf (n_sock n k) -> handed k (n_log n') = handed k (n_log n) ->
  progress w k st n -> progress w k st n'.
Proof. intros A B (P & Q & R). unfold progress. rewrite A, B. auto. Qed.
Lemma own_step w k st i n n' st' : ModelSend.w_locked w = false -> ModelSend.w_stuck w = false ->
  progress w k st n -> wrel i n k st n' st' -> progress w k st' n' \/ exists r, st' = WDone r /\ over w k r n'.
Proof.
  intros Lw Sw (P & Q & R) H. unfold progress.
  destruct H; try contradiction; netu; netc; rewrite ?handed_one, ?app_nil_r, ?sock_eqb_refl; netc;
    try (left; split; [exact P|]; split; [exact Q|]; auto; fail).
  - left. split; [exact P|]. rewrite remote_no. split; [exact Q|exact R].
  - left. split; [exact P|]. split; [exact Q|]. subst b. rewrite Q, R. reflexivity.
  - left. split; [exact P|]. rewrite remote_no. split; [exact Q|]. subst b. rewrite Q, R. reflexivity.
  - right. exists r. split; [reflexivity|]. unfold over, ModelSend.close, ModelSend.onBufferFlush. rewrite Lw, P, Sw. fold (flush w).
    destruct R as [[-> R]|[[-> | ->] R]]; cbn [negb]; eexists; (split; [reflexivity|]); unfold SpecSend.but_writer, view; netc;
      rewrite ?sock_eqb_refl, ?handed_one, ?app_nil_r; netc;
      cbn [ModelSend.w_buf ModelSend.w_locked ModelSend.w_sent ModelSend.w_stuck free negb]; rewrite Q, R; auto.
Qed.
Lemma sys_step size w k i s e s' st : ModelSend.w_locked w = false -> ModelSend.w_stuck w = false ->
  mreach size anything s -> at_ s i (TWrite k st) -> progress w k st (s_net s) -> mstep s e = Some s' ->
  exists st', at_ s' i (TWrite k st') /\ (progress w k st' (s_net s') \/ exists r, st' = WDone r /\ over w k r (s_net s')).
Proof.
  intros Lw Sw M I P E. apply mstep_rel in E as [_ E]. apply invariants in M as [L _]. unfold at_ in *.
  pose proof (progress_hb _ _ _ _ P) as H.
  destruct E as [e t B|j ch t n' t' J T|j ch t n' t' j' v k' J T D V J']; cbn [s_net s_ts].
  - exists st. split; [|left; exact P]. rewrite nth_error_app1; [exact I|]. apply nth_error_Some. congruence.
  - destruct (Nat.eq_dec j i) as [->|N].
    + rewrite I in J. injection J as <-. inversion T as [? ? ? st' R| | ? ? ? ? ? ? Cl| |]; subst; [|discriminate Cl].
      exists st'. split; [|exact (own_step _ _ _ _ _ _ _ Lw Sw P R)].
      eapply set_nth_eq; exact I.
    + destruct (others_keep _ _ _ _ _ _ _ _ _ _ L I H N J T) as (A & _ & C). exists st.
      split; [rewrite set_nth_ne by auto; exact I|]. left. exact (progress_keep _ _ _ _ _ A C P).
  - assert (N : j <> i).
    { intros ->. rewrite I in J. injection J as <-. inversion T; subst; discriminate. }
    destruct (others_keep _ _ _ _ _ _ _ _ _ _ L I H N J T) as (A & _ & C). pose proof (progress_keep _ _ _ _ _ A C P) as P'.
    destruct (Nat.eq_dec j' i) as [->|N'].
    + rewrite I in J'. injection J' as -> ->. exists (WReset v). split.
      * eapply set_nth_eq. rewrite set_nth_ne by auto. exact I.
      * left. destruct P' as (X & Y & Z). unfold progress. netu; netc. rewrite sock_eqb_refl. netc. auto.
    + exists st. split; [rewrite !set_nth_ne by auto; exact I|]. left. apply (progress_keep _ _ _ n'); [| |exact P'].
      * apply buf_set_wlk.
      * apply f_equal, log_set_wlk.
Qed.

Lemma mfrom_reach size s s' : mreach size anything s -> mfrom anything s s' -> mreach size anything s'.
Proof. intros M H. induction H; [exact M|eapply MR_step; eauto; exact I]. Qed.
Lemma done_stays s e s' i k r : at_ s i (TWrite k (WDone r)) -> mstep s e = Some s' -> at_ s' i (TWrite k (WDone r)).
Proof.
  unfold at_. intros I E. apply mstep_rel in E as [_ E].
  destruct E as [e t B|j ch t n' t' J T|j ch t n' t' j' v k' J T D V J']; cbn [s_ts].
  - rewrite nth_error_app1; [exact I|]. apply nth_error_Some. congruence.
  - destruct (Nat.eq_dec j i) as [->|N]; [|rewrite set_nth_ne by auto; exact I].
    rewrite I in J. injection J as <-. inversion T as [? ? ? ? R| | ? ? ? ? ? ? Cl| |]; subst; [inversion R|discriminate Cl].
  - assert (j' <> i) by congruence. assert (j <> i).
    { intros ->. rewrite I in J. injection J as <-. inversion T; subst; discriminate. }
    rewrite !set_nth_ne by auto. exact I.
Qed.
(* until it has returned *)
Lemma run_progress size w k i s0 : ModelSend.w_locked w = false -> ModelSend.w_stuck w = false -> mreach size anything s0 ->
  forall st, at_ s0 i (TWrite k st) -> progress w k st (s_net s0) ->
  forall s, mfrom anything s0 s -> (exists st', at_ s i (TWrite k st') /\ progress w k st' (s_net s)) \/ exists r, at_ s i (TWrite k (WDone r)).
Proof.
  intros Lw Sw M st I P s F. induction F as [|s1 e s2 F IH E _]; [left; eauto|].
  destruct IH as [(st1 & I1 & P1)|(r & I1)]; [|right; exists r; eapply done_stays; eauto].
  destruct (sys_step size w k i s1 e s2 st1 Lw Sw (mfrom_reach _ _ _ M F) I1 P1 E) as (st' & I2 & [P2|(r & -> & _)]); [left|right]; eauto.
Qed.
Lemma close_in_run size s0 i k s1 : mreach size anything s0 -> at_ s0 i (TWrite k WOpen) -> mstep s0 (EvStep i ChClose) = Some s1 ->
  (at_ s1 i (TWrite k (WDone WrEmpty)) /\
     forall c v, ModelSend.close c v (view k (s_net s0)) = (view k (s_net s1), told WrEmpty)) \/
  (forall s2 e s3 r, mfrom anything s1 s2 -> (forall r', ~ at_ s2 i (TWrite k (WDone r'))) -> mstep s2 e = Some s3 -> at_ s3 i (TWrite k (WDone r)) ->
     exists v, ModelSend.close (match r with WrClosed => false | _ => true end) (fun _ => told r) (view k (s_net s0)) = (v, told r) /\
       SpecSend.but_writer v (view k (s_net s3))).
Proof.
  intros M I E. assert (M1 : mreach size anything s1) by (eapply MR_step; eauto; exact Logic.I).
  pose proof E as E'. unfold mstep in E'. destruct (n_crashed (s_net s0)); [discriminate|]. unfold at_ in I. rewrite I in E'.
  cbn [tstep] in E'. destruct (write_step i (s_net s0) k WOpen ChClose) as [[[n1 st1] o]|] eqn:W; [|discriminate].
  pose proof W as W'. unfold write_step in W'. destruct (free (u_blk (n_sock (s_net s0) k))) eqn:B; [|discriminate W'].
  assert (Lw : ModelSend.w_locked (view k (s_net s0)) = false) by (unfold view; cbn; rewrite B; reflexivity).
  destruct (b_len (u_buf (n_sock (s_net s0) k)) <? 1) eqn:Z; injection W' as <- <- <-; cbn [wake] in E'; injection E' as <-.
  - left. split; [unfold at_; cbn [s_ts]; eapply set_nth_eq; exact I|]. intros c v. unfold ModelSend.close. rewrite Lw.
    cbn [view ModelSend.w_buf]. rewrite Z. cbn [s_net]. look. reflexivity.
  - right. intros s2 e s3 r F N E3 I3.
    assert (A1 : at_ (MkSys (set_blk k (Some i) (s_net s0)) (set_nth (s_ts s0) i (TWrite k WFlush))) i (TWrite k WFlush))
      by (unfold at_; cbn [s_ts]; eapply set_nth_eq; exact I).
    assert (P1 : progress (view k (s_net s0)) k WFlush (set_blk k (Some i) (s_net s0)))
      by (unfold progress; split; [exact Z|]; split; [apply buf_set_blk|reflexivity]).
    destruct (run_progress size _ k i _ Lw eq_refl M1 _ A1 P1 _ F) as [(st2 & I2 & P2)|(r' & I2)]; [|case (N r' I2)].
    destruct (sys_step size _ k i s2 e s3 st2 Lw eq_refl (mfrom_reach _ _ _ M1 F) I2 P2 E3) as (st3 & J3 & [P3|(r3 & -> & O)]);
      unfold at_ in *; rewrite I3 in J3; injection J3 as <-.
    + destruct P3 as (_ & _ & []).
    + exact O.
Qed.
