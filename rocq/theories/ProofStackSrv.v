(* Facts about the dispatch machine that the stack needs. *)
From Coq Require Import List Arith ZArith Lia Bool.
From Verif Require Import BaseBytes BaseConc ModelMessage ModelWrite ModelHandle ModelDispatch SpecWire SpecMessage SpecWrite SpecHandle SpecDispatch.
From Verif Require Import ProofDispatch ProofDispatch2 ProofDispatch3 ProofDispatch4.
Import ListNotations.
Open Scope nat_scope.

(* Shutdown calls past their wait stay so *)
Lemma returning_stays s e s' i t : dstep s e = Some s' -> nth_error (s_ts s) i = Some t -> returning t = true ->
  exists t', nth_error (s_ts s') i = Some t' /\ returning t' = true.
Proof.
  intros H N Rt. destruct (dstep_inv _ _ _ H) as (_ & [(u & U & ->)|(j & ch & u & g' & u' & sp & -> & Nj & T & ->)]); cbn [s_ts].
  - exists t. split; [|exact Rt]. rewrite nth_error_app1; [exact N|]. apply nth_error_Some. congruence.
  - assert (Hi : i < length (set_nth (s_ts s) j u')) by (rewrite set_nth_length; apply nth_error_Some; congruence).
    rewrite nth_error_app1 by exact Hi. destruct (Nat.eq_dec i j) as [->|D].
    + rewrite (set_nth_eq _ _ _ _ N). exists u'. split; [reflexivity|]. rewrite N in Nj. injection Nj as ->.
      destruct u; try discriminate Rt; cbn in T; destruct ch; try discriminate T. injection T as _ <- _. reflexivity.
    + rewrite set_nth_ne by auto. eauto.
Qed.
Lemma returning_flag buf ok s : dreach buf ok s -> (exists t, In t (s_ts s) /\ returning t = true) -> v_shutdown (s_srv s) = true.
Proof.
  intros R (t & I & Rt). revert t I Rt.
  apply (local buf ok (fun g t => returning t = true -> v_shutdown g = true)) with (s := s); try discriminate; auto.
  - intros g g' t X P Q. exact (e_shut _ _ X (P Q)).
  - intros s0 i ch t g' t' sp (R0 & _ & N & H) P. pose proof (tstep_ext _ _ _ _ _ _ _ H) as X.
    assert (Q : In TShW (s_ts s0) -> v_shutdown (s_srv s0) = true).
    { clear - R0. revert R0. intros R. intros I.
      assert (G : forall t, In t (s_ts s0) -> t = TShW -> v_shutdown (s_srv s0) = true).
      { apply (local buf ok (fun g t => t = TShW -> v_shutdown g = true)) with (s := s0); try discriminate; auto.
        - intros g g' t X P Q. exact (e_shut _ _ X (P Q)).
        - intros s1 i ch t g' t' sp (R1 & _ & N & H) P. pose proof (tstep_ext _ _ _ _ _ _ _ H) as X.
          inv_tstep H; (split; [try discriminate; cbn; auto|auto; try discriminate]). }
      exact (G _ I eq_refl). }
    pose proof (nth_error_In _ _ N) as It.
    inv_tstep H; (split; [try discriminate; cbn; auto|auto; try discriminate]).
Qed.

(* requests given to a handler are being handled, or answered *)
Definition is_req (m : message) : bool := match route_of (m_type m) with RtRequest => true | _ => false end.
Definition handling (c k : nat) (t : thread) : bool :=
  match t with
  | TRd c' (RJob k' m j) | TJob c' k' m j => msg_is c k is_req c' k' m && match j with JRun | JRep _ => true | _ => false end
  | _ => false
  end.
Lemma started_answered buf ok s c k : dreach buf ok s ->
  count (started c k is_req) (slog s) = count (handling c k) (s_ts s) + count (replied c k is_req) (slog s).
Proof.
  intros R.
  cut (zcount (replied c k is_req) (s_srv s) - zcount (started c k is_req) (s_srv s) + zsum (fun t => bz (handling c k t)) (s_ts s) = 0)%Z.
  { rewrite zsum_count. unfold zcount. lia. }
  revert s R. apply (linear buf ok (fun g => zcount (replied c k is_req) g - zcount (started c k is_req) g)%Z); try reflexivity.
  intros s i ch t g' t' sp (R & _ & N & H). unfold zcount.
  inv_tstep H; cbn; rewrite ?count_snoc; cbn; rewrite ?andb_true_r, ?andb_false_r; bsimp; try lia;
    try (mcase; bsimp; try lia; exfalso; unfold is_req in *; destruct (route_of (m_type m)); congruence).
Qed.
Lemma drained_done buf s : dreach buf calm s -> (exists t, In t (s_ts s) /\ returning t = true) ->
  (forall c k m, In (LStart c k m) (slog s) -> In (LEnd c k) (slog s)) /\
  (forall c k m, In (LStart c k m) (slog s) -> route_of (m_type m) = RtRequest -> exists r st, In (LReply c k m r st) (slog s)).
Proof.
  intros R Q. destruct (shutdown_drained _ _ R (or_intror (or_introl Q))) as [_ D]. split.
  - intros c k m I. pose proof (starts_ends_msg _ _ _ c k R) as E. pose proof (running_registered s c k).
    pose proof (In_count (start_of c k) _ _ I) as L. cbn in L. rewrite !Nat.eqb_refl in L. specialize (L eq_refl).
    destruct (count_exists (end_of c k) (slog s)) as (n & e & E1 & E2); [lia|].
    destruct e; try discriminate E2. cbn in E2. apply andb_true_iff in E2 as [E2 E3]. apply Nat.eqb_eq in E2, E3. subst.
    eapply nth_error_In; eauto.
  - intros c k m I Rm. pose proof (started_answered _ _ _ c k R) as E.
    assert (H0 : count (handling c k) (s_ts s) = 0).
    { apply count_zero. intros t It. destruct (handling c k t) eqn:Ht; [|reflexivity]. exfalso.
      assert (Rt : registered t = true).
      { destruct t; try discriminate Ht; [destruct s0; try discriminate Ht|]; cbn in Ht;
          apply andb_true_iff in Ht as [_ Ht]; destruct j; try discriminate Ht; reflexivity. }
      apply (proj1 (count_zero registered (s_ts s)) D) in It. congruence. }
    pose proof (In_count (started c k is_req) _ _ I) as L. cbn in L. unfold msg_is at 1 in L.
    rewrite !Nat.eqb_refl in L. unfold is_req at 1 in L. rewrite Rm in L. specialize (L eq_refl).
    destruct (count_exists (replied c k is_req) (slog s)) as (n & e & E1 & E2); [lia|].
    destruct e; try discriminate E2. cbn in E2. unfold msg_is in E2. apply andb_true_iff in E2 as [E2 _].
    apply andb_true_iff in E2 as [E2 E3]. apply Nat.eqb_eq in E2, E3. subst.
    exists r, s0. apply nth_error_In in E1.
    destruct (handled_frame _ _ _ _ c k m R I eq_refl) as (b & I1 & _).
    destruct (handled_frame _ _ _ _ c k m0 R E1 eq_refl) as (b' & I2 & _).
    destruct (frame_same _ _ _ _ _ _ _ _ _ R I1 I2) as [_ Em]. injection Em as <-. exact E1.
Qed.

(* the threads after a step *)
Definition conn_of (t : thread) : option nat :=
  match t with TRd c _ | TJob c _ _ _ | TCl0 c | TClU c | TClR c => Some c | _ => None end.
Lemma belongs_lt buf ok s i t c : dreach buf ok s -> nth_error (s_ts s) i = Some t -> conn_of t = Some c -> c < v_n (s_srv s).
Proof.
  intros R N C. destruct (fine_at _ _ _ _ _ R N) as [_ B]. destruct t; try discriminate C; injection C as <-; exact B.
Qed.
Lemma others_keep s e s' i t : dstep s e = Some s' -> nth_error (s_ts s) i = Some t ->
  (forall ch, e <> EvStep i ch) -> nth_error (s_ts s') i = Some t.
Proof.
  intros H N D. assert (L : i < length (s_ts s)) by (apply nth_error_Some; congruence).
  destruct (dstep_inv _ _ _ H) as (_ & [(u & U & ->)|(j & ch & u & g' & u' & sp & -> & Nj & T & ->)]); cbn [s_ts].
  - rewrite nth_error_app1; auto.
  - assert (i <> j) by (intros ->; exact (D ch eq_refl)).
    rewrite nth_error_app1 by (rewrite set_nth_length; exact L). rewrite set_nth_ne; auto.
Qed.
Lemma threads_after s e s' i t : dstep s e = Some s' -> nth_error (s_ts s') i = Some t ->
  (nth_error (s_ts s) i = Some t) \/
  (exists ch u g' sp, e = EvStep i ch /\ nth_error (s_ts s) i = Some u /\ tstep (s_srv s) i u ch = Some (g', t, sp) /\ s_srv s' = g') \/
  (length (s_ts s) <= i /\ ((exists lim, e = EvConnect lim /\ t = TNew lim) \/ (exists c, e = EvClose c /\ t = TCl0 c) \/
     (e = EvShutdown /\ t = TSh0) \/ exists c k m, t = TJob c k m JStart)).
Proof.
  intros H N. destruct (dstep_inv _ _ _ H) as (_ & [(u & U & ->)|(j & ch & u & g' & u' & sp & -> & Nj & T & ->)]); cbn [s_ts] in N.
  - apply nth_error_snoc_some in N as [N|[-> ->]]; [auto|]. right. right. split; [lia|].
    destruct e; try contradiction; [subst u; eauto|destruct U as [-> _]; right; left; eauto|subst u; auto].
  - destruct (Nat.lt_ge_cases i (length (s_ts s))) as [L|L].
    + rewrite nth_error_app1 in N by (rewrite set_nth_length; exact L).
      apply set_nth_lookup in N as [[-> ->]|[_ N]]; [|auto]. right. left. exists ch, u, g', sp. auto.
    + rewrite nth_error_app2 in N by (rewrite set_nth_length; exact L). rewrite set_nth_length in N.
      right. right. split; [exact L|]. do 3 right. destruct sp as [x|]; [|destruct (i - length (s_ts s)); discriminate N].
      cbn [opt_list] in N. destruct (i - length (s_ts s)) as [|q]; [|destruct q; discriminate N]. injection N as <-.
      clear - T. remember (Some x) as o. inv_tstep T; try discriminate Heqo. injection Heqo as <-. eauto.
Qed.
Lemma threads_longer s e s' : dstep s e = Some s' -> length (s_ts s) <= length (s_ts s').
Proof.
  intros H. destruct (dstep_inv _ _ _ H) as (_ & [(u & U & ->)|(j & ch & u & g' & u' & sp & -> & Nj & T & ->)]); cbn [s_ts];
    rewrite app_length, ?set_nth_length; lia.
Qed.
(* a thread that reads on for a connection did so before, or has just been accepted *)
Lemma reader_from g i u ch g' c st sp : tstep g i u ch = Some (g', TRd c st, sp) ->
  (exists st0, u = TRd c st0) \/ (exists lim, u = TNew lim /\ ch = ChConf true /\ c = v_n g /\ v_n g' = S c).
Proof.
  intros H. remember (TRd c st) as t. inv_tstep H; try discriminate Heqt; try (injection Heqt as <- _; left; eauto; fail).
  injection Heqt as <- <-. right. eexists. repeat split; reflexivity.
Qed.
Lemma new_from g i u ch g' lim sp : tstep g i u ch = Some (g', TNew lim, sp) -> False.
Proof. intros H. remember (TNew lim) as t. inv_tstep H; discriminate Heqt. Qed.
Lemma reader_to g i c st ch g' t' sp : tstep g i (TRd c st) ch = Some (g', t', sp) -> exists st', t' = TRd c st'.
Proof. intros H. cbn in H. destruct (rd_step g c st ch) as [[[? ?] ?]|]; [|discriminate]. injection H as <- <- <-. eauto. Qed.
Lemma one_reader buf ok s i j c st st' : dreach buf ok s -> nth_error (s_ts s) i = Some (TRd c st) ->
  nth_error (s_ts s) j = Some (TRd c st') -> i = j.
Proof.
  intros R A B. destruct (Nat.eq_dec i j) as [|D]; [assumption|exfalso].
  pose proof (one_reader_le _ _ _ c R). pose proof (count_two (reader_of c) _ _ _ _ _ D A B) as Q.
  cbn in Q. rewrite Nat.eqb_refl in Q. specialize (Q eq_refl eq_refl). lia.
Qed.
Lemma conns_grow s e s' : dstep s e = Some s' -> v_n (s_srv s) <= v_n (s_srv s').
Proof.
  intros H. destruct (dstep_inv _ _ _ H) as (_ & [(u & U & ->)|(j & ch & u & g' & u' & sp & -> & Nj & T & ->)]); cbn [s_srv]; [lia|].
  exact (e_n _ _ (tstep_ext _ _ _ _ _ _ _ T)).
Qed.
