(* The server's own work ends, and what is the case then *)
From Coq Require Import List Arith ZArith Lia Bool.
From Verif Require Import BaseBytes BaseConc ModelMessage ModelWrite ModelHandle ModelDispatch.
From Verif Require Import SpecWire SpecMessage SpecWrite SpecHandle SpecDispatch SpecSettle.
From Verif Require Import ProofMessage ProofWire ProofCodec ProofHandle ProofDispatch ProofDispatch2 ProofDispatch3 ProofDispatch4 ProofDispatch5.
Import ListNotations.
Open Scope nat_scope.

Local Arguments Nat.ltb : simpl never.
Local Arguments Nat.eqb : simpl never.
Local Arguments Nat.leb : simpl never.
Local Arguments Z.add : simpl never.
Local Arguments Z.sub : simpl never.
Local Arguments Z.opp : simpl never.
Local Arguments Z.modulo : simpl never.
Local Arguments Z.ltb : simpl never.
Local Arguments Z.of_nat : simpl never.

(* ---------- the work left ---------- *)
Definition jrank (j : jstate) : nat :=
  match j with JStart => 7 | JRun => 6 | JRep _ => 5 | JInt => 5 | JOps => 4 | JTask => 3 | JUnlink => 2 | JSlot => 1 end.
Definition rank (t : thread) : nat :=
  match t with
  | TNew _ => 3
  | TRd _ RHook => 2
  | TRd _ RHookIn => 1
  | TRd _ (RGot _ _) => 12
  | TRd _ (RSlot _ _) => 11
  | TRd _ (ROps _ _) => 10
  | TRd _ (RFail _ _) => 1
  | TRd _ (RReg _ _) => 9
  | TRd _ (RDisp _ _) => 8
  | TRd _ (RJob _ _ j) | TJob _ _ _ j => jrank j
  | TRd _ RClose => 3
  | TRd _ RUnlink => 2
  | TRd _ RBye => 1
  | TCl0 _ => 2
  | TClU _ => 1
  | TSh0 => 3
  | TShW => 2
  | TShT => 1
  | _ => 0
  end.
Fixpoint nsum (f : thread -> nat) (l : list thread) : nat := match l with [] => 0 | t :: r => f t + nsum f r end.
Lemma nsum_app f l1 l2 : nsum f (l1 ++ l2) = nsum f l1 + nsum f l2.
Proof. induction l1; cbn; lia. Qed.
Lemma nsum_set f l i x y : nth_error l i = Some y -> nsum f (set_nth l i x) + f y = nsum f l + f x.
Proof. intros H. destruct (set_nth_split l i y H) as (l1 & l2 & -> & _ & ->). rewrite !nsum_app. cbn. lia. Qed.
Definition work (s : sys) : nat := if v_crashed (s_srv s) then 0 else nsum rank (s_ts s).
Lemma rank_bound t : rank t <= 12.
Proof. destruct t as [| |? []|? ? ? []| | | | | | |]; cbn; try lia. destruct j; cbn; lia. Qed.
Lemma nsum_bound l : nsum rank l <= 12 * length l.
Proof. induction l as [|t l IH]; cbn [nsum length]; [lia|]. pose proof (rank_bound t). lia. Qed.
Lemma work_bound s : work s <= 12 * length (s_ts s).
Proof. unfold work. destruct (v_crashed _); [lia|apply nsum_bound]. Qed.
Lemma tstep_rank g i t ch g' t' sp : tstep g i t ch = Some (g', t', sp) -> own (EvStep i ch) = true ->
  v_crashed g = false ->
  (v_crashed g' = true /\ 1 <= rank t) \/ (v_crashed g' = false /\ rank t' + match sp with Some x => rank x | None => 0 end < rank t).
Proof.
  intros H O C. inv_tstep H; cbn in O, C |- *; try discriminate O; try (right; split; [exact C|lia]); left; split; auto; lia.
Qed.
Lemma step_work s e s' : dstep s e = Some s' -> own e = true -> work s' < work s.
Proof.
  intros H O. destruct (dstep_inv _ _ _ H) as (C & [(t & T & ->)|(i & ch & t & g' & t' & sp & -> & N & T & ->)]).
  { destruct e; try contradiction; discriminate O. }
  unfold work. rewrite C. cbn [s_srv s_ts]. pose proof (nsum_set rank (s_ts s) i t' t N) as E.
  pose proof (tstep_rank _ _ _ _ _ _ _ T O C) as [[C' L]|[C' L]]; rewrite C'.
  - destruct (set_nth_split _ _ _ N) as (l1 & l2 & -> & _ & _). rewrite nsum_app. cbn. lia.
  - rewrite nsum_app. destruct sp; cbn [opt_list nsum] in *; lia.
Qed.
Lemma run_work es : forall s s', forallb own es = true -> drun s es = Some s' -> work s' + length es <= work s.
Proof.
  induction es as [|e es IH]; intros s s' O H.
  - injection H as <-. cbn. lia.
  - cbn in O, H. apply andb_true_iff in O as [O1 O2]. destruct (dstep s e) as [s1|] eqn:E; [|discriminate].
    pose proof (step_work _ _ _ E O1). specialize (IH _ _ O2 H). cbn. lia.
Qed.
Lemma work_ends s es s' : forallb own es = true -> drun s es = Some s' -> length es <= 12 * length (s_ts s).
Proof. intros O H. pose proof (run_work _ _ _ O H). pose proof (work_bound s). lia. Qed.

(* ---------- being at rest is decidable ---------- *)
Definition tries : list choice := [Go; ChConf true; ChRet ((0%Z, []), ENil); ChWriter true].
Lemma try_job g c k m j ch : job_step g c k m j ch <> None -> exists ch', In ch' tries /\ job_step g c k m j ch' <> None.
Proof.
  intros H. pose proof (job_can g c k m j) as Q. destruct j; cbn in H;
    try (exists Go; split; [left; reflexivity|exact Q]).
  - exists (ChRet ((0%Z, []), ENil)). split; [do 2 right; left; reflexivity|apply Q].
  - exists (ChWriter true). split; [do 3 right; left; reflexivity|apply Q].
Qed.
Lemma try_thread g i t ch : own (EvStep i ch) = true -> tstep g i t ch <> None ->
  exists ch', In ch' tries /\ tstep g i t ch' <> None.
Proof.
  intros O H.
  assert (J : forall c k m j, t = TRd c (RJob k m j) \/ t = TJob c k m j -> exists ch', In ch' tries /\ tstep g i t ch' <> None).
  { intros c k m j E. destruct (try_job g c k m j ch) as (ch' & I & Q).
    - destruct E as [-> | ->]; cbn in H; intros Z; rewrite Z in H; apply H; reflexivity.
    - exists ch'. split; [exact I|]. destruct (job_thread g i c k m j ch' Q). destruct E as [-> | ->]; assumption. }
  destruct t as [lim| |c st|c k m j|c|c|c| | | |]; try (eapply J; eauto; fail).
  3: destruct st; try (eapply J; eauto; fail).
  all: destruct ch; try (exfalso; apply H; reflexivity); try discriminate O.
  all: try (exists Go; split; [left; reflexivity|exact H]).
  - exists (ChConf true). split; [right; left; reflexivity|discriminate].
  - exists (ChWriter true). split; [do 3 right; left; reflexivity|]. discriminate.
Qed.
Lemma own_tries i ch : In ch tries -> own (EvStep i ch) = true.
Proof. intros [<-|[<-|[<-|[<-|[]]]]]; reflexivity. Qed.
Definition movesb (s : sys) (i : nat) (ch : choice) : bool := match dstep s (EvStep i ch) with Some _ => true | None => false end.
Lemma rest_dec s : (exists e s', own e = true /\ dstep s e = Some s') \/ at_rest s.
Proof.
  destruct (existsb (fun i => existsb (movesb s i) tries) (seq 0 (length (s_ts s)))) eqn:E.
  - left. apply existsb_exists in E as (i & _ & E). apply existsb_exists in E as (ch & I & E).
    unfold movesb in E. destruct (dstep s (EvStep i ch)) as [s'|] eqn:D; [|discriminate].
    exists (EvStep i ch), s'. split; [apply own_tries; exact I|exact D].
  - right. intros e O. destruct (dstep s e) as [s'|] eqn:D; [exfalso|reflexivity].
    destruct (dstep_inv _ _ _ D) as (C & [(t & T & _)|(i & ch & t & g' & t' & sp & -> & N & T & _)]).
    { destruct e; try contradiction; discriminate O. }
    destruct (try_thread (s_srv s) i t ch O) as (ch' & I & Q); [congruence|].
    assert (existsb (fun i => existsb (movesb s i) tries) (seq 0 (length (s_ts s))) = true); [|congruence].
    apply existsb_exists. exists i. split.
    { apply in_seq. split; [lia|]. cbn. apply nth_error_Some. congruence. }
    apply existsb_exists. exists ch'. split; [exact I|]. unfold movesb, dstep. rewrite C, N.
    destruct (tstep (s_srv s) i t ch') as [[[? ?] ?]|]; [reflexivity|congruence].
Qed.
Lemma finishes s : exists es s', forallb own es = true /\ drun s es = Some s' /\ at_rest s'.
Proof.
  remember (work s) as n eqn:W. revert s W. induction n as [n IH] using (well_founded_induction lt_wf). intros s ->.
  destruct (rest_dec s) as [(e & s1 & O & D)|R].
  - destruct (IH _ (step_work _ _ _ D O) s1 eq_refl) as (es & s' & O' & D' & R). exists (e :: es), s'.
    cbn. rewrite O, D. auto.
  - exists [], s. auto.
Qed.

(* ---------- the threads at rest ---------- *)
Lemma resting_holds s t c : resting s t -> holds c t = false.
Proof. destruct t as [| |? []| | | | | | | |]; cbn; auto; contradiction. Qed.
Lemma at_rest_threads buf ok s : dreach buf ok s -> v_crashed (s_srv s) = false ->
  (at_rest s <-> forall t, In t (s_ts s) -> resting s t).
Proof.
  intros R C. split.
  - intros A.
    assert (NC : forall i ch, own (EvStep i ch) = true -> ~ can s i ch).
    { intros i ch O (s' & D). rewrite (A _ O) in D. discriminate. }
    assert (Q : forall i t, nth_error (s_ts s) i = Some t -> resting s t \/
      exists c k m, t = TRd c (RSlot k m) /\ c_limit (v_conn (s_srv s) c) = Z.of_nat (count (holds c) (s_ts s) + count (leaked c) (slog s))).
    { intros i t N. pose proof (no_stuck _ _ _ _ _ R C N) as M. unfold may_go_on in M.
      pose proof (fun O => NC i Go O) as N1. pose proof (fun r O => NC i (ChRet r) O) as N2.
      pose proof (fun w O => NC i (ChWriter w) O) as N3. pose proof (fun w O => NC i (ChConf w) O) as N4.
      specialize (N1 eq_refl). specialize (N2 ((0%Z, []), ENil) eq_refl). specialize (N3 true eq_refl). specialize (N4 true eq_refl).
      destruct t as [lim| |c st|c k m j|c|c|c| | | |]; cbn in M |- *; auto; try (exfalso; auto; fail).
      2: destruct j; exfalso; cbn in M; auto.
      2: destruct M as [M|M]; [contradiction|auto].
      destruct st; cbn in M |- *; auto; try (exfalso; auto; fail).
      - destruct M as [M|M]; [contradiction|]. right. eauto.
      - destruct j; exfalso; cbn in M; auto. }
    assert (H0 : forall c, count (holds c) (s_ts s) = 0).
    { intros c. apply count_zero. intros t I. apply In_nth_error in I as (i & N).
      destruct (Q _ _ N) as [Rt|(c' & k & m & -> & _)]; [eapply resting_holds; eauto|reflexivity]. }
    intros t I. apply In_nth_error in I as (i & N). destruct (Q _ _ N) as [Rt|(c & k & m & -> & L)]; [exact Rt|].
    rewrite H0 in L. exact L.
  - intros A e O. destruct (dstep s e) as [s'|] eqn:D; [exfalso|reflexivity].
    destruct (dstep_inv _ _ _ D) as (_ & [(t & T & _)|(i & ch & t & g' & t' & sp & -> & N & T & _)]).
    { destruct e; try contradiction; discriminate O. }
    pose proof (A t (nth_error_In _ _ N)) as Rt.
    assert (H0 : forall c, count (holds c) (s_ts s) = 0).
    { intros c. apply count_zero. intros u U. eapply resting_holds; eauto. }
    pose proof (fine_at _ _ _ _ _ R N) as [Sn _]. clear D.
    inv_tstep T; cbn in Rt, Sn, O; try contradiction; try discriminate; try congruence.
    assert (Lm : (1 < c_limit (v_conn (s_srv s) c))%Z) by tauto.
    assert (Ls : limited (s_srv s) c = true) by (unfold limited; apply Z.ltb_lt; exact Lm).
    pose proof (slots_exact _ _ _ _ R Ls) as E. rewrite H0 in E. lia.
Qed.

(* ---------- what is the case then ---------- *)
Section Rest.
Variables (buf : nat) (ok : sys -> ev -> Prop) (s : sys).
Hypotheses (R : dreach buf ok s) (C : v_crashed (s_srv s) = false) (A : at_rest s).
Lemma rest_threads : forall t, In t (s_ts s) -> resting s t.
Proof. apply (at_rest_threads _ _ _ R C). exact A. Qed.
Lemma rest_handlers c k m : In (LStart c k m) (slog s) -> In (LEnd c k) (slog s).
Proof.
  intros I. pose proof (starts_ends_msg _ _ _ c k R) as E.
  assert (Z : count (running_msg c k) (s_ts s) = 0).
  { apply count_zero. intros t It. pose proof (rest_threads t It) as Q. destruct t as [| |? []| | | | | | | |]; cbn in Q |- *; auto; contradiction. }
  assert (P : 1 <= count (start_of c k) (slog s)).
  { apply In_nth_error in I as (n & N). eapply count_pos; [exact N|]. cbn. rewrite !Nat.eqb_refl. reflexivity. }
  assert (P' : 1 <= count (end_of c k) (slog s)) by lia. apply count_exists in P' as (n & x & N & X).
  apply nth_error_In in N. destruct x; try discriminate X. cbn in X. apply andb_true_iff in X as [X1 X2].
  apply Nat.eqb_eq in X1, X2. subst. exact N.
Qed.
Lemma rest_work c k want : count (working_on c k want) (s_ts s) = 0 \/ exhausted s c.
Proof.
  destruct (count (working_on c k want) (s_ts s)) as [|n] eqn:E; [left; reflexivity|right].
  assert (P : 1 <= count (working_on c k want) (s_ts s)) by lia. apply count_exists in P as (i & t & N & X).
  pose proof (rest_threads t (nth_error_In _ _ N)) as Q. pose proof (fine_at _ _ _ _ _ R N) as [Sn _].
  destruct t as [| |c' []| | | | | | | |]; cbn in Q, X, Sn; try contradiction; try discriminate X.
  unfold msg_is in X. apply andb_true_iff in X as [X _]. apply andb_true_iff in X as [X _]. apply Nat.eqb_eq in X. subst c'.
  split; [tauto|exact Q].
Qed.
Lemma rest_start c k want : count (before_start c k want) (s_ts s) = 0 \/ exhausted s c.
Proof.
  destruct (count (before_start c k want) (s_ts s)) as [|n] eqn:E; [left; reflexivity|right].
  assert (P : 1 <= count (before_start c k want) (s_ts s)) by lia. apply count_exists in P as (i & t & N & X).
  pose proof (rest_threads t (nth_error_In _ _ N)) as Q. pose proof (fine_at _ _ _ _ _ R N) as [Sn _].
  destruct t as [| |c' []| | | | | | | |]; cbn in Q, X, Sn; try contradiction; try discriminate X.
  unfold msg_is in X. apply andb_true_iff in X as [X _]. apply andb_true_iff in X as [X _]. apply Nat.eqb_eq in X. subst c'.
  split; [tauto|exact Q].
Qed.
Lemma rest_requests c k b m cont : In (LFrame c k b (Some m)) (slog s) -> received m b cont -> wants_reply (k_type cont) ->
  exhausted s c \/
  count (replied c k RequiresReply) (slog s) + count (shut_replied c k RequiresReply) (slog s) +
  count (sess_replied c k RequiresReply) (slog s) + count (dropped c k RequiresReply) (slog s) = 1.
Proof.
  intros I Rc W. pose proof (request_accounted _ _ _ _ _ _ _ _ R I Rc W) as E.
  destruct (rest_work c k RequiresReply) as [Z|X]; [right; lia|left; exact X].
Qed.
Lemma rest_messages c k b m : In (LFrame c k b (Some m)) (slog s) -> is_app m = true ->
  exhausted s c \/
  count (started c k is_app) (slog s) + count (shut_replied c k is_app) (slog s) + count (dropped c k is_app) (slog s) = 1.
Proof.
  intros I W. pose proof (starts_settled _ _ _ c k is_app R (fun m E => proj1 (is_app_route m) E)) as E.
  rewrite (arrived_one _ _ _ _ _ _ _ is_app R I W) in E.
  destruct (rest_start c k is_app) as [Z|X]; [right; lia|left; exact X].
Qed.
Lemma rest_hook c : c < v_n (s_srv s) -> In (LConnected c) (slog s).
Proof.
  intros L. pose proof (one_reader _ _ _ c R) as O. 
  assert (P : 1 <= count (reader_of c) (s_ts s)) by (destruct (Nat.ltb_spec c (v_n (s_srv s))); cbn [bz] in O; lia).
  apply count_exists in P as (i & t & N & X). pose proof (rest_threads t (nth_error_In _ _ N)) as Q.
  pose proof (hooks_connected _ _ _ c R) as H.
  assert (P : 1 <= count (hooked c) (s_ts s)).
  { eapply count_pos; [exact N|]. destruct t as [| |c' []| | | | | | | |]; cbn in Q, X |- *; try contradiction; try discriminate X; exact X. }
  assert (P' : 1 <= count (connected c) (slog s)) by lia. apply count_exists in P' as (n & x & N' & Y).
  apply nth_error_In in N'. destruct x; try discriminate Y. cbn in Y. apply Nat.eqb_eq in Y. subst. exact N'.
Qed.
Lemma rest_disconnect c k b : In (LFrame c k b None) (slog s) \/ In (LReadErr c) (slog s) ->
  In (LDisconnected c) (slog s).
Proof.
  intros F. destruct (failed_read_ends _ _ _ _ _ _ R F) as (i & st & N & Q & E).
  pose proof (rest_threads _ (nth_error_In _ _ N)) as Rt. destruct Q as [-> |[-> |[-> | ->]]]; try contradiction. auto.
Qed.
End Rest.
Lemma rest_unlinked buf s c : dreach buf stays_open s -> v_crashed (s_srv s) = false -> at_rest s ->
  c < v_n (s_srv s) -> c_active (v_conn (s_srv s) c) = false -> In (LUnlink c) (slog s).
Proof.
  intros R C A L I. eapply unlink_happens; eauto. intros t It. pose proof (rest_threads _ _ _ R C A t It) as Q.
  destruct t as [| |? []| | | | | | | |]; cbn in Q |- *; auto; contradiction.
Qed.
(* Shutdown calls *)
Lemma shutdown_call buf ok s i : dreach buf ok s -> In (LShutdown i) (slog s) ->
  exists t, nth_error (s_ts s) i = Some t /\ (t = TShW \/ t = TShT \/ t = TShR /\ In (LShutReturn i) (slog s)).
Proof.
  intros R. induction R as [|s e s' R IH Ok H]; [intros []|].
  destruct (dstep_inv _ _ _ H) as (_ & [(t & T & ->)|(j & ch & t & g' & t' & sp & -> & N & T & ->)]).
  - cbn [s_srv s_ts]. intros I. destruct (IH I) as (u & Nu & Q). exists u. split; [|exact Q].
    rewrite nth_error_app1; [exact Nu|]. apply nth_error_Some. congruence.
  - cbn [s_srv s_ts]. intros I. clear H.
    assert (K : forall u, nth_error (set_nth (s_ts s) j t') i = Some u -> nth_error (set_nth (s_ts s) j t' ++ opt_list sp) i = Some u).
    { intros u U. rewrite nth_error_app1; [exact U|]. apply nth_error_Some. congruence. }
    assert (D : In (LShutdown i) (slog s) \/ (i = j /\ (t' = TShT \/ t' = TShW))).
    { clear - T I. inv_tstep T; cbn in I; auto; apply in_app_or in I as [I|[I|[]]]; auto; try discriminate I; injection I as <-; auto. }
    destruct D as [D|[-> D]].
    + destruct (IH D) as (u & Nu & Q). pose proof (tstep_ext _ _ _ _ _ _ _ T) as X. destruct (e_log _ _ X) as (l & El).
      destruct (Nat.eq_dec j i) as [->|Ne].
      * rewrite N in Nu. injection Nu as <-. exists t'. split; [apply K; eapply set_nth_eq; eauto|].
        clear - T Q. destruct Q as [-> |[-> |[-> _]]]; cbn in T; destruct ch; try discriminate T.
        -- destruct (v_rdy _); [|discriminate]. injection T as <- <- <-. auto.
        -- injection T as <- <- <-. right. right. split; [reflexivity|]. cbn. apply in_or_app. right. left. reflexivity.
      * exists u. split; [apply K; rewrite set_nth_ne; auto|]. rewrite El. destruct Q as [Q|[Q|[Q1 Q2]]]; auto.
        right. right. split; [exact Q1|]. apply in_or_app. auto.
    + exists t'. split; [apply K; eapply set_nth_eq; eauto|]. destruct D as [-> | ->]; auto.
Qed.
Lemma rest_shutdown buf s i : dreach buf calm s -> v_crashed (s_srv s) = false -> at_rest s ->
  In (LShutdown i) (slog s) -> In (LShutReturn i) (slog s).
Proof.
  intros R C A I. destruct (shutdown_call _ _ _ _ R I) as (t & N & Q). pose proof (nth_error_In _ _ N) as It.
  pose proof (rest_threads _ _ _ R C A t It) as Rt. destruct Q as [-> |[-> |[-> Q]]]; [|contradiction|exact Q].
  cbn in Rt. destruct (shutdown_waits _ _ R It) as [_ [Q|Q]]; [congruence|].
  assert (Z : count registered (s_ts s) = 0); [|rewrite Z in Q; lia].
  apply count_zero. intros u U. pose proof (rest_threads _ _ _ R C A u U) as Ru.
  destruct u as [| |? []| | | | | | | |]; cbn in Ru |- *; auto; contradiction.
Qed.

(* ---------- panics ---------- *)
Lemma read_some buf b : ReadBytes (NewMessage buf) b <> None.
Proof. destruct (ReadBytes_total (NewMessage buf) b eq_refl) as (m & ok & e & E & _). congruence. Qed.
Lemma flag_some n : n <= 255 -> name_len_flag n <> None.
Proof.
  intros L. unfold name_len_flag. replace (length msgNameLenBytes) with 256 by reflexivity.
  destruct (Nat.leb_spec (n + 1) 256); [discriminate|lia].
Qed.
Section Total.
Context {W : Type} (ops : writer_ops W).
Lemma close_some w : close_end ops w <> None.
Proof. unfold close_end. destruct (w_close ops w). discriminate. Qed.
Lemma close_with_some w a b : close_with ops w a b <> None.
Proof. unfold close_with. destruct (w_close ops w). discriminate. Qed.
Lemma try_some b k w : (forall w, k w <> None) -> try_write ops b k w <> None.
Proof. intros K. unfold try_write. destruct (w_write ops w b) as [w1 [|]]; auto. apply close_with_some. Qed.
Lemma reply_some w i e d : WriteMsgReply ops w i e d <> None.
Proof.
  unfold WriteMsgReply. destruct (_ && _); [apply close_with_some|]. cbv zeta.
  apply try_some. intros w1. apply try_some. intros w2. destruct (_ =? _)%Z; repeat (apply try_some; intros); apply close_some.
Qed.
Lemma error_some w i c d : WriteMsgReplyError ops w i c d true <> None.
Proof.
  unfold WriteMsgReplyError. cbn [andb]. destruct (_ <? 1); [apply close_with_some|].
  destruct (Nat.ltb_spec 255 (length c)); [apply close_with_some|]. destruct (existsb _ _); [apply close_with_some|].
  apply try_some. intros w1. apply try_some. intros w2. destruct (name_len_flag (length c)) eqn:E.
  - repeat (apply try_some; intros). apply close_some.
  - exfalso. eapply flag_some; eauto.
Qed.
Lemma special_some w t i : In t [MsgReplyShutdown; MsgReplyInternalError] -> WriteMsgSpecialRequestReply ops w t i <> None.
Proof.
  intros I. unfold WriteMsgSpecialRequestReply.
  destruct I as [<-|[<-|[]]]; cbn [beq]; repeat (apply try_some; intros); apply close_some.
Qed.
Lemma used_some (r : wresult (W := W)) : r <> None -> used r <> None.
Proof. destruct r as [[w e]|]; [discriminate|congruence]. Qed.
Lemma handle_some gw m r : RequiresReply m = true ->
  (handleRequest ops gw m r = None <-> snd r = EReqPtr None /\ gw <> None).
Proof.
  intros Q. unfold handleRequest, failMsg, fulfillMsg. rewrite Q. cbn [negb]. destruct r as [p e], gw as [w|]; cbn [fst snd];
    destruct e as [|code text|[[code text]|]| | | |text]; split; try (intros [X Y]; congruence); try discriminate;
    try (intros _; split; [reflexivity|discriminate]); try reflexivity; intros X; exfalso; revert X; try apply used_some;
    first [apply reply_some|apply error_some|apply special_some; cbn; auto].
Qed.
Lemma shutdown_some gw m : failMsgShutdown ops gw m = None <-> gw = None.
Proof.
  unfold failMsgShutdown. destruct gw as [w|]; split; try discriminate; auto. intros X. exfalso. revert X.
  apply used_some, special_some. cbn. auto.
Qed.
End Total.
Lemma ops_mod v : ((v - 1) mod 2 ^ 32 < 1 <-> v mod 2 ^ 32 = 1)%Z.
Proof.
  pose proof (Z.mod_pos_bound (v - 1) (2 ^ 32) ltac:(lia)) as B.
  assert (E : (v mod 2 ^ 32 = ((v - 1) mod 2 ^ 32 + 1) mod 2 ^ 32)%Z).
  { rewrite Zplus_mod_idemp_l. f_equal. lia. }
  rewrite E. split; intros H.
  - replace ((v - 1) mod 2 ^ 32)%Z with 0%Z by lia. reflexivity.
  - destruct (Z.eq_dec ((v - 1) mod 2 ^ 32) (2 ^ 32 - 1)) as [Q|Q].
    + rewrite Q in H. change ((2 ^ 32 - 1 + 1) mod 2 ^ 32)%Z with 0%Z in H. lia.
    + rewrite Z.mod_small in H by lia. lia.
Qed.
Lemma fatal_at s i ch t : nth_error (s_ts s) i = Some t -> fatal s (EvStep i ch) <->
    ((refusing t /\ ch = ChWriter false) \/ (nil_error t /\ ch = ChWriter true) \/
     (leaving t /\ ch = Go /\ v_shutdown (s_srv s) = true /\ v_rdy (s_srv s) = true /\
      (v_ops (s_srv s) mod 2 ^ 32 = 1)%Z)).
Proof.
  intros N. split.
  - intros (i' & ch' & t' & E & N' & Q). injection E as <- <-. rewrite N in N'. injection N' as <-. exact Q.
  - intros Q. exists i, ch, t. auto.
Qed.
Lemma request_replies m : route_of (m_type m) = RtRequest -> RequiresReply m = true.
Proof. intros H. apply request_wants. auto. Qed.
Lemma writer_of_none w : writer_of w = None <-> w = false.
Proof. destruct w; split; (reflexivity || discriminate). Qed.
Ltac not_fatal := intros [[(? & ? & ? & Q1) Q2]|[[(? & ? & ? & ? & [Q1|Q1]) Q2]|[(? & ? & ? & [Q1|Q1]) Q2]]];
  try discriminate Q1; try discriminate Q2; try (destruct Q2; discriminate).
Lemma crash_exact buf ok s e s' : dreach buf ok s -> dstep s e = Some s' ->
  (v_crashed (s_srv s') = true <-> fatal s e).
Proof.
  intros R H. destruct (dstep_inv _ _ _ H) as (C & [(t & T & ->)|(i & ch & t & g' & t' & sp & -> & N & T & ->)]).
  { cbn. rewrite C. split; [discriminate|]. intros (i & ch & t' & -> & _). contradiction. }
  cbn [s_srv]. rewrite (fatal_at _ _ _ _ N). pose proof (fine_at _ _ _ _ _ R N) as [Sn _].
  assert (Slots : forall c k m j, t = TRd c (RJob k m j) \/ t = TJob c k m j -> (1 < c_limit (v_conn (s_srv s) c))%Z ->
    (1 <= c_slots (v_conn (s_srv s) c))%Z).
  { intros c k m j E Lm. assert (Ls : limited (s_srv s) c = true) by (unfold limited; apply Z.ltb_lt; exact Lm).
    rewrite (slots_exact _ _ _ _ R Ls).
    assert (holds c t = true) by (destruct E as [-> | ->]; cbn; apply Nat.eqb_refl).
    pose proof (count_pos (holds c) _ _ _ N H0). lia. }
  pose proof (ops_mod (v_ops (s_srv s))) as OM.
  clear H. inv_tstep T; cbn in C, Sn |- *; rewrite ?C.
  all: try (split; [discriminate|not_fatal]).
  - exfalso. eapply read_some; eauto.
  - apply shutdown_some, writer_of_none in H. subst. split; [|reflexivity]. intros _. left. split; [|reflexivity]. red; eauto.
  - injection Q2 as ->. destruct (proj2 (shutdown_some sink_writer (writer_of false) m) eq_refl) in H. discriminate.
  - apply handle_some in H as [H1 H2]; [|apply request_replies; tauto]. destruct r as [p e]. cbn in H1. subst e.
    split; [|reflexivity]. intros _. right. left. split; [red; eauto 6|]. destruct ok0; [reflexivity|exfalso; apply H2; reflexivity].
  - injection Q2 as ->. injection Q1 as <- <- <- ->. exfalso.
    assert (X : handleRequest sink_writer (writer_of true) m (x2, EReqPtr None) = None).
    { apply handle_some; [apply request_replies; tauto|]. split; [reflexivity|discriminate]. }
    congruence.
  - split; [|reflexivity]. intros _. right. right. split; [red; eauto 6|]. apply OM in H0. auto.
  - destruct Q2 as (_ & _ & Q & _). congruence.
  - destruct Q2 as (_ & Q3 & _ & Q4). apply OM in Q4. destruct H; [congruence|]. lia.
  - exfalso. specialize (Slots _ _ _ _ (or_introl eq_refl) H). lia.
  - apply handle_some in H as [H1 H2]; [|apply request_replies; tauto]. destruct r as [p e]. cbn in H1. subst e.
    split; [|reflexivity]. intros _. right. left. split; [red; eauto 6|]. destruct ok0; [reflexivity|exfalso; apply H2; reflexivity].
  - injection Q2 as ->. injection Q1 as <- <- <- ->. exfalso.
    assert (X : handleRequest sink_writer (writer_of true) m (x2, EReqPtr None) = None).
    { apply handle_some; [apply request_replies; tauto|]. split; [reflexivity|discriminate]. }
    congruence.
  - split; [|reflexivity]. intros _. right. right. split; [red; eauto 6|]. apply OM in H0. auto.
  - destruct Q2 as (_ & _ & Q & _). congruence.
  - destruct Q2 as (_ & Q3 & _ & Q4). apply OM in Q4. destruct H; [congruence|]. lia.
  - exfalso. specialize (Slots _ _ _ _ (or_intror eq_refl) H). lia.
Qed.
Lemma dreach_weaken buf (ok1 ok2 : sys -> ev -> Prop) s : (forall s e, ok1 s e -> ok2 s e) -> dreach buf ok1 s -> dreach buf ok2 s.
Proof. intros W R. induction R; [constructor|econstructor; eauto]. Qed.
(* no handler has returned a nil *ErrRequest *)
Definition no_nil (g : srv) (t : thread) : Prop :=
  match t with TRd _ (RJob _ _ (JRep r)) | TJob _ _ _ (JRep r) => snd r <> EReqPtr None | _ => True end.
Lemma all_no_nil buf s : dreach buf smooth s -> forall t, In t (s_ts s) -> no_nil (s_srv s) t.
Proof.
  apply (local buf smooth no_nil); try (intros; exact Logic.I); [intros g g' t _ H; exact H|].
  intros s0 i ch t g' t' sp (_ & [_ Ok] & _ & T) H. inv_tstep T; cbn in H, Ok |- *; auto.
Qed.
Lemma smooth_runs buf s : dreach buf smooth s -> v_crashed (s_srv s) = false.
Proof.
  intros R. induction R as [|s e s' R IH Ok H]; [reflexivity|].
  destruct (v_crashed (s_srv s')) eqn:C; [exfalso|reflexivity].
  apply (crash_exact _ _ _ _ _ R H) in C. destruct C as (i & ch & t & -> & N & Q). destruct Ok as [Cm Sv].
  destruct Q as [[(c & k & m & ->) ->]|[[(c & k & m & p & Q) ->]|((c & k & m & Q) & -> & Q1 & Q2 & Q3)]].
  - cbn in Sv. exact (Sv c k m N).
  - pose proof (all_no_nil _ _ R t (nth_error_In _ _ N)) as Z. destruct Q as [-> | ->]; exact (Z eq_refl).
  - assert (R' : dreach buf calm s) by (eapply dreach_weaken; [|exact R]; intros ? ? [? _]; assumption).
    destruct (shutdown_drained _ _ R' (or_introl Q2)) as [_ D].
    assert (P : 1 <= count registered (s_ts s)) by (eapply count_pos; [exact N|destruct Q as [-> | ->]; reflexivity]). lia.
Qed.
(* ---------- a connection that has lost all its slots ---------- *)
Lemma leaked_grows g i t ch g' t' sp c : tstep g i t ch = Some (g', t', sp) -> count (leaked c) (v_log g) <= count (leaked c) (v_log g').
Proof. intros T. destruct (e_log _ _ (tstep_ext _ _ _ _ _ _ _ T)) as (l & ->). rewrite count_app. lia. Qed.
Lemma starved buf ok s s' i c k m : dreach buf ok s -> nth_error (s_ts s) i = Some (TRd c (RSlot k m)) ->
  exhausted s c -> later ok s s' -> nth_error (s_ts s') i = Some (TRd c (RSlot k m)).
Proof.
  intros R N [L1 L2] Lt.
  cut (nth_error (s_ts s') i = Some (TRd c (RSlot k m)) /\ c < v_n (s_srv s') /\
       c_limit (v_conn (s_srv s') c) = c_limit (v_conn (s_srv s) c) /\
       count (leaked c) (slog s) <= count (leaked c) (slog s')); [intros (? & _); assumption|].
  induction Lt as [|s1 e s2 Lt IH Ok H].
  { pose proof (fine_at _ _ _ _ _ R N) as [_ B]. cbn in B. auto. }
  destruct IH as (N1 & B & E1 & E2). pose proof (later_reach _ _ _ _ R Lt) as R1.
  destruct (dstep_inv _ _ _ H) as (_ & [(t & T & ->)|(j & ch & t & g' & t' & sp & -> & Nj & T & ->)]).
  - cbn [s_srv s_ts]. split; [rewrite nth_error_app1; [exact N1|apply nth_error_Some; congruence]|auto].
  - cbn [s_srv s_ts]. pose proof (tstep_ext _ _ _ _ _ _ _ T) as X. pose proof (leaked_grows _ _ _ _ _ _ _ c T).
    assert (j <> i).
    { intros ->. rewrite N1 in Nj. injection Nj as <-. cbn in T. destruct ch; try discriminate T.
      destruct (Z.ltb_spec (c_slots (v_conn (s_srv s1) c)) (c_limit (v_conn (s_srv s1) c))) as [Q|Q]; [|discriminate T].
      assert (Ls : limited (s_srv s1) c = true) by (unfold limited; apply Z.ltb_lt; lia).
      rewrite (slots_exact _ _ _ _ R1 Ls) in Q. lia. }
    split; [rewrite nth_error_app1; [rewrite set_nth_ne; auto|rewrite set_nth_length; apply nth_error_Some; congruence]|].
    split; [pose proof (e_n _ _ X); lia|]. split; [rewrite (e_lim _ _ X c B); exact E1|lia].
Qed.
