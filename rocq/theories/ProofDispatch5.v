(* Closed connections; no thread gets stuck *)
From Coq Require Import List Arith ZArith Lia Bool.
From Verif Require Import BaseBytes BaseConc ModelMessage ModelWrite ModelHandle ModelDispatch.
From Verif Require Import SpecWire SpecMessage SpecWrite SpecHandle SpecDispatch.
From Verif Require Import ProofMessage ProofWire ProofCodec ProofHandle ProofDispatch ProofDispatch2 ProofDispatch3 ProofDispatch4.
Import ListNotations.
Open Scope nat_scope.

Local Arguments Nat.ltb : simpl never.
Local Arguments Nat.eqb : simpl never.
Local Arguments Nat.leb : simpl never.
Local Arguments Z.add : simpl never.
Local Arguments Z.sub : simpl never.
Local Arguments Z.opp : simpl never.
Local Arguments Z.modulo : simpl never.
Local Arguments Z.ltb : simpl never.
Local Arguments Z.of_nat : simpl never.

Definition past_check (c k : nat) (t : thread) : bool :=
  match t with
  | TRd c' (RSlot k' _) | TRd c' (ROps k' _) | TRd c' (RFail k' _) | TRd c' (RReg k' _) | TRd c' (RDisp k' _)
  | TRd c' (RJob k' _ _) | TJob c' k' _ _ => (c' =? c) && (k' =? k)
  | _ => false
  end.
Definition ignoring (c k : nat) (s : sys) : Prop :=
  c < v_n (s_srv s) /\ c_active (v_conn (s_srv s) c) = false /\
  (forall t, In t (s_ts s) -> past_check c k t = false) /\
  (forall e, In e (slog s) -> acted_on c k e = false).
Lemma step_past g i t ch g' t' sp c k : tstep g i t ch = Some (g', t', sp) ->
  past_check c k t = false -> c_active (v_conn g c) = false ->
  past_check c k t' = false /\ match sp with Some x => past_check c k x = false | None => True end /\
  (forall e, In e (v_log g') -> In e (v_log g) \/ acted_on c k e = false).
Proof.
  intros H P A. inv_tstep H; cbn in P |- *; auto.
  all: try (split; [assumption || reflexivity|split; [assumption || exact I|]]; intros e' Ie; apply in_app_or in Ie as [Ie|[<-|[]]]; auto; fail).
  all: split; [|auto].
  all: destruct (Nat.eqb_spec c0 c) as [->|]; [|reflexivity]; congruence.
Qed.
Lemma ignoring_step ok c k s s' e : ignoring c k s -> ok s e -> dstep s e = Some s' -> ignoring c k s'.
Proof.
  intros (B & A & T & L) Ok H.
  destruct (dstep_inv _ _ _ H) as (_ & [(t & E & ->)|(i & ch & t & g' & t' & sp & -> & N & E & ->)]).
  - split; [exact B|split; [exact A|split; [|exact L]]]. cbn. intros u U. apply in_app_or in U as [U|[<-|[]]]; [auto|].
    destruct e as [lim|c'| |]; try contradiction; [subst t|destruct E as [-> _]|subst t]; reflexivity.
  - pose proof (tstep_ext _ _ _ _ _ _ _ E) as X. destruct (step_past _ _ _ _ _ _ _ c k E (T _ (nth_error_In _ _ N)) A) as (P1 & P2 & P3).
    cbn. split; [pose proof (e_n _ _ X); cbn; lia|split; [|split]]; cbn.
    + destruct (c_active (v_conn g' c)) eqn:Q; [|reflexivity]. rewrite (e_act _ _ X c B Q) in A. discriminate.
    + intros u U. apply in_app_or in U as [U|U]; [apply set_nth_In in U as [->|U]; auto|].
      destruct sp; [destruct U as [<-|[]]; exact P2|destruct U].
    + intros x Ix. destruct (P3 x Ix); auto.
Qed.
Lemma acted_frame buf ok s c k e : dreach buf ok s -> In e (slog s) -> acted_on c k e = true -> k < c_next (v_conn (s_srv s) c).
Proof.
  intros R I A. assert (exists m, from_frame (s_srv s) c k m) as (m & b & F & _).
  { pose proof (starts_ok _ _ _ R) as Q1. destruct (replies_ok _ _ _ R) as (Q2 & Q3 & Q4 & _).
    destruct e; try discriminate A; cbn in A; apply andb_true_iff in A as [A1 A2]; apply Nat.eqb_eq in A1, A2; subst;
      [apply Q3 in I|apply Q1 in I|apply Q2 in I|apply Q4 in I]; exists m; tauto. }
  eapply frame_below; eauto.
Qed.
Lemma closed_ignores buf ok s s' c k : dreach buf ok s -> c < v_n (s_srv s) -> c_active (v_conn (s_srv s) c) = false ->
  c_next (v_conn (s_srv s) c) <= k -> later ok s s' -> forall e, In e (slog s') -> acted_on c k e = false.
Proof.
  intros R B A L Lt. cut (ignoring c k s'); [intros (_ & _ & _ & Q); exact Q|].
  induction Lt as [|s1 e s2 Lt IH Ok H]; [|eapply ignoring_step; eauto].
  split; [exact B|split; [exact A|split]].
  - intros t It. pose proof (all_fine _ _ _ R t It) as [Sn _]. destruct (past_check c k t) eqn:P; [exfalso|reflexivity].
    destruct t; try discriminate P; cbn in P, Sn; [destruct s0; try discriminate P|]; cbn in P, Sn;
      apply andb_true_iff in P as [P1 P2]; apply Nat.eqb_eq in P1, P2; subst; destruct Sn as [_ Sn]; intuition lia.
  - intros e Ie. destruct (acted_on c k e) eqn:E; [|reflexivity]. pose proof (acted_frame _ _ _ _ _ _ R Ie E). lia.
Qed.
Lemma later_reach buf ok s s' : dreach buf ok s -> later ok s s' -> dreach buf ok s'.
Proof. intros R L. induction L; [exact R|econstructor; eauto]. Qed.

(* ---------- progress ---------- *)
Lemma can_step s i t ch : v_crashed (s_srv s) = false -> nth_error (s_ts s) i = Some t ->
  (can s i ch <-> tstep (s_srv s) i t ch <> None).
Proof.
  intros C N. unfold can, dstep. rewrite C, N. destruct (tstep (s_srv s) i t ch) as [[[g' t'] sp]|].
  - split; [discriminate|]. intros _. eexists. reflexivity.
  - split; [intros [? ?]; discriminate|congruence].
Qed.
Lemma job_can g c k m j : (match j with JRun => forall r, job_step g c k m j (ChRet r) <> None
  | JRep _ => forall w, job_step g c k m j (ChWriter w) <> None | _ => job_step g c k m j Go <> None end).
Proof.
  destruct j; cbn; intros; try discriminate;
    repeat (match goal with |- context[match ?x with _ => _ end] => destruct x end; try discriminate).
Qed.
Lemma job_thread g i c k m j ch : job_step g c k m j ch <> None ->
  tstep g i (TRd c (RJob k m j)) ch <> None /\ tstep g i (TJob c k m j) ch <> None.
Proof.
  intros H. cbn. destruct (job_step g c k m j ch) as [[g' [j'|]]|]; [| |congruence]; split; discriminate.
Qed.
Lemma no_stuck buf ok s i t : dreach buf ok s -> v_crashed (s_srv s) = false -> nth_error (s_ts s) i = Some t ->
  may_go_on s i t.
Proof.
  intros R C N. pose proof (can_step s i t) as K. unfold may_go_on.
  destruct (finished t) eqn:Fin.
  { intros ch D. apply (K ch C N) in D. apply D. destruct t as [| |? []| | | | | | | |]; try discriminate Fin; destruct ch; reflexivity. }
  assert (J : forall c k m j, t = TRd c (RJob k m j) \/ t = TJob c k m j ->
     match j with JRun => forall r, can s i (ChRet r) | JRep _ => forall w, can s i (ChWriter w) | _ => can s i Go end).
  { intros c k m j E. pose proof (job_can (s_srv s) c k m j) as Q.
    assert (Q' : forall ch, job_step (s_srv s) c k m j ch <> None -> can s i ch).
    { intros ch D. apply (K ch C N). destruct (job_thread _ i _ _ _ _ _ D). destruct E as [-> | ->]; assumption. }
    destruct j; intros; apply Q'; auto. }
  destruct t as [lim| |c st|c k m j| | | | | | |]; try discriminate Fin.
  3: { specialize (J c k m j (or_intror eq_refl)). destruct j; cbn; auto. }
  2: { destruct st; try discriminate Fin; cbn; try (apply (K _ C N); cbn; discriminate).
       - split; [intros b|]; apply (K _ C N); cbn; [|discriminate].
         destruct (ReadBytes _ b) as [[[m []] []]|]; discriminate.
       - apply (K _ C N). cbn. destruct (beq _ _); [discriminate|]. destruct (negb _); [discriminate|]. destruct (_ <? _)%Z; discriminate.
       - destruct (dstep s (EvStep i Go)) as [s'|] eqn:D; [left; exists s'; exact D|right; eapply slot_wait; eauto].
       - apply (K _ C N). cbn. destruct (v_shutdown _); discriminate.
       - intros w. apply (K _ C N). cbn. destruct (failMsgShutdown _ _ _); discriminate.
       - apply (K _ C N). cbn. destruct (route_of _); try discriminate; destruct (async _); discriminate.
       - specialize (J c k m j (or_introl eq_refl)). destruct j; cbn; auto.
       - apply (K _ C N). cbn. destruct (negb _); discriminate. }
  all: cbn.
  - intros []; apply (K _ C N); cbn; discriminate.
  - apply (K _ C N). cbn. destruct (negb _); discriminate.
  - apply (K _ C N). cbn. discriminate.
  - apply (K _ C N). cbn. discriminate.
  - destruct (v_rdy (s_srv s)) eqn:V; [left|right; reflexivity]. apply (K _ C N). cbn. rewrite V. discriminate.
  - apply (K _ C N). cbn. discriminate.
Qed.

(* a message that arrives on an open connection is given to its handler without delay *)
Lemma prompt buf ok s i c k m : dreach buf ok s -> v_crashed (s_srv s) = false ->
  nth_error (s_ts s) i = Some (TRd c (RGot k m)) -> is_app m = true ->
  c_active (v_conn (s_srv s) c) = true -> v_shutdown (s_srv s) = false -> (c_limit (v_conn (s_srv s) c) <= 1)%Z ->
  exists s', drun s (repeat (EvStep i Go) 4 ++ [EvStep (if async (c_limit (v_conn (s_srv s) c)) then length (s_ts s) else i) Go]) = Some s' /\
    slog s' = slog s ++ [LStart c k m].
Proof.
  intros R C N A Act Sh Lim. apply is_app_route in A.
  assert (Hb : beq (m_type m) MsgHeartbeat = false).
  { destruct (beq (m_type m) MsgHeartbeat) eqn:E; [|reflexivity]. apply beq_eq in E. exfalso. exact (route_heartbeat _ A E). }
  assert (Lb : (1 <? c_limit (v_conn (s_srv s) c))%Z = false) by (apply Z.ltb_ge; exact Lim).
  cbn [repeat app drun].
  erewrite (dstep_at s); [|exact C|exact N|unfold tstep, rd_step; rewrite Hb, Act, Lb; reflexivity].
  erewrite dstep_at; [|exact C|eapply set_nth_eq; eauto|cbn; rewrite Sh; reflexivity]. cbn [s_ts s_srv].
  erewrite dstep_at; [|exact C|eapply set_nth_eq; eapply set_nth_eq; eauto|reflexivity]. cbn [s_ts s_srv].
  set (ts := set_nth (set_nth (set_nth (s_ts s) i (TRd c (ROps k m))) i (TRd c (RReg k m))) i (TRd c (RDisp k m))).
  assert (Nt : nth_error ts i = Some (TRd c (RDisp k m))).
  { unfold ts. eapply set_nth_eq. eapply set_nth_eq. eapply set_nth_eq. exact N. }
  assert (Lt : length ts = length (s_ts s)) by (unfold ts; rewrite !set_nth_length; reflexivity).
  set (g := with_conn _ c _).
  assert (Cg : v_crashed g = false) by exact C.
  assert (Lg : c_limit (v_conn g c) = c_limit (v_conn (s_srv s) c)).
  { cbn. unfold upd. rewrite Nat.eqb_refl. reflexivity. }
  assert (Gl : v_log g = slog s) by reflexivity.
  clearbody g ts. destruct (async (c_limit (v_conn (s_srv s) c))) eqn:As.
  - assert (D : dstep (MkSys g ts) (EvStep i Go) = Some (MkSys g (set_nth ts i (TRd c RWait) ++ [TJob c k m JStart]))).
    { unfold dstep. cbn [s_srv s_ts]. rewrite Cg, Nt. cbn. rewrite Lg, As. destruct A as [-> | ->]; reflexivity. }
    assert (Nj : nth_error (set_nth ts i (TRd c RWait) ++ [TJob c k m JStart]) (length (s_ts s)) = Some (TJob c k m JStart)).
    { rewrite <- Lt, <- (set_nth_length ts i (TRd c RWait)). rewrite nth_error_app2 by lia. rewrite Nat.sub_diag. reflexivity. }
    rewrite D. erewrite dstep_at; [|exact Cg|exact Nj|reflexivity].
    eexists. split; [reflexivity|]. cbn. rewrite Gl. reflexivity.
  - erewrite (dstep_at (MkSys g ts)); [|exact Cg|exact Nt|].
    2: { cbn. rewrite Lg, As. destruct A as [-> | ->]; reflexivity. }
    erewrite dstep_at; [|exact Cg|cbn; eapply set_nth_eq; eauto|reflexivity].
    eexists. split; [reflexivity|]. cbn. rewrite Gl. reflexivity.
Qed.
