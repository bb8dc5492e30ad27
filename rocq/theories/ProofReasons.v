(* Proofs: calls on in-memory sockets fail for the reason they report. *)
From Coq Require Import List Arith NArith ZArith Lia Bool.
From Verif Require Import BaseBytes BaseConc ModelMessage ModelWrite ModelMemchan SpecWire SpecWrite SpecMemchan SpecReasons.
From Verif Require Import ProofMemchan ProofMemchan2 ProofMemchan3 ProofMemchan4 ProofMemchan5 ProofMemchan6.
Import ListNotations.
Open Scope nat_scope.

(* the pair that a call has found closed *)
Definition found_off (t : thread) : option nat :=
  match t with
  | TRead k _ _ (RdFail RdClosed _) => Some (fst k)
  | TRead k _ _ (RdFail RdTimeout c) => if mid_close c then Some (fst k) else None
  | TWrite k (WReset (WrClosed | WrSockClosed)) => Some (fst k)
  | _ => None
  end.
Lemma found_busy t p : found_off t = Some p -> busy p t = true.
Proof.
  destruct t as [k []|k m d []| | |]; cbn; try discriminate.
  - destruct r; try discriminate; intros H; injection H as <-; rewrite Nat.eqb_refl; reflexivity.
  - destruct r; try discriminate; [|destruct (mid_close cl); [|discriminate]]; intros H; injection H as <-; rewrite Nat.eqb_refl; reflexivity.
Qed.
Lemma calm_no_dial s i t p : calm s -> at_ s i t -> busy p t = true -> dialing p t = false -> forall j u, at_ s j u -> dialing p u = false.
Proof.
  intros C I B D j u J. destruct (dialing p u) eqn:Q; [|reflexivity].
  destruct (Nat.eq_dec j i) as [->|N]; [unfold at_ in *; congruence|]. rewrite (C j i p u t N J I Q) in B. discriminate.
Qed.
Section Calm.
Variables (size : nat) (ok : sys -> Prop).
Hypothesis Ok : forall s, ok s -> calm s.
Lemma found_reach s : mreach size ok s -> forall i t p, at_ s i t -> found_off t = Some p -> off s p.
Proof.
  induction 1 as [|s e s' R IH E O]; intros i t p I F; [destruct i; discriminate|].
  pose proof (calm_reach _ _ _ Ok R) as C. pose proof (flows _ _ _ Ok R) as [FD FS].
  destruct (n_on (s_net s') p) eqn:On'; [exfalso|reflexivity].
  destruct (n_on (s_net s) p) eqn:On.
  2:{ destruct (connects _ _ _ _ E On On') as (j & ch & _ & _ & J).
      assert (N : j <> i) by (intros ->; unfold at_ in *; rewrite I in J; injection J as ->; discriminate).
      pose proof (Ok _ O j i p _ t N J I) as X. cbn in X. rewrite Nat.eqb_refl in X. specialize (X eq_refl).
      rewrite (found_busy _ _ F) in X. discriminate. }
  apply mstep_rel in E as [_ H]. unfold at_ in *.
  assert (Old : nth_error (s_ts s) i = Some t -> False) by (intros A; pose proof (IH _ _ _ A F); congruence).
  assert (G : forall n' t' w u, nth_error (s_ts s) i = Some u -> trel (s_ts s) i (s_net s) u n' t' w -> found_off t' = Some p -> n_on n' p = true -> False).
  { intros n' t' w u U T F' Q. tcases T k st n1 s1 H1 H0.
    - inversion H1; subst; cbn in F'; try discriminate F'; injection F' as <-; congruence.
    - inversion H1; subst; cbn in F'; try discriminate F'. injection F' as <-.
      destruct (FD k) as [x D]. pose proof (d_r _ _ _ _ D _ _ U) as X. cbn in X. rewrite sock_eqb_refl in X. subst g.
      assert (ND : forall j u, nth_error (s_ts s) j = Some u -> dialing (fst k) u = false).
      { eapply calm_no_dial; eauto. cbn. rewrite Nat.eqb_refl. reflexivity. }
      pose proof (s_o _ _ _ (FS (fst k)) On ND) as [X Y].
      assert (shut (s_net s) k = false) by (destruct k as [p []]; assumption). unfold shut in *. congruence.
    - destruct (end_close_net i u s1 n1) as (E1 & _). rewrite E1 in Q.
      destruct u as [|k0 m d []| | |[]]; try discriminate H1; injection H1 as <- <-; try (destruct s1; discriminate F').
      assert (found_off (TRead k0 m d (RdFail r cl)) = Some p -> False) by (intros A; pose proof (IH _ _ _ U A); congruence).
      inversion H0; subst; cbn in F'; try discriminate F'; destruct r; try discriminate F'; cbn in H; auto.
      all: injection F' as <-; netu; netc; unfold upd in Q; rewrite Nat.eqb_refl in Q; discriminate.
    - inversion H1; subst; discriminate F'.
    - inversion H1; subst; discriminate F'. }
  destruct H as [e t0 B|x ch u n' t' X T|x ch u n' t' j v k X T D V J]; cbn in *.
  - apply snoc_lookup in I as [I| ->]; [auto|]. destruct e; try discriminate B; injection B as <-; discriminate F.
  - apply set_nth_lookup in I as [[<- ->]|[_ I]]; [|auto]. eapply G; eauto.
  - apply set_nth_lookup in I as [[<- ->]|[_ I]].
    + destruct V as [-> | ->]; [discriminate F|]. injection F as <-.
      inversion T as [|k1 m d s1 n1 s2 w1 H1|t1 k1 s1 n1 s2 w1 H1 H0| |]; subst; [inversion H1|].
      assert (Q : fst k1 = fst k /\ mid_close s1 = true) by (inversion H0; subst; match goal with Q : nth_error _ j = Some (TWrite ?a WParked) |- _ => rewrite J in Q; injection Q as -> end; split; reflexivity).
      destruct Q as [Q1 Q2]. pose proof (mid_eq _ _ _ (fst k) H1) as M. rewrite Q1, Nat.eqb_refl, Q2 in M. cbn in M.
      destruct (s_m _ _ _ (FS (fst k)) _ _ _ _ X M). congruence.
    + apply set_nth_lookup in I as [[<- ->]|[_ I]]; [|auto]. eapply G; eauto.
Qed.
(* a Read that found the socket closed does not close it itself *)
Lemma closed_start s : mreach size ok s -> forall i k m d c, at_ s i (TRead k m d (RdFail RdClosed c)) -> c = ClStart.
Proof.
  intros R. induction R as [|s e s' R IH E O]; intros i k m d c I; [destruct i; discriminate|].
  apply mstep_rel in E as [_ H].
  destruct (step_threads _ _ _ _ _ H I) as [A|[A|[(ch & t & n' & w & Q1 & J & T & _)|(k0 & v & _ & Q)]]]; try discriminate.
  - eapply IH; eauto.
  - destruct e; discriminate.
  - inversion T as [|k1 m1 d1 s1 n1 s2 w1 H1|t1 k1 s1 n1 s2 w1 H1 H0| |]; subst.
    + inversion H1; reflexivity.
    + destruct t as [| k2 m2 d2 []| | |[]]; try discriminate H1; injection H1 as <- <-; destruct s2; try discriminate; cbn in *.
      all: match goal with Q : TRead _ _ _ _ = TRead _ _ _ _ |- _ => injection Q as -> -> -> -> _ | _ => idtac end; try reflexivity.
      all: pose proof (IH _ _ _ _ _ J); subst cl; inversion H0; subst;
           pose proof (found_reach _ R _ _ _ J eq_refl); congruence.
Qed.
End Calm.

(* what a Read knows that is about to return *)
Definition read_story (i : nat) (l : list event) (t : thread) : Prop :=
  match t with
  | TRead k m d (RdAck r) => exists g b m' okk er, In (LRead i k g b) l /\ ReadBytes m b = Some (m', okk, er) /\
      r = match er with Some _ => RdBad | None => if okk then RdOk m' else RdBad end
  | TRead k m d (RdFail r _) => r = RdClosed \/ (r = RdTimeout /\ d = true)
  | _ => True
  end.
Lemma story_grows i l l' t : read_story i l t -> read_story i (l ++ l') t.
Proof.
  destruct t as [|k m d []| | |]; cbn; auto. intros (g & b & m' & okk & er & A & B). exists g, b, m', okk, er. split; [apply in_or_app; auto|exact B].
Qed.
Lemma trel_log ts i n t n' t' w : trel ts i n t n' t' w -> exists l, n_log n' = n_log n ++ l.
Proof.
  intros T. tcases T k st n1 s1 H1 H0.
  - inversion H1; subst; netu; netc; eauto; exists []; rewrite app_nil_r; reflexivity.
  - inversion H1; subst; netu; netc; eauto; exists []; rewrite app_nil_r; reflexivity.
  - assert (n_log n1 = n_log n) as Q by (inversion H0; subst; reflexivity).
    destruct t as [|k0 m d []| | |[]]; try discriminate H1; destruct s1; cbn; rewrite ?Q; first [exists []; rewrite app_nil_r; (exact Q || reflexivity)|eexists; rewrite <- Q; reflexivity].
  - inversion H1; subst; netu; netc; eauto; try (exists []; rewrite app_nil_r; reflexivity).
    all: rewrite <- app_assoc; eauto.
  - inversion H1; subst; netu; netc; eauto; exists []; rewrite app_nil_r; reflexivity.
Qed.
Lemma story_reach size ok s : mreach size ok s -> forall i t, at_ s i t -> read_story i (mlog s) t.
Proof.
  induction 1 as [|s e s' R IH E O]; intros i t I; [destruct i; discriminate|].
  apply mstep_rel in E as [_ H]. unfold at_ in *.
  assert (G : forall n' t' w u, nth_error (s_ts s) i = Some u -> trel (s_ts s) i (s_net s) u n' t' w -> read_story i (n_log n') t').
  { intros n' t' w u U T. pose proof (IH _ _ U) as Y. tcases T k st n1 s1 H1 H0; try exact Logic.I.
    - inversion H1; subst; cbn; auto.
      match goal with Q : exists m' ok0 e0, _ /\ _ |- _ => destruct Q as (m' & okk & er & A & B) end. eexists _, _, m', okk, er. split; [apply in_or_app; right; left; reflexivity|split; assumption].
    - destruct u as [|k0 m d []| | |[]]; try discriminate H1; destruct s1; exact Logic.I || exact Y. }
  destruct H as [e t0 B|x ch u n' t' X T|x ch u n' t' j v k X T D V J]; cbn in *.
  - apply snoc_lookup in I as [I| ->]; [auto|]. destruct e; try discriminate B; injection B as <-; exact Logic.I.
  - destruct (trel_log _ _ _ _ _ _ _ T) as [l Q]. apply set_nth_lookup in I as [[<- ->]|[_ I]]; [eapply G; eauto|].
    rewrite Q. apply story_grows. auto.
  - destruct (trel_log _ _ _ _ _ _ _ T) as [l Q]. apply set_nth_lookup in I as [[<- ->]|[_ I]]; [exact Logic.I|].
    apply set_nth_lookup in I as [[<- ->]|[_ I]]; [exact (G _ _ _ _ X T)|].
    pose proof (story_grows i _ l _ (IH _ _ I)) as Y. rewrite <- Q in Y. exact Y.
Qed.
Lemma dial_choice s i p st ch s' r : at_ s i (TDial p st) -> mstep s (EvStep i ch) = Some s' -> at_ s' i (TDial p (DlDone r)) ->
  (st = DlHook -> ch = ChAccept false) /\ (st = DlShut -> ch = ChShutting true).
Proof.
  unfold at_. intros I E A. unfold mstep in E. destruct (n_crashed (s_net s)); [discriminate|]. rewrite I in E.
  split; intros ->; cbn in E; destruct ch; try discriminate E; destruct b; try reflexivity; cbn in E; injection E as <-; cbn in A;
    rewrite (set_nth_eq _ _ _ _ I) in A; discriminate.
Qed.
Lemma reasons_gen size (ok : sys -> Prop) s e s' l x : mreach size ok s -> mstep s e = Some s' -> ok s' ->
  (forall s, ok s -> calm s) \/ sure x = true ->
  mlog s' = mlog s ++ l -> In x l -> reason s e s' x.
Proof.
  intros R E O Ok L X. assert (R' : mreach size ok s') by (econstructor; eauto).
  assert (FO : sure x = false -> forall i t p, at_ s i t -> found_off t = Some p -> off s p).
  { destruct Ok as [Ok|Ok]; [|congruence]. intros _. apply (found_reach size ok Ok s R). }
  assert (CS : sure x = false -> forall i k m d c, at_ s i (TRead k m d (RdFail RdClosed c)) -> c = ClStart).
  { destruct Ok as [Ok|Ok]; [|congruence]. intros _. apply (closed_start size ok Ok s R). }
  pose proof (story_reach size ok s R) as SR.
  assert (W : l = [x] -> writers size (mlog s) x).
  { intros ->. pose proof (writers_all _ _ _ R') as Y. apply (Y (mlog s) x []). exact L. }
  assert (One : forall y, mlog s' = mlog s ++ [y] -> l = [y] /\ x = y).
  { intros y Q. rewrite L in Q. apply app_inv_head in Q. subst l. destruct X as [->|[]]. auto. }
  assert (Zero : mlog s' = mlog s -> reason s e s' x).
  { intros Q. rewrite L in Q. rewrite <- (app_nil_r (mlog s)) in Q at 2. apply app_inv_head in Q. subst l. destruct X. }
  pose proof (mstep_rel _ _ _ E) as [_ H]. 
  assert (G : forall i ch t n' t' w, e = EvStep i ch -> nth_error (s_ts s) i = Some t -> trel (s_ts s) i (s_net s) t n' t' w ->
    n_log (s_net s') = n_log n' -> n_on (s_net s') = n_on n' -> n_conns (s_net s') = n_conns n' -> nth_error (s_ts s') i = Some t' -> reason s e s' x).
  { clear H. intros i ch t n' t' w Q I T Nl No Nc I'. tcases T k st n1 s1 H1 H0.
    - inversion H1; subst; try (apply Zero; exact Nl); destruct (One _ Nl) as [Ql ->]; cbn; auto.
      + specialize (W Ql). cbn in W. tauto.
      + specialize (W Ql). destruct (invariants _ _ _ R) as [Lk _]. pose proof (L_x _ _ Lk _ _ _ I) as Rs.
        destruct r; cbn in W |- *; try tauto; try (exfalso; destruct Rs as [?|[?|?]]; discriminate); apply (FO eq_refl _ _ _ I); reflexivity.
    - inversion H1; subst; try (apply Zero; exact Nl); destruct (One _ Nl) as [Ql ->]; cbn; auto.
      + split; [assumption|]. intros t k' c A B. unfold at_ in A. rewrite I in A. injection A as <-. discriminate B.
      + pose proof (SR _ _ I) as Y. cbn in Y. destruct Y as (g & b & m' & okk & er & A & B & ->).
        destruct er as [er|]; [|destruct okk]; cbn.
        * exists m, d, (RdAck RdBad), g, b, m', okk, (Some er). repeat split; auto. right. discriminate.
        * exists m, d, (RdAck (RdOk m')), g, b. auto.
        * exists m, d, (RdAck RdBad), g, b, m', false, None. auto.
    - assert (n_log n1 = mlog s) as Q1 by (inversion H0; subst; reflexivity).
      destruct t as [|k0 m d []| | |[]]; try discriminate H1; destruct s1; try (apply Zero; exact (eq_trans Nl Q1)).
      injection H1 as <- <-. cbn in Nl, I', No. destruct (One (LReader i k0 r)) as [Ql ->]; [exact (eq_trans Nl (f_equal (fun z => z ++ [LReader i k0 r]) Q1))|].
      pose proof (SR _ _ I) as Y. cbn in Y. destruct Y as [-> |[-> ->]]; cbn.
      + split; [apply (FO eq_refl _ _ _ I); reflexivity|]. pose proof (CS eq_refl _ _ _ _ _ I). subst cl. intros t k' c A B. unfold at_ in A. rewrite I in A. injection A as <-.
        injection B as <- <-. reflexivity.
      + split; [eauto|]. rewrite No. inversion H0; subst; [netu; netc; assumption|].
        change (n_on (s_net s) (fst k0) = false). apply (FO eq_refl _ _ _ I). reflexivity.
    - inversion H1; subst; try (apply Zero; exact Nl).
      + destruct (One _ Nl) as [Ql ->]. cbn. destruct (dial_choice _ _ _ _ _ _ _ I E I') as [Z Z']. first [rewrite (Z eq_refl)|rewrite (Z' eq_refl)]; reflexivity.
      + destruct (One _ Nl) as [Ql ->]. cbn. assumption.
      + destruct (One _ Nl) as [Ql ->]. cbn. destruct (dial_choice _ _ _ _ _ _ _ I E I') as [Z Z']. first [rewrite (Z eq_refl)|rewrite (Z' eq_refl)]; reflexivity.
      + destruct (One _ Nl) as [Ql ->]. cbn. assumption.
      + cbn in Nl. rewrite L, <- app_assoc in Nl. apply app_inv_head in Nl. subst l. destruct X as [<-|[<-|[]]]; cbn; [exact Logic.I|].
        rewrite Nc. cbn. destruct (existsb (Nat.eqb p) (n_conns (s_net s))) eqn:Z; [|left; reflexivity].
        apply existsb_exists in Z as (y & Y1 & Y2). apply Nat.eqb_eq in Y2. subst y. exact Y1.
    - inversion H1; subst; try (apply Zero; exact Nl); destruct (One _ Nl) as [Ql ->]; exact Logic.I. }
  destruct H as [e t B|i ch t n' t' I T|i ch t n' t' j v k I T D V J].
  - apply Zero. reflexivity.
  - eapply (G i ch t n' t' None); eauto. cbn. eapply set_nth_eq; eauto.
  - eapply (G i ch t n' t' (Some (j, v))); eauto. cbn. rewrite set_nth_ne by auto. eapply set_nth_eq; eauto.
Qed.
Lemma reasons size (ok : sys -> Prop) s e s' l x : (forall s, ok s -> calm s) -> mreach size ok s -> mstep s e = Some s' -> ok s' ->
  mlog s' = mlog s ++ l -> In x l -> reason s e s' x.
Proof. intros Ok R E O. eapply reasons_gen; eauto. Qed.
Lemma sure_reasons size s e s' l x : mreach size anything s -> mstep s e = Some s' -> sure x = true -> mlog s' = mlog s ++ l -> In x l -> reason s e s' x.
Proof. intros R E S. eapply reasons_gen; eauto. exact Logic.I. Qed.
Lemma closed_at_once s i k : n_crashed (s_net s) = false -> off s (fst k) ->
  (forall m d, at_ s i (TRead k m d RdStart) -> u_rlk (n_sock (s_net s) k) = None ->
     exists s', mstep s (EvStep i Go) = Some s' /\ mlog s' = mlog s ++ [LReader i k RdClosed]) /\
  (at_ s i (TWrite k WGet) -> u_wlk (n_sock (s_net s) k) = None ->
     exists s', mstep s (EvStep i Go) = Some s' /\ mlog s' = mlog s ++ [LWriter i k WrDisconnected]) /\
  (at_ s i (TWrite k WFlush) -> exists s', mstep s (EvStep i Go) = Some s' /\ at_ s' i (TWrite k (WReset WrClosed))).
Proof.
  unfold at_, mstep. intros -> Off. split; [|split].
  - intros m d I F. rewrite I. cbn. rewrite F. cbn. rewrite Off. cbn. eexists. split; reflexivity.
  - intros I F. rewrite I. cbn. rewrite F. cbn. rewrite Off. cbn. eexists. split; reflexivity.
  - intros I. rewrite I. cbn. rewrite Off. cbn. eexists. split; [reflexivity|]. eapply set_nth_eq; eauto.
Qed.
