(* Run and Shutdown over the in-memory transport. *)
From Coq Require Import List Arith ZArith Lia Bool.
From Verif Require Import BaseBytes BaseConc ModelMessage ModelWrite ModelHandle ModelStack SpecWrite SpecStack ProofStack.
From Verif Require ModelDispatch ModelMemchan SpecDispatch SpecMemchan.
From Verif Require ProofDispatch ProofDispatch3 ProofMemchan ProofMemchan6 ProofStackNet ProofStackSrv.
Import ListNotations.
Open Scope nat_scope.

Lemma reply_down p r : reply p r <> Some UDown.
Proof. destruct r as [[]|]; discriminate. Qed.
Lemma next_down s i t : next_use s i t = Some UDown -> t = ModelDispatch.TShT.
Proof.
  assert (A : asks s i t = Some UDown -> t = ModelDispatch.TShT).
  { intros H. destruct t as [| |c st|c k m j| | | | | | |]; cbn in H; try discriminate H; try reflexivity.
    - destruct (k_new s i) as [[]|]; cbn in H; discriminate H.
    - destruct st as [| | | | | |k m| | |k m j| | | |]; try discriminate H; try destruct (reply_down _ _ H).
      destruct j as [| |r| | | | |]; try discriminate H. destruct (reply_down _ _ H).
    - destruct j as [| |r| | | | |]; try discriminate H. destruct (reply_down _ _ H). }
  unfold next_use. destruct (k_io s i) as [[[] j]|]; try discriminate; auto.
  destruct t; try discriminate. destruct (nthread s j) as [[? []| | | |]|]; try discriminate. destruct r; discriminate.
Qed.
(* calls of Shutdown that reached the transport *)
Definition reached (s : stack) : Prop :=
  exists t, In t (ModelDispatch.s_ts (k_srv s)) /\ ProofDispatch3.returning t = true.
Record base (s : stack) : Prop := {
  B_chan : k_chan s = true -> ModelMemchan.n_active (vnet s) = false;
  B_down : (exists j st, nthread s j = Some (ModelMemchan.TDown st)) -> reached s;
  B_runs : forall i r, nth_error (k_runs s) i = Some r ->
    match r with RunNil => k_chan s = true | RunErr => ModelMemchan.n_active (vnet s) = false | _ => True end }.

Lemma inactive_step s e s' : kcase s e s' -> ModelMemchan.n_active (vnet s) = false -> ModelMemchan.n_active (vnet s') = false.
Proof.
  intros K A. apply kcase_net in K. destruct (net_event s e) as [e'|]; [|rewrite K; exact A].
  destruct (ProofMemchan.mstep_rel _ _ _ K) as [_ Q]. exact (ProofMemchan6.inactive_stays _ _ _ Q A).
Qed.
Lemma reached_step s e s' : kcase s e s' -> reached s -> reached s'.
Proof.
  intros K (t & I & Rt). apply kcase_srv in K. destruct (srv_event e) as [e'|]; [|exists t; rewrite K; auto].
  apply In_nth_error in I as (i & N). destruct (ProofStackSrv.returning_stays _ _ _ _ _ K N Rt) as (t' & N' & Rt').
  exists t'. split; [eapply nth_error_In; eauto|exact Rt'].
Qed.
Lemma chan_stays s e s' : kcase s e s' -> k_chan s = true -> k_chan s' = true.
Proof. intros [] C; cbn; auto. Qed.
Lemma base_step s e s' : kcase s e s' -> base s -> base s'.
Proof.
  intros K [B1 B2 B3].
  assert (N := inactive_step _ _ _ K). assert (Ch := chan_stays _ _ _ K).
  constructor.
  - intros C. destruct K; cbn in C |- *; auto.
  - intros (j & st & A).
    assert (Q : (exists i t, sthread s i = Some t /\ next_use s i t = Some UDown) \/ exists j st, nthread s j = Some (ModelMemchan.TDown st)).
    { pose proof (kcase_net _ _ _ K) as P. destruct (net_event s e) as [e'|] eqn:Ne; [|rewrite P in A; eauto].
      destruct (ProofMemchan.mstep_rel _ _ _ P) as [_ Q].
      destruct (ProofStackNet.tags_back _ _ _ _ _ Q A) as [(u & U & T)|[_ Bg]].
      - right. destruct u; try discriminate T. exists j. eauto.
      - assert (E : e' = ModelMemchan.EvDown) by (destruct e'; try discriminate Bg; reflexivity). subst e'.
        destruct K as [|?|?|e0 n Ok M|j0 lim p n v N0 M Dd|i t u n St Nu M|? ?|? ?|? ?|? ?]; cbn in Ne; try discriminate Ne.
        + injection Ne as ->. discriminate Ok.
        + rewrite St, Nu in Ne. destruct u; try discriminate Ne. left. eauto. }
    apply (reached_step _ _ _ K). destruct Q as [(i & t & St & Nu)|Q]; [|auto].
    apply next_down in Nu. subst t. exists ModelDispatch.TShT. split; [eapply nth_error_In; eauto|reflexivity].
  - assert (Old : forall i r, nth_error (k_runs s) i = Some r ->
      match r with RunNil => k_chan s' = true | RunErr => ModelMemchan.n_active (vnet s') = false | _ => True end).
    { intros i r E. specialize (B3 i r E). destruct r; auto. }
    intros i r E. destruct K as [|i0 r0 r1 Nr Rs|?|e0 n Ok M|j0 lim p n v N0 M Dd|i0 t u n St Nu M|? ?|? ?|? ?|? ?];
      try exact (Old i r E).
    + cbn in E |- *. apply nth_error_snoc_some in E as [E|[_ ->]]; [exact (B3 i r E)|exact Logic.I].
    + cbn in E |- *. apply set_nth_lookup in E as [[-> ->]|[_ E]]; [|exact (B3 i r E)].
      destruct r0; cbn in Rs; try discriminate Rs.
      * destruct (ModelMemchan.n_active (vnet s)) eqn:Ac; injection Rs as <-; auto.
      * destruct (k_chan s) eqn:Kc; [|discriminate Rs]. injection Rs as <-. reflexivity.
Qed.
Lemma base_all buf conf ok s : kreach buf conf ok s -> base s.
Proof.
  induction 1 as [|s e s' R IH H Ok].
  - constructor; cbn; [discriminate| |].
    + intros (j & st & A). destruct j; discriminate A.
    + intros [] r; discriminate.
  - destruct (kstep_inv _ _ _ H) as [_ K]. exact (base_step _ _ _ K IH).
Qed.

Lemma inactive_reached buf conf ok s : kreach buf conf ok s -> ModelMemchan.n_active (vnet s) = false -> reached s.
Proof.
  intros R A. apply (B_down _ (base_all _ _ _ _ R)).
  exact (ProofStackNet.down_exists _ _ _ (reach_net_any _ _ _ _ R) A).
Qed.
Lemma reached_called buf conf ok s : kreach buf conf ok s -> reached s -> shut_called s /\ ModelDispatch.v_shutdown (vsrv s) = true.
Proof.
  intros R Q. pose proof (reach_srv_any _ _ _ _ R) as D. pose proof (ProofStackSrv.returning_flag _ _ _ D Q) as F.
  split; [|exact F]. exact (proj1 (ProofDispatch3.shutdown_logged _ _ _ D) F).
Qed.
Lemma run_inactive buf conf ok s i r : kreach buf conf ok s -> run_at s i r -> r = RunNil \/ r = RunErr ->
  ModelMemchan.n_active (vnet s) = false.
Proof.
  intros R A Q. destruct (base_all _ _ _ _ R) as [B1 _ B3]. specialize (B3 i r A). destruct Q; subst; auto.
Qed.
(* Run returns only after Shutdown was called *)
Lemma run_blocks buf conf ok s i r : kreach buf conf ok s -> run_at s i r -> r = RunNil \/ r = RunErr -> shut_called s.
Proof.
  intros R A Q. apply (reached_called _ _ _ _ R). eapply inactive_reached; eauto. eapply run_inactive; eauto.
Qed.
Lemma quiet_srv buf conf s : kreach buf conf quiet s -> SpecDispatch.dreach buf SpecDispatch.calm (k_srv s).
Proof. apply reach_srv. intros s0 e s' Q. unfold quiet in Q. destruct (srv_event e); auto. Qed.
(* ... and when every handler has returned, every request was answered *)
Lemma run_graceful buf conf s i r : kreach buf conf quiet s -> run_at s i r -> r = RunNil \/ r = RunErr ->
  (forall c k m, In (ModelDispatch.LStart c k m) (dlog s) -> In (ModelDispatch.LEnd c k) (dlog s)) /\
  (forall c k m, In (ModelDispatch.LStart c k m) (dlog s) -> route_of (m_type m) = RtRequest ->
     exists x st, In (ModelDispatch.LReply c k m x st) (dlog s)).
Proof.
  intros R A Q. pose proof (run_inactive _ _ _ _ _ _ R A Q) as Ina.
  apply (ProofStackSrv.drained_done buf (k_srv s) (quiet_srv _ _ _ R)). exact (inactive_reached _ _ _ _ R Ina).
Qed.
