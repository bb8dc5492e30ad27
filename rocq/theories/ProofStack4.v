(* Run: what it returns, and that it returns. *)
From Coq Require Import List Arith ZArith Lia Bool.
From Verif Require Import BaseBytes BaseConc ModelMessage ModelWrite ModelHandle ModelStack SpecWrite SpecStack ProofStack ProofStack2 ProofStack3.
From Verif Require ModelDispatch ModelMemchan SpecDispatch SpecMemchan.
From Verif Require ProofDispatch ProofDispatch3 ProofMemchan ProofMemchan6 ProofMemchan8 ProofStackNet ProofStackSrv.
Import ListNotations.
Open Scope nat_scope.

Lemma shut_return_step s e s' i : ModelDispatch.dstep s e = Some s' ->
  In (ModelDispatch.LShutReturn i) (ModelDispatch.v_log (ModelDispatch.s_srv s')) ->
  In (ModelDispatch.LShutReturn i) (ModelDispatch.v_log (ModelDispatch.s_srv s)) \/
  (e = ModelDispatch.EvStep i ModelDispatch.Go /\ nth_error (ModelDispatch.s_ts s) i = Some ModelDispatch.TShT).
Proof.
  intros H L. destruct (ProofDispatch.dstep_inv _ _ _ H) as (_ & [(u & U & ->)|(j & ch & u & g' & u' & sp & -> & Nj & T & ->)]); cbn in L; [auto|].
  ProofDispatch.inv_tstep T; cbn in L;
    try (left; exact L); try (apply in_app_or in L as [L|[L|[]]]; [left; exact L|try discriminate L]).
  all: try (injection L as ->; right; auto).
  all: repeat (apply in_app_or in L as [L|L]; [|cbn in L; repeat (destruct L as [L|L]; [discriminate L|]); destruct L]); auto.
Qed.
Lemma returned_inactive buf conf ok s : kreach buf conf ok s -> shut_returned s -> ModelMemchan.n_active (vnet s) = false.
Proof.
  induction 1 as [|s e s' R IH H Ok]; intros (i & L); [destruct L|].
  destruct (kstep_inv _ _ _ H) as [_ K]. pose proof (kcase_srv _ _ _ K) as P.
  assert (Old : shut_returned s -> ModelMemchan.n_active (vnet s') = false) by (intros Q; exact (inactive_step _ _ _ K (IH Q))).
  destruct (srv_event e) as [e'|] eqn:Se; [|rewrite P in L; apply Old; exists i; exact L].
  destruct (shut_return_step _ _ _ _ P L) as [L0|[-> Nt]]; [apply Old; exists i; exact L0|].
  apply (inactive_step _ _ _ K).
  pose proof (owned_all _ _ _ _ R) as O.
  assert (G : forall u j ch, k_io s i = Some (u, j) -> returned s u j ch = true -> ModelMemchan.n_active (vnet s) = false).
  { intros u j ch Io Rt. destruct (O_io _ _ O _ _ _ Io) as (t & x & St & Ak & Nx & Tg & _). rewrite Nt in St. injection St as <-.
    destruct Ak as [Ak|(lim & _ & _ & Q & _)]; [|discriminate Q]. cbn in Ak. injection Ak as <-.
    unfold returned in Rt. rewrite Nx in Rt. destruct x as [| | | |st]; try discriminate Rt. destruct st; try discriminate Rt.
    eapply (proj1 (ProofMemchan8.down_inactive _ _ _ (reach_net_any _ _ _ _ R))); [exact Nx|discriminate]. }
  destruct K as [|i0 r0 r1 Nr Rs|Na Nc|e0 n Okn M|j0 lim p n v N0 M Dd|i0 t u0 n St Nu M|i0 ch t v St As Nw Dd|i0 lim v j0 u0 x St As Io Rt Dd|i0 ch t v j0 u0 x St As Io Rt Nc Dd|e v Be Dd]; cbn in Se; try discriminate Se.
  - injection Se as -> ->. rewrite Nt in St. injection St as <-. discriminate As.
  - injection Se as -> ->. eapply G; eauto.
  - injection Se as ->. destruct Be as [Q|(c & Q)]; discriminate Q.
Qed.

(* a Run in progress returns once Shutdown has returned *)
Lemma run_can_return buf conf ok s i : kreach buf conf ok s -> shut_returned s -> alive s -> run_at s i RunWait ->
  exists s', krun s (if k_chan s then [ERunStep i] else [EChan; ERunStep i]) = Some s' /\ run_at s' i RunNil.
Proof.
  intros R Q [A1 A2] A. pose proof (returned_inactive _ _ _ _ R Q) as I.
  assert (Z : forall s0, ModelDispatch.v_crashed (vsrv s0) = false -> ModelMemchan.n_crashed (vnet s0) = false -> k_chan s0 = true ->
    run_at s0 i RunWait -> exists s1, krun s0 [ERunStep i] = Some s1 /\ run_at s1 i RunNil).
  { intros s0 B1 B2 C W. cbn. unfold kstep. rewrite B1, B2. cbn. unfold run_at in W. rewrite W. cbn. rewrite C.
    eexists. split; [reflexivity|]. unfold run_at. cbn. exact (set_nth_eq _ _ _ _ W). }
  destruct (k_chan s) eqn:C; [apply Z; auto|].
  destruct (Z (close_shutdown s) A1 A2 eq_refl A) as (s1 & E & W). exists s1. split; [|exact W].
  assert (F : kstep s EChan = Some (close_shutdown s)) by (unfold kstep; rewrite A1, A2, I, C; reflexivity).
  cbn [krun] in *. rewrite F. exact E.
Qed.
(* Run at its beginning can always go on; what it does is decided then *)
Lemma run_step_later ok s s' i r : klater ok s s' -> run_at s i r -> exists r', run_at s' i r' /\
  match r with
  | RunStart => True
  | RunWait => r' = RunWait \/ r' = RunNil
  | _ => r' = r
  end.
Proof.
  induction 1 as [|s1 e s2 L IH H Ok]; intros A; [exists r; split; [exact A|destruct r; auto]|].
  destruct (IH A) as (r1 & A1 & P). destruct (kstep_inv _ _ _ H) as [_ K]. unfold run_at in *.
  destruct K as [|i0 r0 r2 Nr Rs|Na Nc|e0 n Okn M|j0 lim p n v N0 M Dd|i0 t u0 n St Nu M|i0 ch t v St As Nw Dd|i0 lim v j0 u0 x St As Io Rt Dd|i0 ch t v j0 u0 x St As Io Rt Nc Dd|e v Be Dd];
    try (exists r1; split; [exact A1|exact P]); cbn [with_runs k_runs].
  - exists r1. split; [|exact P]. rewrite nth_error_app1; [exact A1|]. apply nth_error_Some. congruence.
  - destruct (Nat.eq_dec i0 i) as [->|D].
    2:{ exists r1. split; [|exact P]. rewrite set_nth_ne; assumption. }
    exists r2. split; [exact (set_nth_eq _ _ _ _ A1)|]. rewrite A1 in Nr. injection Nr as <-.
    destruct r; auto.
    + destruct P as [-> | ->]; [|discriminate Rs]. cbn in Rs. destruct (k_chan s1); [|discriminate Rs]. injection Rs as <-. auto.
    + subst r1. discriminate Rs.
    + subst r1. discriminate Rs.
Qed.
Lemma klater_reach buf conf ok s s' : kreach buf conf ok s -> klater ok s s' -> kreach buf conf ok s'.
Proof. intros R L. induction L; [exact R|econstructor; eauto]. Qed.
Lemma inactive_later ok s s' : klater ok s s' -> ModelMemchan.n_active (vnet s) = false -> ModelMemchan.n_active (vnet s') = false.
Proof.
  induction 1 as [|s1 e s2 L IH H Ok]; auto. intros A. destruct (kstep_inv _ _ _ H) as [_ K]. exact (inactive_step _ _ _ K (IH A)).
Qed.
(* Run called after Shutdown has returned does not wait: it returns an error *)
Lemma run_refused buf conf ok s s' i r : kreach buf conf ok s -> shut_returned s -> klater ok s s' ->
  length (k_runs s) <= i -> run_at s' i r -> r = RunStart \/ r = RunErr.
Proof.
  intros R Q L N. pose proof (returned_inactive _ _ _ _ R Q) as I. revert r.
  induction L as [|s1 e s2 L IH H Ok]; intros r A.
  - exfalso. unfold run_at in A. assert (i < length (k_runs s)) by (apply nth_error_Some; congruence). lia.
  - destruct (kstep_inv _ _ _ H) as [_ K]. unfold run_at in *. pose proof (inactive_later _ _ _ L I) as I1.
    destruct K as [|i0 r0 r2 Nr Rs|Na Nc|e0 n Okn M|j0 lim p n v N0 M Dd|i0 t u0 n St Nu M|i0 ch t v St As Nw Dd|i0 lim v j0 u0 x St As Io Rt Dd|i0 ch t v j0 u0 x St As Io Rt Nc Dd|e v Be Dd];
      try (exact (IH _ A)); cbn [with_runs k_runs] in A.
    + apply nth_error_snoc_some in A as [A|[_ ->]]; [exact (IH _ A)|auto].
    + apply set_nth_lookup in A as [[-> ->]|[_ A]]; [|exact (IH _ A)].
      destruct (IH _ Nr) as [-> | ->]; [|discriminate Rs]. cbn in Rs. rewrite I1 in Rs. injection Rs as <-. auto.
Qed.
Lemma run_can_fail buf conf ok s i : kreach buf conf ok s -> alive s -> run_at s i RunStart ->
  exists s', krun s [ERunStep i] = Some s' /\ (run_at s' i RunWait \/ run_at s' i RunErr) /\ (shut_returned s -> run_at s' i RunErr).
Proof.
  intros R [A1 A2] A. unfold run_at in A. cbn. unfold kstep. rewrite A1, A2. cbn. rewrite A. cbn. eexists. split; [reflexivity|].
  unfold run_at. cbn. rewrite (set_nth_eq _ _ _ _ A). split; [destruct (ModelMemchan.n_active (vnet s)); auto|].
  intros Q. rewrite (returned_inactive _ _ _ _ R Q). reflexivity.
Qed.
(* a Run that began while Shutdown was not called does not return an error *)
Lemma run_begins buf conf ok s s' i r : kreach buf conf ok s -> ~ shut_called s -> run_at s i r -> klater ok s s' ->
  r <> RunStart -> forall r', run_at s' i r' -> r' = RunWait \/ r' = RunNil.
Proof.
  intros R Q A L D r' A'.
  assert (r = RunWait) as ->.
  { destruct r; auto; try congruence; exfalso; apply Q; eapply run_blocks; eauto. }
  destruct (run_step_later _ _ _ _ _ L A) as (r1 & A1 & P). unfold run_at in *. congruence.
Qed.
