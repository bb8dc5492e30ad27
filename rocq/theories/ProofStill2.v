(* A server over the in-memory transport that does nothing any more. *)
From Coq Require Import List Arith ZArith Lia Bool.
From Verif Require Import BaseBytes BaseConc ModelMessage ModelWrite ModelHandle ModelStack SpecWrite SpecStack SpecStill.
From Verif Require Import ProofStack ProofStack2 ProofStack3 ProofStack4 ProofStack9 ProofStack12 ProofStill.
From Verif Require ModelDispatch ModelMemchan SpecDispatch SpecMemchan SpecSettle SpecWaits.
From Verif Require ProofDispatch ProofDispatch2 ProofDispatch3 ProofDispatch4 ProofDispatch5 ProofMemchan ProofStackNet ProofStackSrv ProofSettle ProofWaits.
Import ListNotations.
Open Scope nat_scope.

Section Still.
Variables (buf : nat) (conf : bytes) (s : stack).
Hypotheses (R : kreach buf conf tidy s) (Al : alive s) (St : still s).
Let O := owned_all _ _ _ _ R.
Let Rs := reach_srv_any _ _ _ _ R.
Lemma net_orderly : SpecMemchan.mreach buf SpecMemchan.orderly (k_net s).
Proof. apply (reach_net buf conf tidy SpecMemchan.orderly s); [|exact R]. intros s0 e0 s1 [_ H]. exact H. Qed.
Lemma srv_calm : SpecDispatch.dreach buf SpecDispatch.calm (k_srv s).
Proof. apply (reach_srv buf conf tidy SpecDispatch.calm s); [|exact R]. intros s0 e0 s1 [H _]. exact H. Qed.

Lemma still_srv i : ~ goes s i.
Proof.
  intros [(s' & H)|(ch & s' & H)]; destruct (St _ _ H) as [D|(? & ? & ? & D & _)]; discriminate D.
Qed.
Lemma still_net j : SpecMemchan.can_step (k_net s) j -> exists k, nthread s j = Some (ModelMemchan.TWrite k ModelMemchan.WOpen) /\ foreign s j.
Proof.
  intros C. destruct (calls_go _ _ _ _ R Al _ C) as [[(ch & s' & H)|(H & _)]|(_ & s' & H)].
  - destruct (St _ _ H) as [D|(j' & ch' & k & E & N & F)]; [discriminate D|]. injection E as <- _. eauto.
  - destruct (H 0%Z) as (s' & E). destruct (St _ _ E) as [D|(? & ? & ? & D & _)]; discriminate D.
  - destruct (St _ _ H) as [D|(? & ? & ? & D & _)]; discriminate D.
Qed.
Lemma still_rests p : SpecWaits.rests p (k_net s).
Proof. intros j u N _ C. destruct (still_net _ C) as (k & N' & _). exists k. unfold SpecMemchan.at_ in N. congruence. Qed.
Lemma open_foreign p j : nthread s j = Some (ModelMemchan.TWrite (p, ModelMemchan.Srv) ModelMemchan.WOpen) -> foreign s j.
Proof.
  intros N. pose proof (ProofWaits.open_steps _ _ net_orderly _ (still_rests p) (p, ModelMemchan.Srv) j eq_refl N) as C.
  destruct (still_net _ C) as (_ & _ & F). exact F.
Qed.
Lemma parked_unread p j : nthread s j = Some (ModelMemchan.TWrite (p, ModelMemchan.Srv) ModelMemchan.WParked) -> unread s p.
Proof.
  intros N. pose proof (ProofWaits.rest _ _ net_orderly _ (still_rests p) j _ N (Nat.eqb_refl p) eq_refl) as (On & (g & b & E) & Nr).
  left. exists j, g, b. split; [exact N|]. split; [exact On|]. split; [exact E|exact Nr].
Qed.
Lemma still_call i u j x : k_io s i = Some (u, j) -> nthread s j = Some x -> SpecMemchan.finished x = false -> exists p, writes_to s i p /\ unread s p.
Proof.
  intros Io Nx F. destruct (O_io _ _ O _ _ _ Io) as (t & x' & _ & _ & N' & Tg & _). rewrite Nx in N'. injection N' as <-.
  assert (W : forall p, SpecWaits.on_pair p x = true -> SpecWaits.waits_for (k_net s) x).
  { intros p Op. exact (ProofWaits.rest _ _ net_orderly _ (still_rests p) j _ Nx Op F). }
  destruct u as [p f|p|p|]; destruct x as [k st|k m d st|k st|q st|st]; try discriminate Tg; cbn in Tg.
  - injection Tg as ->. specialize (W p (Nat.eqb_refl p)). exists p. destruct st; try destruct W; try discriminate F.
    + split; [exists f, j, ModelMemchan.WGet; auto|]. destruct H as (j' & [A|A]); [right; left; exists j'; split; [exact A|exact (open_foreign _ _ A)]|exact (parked_unread _ _ A)].
    + split; [exists f, j, ModelMemchan.WGet; auto|]. right. right. exact H.
    + destruct (open_foreign _ _ Nx i _ Io).
    + split; [exists f, j, ModelMemchan.WParked; auto|]. exact (parked_unread _ _ Nx).
  - injection Tg as -> -> ->. specialize (W p (Nat.eqb_refl p)). exfalso. destruct st; try destruct W; try discriminate F.
    + destruct H as (m' & g & A). destruct (O_read _ _ O _ _ _ _ _ A eq_refl) as (i' & Io'). destruct (O_io _ _ O _ _ _ Io') as (t' & x' & _ & _ & N' & Tg & _).
      unfold SpecMemchan.at_ in A. rewrite A in N'. injection N' as <-. discriminate Tg.
    + discriminate H.
  - injection Tg as ->. specialize (W p (Nat.eqb_refl p)). destruct W.
  - exfalso. assert (C : SpecMemchan.can_step (k_net s) j) by (eapply ProofWaits.down_steps; [exact net_orderly|exact Nx|intros ->; discriminate F]).
    destruct (still_net _ C) as (k & N' & _). congruence.
Qed.
Lemma still_held i t : sthread s i = Some t -> held s i t.
Proof.
  assert (Cl : forall i' t', sthread s i' = Some t' -> SpecDispatch.finished t' = false -> (forall c k m, t' <> ModelDispatch.TRd c (ModelDispatch.RSlot k m)) -> t' <> ModelDispatch.TShW ->
    exists p, writes_to s i' p /\ unread s p).
  { intros i' t' N' F A B. destruct (goes_or_kept _ _ _ _ R Al _ _ N') as [G|[G|[(u & j & x & Io & Nx & Fx)|[(c & k & m & -> & _)|[-> _]]]]].
    - destruct (still_srv _ G).
    - congruence.
    - eapply still_call; eauto.
    - destruct (A c k m eq_refl).
    - destruct (B eq_refl). }
  intros N. destruct (goes_or_kept _ _ _ _ R Al _ _ N) as [G|[F|[(u & j & x & Io & Nx & Fx)|[(c & k & m & -> & L)|[-> V]]]]].
  - destruct (still_srv _ G).
  - left. exact F.
  - right. left. eapply still_call; eauto.
  - right. right. left. exists c, k, m. split; [reflexivity|].
    destruct (count (SpecDispatch.holds c) (ModelDispatch.s_ts (k_srv s))) as [|h] eqn:Ch.
    + left. split; [|exact L]. pose proof (ProofDispatch.fine_at _ _ _ _ _ Rs N) as [Sn _]. cbn in Sn. tauto.
    + right. destruct (count_exists (SpecDispatch.holds c) (ModelDispatch.s_ts (k_srv s))) as (i' & t' & N' & Ho); [lia|].
      assert (J : exists k' m' j, t' = ModelDispatch.TJob c k' m' j).
      { destruct t' as [| |c' st|c' k' m' j| | | | | | |]; try discriminate Ho.
        - assert (c' = c) by (destruct st; try discriminate Ho; apply Nat.eqb_eq; exact Ho). subst c'.
          assert (i' = i) as -> by (eapply ProofStackSrv.one_reader; [exact Rs|exact N'|exact N]). rewrite N in N'. injection N' as <-. discriminate Ho.
        - cbn in Ho. apply Nat.eqb_eq in Ho. subst c'. eauto. }
      destruct J as (k' & m' & j & ->). destruct (Cl _ _ N' eq_refl) as (p & Q); [discriminate|discriminate|]. exists i', k', m', j, p. split; [exact N'|exact Q].
  - right. right. right. split; [reflexivity|].
    destruct (ProofDispatch3.shutdown_waits _ _ srv_calm (nth_error_In _ _ N)) as [_ [Q|Q]]; [congruence|].
    destruct (count_exists SpecDispatch.registered (ModelDispatch.s_ts (k_srv s))) as (i' & t' & N' & Ho); [lia|].
    destruct (Cl _ _ N') as (p & P); [destruct t' as [| |? []| | | | | | | |]; try discriminate Ho; reflexivity|intros c k m ->; discriminate Ho|intros ->; discriminate Ho|].
    exists i', t', p. auto.
Qed.
(* nobody keeps the server *)
Hypotheses (Nu : forall p, ~ unread s p) (Ne : forall c, ~ SpecSettle.exhausted (k_srv s) c).
Lemma still_done i t : sthread s i = Some t -> SpecDispatch.finished t = true.
Proof.
  intros N. destruct (still_held _ _ N) as [F|[(p & _ & U)|[(c & k & m & _ & [E|(i' & k' & m' & j & p & _ & _ & U)])|(_ & i' & t' & p & _ & _ & _ & U)]]]; [exact F|destruct (Nu _ U)|destruct (Ne _ E)|destruct (Nu _ U)|destruct (Nu _ U)].
Qed.
Lemma still_shutdown i : In (ModelDispatch.LShutdown i) (dlog s) -> In (ModelDispatch.LShutReturn i) (dlog s).
Proof.
  intros L. destruct (ProofSettle.shutdown_call _ _ _ _ Rs L) as (t & N & [->|[->|[_ Q]]]); [| |exact Q]; pose proof (still_done _ _ N) as D; discriminate D.
Qed.
Lemma still_run i r : shut_called s -> run_at s i r -> r = RunNil \/ r = RunErr.
Proof.
  intros (j & L) Ru. pose proof (returned_inactive _ _ _ _ R (ex_intro _ j (still_shutdown _ L))) as Na.
  assert (No : forall e s', kstep s e = Some s' -> e <> EChan /\ e <> ERunStep i).
  { intros e s' H. split; intros ->; destruct (St _ _ H) as [D|(? & ? & ? & D & _)]; discriminate D. }
  assert (Kc : k_chan s = true).
  { destruct (k_chan s) eqn:Kc; [reflexivity|exfalso]. destruct (No EChan (close_shutdown s)) as [D _]; [|congruence].
    unfold kstep. rewrite (not_crashed _ Al), Na, Kc. reflexivity. }
  unfold run_at in Ru. destruct r; auto; exfalso.
  - destruct (No (ERunStep i) (with_runs (set_nth (k_runs s) i RunErr) s)) as [_ D]; [|congruence].
    unfold kstep. rewrite (not_crashed _ Al), Ru. cbn. rewrite Na. reflexivity.
  - destruct (No (ERunStep i) (with_runs (set_nth (k_runs s) i RunNil) s)) as [_ D]; [|congruence].
    unfold kstep. rewrite (not_crashed _ Al), Ru. cbn. rewrite Kc. reflexivity.
Qed.
End Still.
(* when nothing goes on *)
Lemma still_if buf conf ok s : kreach buf conf ok s -> alive s -> (forall i t, sthread s i = Some t -> kept s i t) ->
  (forall j, SpecMemchan.can_step (k_net s) j -> exists k, nthread s j = Some (ModelMemchan.TWrite k ModelMemchan.WOpen) /\ foreign s j) ->
  (forall i r, run_at s i r -> run_step s r = None) -> ModelMemchan.n_active (vnet s) || k_chan s = true -> still s.
Proof.
  intros R Al Ks Kn Kr Kc e s' H.
  assert (G : forall i t, sthread s i = Some t -> ~ goes s i) by (intros i t N; exact (kept_waits _ _ _ _ R Al _ _ N (Ks _ _ N))).
  destruct e as [|i| |e|j lim|i|e]; [left; reflexivity|..].
  - exfalso. unfold kstep in H. rewrite (not_crashed _ Al) in H. destruct (nth_error (k_runs s) i) as [r|] eqn:N; [|discriminate H]. rewrite (Kr _ _ N) in H. discriminate H.
  - exfalso. unfold kstep in H. rewrite (not_crashed _ Al), Kc in H. discriminate H.
  - destruct e as [k|k m d|k|p| |j ch]; try (left; reflexivity). right.
    assert (C : SpecMemchan.can_step (k_net s) j).
    { unfold kstep in H. rewrite (not_crashed _ Al) in H. destruct (net_ok s (ModelMemchan.EvStep j ch)); [|discriminate H].
      destruct (ModelMemchan.mstep (k_net s) (ModelMemchan.EvStep j ch)) as [n|] eqn:M; [|discriminate H]. exists ch, n. exact M. }
    destruct (Kn _ C) as (k & N & F). exists j, ch, k. auto.
  - exfalso. unfold kstep in H. rewrite (not_crashed _ Al) in H. destruct (nthread s j) as [[| | |p []|]|] eqn:N; try discriminate H.
    destruct (ModelMemchan.mstep (k_net s) (ModelMemchan.EvStep j ModelMemchan.Go)) as [n|] eqn:M; [|discriminate H].
    destruct (Kn j (ex_intro _ _ (ex_intro _ _ M))) as (k & N' & _). congruence.
  - exfalso. destruct (sthread s i) as [t|] eqn:N.
    + apply (G _ _ N). left. eauto.
    + unfold kstep in H. rewrite (not_crashed _ Al), N in H. discriminate H.
  - destruct e as [lim|c| |i ch]; try (left; reflexivity); exfalso. destruct (sthread s i) as [t|] eqn:N.
    + apply (G _ _ N). right. eauto.
    + unfold kstep in H. rewrite (not_crashed _ Al), N in H. discriminate H.
Qed.
