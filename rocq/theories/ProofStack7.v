(* Dials and Shutdown; messages and their connections. *)
From Coq Require Import List Arith ZArith Lia Bool.
From Verif Require Import BaseBytes BaseConc ModelMessage ModelWrite ModelHandle ModelStack SpecWrite SpecStack.
From Verif Require Import ProofStack ProofStack2 ProofStack3 ProofStack4 ProofStack5 ProofStack6.
From Verif Require ModelDispatch ModelMemchan SpecDispatch SpecMemchan.
From Verif Require ProofDispatch ProofDispatch3 ProofMemchan ProofMemchan2 ProofMemchan5 ProofMemchan6 ProofMemchan7 ProofMemchan8 ProofStackNet ProofStackSrv.
Import ListNotations.
Open Scope nat_scope.

(* ---------- one handleConnection for each successful dial ---------- *)
Definition adding (p : nat) (t : ModelMemchan.thread) : nat :=
  match t with ModelMemchan.TDial q ModelMemchan.DlAdd => if q =? p then 1 else 0 | _ => 0 end.
Lemma trel_new ts i n t n' t' w p : ProofMemchan.trel ts i n t n' t' w ->
  count (new_of p) (ModelMemchan.n_log n') = count (new_of p) (ModelMemchan.n_log n) + adding p t.
Proof.
  intros T. ProofMemchan2.tcases T k st n1 s1 H1 H0.
  - inversion H1; subst; ProofMemchan.netu; ProofMemchan.netc; rewrite ?count_app; cbn; lia.
  - inversion H1; subst; ProofMemchan.netu; ProofMemchan.netc; rewrite ?count_app; cbn; lia.
  - assert (Q : ModelMemchan.n_log n1 = ModelMemchan.n_log n) by (destruct H0; reflexivity).
    destruct t as [| ? ? ? []| | |[]]; try discriminate H1; destruct s1; cbn [ProofMemchan.end_close ProofMemchan.to_close]; ProofMemchan.netu; ProofMemchan.netc; rewrite ?count_app, ?Q; cbn; lia.
  - inversion H1; subst; ProofMemchan.netu; ProofMemchan.netc; rewrite ?count_app; cbn; try lia. destruct (p0 =? p); cbn; lia.
  - inversion H1; subst; ProofMemchan.netu; ProofMemchan.netc; rewrite ?count_app; cbn; lia.
Qed.
Lemma count_ext {A} (f g : A -> bool) l : (forall x, In x l -> f x = g x) -> count f l = count g l.
Proof. induction l as [|x l IH]; intros H; [reflexivity|]. cbn. rewrite (H x (or_introl eq_refl)), IH; [reflexivity|]. intros y I. apply H. right. exact I. Qed.
Lemma count_none {A} (f : A -> bool) l : (forall x, In x l -> f x = false) -> count f l = 0.
Proof. induction l as [|x l IH]; intros H; [reflexivity|]. cbn. rewrite (H x (or_introl eq_refl)), IH; [reflexivity|]. intros y I. apply H. right. exact I. Qed.
Lemma accepted_all buf conf ok s p : kreach buf conf ok s -> accepted s p = count (new_of p) (tlog s).
Proof.
  induction 1 as [|s e s' R IH H Ok]; [reflexivity|].
  destruct (kstep_inv _ _ _ H) as [_ K]. pose proof (owned_all _ _ _ _ R) as O. pose proof (O_lt _ _ O) as Lt.
  set (F := fun (s : stack) i => match k_new s i with Some (q, _) => q =? p | None => false end).
  assert (A : forall s, accepted s p = count (F s) (seq 0 (length (ModelDispatch.s_ts (k_srv s))))) by reflexivity.
  pose proof (srv_grow _ _ _ K) as G.
  assert (Fl : forall i, i < length (ModelDispatch.s_ts (k_srv s)) -> F s' i = F s i) by (intros i Li; unfold F; rewrite (new_keep _ _ _ K _ Li); reflexivity).
  rewrite A in IH |- *.
  assert (Sp : count (F s') (seq 0 (length (ModelDispatch.s_ts (k_srv s')))) =
    count (F s) (seq 0 (length (ModelDispatch.s_ts (k_srv s)))) +
    count (F s') (seq (length (ModelDispatch.s_ts (k_srv s))) (length (ModelDispatch.s_ts (k_srv s')) - length (ModelDispatch.s_ts (k_srv s))))).
  { replace (length (ModelDispatch.s_ts (k_srv s'))) with (length (ModelDispatch.s_ts (k_srv s)) + (length (ModelDispatch.s_ts (k_srv s')) - length (ModelDispatch.s_ts (k_srv s)))) at 1 by lia.
    rewrite seq_app, count_app. f_equal. apply count_ext. intros i Ii. apply in_seq in Ii. apply Fl. lia. }
  rewrite Sp, IH. clear Sp.
  assert (Z : (forall i, k_new s' i = k_new s i) -> count (new_of p) (tlog s') = count (new_of p) (tlog s) ->
    count (new_of p) (tlog s) + count (F s') (seq (length (ModelDispatch.s_ts (k_srv s))) (length (ModelDispatch.s_ts (k_srv s')) - length (ModelDispatch.s_ts (k_srv s)))) = count (new_of p) (tlog s')).
  { intros Same E. rewrite E, (count_none (F s')); [lia|]. intros i Ii. apply in_seq in Ii. unfold F. rewrite Same.
    destruct (k_new s i) as [[q g]|] eqn:W; [|reflexivity]. specialize (Lt _ _ W). lia. }
  assert (M : forall e' n, ModelMemchan.mstep (k_net s) e' = Some n ->
    count (new_of p) (ModelMemchan.n_log (ModelMemchan.s_net n)) = count (new_of p) (tlog s) +
      match e' with ModelMemchan.EvStep j _ => match nthread s j with Some t => adding p t | None => 0 end | _ => 0 end).
  { intros e' n E. destruct (ProofMemchan.mstep_rel _ _ _ E) as [_ Q].
    destruct Q as [e0 t B|i ch t n' t' I T|i ch t n' t' x v k I T Ne V J]; cbn [ModelMemchan.s_net].
    - destruct e0; try discriminate B; lia.
    - rewrite I. exact (trel_new _ _ _ _ _ _ _ _ T).
    - rewrite I. exact (trel_new _ _ _ _ _ _ _ _ T). }
  destruct K as [|i0 r0 r1 Nr Rs|Na Nc|e0 n Okn Mn|j0 lim p0 n v N0 Mn Dd|i0 t u0 n St Nu Mn|i0 ch t v St As Nt Dd|i0 lim v j0 u0 x St As Io Rt Dd|i0 ch t v j0 u0 x St As Io Rt Nc Dd|e v Be Dd];
    try (apply Z; reflexivity).
  - apply Z; [reflexivity|]. cbn. rewrite (M _ _ Mn). destruct e0 as [| | | | |j ch]; try lia. cbn in Okn.
    destruct (nthread s j) as [[|  | |q [] |]|]; try discriminate Okn; cbn; lia.
  - pose proof (M _ _ Mn) as Mc. cbv beta iota in Mc. rewrite N0 in Mc. cbn in Mc |- *.
    rewrite Mc. f_equal. destruct (ProofDispatch.dstep_inv _ _ _ Dd) as (_ & [(u & U & E)|(j & ch & u & g' & u' & sp & E1 & _)]); [|discriminate E1].
    rewrite E. cbn. rewrite app_length. cbn. replace (length (ModelDispatch.s_ts (k_srv s)) + 1 - length (ModelDispatch.s_ts (k_srv s))) with 1 by lia.
    cbn. unfold F. cbn. rewrite put_eq, Nat.eqb_refl. destruct (p0 =? p); reflexivity.
  - apply Z; [reflexivity|]. cbn. rewrite (M _ _ Mn). destruct u0; cbn; lia.
Qed.
(* ... and each dial that succeeded announced one *)
Lemma dial_news buf conf ok s p : kreach buf conf ok s ->
  count (new_of p) (tlog s) = count (fun e => match e with ModelMemchan.LDialed _ q ModelMemchan.DlNil => q =? p | _ => false end) (tlog s).
Proof.
  intros R. pose proof (reach_net_any _ _ _ _ R) as N. clear R. induction N as [|s0 e s' R IH H Ok]; [reflexivity|].
  destruct (ProofMemchan.mstep_rel _ _ _ H) as [_ Q].
  assert (T : forall ts i n t n' t' w, ProofMemchan.trel ts i n t n' t' w ->
    count (fun e => match e with ModelMemchan.LDialed _ q ModelMemchan.DlNil => q =? p | _ => false end) (ModelMemchan.n_log n') =
    count (fun e => match e with ModelMemchan.LDialed _ q ModelMemchan.DlNil => q =? p | _ => false end) (ModelMemchan.n_log n) + adding p t).
  { intros ts i n t n' t' w T. ProofMemchan2.tcases T k st n1 s1 H1 H0.
    - inversion H1; subst; ProofMemchan.netu; ProofMemchan.netc; rewrite ?count_app; cbn; lia.
    - inversion H1; subst; ProofMemchan.netu; ProofMemchan.netc; rewrite ?count_app; cbn; lia.
    - assert (E : ModelMemchan.n_log n1 = ModelMemchan.n_log n) by (destruct H0; reflexivity).
      destruct t as [| ? ? ? []| | |[]]; try discriminate H1; destruct s1; cbn [ProofMemchan.end_close ProofMemchan.to_close]; ProofMemchan.netu; ProofMemchan.netc; rewrite ?count_app, ?E; cbn; lia.
    - inversion H1; subst; ProofMemchan.netu; ProofMemchan.netc; rewrite ?count_app; cbn; try lia. destruct (p0 =? p); cbn; lia.
    - inversion H1; subst; ProofMemchan.netu; ProofMemchan.netc; rewrite ?count_app; cbn; lia. }
  destruct Q as [e0 t B|i ch t n' t' I T0|i ch t n' t' x v k I T0 Ne V J]; cbn [ModelMemchan.s_net]; [exact IH| |];
    (etransitivity; [exact (trel_new _ _ _ _ _ _ _ _ T0)|]); rewrite IH; symmetry; exact (T _ _ _ _ _ _ _ T0).
Qed.

(* ---------- no new connections once Shutdown has set the flag ---------- *)
Lemma flag_step s e s' : kcase s e s' -> ModelDispatch.v_shutdown (vsrv s) = true -> ModelDispatch.v_shutdown (vsrv s') = true.
Proof.
  intros K F. apply kcase_srv in K. destruct (srv_event e) as [e'|]; [|rewrite K; exact F].
  destruct (ProofDispatch.dstep_inv _ _ _ K) as (_ & [(u & U & E)|(j & ch & u & g' & u' & sp & E1 & Nj & T & E)]); rewrite E; [exact F|].
  exact (ProofDispatch.e_shut _ _ (ProofDispatch.tstep_ext _ _ _ _ _ _ _ T) F).
Qed.
Lemma unasked_step s e s' j t t' : kcase s e s' -> ModelDispatch.v_shutdown (vsrv s) = true -> nthread s j = Some t -> unasked t = true ->
  nthread s' j = Some t' -> unasked t' = true.
Proof.
  intros K F N U N'. pose proof (kcase_net _ _ _ K) as P.
  destruct (net_event s e) as [e'|] eqn:Ne; [|rewrite P in N'; congruence].
  destruct (ProofMemchan.mstep_rel _ _ _ P) as [_ Q].
  assert (St : (exists ch, e' = ModelMemchan.EvStep j ch) \/ forall ch, e' <> ModelMemchan.EvStep j ch).
  { destruct e' as [| | | | |i ch]; try (right; discriminate). destruct (Nat.eq_dec i j) as [->|D]; [left; eauto|right; congruence]. }
  destruct St as [(ch & ->)|Hn].
  - destruct t as [k st|k m d st|k st|p st|st];
      try (destruct (nthread_keep _ _ _ K _ _ N) as (x & X1 & X2); rewrite N' in X1; injection X1 as <-; destruct t'; try discriminate X2; reflexivity).
    assert (Okn : st = ModelMemchan.DlAdd \/ net_ok s (ModelMemchan.EvStep j ch) = true).
    { destruct K as [|i0 r0 r1 Nr Rs|Na Nc|e0 n Ok M|j0 lim p0 n v N0 M Dd|i0 t u0 n St Nu M|i0 ch0 t v St As Nt Dd|i0 lim v j0 u0 x St As Io Rt Dd|i0 ch0 t v j0 u0 x St As Io Rt Nc Dd|e v Be Dd]; cbn in Ne; try discriminate Ne.
      - injection Ne as ->. auto.
      - injection Ne as -> _. left. congruence.
      - rewrite St, Nu in Ne. destruct u0; discriminate Ne. }
    destruct Okn as [->|Okn]; [discriminate U|].
    unfold ModelMemchan.mstep in P. destruct (ModelMemchan.n_crashed (vnet s)); [discriminate P|]. rewrite N in P. cbn [ModelMemchan.tstep] in P.
    destruct (ModelMemchan.dial_step j (vnet s) p st ch) as [[[n' st'] w]|] eqn:W; [|discriminate P].
    assert (X : w = None /\ unasked (ModelMemchan.TDial p st') = true).
    { cbn in Okn. rewrite N in Okn. destruct st, ch; cbn [ModelMemchan.dial_step] in W; try discriminate W; try discriminate U;
        unfold ModelMemchan.reset_chan in W;
        repeat match type of W with context [if ?x then _ else _] => destruct x; try discriminate W end; injection W as <- <- <-; split; try reflexivity.
      rewrite F in Okn. discriminate Okn. }
    destruct X as [-> X]. cbn in P. injection P as P. rewrite <- P in N'. cbn in N'. rewrite (set_nth_eq _ _ _ _ N) in N'. injection N' as <-. exact X.
  - destruct (others_thread _ _ _ _ _ Q Hn N) as [A|(k & v & -> & A)]; unfold SpecMemchan.at_ in A; rewrite N' in A; injection A as ->; [exact U|reflexivity].
Qed.
Lemma late_dial buf conf ok s s' j : kreach buf conf ok s -> shut_called s -> klater ok s s' ->
  (forall t, nthread s j = Some t -> unasked t = true) ->
  forall p, ~ In (ModelMemchan.LDialed j p ModelMemchan.DlNil) (tlog s').
Proof.
  intros R (i & Sc) L U p Di.
  assert (F : ModelDispatch.v_shutdown (vsrv s) = true).
  { apply (ProofDispatch3.shutdown_logged _ _ _ (reach_srv_any _ _ _ _ R)). eauto. }
  pose proof (klater_reach _ _ _ _ _ R L) as R'.
  pose proof (ProofMemchan6.dialed_done _ _ _ (reach_net_any _ _ _ _ R') _ _ _ Di) as A.
  assert (G : ModelDispatch.v_shutdown (vsrv s') = true /\ forall t, nthread s' j = Some t -> unasked t = true).
  { clear R' Di A. induction L as [|s1 e s2 L IH H Ok]; [auto|]. destruct IH as [F1 U1]; auto.
    destruct (kstep_inv _ _ _ H) as [_ K]. split; [exact (flag_step _ _ _ K F1)|].
    intros t2 N2. destruct (nthread s1 j) as [t1|] eqn:N1; [exact (unasked_step _ _ _ _ _ _ K F1 N1 (U1 _ eq_refl) N2)|].
    pose proof (kcase_net _ _ _ K) as P. destruct (net_event s1 e) as [e'|]; [|rewrite P in N2; congruence].
    destruct (ProofMemchan.mstep_rel _ _ _ P) as [_ Q]. destruct (ProofStackNet.tags_back _ _ _ _ _ Q N2) as [(u & X & _)|[_ B]].
    - unfold SpecMemchan.at_ in X. congruence.
    - destruct e'; try discriminate B; injection B as <-; reflexivity. }
  destruct G as [_ G]. unfold SpecMemchan.at_ in A. specialize (G _ A). discriminate G.
Qed.
