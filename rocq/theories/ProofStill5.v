(* A server over the in-memory transport comes to rest. *)
From Coq Require Import List Arith ZArith Lia Bool.
From Verif Require Import BaseBytes BaseConc ModelMessage ModelWrite ModelHandle ModelStack SpecWrite SpecStack SpecStill.
From Verif Require Import ProofStack ProofStack2 ProofStack3 ProofStack4 ProofStack9 ProofStack12 ProofStill ProofStill4.
From Verif Require ModelDispatch ModelMemchan SpecDispatch SpecMemchan SpecSettle.
From Verif Require ProofDispatch ProofMemchan ProofStackNet ProofSettle.
Import ListNotations.
Open Scope nat_scope.

Fixpoint sumto (f : nat -> nat) (n : nat) : nat := match n with 0 => 0 | S n => sumto f n + f n end.
Lemma sumto_ext f g n : (forall i, i < n -> f i = g i) -> sumto f n = sumto g n.
Proof. induction n as [|n IH]; cbn; intros H; [reflexivity|]. rewrite IH, H; auto. Qed.
Lemma sumto_change f g n i : i < n -> (forall x, x < n -> x <> i -> g x = f x) -> sumto g n + f i = sumto f n + g i.
Proof.
  induction n as [|n IH]; intros L H; [lia|]. cbn. destruct (Nat.eq_dec i n) as [->|D].
  - rewrite (sumto_ext g f n); [lia|]. intros x Lx. apply H; lia.
  - assert (Q : sumto g n + f i = sumto f n + g i) by (apply IH; [lia|intros; apply H; lia]). rewrite (H n) by lia. lia.
Qed.
Lemma sumto_one (b : nat -> bool) n : (forall i j, b i = true -> b j = true -> i = j) -> sumto (fun i => b2i (b i)) n <= 1.
Proof.
  intros U. induction n as [|n IH]; cbn; [lia|]. destruct (b n) eqn:B; [|cbn; lia].
  rewrite (sumto_ext _ (fun _ => 0)); [|intros i L; destruct (b i) eqn:Q; [assert (i = n) by (apply U; auto); lia|reflexivity]].
  clear. cbn. induction n; cbn in *; lia.
Qed.
Lemma sumto_le f g h n : (forall i, i < n -> g i <= f i + h i) -> sumto g n <= sumto f n + sumto h n.
Proof. induction n as [|n IH]; cbn; intros H; [lia|]. pose proof (H n). assert (sumto g n <= sumto f n + sumto h n) by (apply IH; intros; apply H; lia). lia. Qed.

(* ---------- the parts ---------- *)
Definition rnk (t : ModelDispatch.thread) : nat := ProofSettle.rank t + if looping t then 4 else 0.
Definition is_frame (ch : ModelDispatch.choice) : bool := match ch with ModelDispatch.ChFrame _ => true | _ => false end.
Lemma tstep_rnk g i t ch g' t' sp : ModelDispatch.tstep g i t ch = Some (g', t', sp) ->
  ModelDispatch.v_crashed g' = true \/
  rnk t' + match sp with Some x => rnk x | None => 0 end + 1 <= rnk t + if is_frame ch then 13 else 0.
Proof.
  intros H. ProofDispatch.inv_tstep H; unfold rnk; cbn; try (right; lia); left; reflexivity.
Qed.
Definition tok (s : stack) (i : nat) : nat :=
  match k_io s i with Some (URead _, j) => match nthread s j with Some x => b2i (takes x) | None => 0 end | _ => 0 end.
Definition ul (s : stack) (i : nat) : nat := match k_io s i with None => 2 | Some (UWrite _ _, _) => 1 | Some _ => 0 end.
Definition nts (s : stack) : nat := length (ModelDispatch.s_ts (k_srv s)).
Definition phi1 (s : stack) : nat :=
  5 * (total rnk (ModelDispatch.s_ts (k_srv s)) + 13 * (total unacked (ModelMemchan.s_ts (k_net s)) + sumto (tok s) (nts s))) + sumto (ul s) (nts s).
Definition phi2 (s : stack) : nat :=
  (7 * width (k_net s) + 15) * (phi1 s + 38 * count dials (ModelMemchan.s_ts (k_net s))) + total (lf (width (k_net s))) (ModelMemchan.s_ts (k_net s)).
Definition runw (r : run) : nat := match r with RunStart => 2 | RunWait => 1 | _ => 0 end.
Definition phi (s : stack) : nat :=
  if ModelDispatch.v_crashed (vsrv s) || ModelMemchan.n_crashed (vnet s) then 0
  else S (phi2 s + total runw (k_runs s) + if k_chan s then 0 else 1).
Lemma phi_le s s' : alive s -> S (phi2 s' + total runw (k_runs s') + if k_chan s' then 0 else 1) < S (phi2 s + total runw (k_runs s) + if k_chan s then 0 else 1) -> phi s' < phi s.
Proof. intros [A1 A2] H. unfold phi. rewrite A1, A2. cbn [orb]. destruct (_ || _); lia. Qed.
Lemma phi_crash s s' : alive s -> ModelDispatch.v_crashed (vsrv s') = true \/ ModelMemchan.n_crashed (vnet s') = true -> phi s' < phi s.
Proof. intros [A1 A2] H. unfold phi at 2. rewrite A1, A2. cbn [orb]. unfold phi. destruct H as [->| ->]; rewrite ?orb_true_r; cbn [orb]; lia. Qed.
Lemma mul_less w w' x x' l l' : w' <= w -> x' <= x -> l' < l -> w' * x' + l' < w * x + l.
Proof. intros A B C. pose proof (Nat.mul_le_mono _ _ _ _ A B). lia. Qed.
Lemma mul_pay w x x' l l' : x' < x -> l' < l + w -> w * x' + l' < w * x + l.
Proof. intros B C. pose proof (Nat.mul_le_mono_l (S x') x w B). rewrite Nat.mul_succ_r in H. lia. Qed.

(* steps of the server *)
Lemma srv_step s v i ch t g' t' sp s' :
  sthread s i = Some t -> ModelDispatch.tstep (vsrv s) i t ch = Some (g', t', sp) ->
  v = ModelDispatch.MkSys g' (set_nth (ModelDispatch.s_ts (k_srv s)) i t' ++ ProofDispatch.opt_list sp) ->
  k_srv s' = v -> k_net s' = k_net s -> (forall x, k_io s' x = k_io s x \/ x = i /\ k_io s' x = None) ->
  (forall x, nts s <= x -> k_io s x = None) -> (is_frame ch = true -> tok s i = 1 /\ k_io s' i = None) -> alive s ->
  ModelDispatch.v_crashed (vsrv s') = true \/ phi1 s' < phi1 s.
Proof.
  intros N T -> Es En Ei Eo Ef Al. destruct (tstep_rnk _ _ _ _ _ _ _ T) as [C|L]; [left; rewrite Es; exact C|right].
  assert (Li : i < nts s) by (apply nth_error_Some; congruence).
  assert (Tk : forall x, x <> i -> tok s' x = tok s x) by (intros x D; unfold tok; rewrite En; destruct (Ei x) as [->|[E _]]; [reflexivity|congruence]).
  assert (Tu : forall x, x <> i -> ul s' x = ul s x) by (intros x D; unfold ul; destruct (Ei x) as [->|[E _]]; [reflexivity|congruence]).
  assert (Ti : tok s' i <= tok s i) by (unfold tok; rewrite En; destruct (Ei i) as [->|[_ ->]]; lia).
  assert (Ui : ul s' i <= ul s i + 2) by (unfold ul; destruct (Ei i) as [->|[_ ->]]; [lia|destruct (k_io s i) as [[[] ?]|]; lia]).
  assert (Fr : is_frame ch = true -> tok s' i + 1 <= tok s i) by (intros F; destruct (Ef F) as [-> Z]; unfold tok; rewrite Z; lia).
  pose proof (sumto_change (tok s) (tok s') (nts s) i Li (fun x _ D => Tk x D)) as S1.
  pose proof (sumto_change (ul s) (ul s') (nts s) i Li (fun x _ D => Tu x D)) as S2.
  pose proof (total_set rnk (ModelDispatch.s_ts (k_srv s)) i t' t N) as S3.
  assert (New : forall x, nts s <= x -> tok s' x = 0 /\ ul s' x = 2).
  { intros x Lx. assert (Z : k_io s' x = None) by (destruct (Ei x) as [->|[-> _]]; [auto|lia]). unfold tok, ul. rewrite Z. auto. }
  unfold phi1. rewrite En, Es. cbn [ModelDispatch.s_ts]. rewrite total_app.
  assert (Nn : nts s' = nts s + match sp with Some _ => 1 | None => 0 end).
  { unfold nts. rewrite Es. cbn. rewrite app_length, set_nth_length. destruct sp; cbn; lia. }
  rewrite Nn. destruct sp as [x|]; cbn [ProofDispatch.opt_list total].
  - replace (nts s + 1) with (S (nts s)) by lia. cbn [sumto]. destruct (New (nts s) (le_n _)) as [-> ->]. destruct (is_frame ch); [specialize (Fr eq_refl)|]; lia.
  - replace (nts s + 0) with (nts s) by lia. destruct (is_frame ch); [specialize (Fr eq_refl)|]; lia.
Qed.

Section Step.
Variables (buf : nat) (conf : bytes) (ok : stack -> event -> stack -> Prop) (s : stack).
Hypotheses (R : kreach buf conf ok s) (Al : alive s).
Let O := owned_all _ _ _ _ R.
Lemma io_none x : nts s <= x -> k_io s x = None.
Proof.
  intros L. destruct (k_io s x) as [[u j]|] eqn:E; [exfalso|reflexivity]. destruct (O_io _ _ O _ _ _ E) as (t & z & N & _).
  assert (x < nts s) by (apply nth_error_Some; congruence). lia.
Qed.
Lemma returned_frame i u j b : k_io s i = Some (u, j) -> returned s u j (ModelDispatch.ChFrame b) = true -> tok s i = 1.
Proof.
  intros Io Rt. destruct (O_io _ _ O _ _ _ Io) as (t & z & N & _ & Nz & Tg & _). unfold tok. rewrite Io.
  unfold returned in Rt. rewrite Nz in Rt. destruct u as [p f|p|p|]; [destruct z as [| | | |]; try discriminate Rt; destruct s0; discriminate Rt| | |].
  - destruct z as [|k m d st| | |]; try discriminate Rt. destruct st; try discriminate Rt. injection Tg as -> _ _. rewrite Nz. destruct r; try discriminate Rt; reflexivity.
  - destruct z as [| |k st| |]; try discriminate Rt. destruct st; discriminate Rt.
  - destruct z as [| | | |st]; try discriminate Rt. destruct st; discriminate Rt.
Qed.
Lemma srv_less s' v i ch : ModelDispatch.dstep (k_srv s) (ModelDispatch.EvStep i ch) = Some v ->
  k_srv s' = v -> k_net s' = k_net s -> k_runs s' = k_runs s -> k_chan s' = k_chan s -> (forall x, k_io s' x = k_io s x \/ x = i /\ k_io s' x = None) ->
  (is_frame ch = true -> tok s i = 1 /\ k_io s' i = None) -> phi s' < phi s.
Proof.
  intros D Es En Er Ec Ei Ef. destruct (ProofDispatch.dstep_inv _ _ _ D) as (_ & [(u & [] & _)|(i1 & ch1 & t & g' & t' & sp & Q & N & T & Ev)]). injection Q as <- <-.
  destruct (srv_step s v i ch t g' t' sp s' N T Ev Es En Ei io_none Ef Al) as [C|L]; [apply phi_crash; auto|].
  apply phi_le; [exact Al|]. rewrite Er, Ec. unfold phi2. rewrite En.
  assert (P : forall w x x' y c, 0 < w -> x' < x -> S (w * (x' + y) + c) <= w * (x + y) + c).
  { intros w x x' y c Hw Hx. pose proof (Nat.mul_le_mono_l (S (x' + y)) (x + y) w). rewrite Nat.mul_succ_r in H. lia. }
  match goal with |- context [(7 * width ?a + 15) * (phi1 s' + ?y) + ?c] => pose proof (P (7 * width a + 15) (phi1 s) (phi1 s') y c) end. lia.
Qed.
Lemma tok_net n : length (ModelMemchan.s_ts (k_net s)) <= length (ModelMemchan.s_ts n) -> forall j, 
  (forall x, x <> j -> forall u', nth_error (ModelMemchan.s_ts n) x = Some u' -> takes u' = true -> nthread s x = Some u') ->
  forall d, (forall t', nth_error (ModelMemchan.s_ts n) j = Some t' -> b2i (takes t') <= match nthread s j with Some t => b2i (takes t) | None => 0 end + d) -> d <= 1 ->
  sumto (tok (with_net n s)) (nts s) <= sumto (tok s) (nts s) + d.
Proof.
  intros _ j Ox d Oj Ld.
  pose (b := fun i => match k_io s i with Some (URead _, j') => j' =? j | _ => false end).
  assert (U : sumto (fun i => b2i (b i)) (nts s) <= 1).
  { apply sumto_one. unfold b. intros i i' B B'. destruct (k_io s i) as [[[] j1]|] eqn:I1; try discriminate B. destruct (k_io s i') as [[[] j2]|] eqn:I2; try discriminate B'.
    apply Nat.eqb_eq in B, B'. subst. exact (O_inj _ _ O _ _ _ _ _ I1 I2). }
  assert (L : sumto (tok (with_net n s)) (nts s) <= sumto (tok s) (nts s) + sumto (fun i => d * b2i (b i)) (nts s)).
  { apply sumto_le. intros i _. unfold tok, b. cbn. destruct (k_io s i) as [[[] j1]|]; try lia.
    destruct (Nat.eqb_spec j1 j) as [->|D]; cbn [b2i].
    - destruct (nth_error (ModelMemchan.s_ts n) j) as [t'|] eqn:N; [|lia]. specialize (Oj _ eq_refl). lia.
    - destruct (nth_error (ModelMemchan.s_ts n) j1) as [t'|] eqn:N; [|lia]. destruct (takes t') eqn:Tk; [|cbn; lia]. rewrite (Ox _ D _ N Tk), Tk. cbn. lia. }
  assert (M : forall m, sumto (fun i => d * b2i (b i)) m = d * sumto (fun i => b2i (b i)) m) by (induction m; cbn; lia).
  rewrite M in L. destruct d as [|[|]]; lia.
Qed.

Lemma net_less s' j ch n (x : nat) : ModelMemchan.mstep (k_net s) (ModelMemchan.EvStep j ch) = Some n ->
  k_net s' = n -> k_runs s' = k_runs s -> k_chan s' = k_chan s -> (forall i, k_io s' i = k_io s i) ->
  (s' = with_net n s /\ is_chwrite ch = false \/
   exists p lim, nthread s j = Some (ModelMemchan.TDial p ModelMemchan.DlAdd) /\ ch = ModelMemchan.Go /\
     ModelDispatch.s_ts (k_srv s') = ModelDispatch.s_ts (k_srv s) ++ [ModelDispatch.TNew lim]) -> phi s' < phi s.
Proof.
  intros M En Er Ec Ei C.
  destruct (net_step _ _ _ _ M) as (t & t' & N & N' & Ln & Ot & Wd & Di & Un & Lf & n0 & w0 & T0).
  destruct Lf as [Lf|Lf]; [apply phi_crash; [exact Al|right; rewrite En; exact Lf]|].
  assert (Tk : sumto (tok (with_net n s)) (nts s) <= sumto (tok s) (nts s) + (b2i (takes t') - b2i (takes t))).
  { apply (tok_net n ltac:(rewrite Ln; apply le_n) j Ot).
    - intros t1 Q. rewrite N' in Q. injection Q as <-. rewrite N. destruct (takes t'), (takes t); cbn; lia.
    - destruct (takes t'), (takes t); cbn; lia. }
  apply phi_le; [exact Al|]. rewrite Er, Ec.
  assert (P2 : phi2 s' < phi2 s); [|lia]. unfold phi2. rewrite En.
  destruct C as [[-> Cw]|(p & lim & Nd & -> & Et)].
  - rewrite Cw in Lf. apply mul_less; [lia| |lia].
    assert (phi1 (with_net n s) <= phi1 s).
    { unfold phi1. change (k_srv (with_net n s)) with (k_srv s). change (nts (with_net n s)) with (nts s). change (k_net (with_net n s)) with n.
      change (ul (with_net n s)) with (ul s). lia. }
    assert (count dials (ModelMemchan.s_ts n) <= count dials (ModelMemchan.s_ts (k_net s))).
    { destruct (own_width _ _ _ _ _ _ _ T0) as [_ W]. lia. }
    lia.
  - rewrite N in Nd. injection Nd as ->. cbn [is_chwrite] in Lf.
    assert (t' = ModelMemchan.TDial p (ModelMemchan.DlDone ModelMemchan.DlNil)) as ->.
    { inversion T0 as [| |? ? ? ? ? ? Cl| |]; subst; try discriminate Cl. match goal with Q : ProofMemchan.drel _ _ _ _ _ _ |- _ => inversion Q; reflexivity end. }
    cbn [dials b2i takes] in *.
    assert (Nn : nts s' = S (nts s)) by (unfold nts; rewrite Et, app_length; cbn; lia).
    assert (T1 : forall i, tok s' i = tok (with_net n s) i) by (intros i; unfold tok; rewrite Ei, En; reflexivity).
    assert (U1 : forall i, ul s' i = ul s i) by (intros i; unfold ul; rewrite Ei; reflexivity).
    assert (phi1 s' <= phi1 s + 37).
    { unfold phi1. rewrite Nn, En, Et, total_app. cbn [sumto total].
      rewrite (sumto_ext (tok s') (tok (with_net n s))) by auto. rewrite (sumto_ext (ul s') (ul s)) by auto.
      assert (tok s' (nts s) = 0) by (unfold tok; rewrite Ei, (io_none _ (le_n _)); reflexivity).
      assert (ul s' (nts s) = 2) by (unfold ul; rewrite Ei, (io_none _ (le_n _)); reflexivity).
      change (rnk (ModelDispatch.TNew lim)) with 7. lia. }
    apply mul_less; lia.
Qed.
Lemma use_less i t u n : sthread s i = Some t -> next_use s i t = Some u ->
  ModelMemchan.mstep (k_net s) (call_of (ModelDispatch.v_buf (vsrv s)) u) = Some n ->
  phi (with_io i (Some (u, length (ModelMemchan.s_ts (k_net s)))) (with_text (length (ModelMemchan.s_ts (k_net s))) (text_of u) (with_net n s))) < phi s.
Proof.
  intros N Nu M. set (j := length (ModelMemchan.s_ts (k_net s))). set (s' := with_io i (Some (u, j)) (with_text j (text_of u) (with_net n s))).
  assert (B : exists x, ModelMemchan.begin (call_of (ModelDispatch.v_buf (vsrv s)) u) = Some x /\ dials x = false /\ unacked x = 0 /\ takes x = false /\
    (forall d, lf d x <= 7 * d + 9)).
  { destruct u; (eexists; split; [reflexivity|]); (split; [reflexivity|]); (split; [reflexivity|]); (split; [reflexivity|]); intros d; cbn; lia. }
  destruct B as (x & B & Bd & Bu & Bt & Bl). apply (net_begin _ _ _ _ B) in M. subst n.
  assert (Li : i < nts s) by (apply nth_error_Some; congruence).
  assert (Io : match k_io s i with None => True | Some (UWrite _ _, _) => exists p, u = UClose p | _ => False end).
  { unfold next_use in Nu. destruct (k_io s i) as [[[p f| | |] j1]|]; try discriminate Nu; auto.
    destruct t; try discriminate Nu. destruct (nthread s j1) as [[k []| | | |]|]; try discriminate Nu; destruct r; try discriminate Nu; injection Nu as <-; eauto. }
  apply phi_le; [exact Al|]. change (k_runs s') with (k_runs s). change (k_chan s') with (k_chan s).
  assert (P2 : phi2 s' < phi2 s); [|lia]. unfold phi2.
  change (k_net s') with (ModelMemchan.MkSys (vnet s) (ModelMemchan.s_ts (k_net s) ++ [x])).
  assert (Ew : width (ModelMemchan.MkSys (vnet s) (ModelMemchan.s_ts (k_net s) ++ [x])) = width (k_net s)).
  { unfold width. cbn [ModelMemchan.s_ts ModelMemchan.s_net]. rewrite count_snoc, Bd. cbn. lia. }
  rewrite Ew. cbn [ModelMemchan.s_ts]. rewrite count_snoc, Bd, total_app. cbn [total b2i].
  apply mul_pay; [|pose proof (Bl (width (k_net s))); lia].
  assert (T1 : forall y, y < nts s -> tok s' y = tok s y).
  { intros y Ly. unfold tok. cbn [k_io s' with_io]. unfold put. destruct (Nat.eqb_spec y i) as [->|D].
    - assert (Z : match k_io s i with Some (URead _, j0) => match nthread s j0 with Some x0 => b2i (takes x0) | None => 0 end | _ => 0 end = 0).
      { destruct (k_io s i) as [[[] ?]|]; try reflexivity; contradiction. }
      rewrite Z. destruct u; try reflexivity. change (k_net s') with (ModelMemchan.MkSys (vnet s) (ModelMemchan.s_ts (k_net s) ++ [x])). cbn [ModelMemchan.s_ts].
      unfold j. rewrite nth_error_app2, Nat.sub_diag by lia. cbn [nth_error]. rewrite Bt. reflexivity.
    - change (k_io (with_text j (text_of u) (with_net (ModelMemchan.MkSys (vnet s) (ModelMemchan.s_ts (k_net s) ++ [x])) s)) y) with (k_io s y).
      destruct (k_io s y) as [[u1 j1]|] eqn:Iy; [|reflexivity]. destruct u1; try reflexivity.
      change (k_net s') with (ModelMemchan.MkSys (vnet s) (ModelMemchan.s_ts (k_net s) ++ [x])). cbn [ModelMemchan.s_ts].
      destruct (O_io _ _ O _ _ _ Iy) as (t1 & z & _ & _ & Nz & _). rewrite nth_error_app1 by (apply nth_error_Some; congruence). reflexivity. }
  assert (U1 : forall y, y < nts s -> y <> i -> ul s' y = ul s y).
  { intros y _ D. unfold ul. cbn [k_io s' with_io]. unfold put. destruct (Nat.eqb_spec y i) as [->|_]; [congruence|reflexivity]. }
  assert (U2 : ul s' i < ul s i).
  { unfold ul. cbn [k_io s' with_io]. unfold put. rewrite Nat.eqb_refl. destruct (k_io s i) as [[[] ?]|]; try contradiction; [destruct Io as (? & ->); lia|destruct u; lia]. }
  pose proof (sumto_change (ul s) (ul s') (nts s) i Li U1) as S2. pose proof (sumto_ext _ _ _ T1) as S1.
  unfold phi1. change (nts s') with (nts s). change (k_srv s') with (k_srv s). change (k_net s') with (ModelMemchan.MkSys (vnet s) (ModelMemchan.s_ts (k_net s) ++ [x])).
  cbn [ModelMemchan.s_ts]. rewrite S1, total_app. cbn [total]. lia.
Qed.
Lemma write_same j ch n : ModelMemchan.mstep (k_net s) (ModelMemchan.EvStep j ch) = Some n -> phi (with_net n s) <= phi s.
Proof.
  intros M. destruct (net_step _ _ _ _ M) as (t & t' & N & N' & Ln & Ot & Wd & Di & Un & Lf & n0 & w0 & T0).
  destruct Lf as [Lf|Lf]; [apply Nat.lt_le_incl, phi_crash; [exact Al|right; exact Lf]|].
  assert (Tk : sumto (tok (with_net n s)) (nts s) <= sumto (tok s) (nts s) + (b2i (takes t') - b2i (takes t))).
  { apply (tok_net n ltac:(rewrite Ln; apply le_n) j Ot).
    - intros t1 Q. rewrite N' in Q. injection Q as <-. rewrite N. destruct (takes t'), (takes t); cbn; lia.
    - destruct (takes t'), (takes t); cbn; lia. }
  assert (phi1 (with_net n s) <= phi1 s).
  { unfold phi1. change (k_srv (with_net n s)) with (k_srv s). change (nts (with_net n s)) with (nts s). change (k_net (with_net n s)) with n.
    change (ul (with_net n s)) with (ul s). lia. }
  assert (count dials (ModelMemchan.s_ts n) <= count dials (ModelMemchan.s_ts (k_net s))).
  { destruct (own_width _ _ _ _ _ _ _ T0) as [_ W]. lia. }
  assert (P2 : phi2 (with_net n s) <= phi2 s).
  { unfold phi2. change (k_net (with_net n s)) with n. apply Nat.add_le_mono; [apply Nat.mul_le_mono; lia|destruct (is_chwrite ch); lia]. }
  unfold phi. change (vsrv (with_net n s)) with (vsrv s). change (k_runs (with_net n s)) with (k_runs s). change (k_chan (with_net n s)) with (k_chan s).
  destruct Al as [A1 A2]. rewrite A1, A2. cbn [orb]. destruct (ModelMemchan.n_crashed (vnet (with_net n s))); [apply Nat.le_0_l|]. apply le_n_S. do 2 apply Nat.add_le_mono_r. exact P2.
Qed.
Lemma step_less e s' : kstep s e = Some s' -> is_call e = false -> phi s' + (if is_write e then 0 else 1) <= phi s.
Proof.
  intros H Ic. destruct (kstep_inv _ _ _ H) as [_ K].
  assert (G : phi s' < phi s \/ is_write e = true /\ phi s' <= phi s); [|destruct G as [G|[Q G]]; [|rewrite Q]; [destruct (is_write e)|]; lia].
  destruct K as [|i0 r0 r1 Nr Rs|Na Nc|e0 n Okn M|j0 lim p0 n v N0 M Dd|i0 t0 u0 n St Nu M|i0 ch0 t0 v St As Nt Dd|i0 lim v j0 u0 y0 St As Io Rr Dd|i0 ch0 t0 v j0 u0 y0 St As Io Rr Nc Dd|e0 v Be Dd].
  - discriminate Ic.
  - left. apply phi_le; [exact Al|]. change (phi2 (with_runs (set_nth (k_runs s) i0 r1) s)) with (phi2 s). cbn [k_runs k_chan with_runs].
    pose proof (total_set runw (k_runs s) i0 r1 r0 Nr). assert (runw r1 < runw r0); [|lia].
    destruct r0; cbn in Rs; try discriminate Rs; [injection Rs as <-; destruct (ModelMemchan.n_active _); cbn; lia|destruct (k_chan s); [|discriminate Rs]; injection Rs as <-; cbn; lia].
  - left. apply phi_le; [exact Al|]. change (phi2 (close_shutdown s)) with (phi2 s). cbn [k_runs k_chan close_shutdown]. rewrite Nc. lia.
  - destruct e0 as [k|k m d|k|p| |j ch]; try discriminate Ic. destruct (is_chwrite ch) eqn:Cw.
    + right. split; [destruct ch; try discriminate Cw; reflexivity|exact (write_same _ _ _ M)].
    + left. eapply net_less; [exact 0|exact M|reflexivity|reflexivity|reflexivity|reflexivity|]. left. auto.
  - left. eapply net_less; [exact 0|exact M|reflexivity|reflexivity|reflexivity|reflexivity|]. right. exists p0, lim. split; [exact N0|]. split; [reflexivity|].
    destruct (ProofDispatch.dstep_inv _ _ _ Dd) as (_ & [(t & -> & Ev)|(? & ? & ? & ? & ? & ? & D & _)]); [|discriminate D]. cbn. rewrite Ev. reflexivity.
  - left. exact (use_less _ _ _ _ St Nu M).
  - left. eapply srv_less; [exact Dd|reflexivity|reflexivity|reflexivity|reflexivity|auto|]. intros F. exfalso.
    destruct (ProofDispatch.dstep_inv _ _ _ Dd) as (_ & [(u & [] & _)|(i1 & ch1 & t & g' & t' & sp & Q & N & T & Ev)]). injection Q as <- <-. rewrite St in N. injection N as <-.
    destruct ch0; try discriminate F. destruct t0 as [| |c st|c k m j| | | | | | |]; try discriminate T; [|cbn in T; destruct j; discriminate T].
    destruct st as [| | | | | | | | |k m j| | | |]; try discriminate T; [discriminate As|cbn in T; destruct j; discriminate T].
  - left. eapply srv_less; [exact Dd|reflexivity|reflexivity|reflexivity|reflexivity| |discriminate].
    intros x. cbn. unfold put. destruct (Nat.eqb_spec x i0) as [->|D]; auto.
  - left. eapply srv_less; [exact Dd|reflexivity|reflexivity|reflexivity|reflexivity| |].
    + intros x. cbn. unfold put. destruct (Nat.eqb_spec x i0) as [->|D]; auto.
    + intros F. destruct ch0; try discriminate F. split; [exact (returned_frame _ _ _ _ Io Rr)|]. cbn. unfold put. rewrite Nat.eqb_refl. reflexivity.
  - destruct Be as [->|(c & ->)]; discriminate Ic.
Qed.
End Step.
Definition sober (es : list event) : bool := forallb (fun e => negb (is_call e)) es.
Lemma run_less es : forall buf conf s s', kreach buf conf always s -> krun s es = Some s' -> sober es = true ->
  phi s' + length (filter (fun e => negb (is_write e)) es) <= phi s.
Proof.
  induction es as [|e es IH]; intros buf conf s s' R K S; cbn [krun] in K; [injection K as <-; cbn; lia|].
  destruct (kstep s e) as [s1|] eqn:E; [|discriminate]. unfold sober in S. cbn in S. apply andb_true_iff in S as [S1 S2].
  assert (R1 : kreach buf conf always s1) by (econstructor; [exact R|exact E|exact Logic.I]).
  pose proof (IH _ _ _ _ R1 K S2). destruct (kstep_inv _ _ _ E) as [Al _].
  pose proof (step_less _ _ _ _ R Al _ _ E (proj1 (negb_true_iff _) S1)). cbn [filter]. destruct (is_write e); cbn [negb length] in *; lia.
Qed.
Lemma reach_any buf conf ok s : kreach buf conf ok s -> kreach buf conf always s.
Proof. induction 1; [constructor|econstructor; eauto; exact Logic.I]. Qed.
Lemma comes_to_rest buf conf ok s : kreach buf conf ok s -> exists b, forall es s', krun s es = Some s' -> forallb (fun e => negb (is_call e)) es = true ->
  length (filter (fun e => negb (is_write e)) es) <= b.
Proof. intros R. exists (phi s). intros es s' K S. pose proof (run_less _ _ _ _ _ (reach_any _ _ _ _ R) K S). lia. Qed.
