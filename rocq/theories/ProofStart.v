(* Proofs about the errors of starting and stopping. *)
From Coq Require Import Strings.String.
From Coq Require Import List Arith NArith ZArith Bool Lia.
From Verif Require Import BaseBytes ModelMessage ModelWrite ModelErrors ModelOptions SpecWrite SpecOptions ProofOptions ModelReport SpecReport ProofReport
  ModelLog SpecLog ModelStart SpecStart.
From Verif Require ModelJson SpecJson ProofJson4.
Import ListNotations.
Open Scope list_scope.
Open Scope nat_scope.

Notation val := (fold_left (fun n d => 10 * n + (Z.of_N (b2N d) - 48))%Z).
Notation zero := (n2b 48).
Lemma zero_val : b2N zero = 48%N. Proof. reflexivity. Qed.

(* ----- fractions ----- *)
Lemma frac_digits_spec k : forall v p, (v < 10 ^ N.of_nat k)%N ->
  Forall SpecJson.is_digit (frac_digits k v p) /\ length (frac_digits k v p) <= k /\
  (p = true -> length (frac_digits k v p) = k) /\
  (p = false -> forall m, frac_digits k v p <> m ++ [zero]) /\
  (digits_value (frac_digits k v p) * 10 ^ Z.of_nat (k - length (frac_digits k v p)) = Z.of_N v)%Z.
Proof.
  induction k as [|k IH]; intros v p L.
  - cbn [frac_digits length]. cbn in L. assert (v = 0%N) by lia. subst. repeat split; auto. intros _ [|? ?]; discriminate.
  - cbn [frac_digits].
    assert (Q : (v / 10 < 10 ^ N.of_nat k)%N).
    { apply N.div_lt_upper_bound; [lia|]. replace (N.of_nat (S k)) with (N.succ (N.of_nat k)) in L by lia. rewrite N.pow_succ_r' in L. exact L. }
    pose proof (N.mod_lt v 10 ltac:(lia)) as M. pose proof (N.div_mod v 10 ltac:(lia)) as D.
    destruct (p || negb (v mod 10 =? 0)%N) eqn:P.
    + destruct (IH (v / 10)%N true Q) as (A & B & C & _ & V). specialize (C eq_refl).
      rewrite app_length. cbn [length]. rewrite C in *. unfold digits_value in *. rewrite fold_left_app. cbn [fold_left].
      rewrite b2N_n2b_small by lia. rewrite Nat.sub_diag in V. replace (S k - (k + 1)) with 0 by lia. change (10 ^ Z.of_nat 0)%Z with 1%Z in *.
      repeat split; try lia.
      * apply Forall_app. split; [exact A|]. constructor; [|constructor]. unfold SpecJson.is_digit, SpecText.between. rewrite b2N_n2b_small by lia. lia.
      * intros -> m X. apply app_inj_tail in X as [_ X]. apply (f_equal b2N) in X. rewrite zero_val, b2N_n2b_small in X by lia.
        assert (v mod 10 = 0)%N as Y by lia. rewrite Y in P. discriminate.
    + apply orb_false_iff in P as [-> P]. apply negb_false_iff, N.eqb_eq in P. rewrite app_nil_r.
      destruct (IH (v / 10)%N false Q) as (A & B & _ & E & V). repeat split; auto; try lia; try discriminate.
      replace (S k - length (frac_digits k (v / 10) false)) with (S (k - length (frac_digits k (v / 10) false))) by lia.
      rewrite Nat2Z.inj_succ, Z.pow_succ_r by lia. nia.
Qed.
Lemma frac_fraction f : (0 <= f < 10 ^ 9)%Z -> fraction (frac_text (Z.to_N f)) f.
Proof.
  intros H. unfold frac_text. change (10 ^ 9)%Z with 1000000000%Z in H.
  destruct (frac_digits_spec 9 (Z.to_N f) false) as (A & B & _ & E & V); [change (10 ^ N.of_nat 9)%N with 1000000000%N; lia|].
  specialize (E eq_refl). destruct (frac_digits 9 (Z.to_N f) false) as [|d ds] eqn:X.
  - left. split; [reflexivity|]. unfold digits_value in V. cbn [fold_left] in V. lia.
  - right. destruct (@exists_last _ (d :: ds) ltac:(discriminate)) as (l & z & Y). rewrite Y in *.
    exists l, z. repeat split; auto.
    + intros ->. exact (E l eq_refl).
    + replace (9 - Z.of_nat (length (l ++ [z])))%Z with (Z.of_nat (9 - length (l ++ [z]))) by lia. lia.
Qed.
Lemma value_zeros l k : digits_value (l ++ repeat zero k) = (digits_value l * 10 ^ Z.of_nat k)%Z.
Proof.
  induction k as [|k IH]; [cbn [repeat]; rewrite app_nil_r; change (10 ^ Z.of_nat 0)%Z with 1%Z; lia|].
  replace (repeat zero (S k)) with (repeat zero k ++ [zero]) by (rewrite <- repeat_cons; reflexivity).
  rewrite app_assoc. unfold digits_value in *. rewrite fold_left_app, IH. cbn [fold_left]. rewrite zero_val.
  rewrite Nat2Z.inj_succ, Z.pow_succ_r by lia. lia.
Qed.
Lemma strip_zeros k : forall (a b : bytes) j, (forall m, a <> m ++ [zero]) -> (forall m, b <> m ++ [zero]) -> a ++ repeat zero k = b ++ repeat zero j -> a = b.
Proof.
  assert (R : forall n, repeat zero (S n) = repeat zero n ++ [zero]) by (intros; rewrite <- repeat_cons; reflexivity).
  induction k as [|k IH]; intros a b [|j] Ha Hb E.
  - cbn [repeat] in E. rewrite !app_nil_r in E. exact E.
  - rewrite R, app_assoc in E. cbn [repeat] in E. rewrite app_nil_r in E. destruct (Ha _ E).
  - rewrite R, app_assoc in E. cbn [repeat] in E. rewrite app_nil_r in E. destruct (Hb _ (eq_sym E)).
  - rewrite !R, !app_assoc in E. apply app_inj_tail in E as [E _]. eapply IH; eassumption.
Qed.
Lemma fraction_shape t f : fraction t f -> exists l, t = match l with [] => [] | _ => t$"." ++ l end /\ Forall SpecJson.is_digit l /\
  length l <= 9 /\ (forall m, l <> m ++ [zero]) /\ digits_value (l ++ repeat zero (9 - length l)) = f.
Proof.
  intros [(-> & ->)|(ds & z & -> & D & Z & L & V)].
  - exists []. split; [reflexivity|]. split; [constructor|]. split; [cbn; lia|]. split; [intros [|? ?]; discriminate|reflexivity].
  - exists (ds ++ [z]). repeat split; auto.
    + destruct (ds ++ [z]) eqn:E; [destruct ds; discriminate|reflexivity].
    + intros m E. apply app_inj_tail in E as [_ E]. auto.
    + rewrite value_zeros, <- V. do 2 f_equal. lia.
Qed.
Lemma zeros_digits k : Forall (fun d => 48 <= b2N d <= 57)%N (repeat zero k).
Proof. induction k; constructor; [rewrite zero_val; lia|assumption]. Qed.
Lemma fraction_inj a b f : fraction a f -> fraction b f -> a = b.
Proof.
  intros A B. destruct (fraction_shape a f A) as (l & -> & D & L & Z & V). destruct (fraction_shape b f B) as (l' & -> & D' & L' & Z' & V').
  assert (l = l') as ->; [|reflexivity].
  assert (E : l ++ repeat zero (9 - length l) = l' ++ repeat zero (9 - length l')); [|exact (strip_zeros _ _ _ _ Z Z' E)].
  unfold digits_value in V, V'. refine (proj1 (digits_inj _ _ _ _ _ 0%Z 0%Z _)).
  - apply Forall_app. split; [exact D|apply zeros_digits].
  - apply Forall_app. split; [exact D'|apply zeros_digits].
  - rewrite !app_length, !repeat_length. lia.
  - rewrite V, V'. reflexivity.
Qed.

(* ----- durations ----- *)
Lemma lasts_inj a b d : lasts a d -> lasts b d -> a = b.
Proof.
  intros A B. destruct A as [S F s f Hs Hf Bs Bf|M S F m s f Hm Hs Hf Bm Bs Bf|H M S F h m s f Hh Hm Hs Hf Bh Bm Bs Bf];
    inversion B as [S' F' s' f' Hs' Hf' Bs' Bf' E1 E2|M' S' F' m' s' f' Hm' Hs' Hf' Bm' Bs' Bf' E1 E2|H' M' S' F' h' m' s' f' Hh' Hm' Hs' Hf' Bh' Bm' Bs' Bf' E1 E2];
    change (10 ^ 9)%Z with 1000000000%Z in *; try (exfalso; lia).
  - assert (s' = s /\ f' = f) as [-> ->] by lia. rewrite (spells_inj _ _ _ Hs Hs'), (fraction_inj _ _ _ Hf Hf'). reflexivity.
  - assert (m' = m /\ s' = s /\ f' = f) as (-> & -> & ->) by lia.
    rewrite (spells_inj _ _ _ Hm Hm'), (spells_inj _ _ _ Hs Hs'), (fraction_inj _ _ _ Hf Hf'). reflexivity.
  - assert (h' = h /\ m' = m /\ s' = s /\ f' = f) as (-> & -> & -> & ->) by lia.
    rewrite (spells_inj _ _ _ Hh Hh'), (spells_inj _ _ _ Hm Hm'), (spells_inj _ _ _ Hs Hs'), (fraction_inj _ _ _ Hf Hf'). reflexivity.
Qed.
Lemma z_spells z : (- 2 ^ 63 <= z < 2 ^ 63)%Z -> SpecJson.spells (pct_z z) z.
Proof. intros H. apply ProofJson4.dec_spells, ProofJson4.is_int_spec. lia. Qed.
Lemma duration_lasts d : (10 ^ 9 <= d < 2 ^ 63)%Z -> lasts (Duration_String d) d.
Proof.
  intros H. unfold Duration_String. cbv zeta. change (10 ^ 9)%Z with 1000000000%Z in H.
  set (f := (d mod 1000000000)%Z). set (n := (d / 1000000000)%Z). set (s := (n mod 60)%Z). set (k := (n / 60)%Z). set (m := (k mod 60)%Z). set (h := (k / 60)%Z).
  assert (D : (d = n * 1000000000 + f /\ 0 <= f < 1000000000)%Z) by (subst n f; Z.div_mod_to_equations; lia).
  assert (N : (n = k * 60 + s /\ 0 <= s < 60)%Z) by (subst s k; Z.div_mod_to_equations; lia).
  assert (K : (k = h * 60 + m /\ 0 <= m < 60)%Z) by (subst m h; Z.div_mod_to_equations; lia).
  clearbody f n s k m h.
  destruct (Z.ltb_spec 0 k) as [P|P]; destruct (Z.ltb_spec 0 h) as [Q|Q]; try (exfalso; lia).
  - replace d with (((h * 60 + m) * 60 + s) * 10 ^ 9 + f)%Z by lia. rewrite <- ?app_assoc. 
    apply La_h; try apply z_spells; try apply frac_fraction; lia.
  - replace d with ((m * 60 + s) * 10 ^ 9 + f)%Z by lia. apply La_m; try apply z_spells; try apply frac_fraction; lia.
  - replace d with (s * 10 ^ 9 + f)%Z by lia. apply La_s; try apply z_spells; try apply frac_fraction; lia.
Qed.
Theorem duration_text : forall d t, (10 ^ 9 <= d < 2 ^ 63)%Z -> t = Duration_String d <-> lasts t d.
Proof. intros d t H. split; [intros ->; apply duration_lasts, H|]. intros L. exact (lasts_inj _ _ _ L (duration_lasts d H)). Qed.

(* ----- the configuration message ----- *)
Lemma conf_same major minor t n name : NewAcceptConfMessage major minor t n name = match NewAcceptConf major minor t n name with inl b => Some b | inr _ => None end.
Proof. unfold NewAcceptConfMessage, NewAcceptConf. cbv zeta. destruct (_ <? _)%Z; [reflexivity|]. destruct (_ <? _)%Z; reflexivity. Qed.
Theorem conf_errors : forall major minor timeout n name, (- 2 ^ 63 <= timeout < 2 ^ 63)%Z ->
  (forall b, NewAcceptConf major minor timeout n name = inl b <-> NewAcceptConfMessage major minor timeout n name = Some b) /\
  (forall e, NewAcceptConf major minor timeout n name = inr e <-> exists t, no_conf timeout t /\ e = Foreign (Some t)).
Proof.
  intros major minor timeout n name H. split.
  { intros b. rewrite conf_same. destruct (NewAcceptConf _ _ _ _ _); split; congruence. }
  intros e. unfold NewAcceptConf. cbv zeta.
  set (ms := Z.quot timeout 1000000).
  assert (M : (ms * 1000000 <= timeout < (ms + 1) * 1000000 /\ 0 <= timeout \/ (ms - 1) * 1000000 < timeout <= ms * 1000000 /\ timeout < 0)%Z)
    by (subst ms; Z.quot_rem_to_equations; lia).
  change (10 ^ 6)%Z with 1000000%Z. clearbody ms.
  destruct (Z.ltb_spec 4294967295 ms) as [L|L]; [|destruct (Z.ltb_spec ms 0) as [G|G]]; split.
  - intros X. injection X as <-. eexists. split; [|reflexivity]. apply NC_long; [lia|]. apply duration_lasts. lia.
  - intros (t & [d B X|d q Q B X] & ->); [|exfalso; change (10 ^ 6)%Z with 1000000%Z in B; lia].
    rewrite (lasts_inj _ _ _ (duration_lasts timeout ltac:(lia)) X). reflexivity.
  - intros X. injection X as <-. eexists. split; [|reflexivity]. apply (NC_negative timeout _ ms); [lia|lia|]. apply z_spells. lia.
  - intros (t & [d B X|d q Q B X] & ->); change (10 ^ 6)%Z with 1000000%Z in B; [exfalso; lia|].
    assert (q = ms) as -> by lia. rewrite (spells_inj _ _ _ (z_spells ms ltac:(lia)) X). reflexivity.
  - discriminate.
  - intros (t & [d B X|d q Q B X] & ->); change (10 ^ 6)%Z with 1000000%Z in B; exfalso; lia.
Qed.

(* ----- NewServer ----- *)
Lemma prepare_parts mk o o' e : Prepare mk o = Some (o', e) ->
  op_timeout o' = (if (op_timeout o <? 1000000000)%Z then 60000000000%Z else op_timeout o) /\
  op_bufsize o' = (if (op_bufsize o =? 0)%N then 8192 else op_bufsize o)%N /\
  e = negb (op_bufsize o =? 0)%N && (op_bufsize o <? 32)%N.
Proof. rewrite prepare_eq. destruct (_ && negb mk); [discriminate|]. intros H. injection H as <- <-. auto. Qed.
Lemma conf_long o : (10 ^ 9 <= op_timeout o)%Z ->
  NewAcceptConf x02 x00 (op_timeout o) (op_bufsize o) (op_subname o) =
  if (2 ^ 32 * 10 ^ 6 <=? op_timeout o)%Z
  then inr (Foreign (Some (txt "read timeout (milliseconds) overflow in server conf message (" ++ Duration_String (op_timeout o) ++ txt ")")))
  else match NewAcceptConfMessage x02 x00 (op_timeout o) (op_bufsize o) (op_subname o) with Some b => inl b | None => inl [] end.
Proof.
  intros H. rewrite conf_same. unfold NewAcceptConf. cbv zeta. change (10 ^ 6)%Z with 1000000%Z. change (10 ^ 9)%Z with 1000000000%Z in H.
  set (ms := Z.quot (op_timeout o) 1000000).
  assert (M : (ms * 1000000 <= op_timeout o < (ms + 1) * 1000000)%Z) by (subst ms; Z.quot_rem_to_equations; lia). clearbody ms.
  destruct (Z.ltb_spec 4294967295 ms); destruct (Z.leb_spec (2 ^ 32 * 1000000) (op_timeout o)); try (exfalso; lia); [reflexivity|].
  destruct (Z.ltb_spec ms 0); [exfalso; lia|reflexivity].
Qed.
Theorem start_errors : forall broken impl tr initialize mk o, (- 2 ^ 63 <= op_timeout o < 2 ^ 63)%Z -> (op_bufsize o < 2 ^ 32)%N ->
  (NewServer_err broken impl tr initialize mk o = None <-> impl = true /\ tr = true /\ Prepare mk o = None) /\
  (forall e, NewServer_err broken impl tr initialize mk o = Some (inr e) <-> exists t, no_start broken impl tr initialize mk o t /\ e = Foreign (Some t)) /\
  (forall r, NewServer_err broken impl tr initialize mk o = Some (inl r) <->
     NewServer impl tr (fun o => match initialize o with Some _ => false | None => true end) mk o = Some (inl r)).
Proof.
  intros broken impl tr initialize mk o HT HB. unfold NewServer_err, NewServer.
  destruct impl; cbn [negb].
  2:{ split; [split; [discriminate|intros (X & _); discriminate]|]. split; [|intros r; split; discriminate].
      intros e. split; [intros X; injection X as <-; eexists; split; [apply NS_impl; reflexivity|reflexivity]|].
      intros (t & X & ->). inversion X; try discriminate. reflexivity. }
  destruct tr; cbn [negb].
  2:{ split; [split; [discriminate|intros (_ & X & _); discriminate]|]. split; [|intros r; split; discriminate].
      intros e. split; [intros X; injection X as <-; eexists; split; [apply NS_transport; reflexivity|reflexivity]|].
      intros (t & X & ->). inversion X; try discriminate. reflexivity. }
  unfold Prepare_err. destruct (Prepare mk o) as [[o' failed]|] eqn:P.
  2:{ split; [split; auto|]. split; [|intros r; split; discriminate].
      intros e. split; [discriminate|]. intros (t & X & ->). inversion X; congruence. }
  destruct (prepare_parts _ _ _ _ P) as (T & B & F). cbv beta iota.
  destruct failed.
  { symmetry in F. apply andb_true_iff in F as [F1 F2]. apply negb_true_iff, N.eqb_neq in F1. apply N.ltb_lt in F2.
    apply N.eqb_neq in F1 as F1'. rewrite F1' in B. rewrite B.
    split; [split; [discriminate|intros (_ & _ & X); discriminate]|]. split; [|intros r; split; discriminate].
    assert (Z : SpecJson.spells (pct_z (Z.of_N (op_bufsize o))) (Z.of_N (op_bufsize o))) by (apply z_spells; lia).
    intros e. split.
    - intros X. injection X as <-. eexists. split; [apply NS_buffer; auto; [congruence|lia|exact Z]|reflexivity].
    - intros (t & X & ->). inversion X; try congruence; try (exfalso; lia).
      match goal with S : SpecJson.spells ?n _ |- _ => rewrite (spells_inj _ _ _ S Z) end. reflexivity. }
  assert (BO : (op_bufsize o = 0 \/ 32 <= op_bufsize o)%N).
  { symmetry in F. apply andb_false_iff in F as [F|F]; [left; apply negb_false_iff, N.eqb_eq in F; exact F|right; apply N.ltb_ge in F; exact F]. }
  assert (T9 : (10 ^ 9 <= op_timeout o')%Z) by (rewrite T; destruct (Z.ltb_spec (op_timeout o) 1000000000); lia).
  pose proof (conf_long o' T9) as CL. pose proof (conf_message o' T9) as CM. change (10 ^ 6)%Z with 1000000%Z in CL.
  destruct (Z.leb_spec (2 ^ 32 * 1000000) (op_timeout o')) as [L|L].
  { rewrite CL. apply CM in L as L'. rewrite L'.
    assert (TE : op_timeout o' = op_timeout o) by (rewrite T in L |- *; destruct (_ <? _)%Z; [exfalso; lia|reflexivity]). rewrite TE in *.
    split; [split; [discriminate|intros (_ & _ & X); discriminate]|]. split; [|intros r; split; discriminate].
    assert (D : lasts (Duration_String (op_timeout o)) (op_timeout o)) by (apply duration_lasts; lia).
    intros e. split.
    - intros X. injection X as <-. eexists. split; [apply NS_timeout; try eassumption; try reflexivity; try congruence; lia|]. reflexivity.
    - intros (t & X & ->). inversion X; try congruence; try (exfalso; lia).
      match goal with S : lasts ?n _ |- _ => rewrite (lasts_inj _ _ _ S D) end. reflexivity. }
  rewrite CL. destruct (NewAcceptConfMessage _ _ _ _ _) as [b|] eqn:C; [|exfalso; pose proof (proj1 CM eq_refl); lia].
  assert (TL : (op_timeout o < 2 ^ 32 * 10 ^ 6)%Z) by (rewrite T in L; destruct (Z.ltb_spec (op_timeout o) 1000000000); lia).
  destruct (initialize o') as [e0|] eqn:I.
  - split; [split; [discriminate|intros (_ & _ & X); discriminate]|]. split; [|intros r; split; discriminate].
    intros e. split.
    + intros X. injection X as <-. rewrite pct_s_printed. eexists. split; [eapply NS_init; eauto|reflexivity].
    + intros (t & X & ->). inversion X; try congruence; try (exfalso; lia). rewrite pct_s_printed. unfold Errorf. congruence.
  - split; [split; [discriminate|intros (_ & _ & X); discriminate]|]. split; [|intros r; split; intros X; injection X as <-; reflexivity].
    intros e. split; [discriminate|].
    intros (t & X & ->). inversion X; try congruence; try (exfalso; lia).
Qed.
Theorem stop_error : forall broken stopped, shutdownServer broken stopped =
  option_map (fun e => Foreign (Some (txt "couldn't properly shutdown HTTP server: " ++ printed broken e))) stopped.
Proof. intros broken [e|]; [|reflexivity]. cbn [shutdownServer option_map]. rewrite pct_s_printed. reflexivity. Qed.

(* ----- closing sessions ----- *)
Lemma close_all_spec {S C} (close : S -> C -> option (S * option err)) cs : forall s s' es n,
  close_all close s cs = Some (s', es, n) <-> closes close s cs es s' /\ n = failures es.
Proof.
  induction cs as [|c cs IH]; intros s s' es n; cbn [close_all].
  - split; [intros H; injection H as <- <- <-; split; [constructor|reflexivity]|].
    intros [H ->]. inversion H; subst. reflexivity.
  - destruct (close s c) as [[s1 e]|] eqn:E.
    2:{ split; [discriminate|]. intros [H _]. inversion H; subst. congruence. }
    destruct (close_all close s1 cs) as [[[s2 es2] n2]|] eqn:A.
    + split.
      * intros H. injection H as <- <- <-. apply IH in A as [A ->]. split; [econstructor; eassumption|].
        unfold failures. cbn [map]. destruct e; reflexivity.
      * intros [H ->]. inversion H as [|? ? ? e' es' s1' ? X Y]; subst. rewrite E in X. injection X as <- <-.
        assert (Z : close_all close s1 cs = Some (s', es', failures es')) by (apply IH; auto). rewrite A in Z. injection Z as -> -> ->.
        unfold failures. cbn [map]. destruct e; reflexivity.
    + split; [discriminate|]. intros [H _]. inversion H as [|? ? ? e' es' s1' ? X Y]; subst. rewrite E in X. injection X as <- <-.
      assert (Z : close_all close s1 cs = Some (s', es', failures es')) by (apply IH; auto). congruence.
Qed.
Lemma closes_length {S C} (close : S -> C -> option (S * option err)) cs s es s' : closes close s cs es s' -> length es = length cs.
Proof. induction 1; cbn; congruence. Qed.
Theorem close_session_errors : forall S C (close : S -> C -> option (S * option err)) s cs, (Z.of_nat (length cs) < 2 ^ 63)%Z ->
  (forall r, Server_CloseSession close s None = Some r <-> r = (s, None, None, None)) /\
  (forall s' affected errors general, Server_CloseSession close s (Some cs) = Some (s', affected, errors, general) <->
     exists es, closes close s cs es s' /\ affected = Some cs /\ errors = Some es /\ in_general es general).
Proof.
  intros S C close s cs G. split; [intros r; cbn; split; congruence|].
  intros s' af er ge. cbn [Server_CloseSession].
  assert (NN : forall es s2, closes close s cs es s2 -> number (failures es) (pct_d (failures es))).
  { intros es s2 H. apply pct_d_number. apply closes_length in H. unfold failures.
    pose proof (count_occ_bound Bool.bool_dec true (map (fun e : option err => match e with Some _ => true | None => false end) es)) as X.
    rewrite map_length in X. lia. }
  destruct (close_all close s cs) as [[[s2 es] n]|] eqn:E.
  - apply close_all_spec in E as E'. destruct E' as [H ->]. split.
    + intros X. injection X as <- <- <- <-. exists es. repeat (split; [assumption || reflexivity|]).
      destruct (Nat.ltb_spec 0 (failures es)); [apply IG_some; eauto|apply IG_none; lia].
    + intros (es' & H' & -> & -> & g).
      assert (Z : close_all close s cs = Some (s', es', failures es')) by (apply close_all_spec; auto). rewrite E in Z. injection Z as -> -> _.
      destruct g as [g|m g N]; [rewrite g; reflexivity|]. apply Nat.ltb_lt in g as g'. rewrite g'.
      rewrite (number_inj _ _ _ (NN _ _ H) N). reflexivity.
  - split; [discriminate|]. intros (es' & H' & _).
    assert (Z : close_all close s cs = Some (s', es', failures es')) by (apply close_all_spec; auto). congruence.
Qed.
