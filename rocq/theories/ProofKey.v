(* Proofs about session keys. *)
From Coq Require Import List Arith NArith ZArith Lia Bool.
From Coq Require Import ZifyBool ZifyNat ZifyN.
From Verif Require Import BaseBytes ModelMessage ModelKey SpecKey.
Import ListNotations.
Open Scope nat_scope.

Fixpoint index (c : byte) (l : bytes) : N :=
  match l with [] => 0 | x :: l' => if Byte.eqb x c then 0 else 1 + index c l' end.
Definition value (c : byte) : N := index c encodeURL.

Definition all64 : list N := map N.of_nat (seq 0 64).
Lemma in_all64 n : (n < 64)%N -> In n all64.
Proof. intros H. apply in_map_iff. exists (N.to_nat n). split; [lia|]. apply in_seq. lia. Qed.
Lemma value_sextet n : (n < 64)%N -> value (sextet n) = n.
Proof.
  assert (A : forallb (fun n => (value (sextet n) =? n)%N) all64 = true) by (vm_compute; reflexivity).
  rewrite forallb_forall in A. intros H. specialize (A n (in_all64 n H)). apply N.eqb_eq. exact A.
Qed.
Lemma sextet_safe n : (n < 64)%N -> url_safe (sextet n).
Proof.
  intros H. apply in_all64 in H. revert n H. apply Forall_forall.
  assert (forallb (fun n => let v := b2N (sextet n) in ((65 <=? v) && (v <=? 90) || (97 <=? v) && (v <=? 122) || (48 <=? v) && (v <=? 57) || (v =? 45) || (v =? 95))%N) all64 = true)
    by (vm_compute; reflexivity).
  rewrite forallb_forall in H. apply Forall_forall. intros n Hn. specialize (H n Hn). unfold url_safe. cbn beta zeta in H. lia.
Qed.
Lemma all_bytes c : In c (map (fun i => n2b (N.of_nat i)) (seq 0 256)).
Proof. apply in_map_iff. exists (b2n c). split; [apply n2b_b2n|]. apply in_seq. pose proof (b2n_lt c). lia. Qed.
Lemma sextet_value c : url_safe c -> (value c < 64)%N /\ sextet (value c) = c.
Proof.
  pose proof (all_bytes c) as H. revert c H. 
  assert (forallb (fun c => let v := b2N c in negb ((65 <=? v) && (v <=? 90) || (97 <=? v) && (v <=? 122) || (48 <=? v) && (v <=? 57) || (v =? 45) || (v =? 95))%N || ((value c <? 64)%N && Byte.eqb (sextet (value c)) c))
     (map (fun i => n2b (N.of_nat i)) (seq 0 256)) = true) by (vm_compute; reflexivity).
  rewrite forallb_forall in H. intros c Hc S. specialize (H c Hc). cbn beta zeta in H. unfold url_safe in S.
  apply orb_true_iff in H. destruct H as [H|H].
  - exfalso. lia.
  - apply andb_true_iff in H. destruct H as [H1 H2]. split; [lia|]. apply Byte.byte_dec_bl. exact H2.
Qed.

(* shifts as arithmetic *)
Lemma lor_add a b k : (b < 2 ^ k)%N -> N.lor (N.shiftl a k) b = (a * 2 ^ k + b)%N.
Proof.
  intros H. rewrite <- N.shiftl_mul_pow2. symmetry.
  rewrite <- N.lxor_lor, N.add_nocarry_lxor; try reflexivity;
  (apply N.bits_inj; intros i; rewrite N.land_spec, N.bits_0; destruct (N.lt_ge_cases i k) as [L|L];
   [rewrite N.shiftl_spec_low by assumption; reflexivity|
    destruct (N.eq_dec b 0) as [->|Z]; [rewrite N.bits_0; apply andb_false_r|];
    rewrite (N.bits_above_log2 b i); [apply andb_false_r|];
    apply N.lt_le_trans with k; [apply N.log2_lt_pow2; lia|exact L]]).
Qed.
Lemma group a b c : (a < 256 -> b < 256 -> c < 256 ->
  N.lor (N.lor (N.shiftl a 16) (N.shiftl b 8)) c = a * 65536 + b * 256 + c)%N.
Proof.
  intros. replace (N.shiftl a 16) with (N.shiftl (N.shiftl a 8) 8) by (rewrite N.shiftl_shiftl; reflexivity).
  rewrite <- N.shiftl_lor. rewrite (lor_add _ c 8) by (cbn; lia). rewrite (lor_add a b 8) by (cbn; lia). cbn [N.pow Pos.pow]. lia.
Qed.
Lemma land63 v : N.land v 63 = (v mod 64)%N.
Proof. change 63%N with (N.ones 6). rewrite N.land_ones. reflexivity. Qed.
Lemma encode_cons a b c l : EncodeToString (a :: b :: c :: l) =
  (let v := (b2N a * 65536 + b2N b * 256 + b2N c) in
   [sextet (v / 262144 mod 64); sextet (v / 4096 mod 64); sextet (v / 64 mod 64); sextet (v mod 64)] ++ EncodeToString l)%N.
Proof.
  cbn [EncodeToString]. rewrite group by apply b2N_lt. rewrite !land63, !N.shiftr_div_pow2. reflexivity.
Qed.

Lemma parts v : (v < 16777216 ->
  v = v / 262144 mod 64 * 262144 + v / 4096 mod 64 * 4096 + v / 64 mod 64 * 64 + v mod 64)%N.
Proof.
  intros H. assert (v / 4096 = v / 64 / 64)%N as -> by (rewrite N.div_div by lia; reflexivity).
  assert (v / 262144 = v / 64 / 64 / 64)%N as -> by (rewrite !N.div_div by lia; reflexivity).
  pose proof (N.div_mod v 64 ltac:(lia)). pose proof (N.div_mod (v / 64) 64 ltac:(lia)). pose proof (N.div_mod (v / 64 / 64) 64 ltac:(lia)).
  assert (v / 64 / 64 / 64 < 64)%N by (rewrite !N.div_div by lia; apply N.div_lt_upper_bound; lia).
  rewrite (N.mod_small (v / 64 / 64 / 64)) by assumption.
  generalize dependent (v mod 64)%N. generalize dependent ((v / 64) mod 64)%N. generalize dependent ((v / 64 / 64) mod 64)%N.
  generalize dependent (v / 64 / 64 / 64)%N. generalize dependent (v / 64 / 64)%N. generalize dependent (v / 64)%N. intros. lia.
Qed.
Lemma mod64 v : (v mod 64 < 64)%N.
Proof. apply N.mod_lt. discriminate. Qed.
Lemma sum_parts w x y z : (w < 64 -> x < 64 -> y < 64 -> z < 64 ->
  let v := w * 262144 + x * 4096 + y * 64 + z in
  v < 16777216 /\ v / 262144 mod 64 = w /\ v / 4096 mod 64 = x /\ v / 64 mod 64 = y /\ v mod 64 = z)%N.
Proof.
  intros W X Y Z v.
  assert (Z' : (v mod 64 = z)%N) by (symmetry; apply (N.mod_unique _ _ (w * 4096 + x * 64 + y)%N); subst v; lia).
  assert (D1 : (v / 64 = w * 4096 + x * 64 + y)%N) by (symmetry; apply (N.div_unique _ _ _ z); subst v; lia).
  assert (D2 : (v / 4096 = w * 64 + x)%N) by (symmetry; apply (N.div_unique _ _ _ (y * 64 + z)%N); subst v; lia).
  assert (D3 : (v / 262144 = w)%N) by (symmetry; apply (N.div_unique _ _ _ (x * 4096 + y * 64 + z)%N); subst v; lia).
  rewrite D1, D2, D3. split; [subst v; lia|]. split; [apply N.mod_small; exact W|].
  split; [symmetry; apply (N.mod_unique _ _ w); lia|]. split; [symmetry; apply (N.mod_unique _ _ (w * 64 + x)%N); lia|exact Z'].
Qed.
Lemma bytes_parts v : (v < 16777216 -> v / 65536 < 256 /\ v / 65536 * 65536 + v / 256 mod 256 * 256 + v mod 256 = v)%N.
Proof.
  intros H. assert (v / 65536 = v / 256 / 256)%N as -> by (rewrite N.div_div by lia; reflexivity).
  split; [rewrite N.div_div by lia; apply N.div_lt_upper_bound; lia|].
  pose proof (N.div_mod v 256 ltac:(lia)). pose proof (N.div_mod (v / 256) 256 ltac:(lia)).
  generalize dependent (v mod 256)%N. generalize dependent ((v / 256) mod 256)%N. generalize dependent (v / 256 / 256)%N.
  generalize dependent (v / 256)%N. intros. lia.
Qed.

Lemma encode_three l : forall n, length l = 3 * n ->
  length (EncodeToString l) = 4 * n /\ Forall url_safe (EncodeToString l).
Proof.
  intros n. revert l. induction n as [|n IH]; intros l H.
  - destruct l; [|discriminate]. split; [reflexivity|constructor].
  - destruct l as [|a [|b [|c l]]]; try (cbn in H; lia). rewrite encode_cons. cbn [length] in H.
    destruct (IH l) as [L S]; [lia|]. cbn zeta. rewrite app_length. cbn [length]. split; [lia|].
    repeat (constructor; [apply sextet_safe, mod64|]). exact S.
Qed.
Lemma sextet_inj x y : (x < 64)%N -> (y < 64)%N -> sextet x = sextet y -> x = y.
Proof. intros X Y E. rewrite <- (value_sextet x X), <- (value_sextet y Y), E. reflexivity. Qed.
Lemma encode_inj n : forall l m, length l = 3 * n -> length m = 3 * n -> EncodeToString l = EncodeToString m -> l = m.
Proof.
  induction n as [|n IH]; intros l m L M E.
  - destruct l; [|discriminate]. destruct m; [reflexivity|discriminate].
  - destruct l as [|a [|b [|c l]]]; try (cbn in L; lia). destruct m as [|a' [|b' [|c' m]]]; try (cbn in M; lia).
    rewrite !encode_cons in E. cbn zeta in E. cbn [app] in E. cbn [length] in L, M.
    injection E as E1 E2 E3 E4 E.
    apply sextet_inj in E1, E2, E3, E4; try apply mod64.
    pose proof (b2N_lt a). pose proof (b2N_lt b). pose proof (b2N_lt c). pose proof (b2N_lt a'). pose proof (b2N_lt b'). pose proof (b2N_lt c').
    assert (VA : (b2N a * 65536 + b2N b * 256 + b2N c < 16777216)%N) by (clear E1 E2 E3 E4; lia).
    assert (VB : (b2N a' * 65536 + b2N b' * 256 + b2N c' < 16777216)%N) by (clear E1 E2 E3 E4; lia).
    pose proof (parts _ VA) as V. rewrite E1, E2, E3, E4 in V. pose proof (eq_trans V (eq_sym (parts _ VB))) as VV. clear E1 E2 E3 E4 V.
    assert (b2N a = b2N a' /\ b2N b = b2N b' /\ b2N c = b2N c') as (A & B & C) by lia.
    apply b2N_inj in A, B, C. subst. f_equal. f_equal. f_equal. apply IH; [lia|lia|exact E].
Qed.
Lemma encode_surj n : forall k, length k = 4 * n -> Forall url_safe k -> exists l, length l = 3 * n /\ EncodeToString l = k.
Proof.
  induction n as [|n IH]; intros k L S.
  - destruct k; [|discriminate]. exists []. split; reflexivity.
  - destruct k as [|w [|x [|y [|z k]]]]; try (cbn in L; lia). cbn [length] in L.
    inversion S as [|? ? W S1]; subst. inversion S1 as [|? ? X S2]; subst. inversion S2 as [|? ? Y S3]; subst. inversion S3 as [|? ? Z S4]; subst.
    destruct (IH k) as (l & Ll & E); [lia|exact S4|].
    apply sextet_value in W, X, Y, Z. destruct W as [W1 W], X as [X1 X], Y as [Y1 Y], Z as [Z1 Z].
    pose proof (sum_parts _ _ _ _ W1 X1 Y1 Z1) as P. set (v := (value w * 262144 + value x * 4096 + value y * 64 + value z)%N) in *.
    cbn zeta in P. destruct P as (V & P1 & P2 & P3 & P4). destruct (bytes_parts v V) as [B1 B2].
    exists (n2b (v / 65536) :: n2b (v / 256 mod 256) :: n2b (v mod 256) :: l). split; [cbn [length]; lia|].
    rewrite encode_cons, E. rewrite !b2N_n2b_small by (try exact B1; apply N.mod_lt; discriminate).
    rewrite B2. cbn zeta. cbn [app]. rewrite P1, P2, P3, P4.
    rewrite W, X, Y, Z. reflexivity.
Qed.

Theorem key_shape : forall rand b, gives rand b ->
  exists k, generateSessionKey rand = Some k /\ length k = 64 /\ Forall url_safe k.
Proof.
  intros rand b [H L]. unfold generateSessionKey, generateRandomBytes. rewrite H.
  exists (EncodeToString b). split; [reflexivity|]. exact (encode_three b 16 L).
Qed.
Theorem key_injective : forall rand1 rand2 b1 b2 k, gives rand1 b1 -> gives rand2 b2 ->
  generateSessionKey rand1 = Some k -> generateSessionKey rand2 = Some k -> b1 = b2.
Proof.
  unfold generateSessionKey, generateRandomBytes. intros r1 r2 b1 b2 k [H1 L1] [H2 L2]. rewrite H1, H2. intros E1 E2.
  apply (encode_inj 16); [exact L1|exact L2|congruence].
Qed.
Theorem key_surjective : forall k, length k = 64 -> Forall url_safe k -> exists b, length b = 48 /\
  forall rand, gives rand b -> generateSessionKey rand = Some k.
Proof.
  intros k L S. destruct (encode_surj 16 k L S) as (b & Lb & E). exists b. split; [exact Lb|].
  intros rand [H _]. unfold generateSessionKey, generateRandomBytes. rewrite H. cbn. rewrite E. reflexivity.
Qed.
(* NewSession with the default generator *)
Theorem session_new : forall I (info : I) gen now,
  (NewSession info gen now = None <-> gen = None \/ gen = Some []) /\
  forall s, NewSession info gen now = Some s -> gen = Some (s_key s) /\ s_creation s = now /\ s_lookup s = now /\ s_info s = info.
Proof.
  intros. unfold NewSession. destruct gen as [[|x k]|]; cbn; (split; [split|]); try discriminate; auto.
  - intros [|]; discriminate.
  - intros s E. injection E as E; subst. auto.
Qed.
