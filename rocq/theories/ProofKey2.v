(* Session keys are numerals. *)
From Coq Require Import List Arith NArith ZArith Lia Bool.
From Coq Require Import ZifyBool ZifyNat ZifyN.
From Verif Require Import BaseBytes ModelMessage ModelKey SpecKey ProofKey.
Import ListNotations.
Open Scope nat_scope.

Lemma sextet_digit n : (n < 64)%N -> sextet n = url_digit n.
Proof.
  assert (A : forallb (fun n => Byte.eqb (sextet n) (url_digit n)) all64 = true) by (vm_compute; reflexivity).
  rewrite forallb_forall in A. intros H. specialize (A n (in_all64 n H)). apply Byte.byte_dec_bl. exact A.
Qed.
Lemma number_acc l : forall v, fold_left (fun v c => v * 256 + b2N c)%N l v = (v * 256 ^ N.of_nat (length l) + number l)%N.
Proof.
  unfold number. induction l as [|c l IH]; intros v; [cbn; lia|]. cbn [fold_left length]. rewrite IH, (IH (0 * 256 + b2N c)%N).
  rewrite Nat2N.inj_succ, N.pow_succ_r'. lia.
Qed.
Lemma number_cons3 a b c l : number (a :: b :: c :: l) = ((b2N a * 65536 + b2N b * 256 + b2N c) * 256 ^ N.of_nat (length l) + number l)%N.
Proof. unfold number at 1. cbn [fold_left]. rewrite number_acc. f_equal. f_equal. lia. Qed.
Lemma number_lt l : (number l < 256 ^ N.of_nat (length l))%N.
Proof.
  induction l as [|c l IH]; [cbn; lia|]. unfold number. cbn [fold_left length]. rewrite number_acc.
  rewrite Nat2N.inj_succ, N.pow_succ_r'. pose proof (b2N_lt c). nia.
Qed.
Lemma digits_app a b : forall x r, (r < 64 ^ N.of_nat b)%N -> digits64 (a + b) (x * 64 ^ N.of_nat b + r) = digits64 a x ++ digits64 b r.
Proof.
  induction b as [|b IH]; intros x r H.
  - cbn in *. rewrite Nat.add_0_r, app_nil_r. f_equal. lia.
  - rewrite Nat.add_succ_r. cbn [digits64]. rewrite Nat2N.inj_succ, N.pow_succ_r' in *.
    assert (D : ((x * (64 * 64 ^ N.of_nat b) + r) / 64 = x * 64 ^ N.of_nat b + r / 64)%N).
    { replace (x * (64 * 64 ^ N.of_nat b) + r)%N with (r + (x * 64 ^ N.of_nat b) * 64)%N by lia. rewrite N.div_add by lia. lia. }
    assert (M : ((x * (64 * 64 ^ N.of_nat b) + r) mod 64 = r mod 64)%N).
    { replace (x * (64 * 64 ^ N.of_nat b) + r)%N with (r + (x * 64 ^ N.of_nat b) * 64)%N by lia. apply N.mod_add. lia. }
    rewrite D, M, IH by (apply N.div_lt_upper_bound; lia). rewrite app_assoc. reflexivity.
Qed.
Lemma pow_256_64 n : (256 ^ N.of_nat (3 * n) = 64 ^ N.of_nat (4 * n))%N.
Proof.
  change 256%N with (2 ^ 8)%N. change 64%N with (2 ^ 6)%N. rewrite <- !N.pow_mul_r. f_equal. lia.
Qed.
Lemma encode_exact n : forall l, length l = 3 * n -> EncodeToString l = map url_digit (digits64 (4 * n) (number l)).
Proof.
  induction n as [|n IH]; intros l L.
  - destruct l; [reflexivity|discriminate].
  - destruct l as [|a [|b [|c l]]]; try (cbn in L; lia). cbn [length] in L. assert (Ll : length l = 3 * n) by lia.
    rewrite encode_cons, number_cons3, Ll, pow_256_64. replace (4 * S n) with (4 + 4 * n) by lia.
    rewrite digits_app by (rewrite <- pow_256_64, <- Ll; apply number_lt). rewrite map_app, <- (IH l Ll). cbn zeta. f_equal.
    set (v := (b2N a * 65536 + b2N b * 256 + b2N c)%N). cbn [digits64 map app].
    rewrite !sextet_digit by apply mod64. rewrite !N.div_div by lia. reflexivity.
Qed.
Lemma encode_padded l : EncodeToString l =
  firstn (4 * ((length l + 2) / 3) - missing l) (EncodeToString (l ++ repeat x00 (missing l))) ++ repeat padding_char (missing l).
Proof.
  remember (length l) as n eqn:E. revert l E. induction n as [n IH] using (well_founded_induction lt_wf). intros l E.
  destruct l as [|a [|b [|c l]]].
  - subst n. reflexivity.
  - subst n. cbn. rewrite !N.lor_0_r. reflexivity.
  - subst n. cbn. rewrite !N.lor_0_r. reflexivity.
  - cbn [length] in E. assert (M : missing (a :: b :: c :: l) = missing l).
    { unfold missing. cbn [length]. replace (S (S (S (length l)))) with (length l + 1 * 3) by lia. rewrite Nat.mod_add by lia. reflexivity. }
    rewrite M. cbn [app]. rewrite !encode_cons. cbn zeta.
    rewrite (IH (length l) ltac:(lia) l eq_refl) at 1.
    assert (D : 4 * ((n + 2) / 3) - missing l = 4 + (4 * ((length l + 2) / 3) - missing l)).
    { subst n. replace (S (S (S (length l))) + 2) with ((length l + 2) + 1 * 3) by lia. rewrite Nat.div_add by lia.
      assert (missing l <= 4 * ((length l + 2) / 3)); [|lia]. unfold missing.
      destruct l as [|x l]; [cbn; lia|]. assert (1 <= (length (x :: l) + 2) / 3) by (apply Nat.div_le_lower_bound; cbn [length]; lia).
      pose proof (Nat.mod_upper_bound (3 - length (x :: l) mod 3) 3 ltac:(lia)). lia. }
    rewrite D. reflexivity.
Qed.
Theorem key_exact : forall rand b, gives rand b -> generateSessionKey rand = Some (map url_digit (digits64 64 (number b))).
Proof.
  intros rand b [H L]. unfold generateSessionKey, generateRandomBytes. rewrite H. cbn. f_equal. apply (encode_exact 16). exact L.
Qed.
