(* Bytes, little-endian numbers and small list facts shared by all models. *)
From Coq Require Import List Arith NArith ZArith Lia Bool.
From Coq Require Export Strings.Byte.
From Coq Require Import ZifyBool ZifyNat ZifyN.
Import ListNotations.
Open Scope nat_scope.

Definition bytes := list byte.

(* Go: uint8 -> integer *)
Definition b2N (b : byte) : N := Byte.to_N b.
Definition b2n (b : byte) : nat := N.to_nat (b2N b).
(* Go: integer -> uint8 (conversion truncates modulo 256) *)
Definition n2b (n : N) : byte :=
  match Byte.of_N (n mod 256) with Some b => b | None => x00 end.

Lemma b2N_lt b : (b2N b < 256)%N.
Proof. unfold b2N. pose proof (Byte.to_N_bounded b). lia. Qed.

Lemma b2n_lt b : b2n b < 256.
Proof. unfold b2n. pose proof (b2N_lt b). lia. Qed.

Lemma n2b_b2N b : n2b (b2N b) = b.
Proof.
  unfold n2b. rewrite N.mod_small by apply b2N_lt.
  unfold b2N. rewrite Byte.of_to_N. reflexivity.
Qed.

Lemma of_N_some n : (n < 256)%N -> exists b, Byte.of_N n = Some b.
Proof.
  intros H. destruct (Byte.of_N n) eqn:E; [eauto|].
  apply Byte.of_N_None_iff in E. lia.
Qed.

Lemma b2N_n2b n : b2N (n2b n) = (n mod 256)%N.
Proof.
  unfold n2b. assert (H : (n mod 256 < 256)%N) by (apply N.mod_lt; lia).
  destruct (of_N_some _ H) as [b Hb]. rewrite Hb.
  unfold b2N. apply Byte.to_of_N in Hb. exact Hb.
Qed.

Lemma b2N_n2b_small n : (n < 256)%N -> b2N (n2b n) = n.
Proof. intros. rewrite b2N_n2b. apply N.mod_small. assumption. Qed.

Lemma b2N_inj a b : b2N a = b2N b -> a = b.
Proof. intros H. rewrite <- (n2b_b2N a), <- (n2b_b2N b), H. reflexivity. Qed.

Lemma b2n_inj a b : b2n a = b2n b -> a = b.
Proof. unfold b2n. intros H. apply b2N_inj. lia. Qed.

Lemma b2n_n2b n : n < 256 -> b2n (n2b (N.of_nat n)) = n.
Proof. intros. unfold b2n. rewrite b2N_n2b_small by lia. lia. Qed.

Lemma n2b_b2n b : n2b (N.of_nat (b2n b)) = b.
Proof. unfold b2n. rewrite N2Nat.id. apply n2b_b2N. Qed.

Definition beq (a b : byte) : bool := Byte.eqb a b.
Lemma beq_spec a b : reflect (a = b) (beq a b).
Proof.
  unfold beq. destruct (Byte.eqb a b) eqn:E; constructor.
  - apply Byte.byte_dec_bl. exact E.
  - intros ->. rewrite (Byte.byte_dec_lb (eq_refl b)) in E. discriminate.
Qed.
Lemma beq_refl a : beq a a = true.
Proof. destruct (beq_spec a a); congruence. Qed.
Lemma beq_eq a b : beq a b = true <-> a = b.
Proof. destruct (beq_spec a b); split; congruence. Qed.
Lemma beq_neq a b : beq a b = false <-> a <> b.
Proof. destruct (beq_spec a b); split; congruence. Qed.

Definition byte_eq_dec : forall a b : byte, {a = b} + {a <> b}.
Proof. intros a b. destruct (beq_spec a b); [left|right]; assumption. Defined.
Definition bytes_eq_dec : forall a b : bytes, {a = b} + {a <> b} :=
  list_eq_dec byte_eq_dec.
Fixpoint bytes_eqb (a b : bytes) : bool :=
  match a, b with
  | [], [] => true
  | x :: a', y :: b' => Byte.eqb x y && bytes_eqb a' b'
  | _, _ => false
  end.
Lemma bytes_eqb_spec a : forall b, reflect (a = b) (bytes_eqb a b).
Proof.
  induction a as [|x a IH]; intros [|y b]; cbn; try (constructor; congruence).
  destruct (Byte.eqb x y) eqn:E; cbn.
  - apply Byte.byte_dec_bl in E. subst y. destruct (IH b); constructor; congruence.
  - constructor. intros [= -> ->]. rewrite Byte.byte_dec_lb in E by reflexivity. discriminate.
Qed.

(* little-endian encoding of n in k bytes (Go: binary.LittleEndian.PutUint32/64) *)
Fixpoint le_put (k : nat) (n : N) : bytes :=
  match k with
  | O => []
  | S k' => n2b n :: le_put k' (n / 256)
  end.
(* Go: binary.LittleEndian.Uint32/64 *)
Fixpoint le_get (l : bytes) : N :=
  match l with
  | [] => 0
  | b :: l' => b2N b + 256 * le_get l'
  end%N.

Lemma le_put_length k n : length (le_put k n) = k.
Proof. revert n; induction k; intros; cbn [le_put length]; [|rewrite IHk]; reflexivity. Qed.

Lemma le_get_put k n : le_get (le_put k n) = (n mod 256 ^ N.of_nat k)%N.
Proof.
  revert n; induction k; intros n.
  - cbn [le_put le_get]. change (256 ^ N.of_nat 0)%N with 1%N. rewrite N.mod_1_r. reflexivity.
  - cbn [le_put le_get]. rewrite IHk, b2N_n2b.
    replace (N.of_nat (S k)) with (N.succ (N.of_nat k)) by lia.
    rewrite N.pow_succ_r'. rewrite N.mod_mul_r by (try apply N.pow_nonzero; lia).
    reflexivity.
Qed.

Lemma le_get_bound l : (le_get l < 256 ^ N.of_nat (length l))%N.
Proof.
  induction l; cbn [le_get length].
  - change (256 ^ N.of_nat 0)%N with 1%N. lia.
  - replace (N.of_nat (S (length l))) with (N.succ (N.of_nat (length l))) by lia.
    rewrite N.pow_succ_r'. pose proof (b2N_lt a). nia.
Qed.

Lemma le_put_get l : le_put (length l) (le_get l) = l.
Proof.
  induction l; cbn [le_get length le_put]; [reflexivity|].
  pose proof (b2N_lt a). f_equal.
  - apply b2N_inj. rewrite b2N_n2b.
    rewrite N.mul_comm, N.mod_add by lia. apply N.mod_small. assumption.
  - rewrite N.mul_comm, N.div_add by lia.
    rewrite N.div_small by assumption. rewrite N.add_0_l. exact IHl.
Qed.

Lemma le_put_inj k a b :
  (a < 256 ^ N.of_nat k)%N -> (b < 256 ^ N.of_nat k)%N ->
  le_put k a = le_put k b -> a = b.
Proof.
  intros Ha Hb H. apply (f_equal le_get) in H. rewrite !le_get_put in H.
  rewrite !N.mod_small in H by assumption. exact H.
Qed.

(* list facts *)
Lemma firstn_app_exact {A} (a b : list A) n : n = length a -> firstn n (a ++ b) = a.
Proof. intros ->. rewrite firstn_app, Nat.sub_diag, firstn_all, firstn_O, app_nil_r. reflexivity. Qed.
Lemma skipn_app_exact {A} (a b : list A) n : n = length a -> skipn n (a ++ b) = b.
Proof. intros ->. rewrite skipn_app, Nat.sub_diag, skipn_all, skipn_O. reflexivity. Qed.

Definition bslen := @length byte.

(* evenness used throughout (Go: x%2 != 0) *)
Definition odd_len (l : bytes) : bool := Nat.odd (length l).
