(* A way of printing and reading numbers and times that is [sound]: floats that are integers, times in nanoseconds. *)
From Coq Require Import Strings.String.
From Coq Require Import List Arith NArith ZArith Lia Bool.
From Coq Require Import ZifyBool ZifyNat ZifyN.
From Verif Require Import BaseBytes SpecText ModelFiles SpecFiles ModelJson SpecJson ProofJson ProofJson4.
Import ListNotations.
Open Scope nat_scope.

Definition unsigned (ds : bytes) : option Z :=
  match ds with
  | [] => None
  | d :: ds' => if forallb digit ds && (negb (beq d x30) || (length ds' =? 0)) then Some (fold_left (fun n d => 10 * n + (Z.of_N (b2N d) - 48))%Z ds 0%Z) else None
  end.
Definition zparse (l : bytes) : option Z :=
  match l with
  | [] => None
  | d :: ds => if beq d x2d then match unsigned ds with Some n => Some (- n)%Z | None => None end else unsigned l
  end.
Definition zlit (z : Z) : bytes := (if (z <? 0)%Z then [x2d] else []) ++ dec_digits 22 (Z.abs_N z).
Definition year_z (t : Z) : bool := (-62167219200000000000 <=? t)%Z && (t <? 253402300800000000000)%Z.
Definition plain_texts : texts Z :=
  MkTexts (fun f => if is_int f then Some (zlit f) else None) (fun l => match zparse l with Some z => if is_int z then Some z else None | None => None end)
    (fun t => if year_z t then Some (zlit t) else None) (fun x => match zparse x with Some t => if year_z t then Some t else None | None => None end).

Lemma unsigned_whole ds : whole ds -> unsigned ds = Some (fold_left (fun n d => 10 * n + (Z.of_N (b2N d) - 48))%Z ds 0%Z).
Proof.
  intros [->|(d & l & -> & B & D)]; [reflexivity|]. unfold unsigned. replace (forallb digit (d :: l)) with true; [replace (beq d x30) with false; [reflexivity|]|].
  - symmetry. apply beq_neq. intros ->. unfold between in B. vm_compute in B. destruct B as [B _]. apply B. reflexivity.
  - symmetry. apply forallb_forall. intros x [<-|I]; [|rewrite Forall_forall in D; apply D in I]; unfold digit, in_, is_digit, between in *; lia.
Qed.
Lemma zparse_spells l z : spells l z -> zparse l = Some z.
Proof.
  intros (s & ds & -> & W & H). cbv zeta in H. apply unsigned_whole in W as U. destruct H as [[-> ->]|(-> & -> & _)].
  - cbn [app]. unfold zparse. destruct ds as [|d ds]; [discriminate|]. destruct (beq_spec d x2d) as [->|]; [|exact U]. destruct W as [W|(d & l & W & B & _)]; [discriminate|].
    injection W as <- <-. unfold between in B. vm_compute in B. destruct B as [B _]. exfalso. apply B. reflexivity.
  - cbn [app zparse]. change (beq (n2b 45) x2d) with true. cbv iota. rewrite U. reflexivity.
Qed.
Lemma zlit_spells z : (Z.abs z < 10 ^ 22)%Z -> spells (zlit z) z.
Proof.
  intros H. unfold zlit. assert (B : (Z.abs_N z < 10 ^ N.of_nat 22)%N) by (change (10 ^ N.of_nat 22)%N with (Z.to_N (10 ^ 22)); lia).
  destruct (dec_digits_ok 22 (Z.abs_N z)) as (D & P & Z0); [lia|exact B|].
  exists (if (z <? 0)%Z then [x2d] else []), (dec_digits 22 (Z.abs_N z)). split; [reflexivity|]. split.
  - destruct (N.eq_dec (Z.abs_N z) 0) as [E|E]; [left; apply Z0, E|]. right. destruct (P E) as (d & ds & Q & R). rewrite Q in D |- *. exists d, ds. split; [reflexivity|]. split; [exact R|]. inversion D; assumption.
  - rewrite (dec_value 22 _ B). cbv zeta. destruct (Z.ltb_spec z 0); [right; split; [reflexivity|]|left; split; [reflexivity|]]; lia.
Qed.
Lemma zlit_plain z : (Z.abs z < 10 ^ 22)%Z -> Forall (fun b => between 32 126 b /\ b <> n2b 34 /\ b <> n2b 92) (zlit z).
Proof.
  intros H. unfold zlit. assert (B : (Z.abs_N z < 10 ^ N.of_nat 22)%N) by (change (10 ^ N.of_nat 22)%N with (Z.to_N (10 ^ 22)); lia).
  destruct (dec_digits_ok 22 (Z.abs_N z)) as (D & _); [lia|exact B|]. apply Forall_app. split.
  - destruct (z <? 0)%Z; repeat constructor; vm_compute; discriminate.
  - eapply Forall_impl; [|exact D]. cbv beta. intros b Q. unfold is_digit, between in *. split; [lia|]. split; intros ->; vm_compute in Q; destruct Q as [Q1 Q2]; [apply Q1|apply Q2]; reflexivity.
Qed.
Lemma year_small t : year_z t = true -> (Z.abs t < 10 ^ 22)%Z.
Proof. unfold year_z. lia. Qed.
Lemma int_small z : is_int z = true -> (Z.abs z < 10 ^ 22)%Z.
Proof. intros H. apply is_int_spec in H. lia. Qed.
Lemma plain_sound : sound plain_texts (fun z => z).
Proof.
  constructor; cbn [f_lit f_num t_text t_time plain_texts].
  - intros f l H. destruct (is_int f) eqn:E; [|discriminate]. injection H as <-. pose proof (zlit_spells f (int_small _ E)) as Q. split; [eapply spells_number, Q|]. rewrite (zparse_spells _ _ Q), E. reflexivity.
  - intros l f H. destruct (zparse l) as [z|]; [|discriminate]. destruct (is_int z) eqn:E; [|discriminate]. injection H as <-. rewrite E. eauto.
  - intros l z Q H. rewrite (zparse_spells _ _ Q). apply is_int_spec in H. rewrite H. reflexivity.
  - intros t x H. destruct (year_z t) eqn:E; [|discriminate]. injection H as <-. pose proof (year_small _ E) as Y. split; [|apply zlit_plain, Y]. rewrite (zparse_spells _ _ (zlit_spells _ Y)), E. reflexivity.
  - intros x t H. destruct (zparse x) as [z|]; [|discriminate]. destruct (year_z z) eqn:E; [|discriminate]. injection H as <-. rewrite E. eauto.
  - intros t H. unfold in_years in H. assert (E : year_z t = true) by (unfold year_z; lia). rewrite E. eauto.
Qed.
