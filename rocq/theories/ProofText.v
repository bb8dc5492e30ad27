(* Proofs about Payload.Utf8 *)
From Coq Require Import List Arith NArith ZArith Lia Bool.
From Coq Require Import ZifyBool ZifyNat ZifyN.
From Verif Require Import BaseBytes ModelMessage ModelPayload SpecText SpecWire.
Import ListNotations.
Open Scope N_scope.
Ltac Zify.zify_post_hook ::= Z.div_mod_to_equations.

Lemma upto (P : N -> bool) n : forallb P (map N.of_nat (seq 0 n)) = true ->
  forall x, x < N.of_nat n -> P x = true.
Proof.
  intros H x Hx. rewrite forallb_forall in H. apply H.
  rewrite <- (N2Nat.id x). apply in_map. apply in_seq. lia.
Qed.
Lemma lor_ok a n : forallb (fun x => N.lor a x =? a + x) (map N.of_nat (seq 0 n)) = true ->
  forall x, x < N.of_nat n -> N.lor a x = a + x.
Proof. intros H x Hx. apply N.eqb_eq. exact (upto _ _ H x Hx). Qed.
Lemma lor80 x : x < 64 -> N.lor 0x80 x = 0x80 + x.
Proof. apply (lor_ok _ 64). vm_compute. reflexivity. Qed.
Lemma lorC0 x : x < 32 -> N.lor 0xC0 x = 0xC0 + x.
Proof. apply (lor_ok _ 32). vm_compute. reflexivity. Qed.
Lemma lorE0 x : x < 16 -> N.lor 0xE0 x = 0xE0 + x.
Proof. apply (lor_ok _ 16). vm_compute. reflexivity. Qed.
Lemma lorF0 x : x < 8 -> N.lor 0xF0 x = 0xF0 + x.
Proof. apply (lor_ok _ 8). vm_compute. reflexivity. Qed.
Lemma land3F r : N.land r 0x3F = r mod 64.
Proof. change 0x3F with (N.ones 6). rewrite N.land_ones. reflexivity. Qed.

(* EncodeRune agrees with the table on scalar values *)
Lemma EncodeRune_ok r : scalar r -> utf8_EncodeRune r = utf8_of r.
Proof.
  unfold scalar, utf8_EncodeRune, utf8_of. intros H.
  rewrite !N.shiftr_div_pow2. change (2 ^ 6) with 64. change (2 ^ 12) with 4096. change (2 ^ 18) with 262144.
  rewrite !land3F.
  destruct (N.leb_spec r 0x7F), (N.ltb_spec r 0x80); try lia; [reflexivity|].
  destruct (N.leb_spec r 0x7FF), (N.ltb_spec r 0x800); try lia.
  { rewrite lorC0, lor80 by lia. reflexivity. }
  destruct ((0x10FFFF <? r) || ((0xD800 <=? r) && (r <=? 0xDFFF))) eqn:E; [lia|].
  destruct (N.leb_spec r 0xFFFF), (N.ltb_spec r 0x10000); try lia.
  { rewrite lorE0, !lor80 by lia. reflexivity. }
  rewrite lorF0, !lor80 by lia. reflexivity.
Qed.

(* the table yields well-formed characters *)
Lemma btw a b n : (n < 256) -> a <= n <= b -> between a b (n2b n).
Proof. intros H1 H2. unfold between. rewrite b2N_n2b_small by assumption. exact H2. Qed.
Lemma utf8_of_wf c : scalar c -> utf8_char (utf8_of c).
Proof.
  unfold scalar, utf8_of. intros H.
  destruct (N.ltb_spec c 0x80); [apply U1, btw; lia|].
  destruct (N.ltb_spec c 0x800); [apply U2; apply btw; lia|].
  destruct (N.ltb_spec c 0x10000).
  - destruct (N.ltb_spec c 0x1000); [apply U3a; apply btw; lia|].
    destruct (N.ltb_spec c 0xD000); [apply U3b; apply btw; lia|].
    destruct (N.ltb_spec c 0xE000); [apply U3c; apply btw; lia|].
    apply U3d; apply btw; lia.
  - destruct (N.ltb_spec c 0x40000); [apply U4a; apply btw; lia|].
    destruct (N.ltb_spec c 0x100000); [apply U4b; apply btw; lia|].
    apply U4c; apply btw; lia.
Qed.
Lemma utf8_wf_text text : Forall scalar text -> utf8_wf (utf8 text).
Proof.
  induction 1; cbn [utf8 flat_map]; [constructor|].
  apply WF_char; [apply utf8_of_wf; assumption|exact IHForall].
Qed.

(* the units seen by the loop *)
Fixpoint units (data : bytes) : list N :=
  match data with
  | a :: b :: r => (b2N a + 256 * b2N b) :: units r
  | _ => []
  end.
Lemma decode1_scalar u : u < 65536 -> scalar (utf16_Decode1 u).
Proof.
  unfold utf16_Decode1, scalar. intros. destruct ((0xd800 <=? u) && (u <? 0xe000)) eqn:E; lia.
Qed.
Lemma pair_ind (P : bytes -> Prop) :
  P [] -> (forall a, P [a]) -> (forall a b r, P r -> P (a :: b :: r)) -> forall l, P l.
Proof.
  intros H0 H1 H2. fix IH 1. intros [|a [|b r]]; [exact H0|apply H1|apply H2, IH].
Qed.
Lemma units_bound data : Forall (fun u => u < 65536) (units data).
Proof.
  induction data using pair_ind; cbn [units]; constructor; [|assumption].
  pose proof (b2N_lt a). pose proof (b2N_lt b). lia.
Qed.
Lemma utf8_loop_units data : utf8_loop data = utf8 (map utf16_Decode1 (units data)).
Proof.
  induction data using pair_ind; try reflexivity.
  cbn [utf8_loop units map utf8 flat_map]. rewrite IHdata.
  pose proof (b2N_lt a). pose proof (b2N_lt b).
  rewrite N.shiftl_mul_pow2. change (2 ^ 8) with 256.
  rewrite N.mod_small by lia. rewrite (N.mul_comm (b2N b) 256).
  rewrite EncodeRune_ok by (apply decode1_scalar; lia). reflexivity.
Qed.

Lemma Utf8_wf data out : Payload_Utf8 Utf16 data = Some out -> utf8_wf out.
Proof.
  unfold Payload_Utf8. cbn [Z.eqb Utf16 Pos.eqb]. destruct (negb _); [discriminate|].
  intros H; injection H as <-. rewrite utf8_loop_units. apply utf8_wf_text.
  rewrite Forall_map. eapply Forall_impl; [|apply units_bound]. intros. apply decode1_scalar. assumption.
Qed.

Lemma Utf8_error e data :
  Payload_Utf8 e data = None <-> e = 2%Z /\ (length data mod 2 <> 0)%nat.
Proof.
  unfold Payload_Utf8, Utf16. destruct (Z.eqb_spec e 2) as [->|N].
  - destruct (Nat.eqb_spec (length data mod 2) 0); cbn [negb]; split; try discriminate; intuition.
  - split; [discriminate|]. intros [? _]; contradiction.
Qed.
Lemma Utf8_pass e data : e <> 2%Z -> Payload_Utf8 e data = Some data.
Proof. intros H. unfold Payload_Utf8, Utf16. destruct (Z.eqb_spec e 2); [contradiction|reflexivity]. Qed.

Lemma units_le16 us : Forall (fun u => u < 65536) us -> units (flat_map le16 us) = us.
Proof.
  induction 1; [reflexivity|]. cbn [flat_map le16 app units]. rewrite IHForall. f_equal.
  rewrite !b2N_n2b. rewrite N.mod_mod by lia. rewrite (N.mod_small (x / 256)) by lia. lia.
Qed.
Lemma utf16_units_bound c : scalar c -> Forall (fun u => u < 65536) (utf16_units c).
Proof.
  unfold scalar, utf16_units. intros. destruct (N.ltb_spec c 0x10000); repeat constructor; lia.
Qed.
Lemma utf16le_even text : (length (utf16le text) mod 2 = 0)%nat.
Proof.
  unfold utf16le. induction (flat_map utf16_units text) as [|u us IH]; [reflexivity|].
  cbn [flat_map le16 app length]. lia.
Qed.

(* what the conversion yields for arbitrary text: characters outside the basic plane
   become two replacement characters *)
Definition damaged (c : N) : list N := if c <? 0x10000 then [c] else [0xFFFD; 0xFFFD].
Lemma Utf8_text text : Forall scalar text ->
  Payload_Utf8 2%Z (utf16le text) = Some (utf8 (flat_map damaged text)).
Proof.
  intros H. unfold Payload_Utf8. cbn [Z.eqb Utf16 Pos.eqb].
  rewrite (proj2 (Nat.eqb_eq _ _) (utf16le_even text)). cbn [negb]. f_equal.
  rewrite utf8_loop_units. f_equal. unfold utf16le. rewrite units_le16.
  - induction H; [reflexivity|]. cbn [flat_map]. rewrite map_app, IHForall. f_equal.
    unfold utf16_units, damaged, scalar, utf16_Decode1 in *. destruct (N.ltb_spec x 0x10000); cbn [map].
    + destruct ((0xd800 <=? x) && (x <? 0xe000)) eqn:E; [lia|reflexivity].
    + repeat (match goal with |- context [if ?c then _ else _] => destruct c eqn:?; try lia end). reflexivity.
  - rewrite Forall_flat_map. eapply Forall_impl; [|exact H]. apply utf16_units_bound.
Qed.
Lemma Utf8_text_bmp text : Forall scalar text -> Forall (fun c => c < 0x10000) text ->
  Payload_Utf8 2%Z (utf16le text) = Some (utf8 text).
Proof.
  intros H1 H2. rewrite Utf8_text by assumption. f_equal. f_equal. clear H1.
  induction H2; [reflexivity|]. cbn [flat_map]. rewrite IHForall. unfold damaged.
  destruct (N.ltb_spec x 0x10000); [reflexivity|lia].
Qed.

Lemma rune_exact r : (scalar r -> utf8_EncodeRune r = utf8_of r) /\ (~ scalar r -> utf8_EncodeRune r = map n2b [0xEF; 0xBF; 0xBD]).
Proof.
  split; [apply EncodeRune_ok|]. unfold scalar. intros H. unfold utf8_EncodeRune.
  destruct (N.leb_spec r 0x7F); [lia|]. destruct (N.leb_spec r 0x7FF); [lia|].
  replace ((0x10FFFF <? r) || ((0xD800 <=? r) && (r <=? 0xDFFF)))%bool with true; [reflexivity|].
  symmetry. apply Bool.orb_true_iff. destruct (N.ltb_spec 0x10FFFF r); [auto|]. right. apply andb_true_iff. split; apply N.leb_le; lia.
Qed.
