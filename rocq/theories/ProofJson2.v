(* Proofs about JSON: escaping, scanning strings and numbers. *)
From Coq Require Import List Arith NArith ZArith Lia Bool.
From Coq Require Import ZifyBool ZifyNat ZifyN.
From Verif Require Import BaseBytes SpecText ModelMessage ModelPayload ProofText ModelFiles SpecFiles ModelJson SpecJson ProofJson.
Import ListNotations.
Open Scope nat_scope.

(* ----- escaping ----- *)
Definition out (b : byte) : bytes := if safe b then [b] else esc_byte b.
Lemma esc_ascii b s : (b2N b < 128)%N -> esc 0 (b :: s) = out b ++ esc 0 s.
Proof. intros H. cbn [esc]. destruct (N.ltb_spec (b2N b) 128); [reflexivity|lia]. Qed.
Lemma esc_multi c s : utf8_char c -> 2 <= length c -> esc 0 (c ++ s) = esc_char c ++ esc 0 s.
Proof.
  intros U L. destruct (multi c s U L) as (a & c' & n & -> & X & N & R). cbn [app] in *. cbn [esc]. destruct (N.ltb_spec (b2N a) 128); [lia|].
  rewrite R. cbn [firstn]. rewrite esc_skip, <- N, firstn_app, Nat.sub_diag, firstn_all, skipn_app, Nat.sub_diag, skipn_all. cbn [firstn skipn app].
  rewrite app_nil_r. reflexivity.
Qed.
Lemma esc_nochar b s : (128 <= b2N b)%N -> rune_len (b :: s) = 0 -> esc 0 (b :: s) = esc_bad ++ esc 0 s.
Proof. intros H R. cbn [esc]. destruct (N.ltb_spec (b2N b) 128); [lia|]. rewrite R. reflexivity. Qed.
Lemma out_unq b s : (b2N b < 128)%N -> unq 0 (out b ++ s) = b :: unq 0 s.
Proof. intros H. destruct b; try (exfalso; vm_compute in H; discriminate H); reflexivity. Qed.
Lemma esc_char_unq c s : utf8_char c -> 2 <= length c -> unq 0 (esc_char c ++ s) = c ++ unq 0 s.
Proof.
  intros U L. unfold esc_char. destruct (bytes_eqb_spec c [xe2; x80; xa8]) as [->|]; [reflexivity|].
  destruct (bytes_eqb_spec c [xe2; x80; xa9]) as [->|]; [reflexivity|]. apply unq_multi; assumption.
Qed.
Lemma esc_unq s : unq 0 (esc 0 s) = coerce 0 s.
Proof.
  induction s as [|b s B IHs|c s U L IHs|b s B R IHs] using by_chars; [reflexivity|..].
  - rewrite esc_ascii, out_unq, coerce_ascii, IHs by assumption. reflexivity.
  - rewrite esc_multi, esc_char_unq, coerce_multi, IHs by assumption. reflexivity.
  - rewrite esc_nochar, coerce_bad, <- IHs by assumption. reflexivity.
Qed.
Ltac lit_hex := do 4 eexists; split; [apply hexval_spec; vm_compute; reflexivity|split; [apply hexval_spec; vm_compute; reflexivity|split; [apply hexval_spec; vm_compute; reflexivity|split; [apply hexval_spec; vm_compute; reflexivity|reflexivity]]]].
Lemma out_chars b s : (b2N b < 128)%N -> chars s -> chars (out b ++ s).
Proof.
  intros H C. destruct b; try (exfalso; vm_compute in H; discriminate H);
    first [ apply Ch_plain; [vm_compute; discriminate|intros Z; vm_compute in Z; discriminate Z|intros Z; vm_compute in Z; discriminate Z|exact C]
          | apply Ch_esc; [vm_compute; tauto|exact C]
          | eapply Ch_hex; [lit_hex|exact C]].
Qed.
Lemma esc_char_chars c s : utf8_char c -> 2 <= length c -> chars s -> chars (esc_char c ++ s).
Proof.
  intros U L C. unfold esc_char. destruct (bytes_eqb_spec c [xe2; x80; xa8]) as [->|]; [eapply Ch_hex; [lit_hex|exact C]|].
  destruct (bytes_eqb_spec c [xe2; x80; xa9]) as [->|]; [eapply Ch_hex; [lit_hex|exact C]|]. apply ch_bytes; [apply char_high; assumption|exact C].
Qed.
Lemma esc_chars s : chars (esc 0 s).
Proof.
  induction s as [|b s B IHs|c s U L IHs|b s B R IHs] using by_chars; [constructor|..].
  - rewrite esc_ascii by assumption. apply out_chars; assumption.
  - rewrite esc_multi by assumption. apply esc_char_chars; assumption.
  - rewrite esc_nochar by assumption. eapply (Ch_hex x66 x66 x66 x64); [lit_hex|assumption].
Qed.
(* well-formed, and nothing a browser could take for markup or the end of a script line *)
Lemma ascii_wf l : Forall (fun b => (b2N b < 128)%N) l -> utf8_wf l.
Proof. induction 1; [constructor|]. apply (WF_char [x]); [apply ascii_char|]; assumption. Qed.
Lemma out_ascii b : (b2N b < 128)%N -> Forall (fun b => (b2N b < 128)%N) (out b).
Proof. intros H. destruct b; try (exfalso; vm_compute in H; discriminate H); vm_compute; repeat constructor. Qed.
Lemma esc_wf s : utf8_wf (esc 0 s).
Proof.
  induction s as [|b s B IHs|c s U L IHs|b s B R IHs] using by_chars; [constructor|..].
  - rewrite esc_ascii by assumption. apply wf_app; [apply ascii_wf, out_ascii|]; assumption.
  - rewrite esc_multi by assumption. apply wf_app; [|assumption]. unfold esc_char.
    destruct (bytes_eqb_spec c [xe2; x80; xa8]) as [->|]; [apply ascii_wf; repeat constructor|].
    destruct (bytes_eqb_spec c [xe2; x80; xa9]) as [->|]; [apply ascii_wf; repeat constructor|]. rewrite <- (app_nil_r c). constructor; [assumption|constructor].
  - rewrite esc_nochar by assumption. apply wf_app; [apply ascii_wf; repeat constructor|assumption].
Qed.
Lemma esc_safe s : Forall (fun b => ~ In (b2N b) [60; 62; 38]%N) (esc 0 s).
Proof.
  induction s as [|b s B IHs|c s U L IHs|b s B R IHs] using by_chars; [constructor|..].
  - rewrite esc_ascii by assumption. apply Forall_app. split; [|assumption].
    destruct b; try (exfalso; match goal with H : (_ < 128)%N |- _ => vm_compute in H; discriminate H end);
      vm_compute; repeat constructor; intuition discriminate.
  - rewrite esc_multi by assumption. apply Forall_app. split; [|assumption]. unfold esc_char.
    destruct (bytes_eqb_spec c [xe2; x80; xa8]) as [->|]; [vm_compute; repeat constructor; intuition discriminate|].
    destruct (bytes_eqb_spec c [xe2; x80; xa9]) as [->|]; [vm_compute; repeat constructor; intuition discriminate|].
    eapply Forall_impl; [|apply char_high; eassumption]. cbv beta. intros a A [Q|[Q|[Q|[]]]]; lia.
  - rewrite esc_nochar by assumption. apply Forall_app. split; [|assumption]. vm_compute; repeat constructor; intuition discriminate.
Qed.

(* ----- scanning strings ----- *)
Ltac kill_beq := repeat match goal with
  | |- context [beq ?a ?b] => destruct (beq_spec a b); [try contradiction; subst; try discriminate|]
  end.
Lemma scan_ok raw r : chars raw -> scan_str Plain (raw ++ quote :: r) = Some (raw, r).
Proof.
  induction 1 as [|b s P Q N C IH|c s I C IH|a b c d u s H C IH].
  - reflexivity.
  - cbn [app scan_str]. destruct (beq_spec b quote) as [->|]; [exfalso; apply Q; reflexivity|]. destruct (N.ltb_spec (b2N b) 32); [lia|].
    destruct (beq_spec b backslash) as [->|]; [exfalso; apply N; reflexivity|]. rewrite IH. reflexivity.
  - assert (E : scan_str Esc (c :: s ++ quote :: r) = Some (c :: s, r)).
    { assert (I' : c = n2b 34 \/ c = n2b 92 \/ c = n2b 47 \/ c = n2b 98 \/ c = n2b 102 \/ c = n2b 110 \/ c = n2b 114 \/ c = n2b 116).
      { rewrite <- (n2b_b2N c). cbn [In] in I. decompose [or] I; try contradiction; match goal with H : _ = b2N c |- _ => rewrite <- H end; tauto. }
      decompose [or] I'; subst c; cbn [scan_str]; rewrite IH; reflexivity. }
    change (scan_str Plain ((n2b 92 :: c :: s) ++ quote :: r)) with (let? (raw, r) := scan_str Esc (c :: s ++ quote :: r) in Some (backslash :: raw, r)).
    rewrite E. reflexivity.
  - destruct H as (x & y & z & w & A & B & D & E & _). apply hexval_hex in A, B, D, E.
    change (scan_str Plain ((u_esc a b c d ++ s) ++ quote :: r)) with
      (let? (raw, r) := (let? (raw, r) := scan_str (Hex 3) (a :: b :: c :: d :: s ++ quote :: r) in Some (x75 :: raw, r)) in Some (backslash :: raw, r)).
    cbn [scan_str]. rewrite A, B, D, E, IH. reflexivity.
Qed.
Lemma scan_inv n : forall s raw r, length s <= n -> scan_str Plain s = Some (raw, r) -> chars raw /\ s = raw ++ quote :: r.
Proof.
  induction n as [|n IH]; intros s raw r L H; (destruct s as [|b s]; [discriminate|]); cbn [length] in L; [lia|].
  cbn [scan_str] in H. destruct (beq_spec b quote) as [->|Q]; [injection H as <- <-; split; [constructor|reflexivity]|].
  destruct (N.ltb_spec (b2N b) 32) as [?|G]; [discriminate|].
  destruct (beq_spec b backslash) as [->|B].
  - destruct s as [|c s]; [discriminate|]. cbn [scan_str] in H. cbn [length] in L.
    destruct (beq_spec c x75) as [->|C].
    + destruct s as [|a0 s]; cbn [scan_str] in H; [discriminate|]. destruct (is_hex a0) eqn:A; [|discriminate].
      destruct s as [|b0 s]; cbn [scan_str] in H; [discriminate|]. destruct (is_hex b0) eqn:B; [|discriminate].
      destruct s as [|c0 s]; cbn [scan_str] in H; [discriminate|]. destruct (is_hex c0) eqn:C; [|discriminate].
      destruct s as [|d0 s]; cbn [scan_str] in H; [discriminate|]. destruct (is_hex d0) eqn:D; [|discriminate].
      destruct (scan_str Plain s) as [[raw' r']|] eqn:E; [|discriminate]. injection H as <- <-.
      destruct (IH s raw' r' ltac:(cbn in L; lia) E) as [C1 ->]. destruct (hex_hexval _ A) as [x X], (hex_hexval _ B) as [y Y], (hex_hexval _ C) as [z Z], (hex_hexval _ D) as [w W].
      split; [|reflexivity]. eapply (Ch_hex a0 b0 c0 d0); [|exact C1]. do 4 eexists. repeat (split; [eassumption|]). reflexivity.
    + destruct (existsb (beq c) _) eqn:E in H; [|discriminate]. destruct (scan_str Plain s) as [[raw' r']|] eqn:E2; [|discriminate]. injection H as <- <-.
      destruct (IH s raw' r' ltac:(lia) E2) as [C1 ->]. split; [|reflexivity]. apply Ch_esc; [|exact C1].
      apply existsb_exists in E as (y & I & Y). apply beq_eq in Y as <-. cbn [In] in I. decompose [or] I; try contradiction; subst; vm_compute; tauto.
  - destruct (scan_str Plain s) as [[raw' r']|] eqn:E; [|discriminate]. injection H as <- <-.
    destruct (IH s raw' r' ltac:(lia) E) as [C1 ->]. split; [|reflexivity]. apply Ch_plain; assumption.
Qed.

(* ----- scanning numbers ----- *)
Fixpoint accepts (st : nstate) (l : bytes) : bool :=
  match l with [] => num_end st | b :: l' => match num_step st b with Some st' => accepts st' l' | None => false end end.
(* nothing a number could go on with *)
Definition stops (r : bytes) : Prop := match r with [] => True | b :: _ => In (b2N b) [32; 9; 10; 13; 44; 93; 125]%N end.
Lemma stop_step b st : In (b2N b) [32; 9; 10; 13; 44; 93; 125]%N -> num_step st b = None.
Proof.
  intros I. assert (I' : b = x20 \/ b = x09 \/ b = x0a \/ b = x0d \/ b = x2c \/ b = x5d \/ b = x7d).
  { rewrite <- (n2b_b2N b). cbn [In] in I. decompose [or] I; try contradiction; match goal with H : _ = b2N b |- _ => rewrite <- H end; tauto. }
  decompose [or] I'; subst b; destruct st; reflexivity.
Qed.
Lemma num_ok l : forall st r, accepts st l = true -> stops r -> scan_num st (l ++ r) = Some (l, r).
Proof.
  induction l as [|b l IH]; intros st r A S; cbn [accepts] in A.
  - destruct r as [|b r]; cbn [app scan_num]; [rewrite A; reflexivity|]. rewrite (stop_step _ st S), A. reflexivity.
  - cbn [app scan_num]. destruct (num_step st b) as [st'|]; [|discriminate]. rewrite IH by assumption. reflexivity.
Qed.
Lemma num_inv s : forall st l r, scan_num st s = Some (l, r) -> accepts st l = true /\ s = l ++ r.
Proof.
  induction s as [|b s IH]; intros st l r H; cbn [scan_num] in H.
  - destruct (num_end st) eqn:E; [|discriminate]. injection H as <- <-. auto.
  - destruct (num_step st b) as [st'|] eqn:N.
    + destruct (scan_num st' s) as [[l' r']|] eqn:E; [|discriminate]. injection H as <- <-. destruct (IH _ _ _ E) as [A ->]. cbn [accepts]. rewrite N. auto.
    + destruct (num_end st) eqn:E; [|discriminate]. injection H as <- <-. auto.
Qed.
Lemma digit_spec b : digit b = true <-> is_digit b.
Proof. apply in_between. Qed.
Lemma acc_exp l : accepts NExp l = true <-> Forall is_digit l.
Proof.
  induction l as [|b l IH]; cbn [accepts num_step]; [split; [constructor|reflexivity]|].
  destruct (digit b) eqn:D; [apply digit_spec in D|].
  - rewrite IH. split; [constructor; assumption|]. intros H. inversion H; assumption.
  - split; [discriminate|]. intros H. inversion H as [|? ? X]. apply digit_spec in X. congruence.
Qed.
Lemma acc_esign l : accepts NESign l = true <-> l <> [] /\ Forall is_digit l.
Proof.
  rewrite <- acc_exp. destruct l as [|b l]; cbn [accepts num_step num_end]; [split; [discriminate|intros [H _]; congruence]|].
  split; [intros H; split; [discriminate|exact H]|intros [_ H]; exact H].
Qed.
Lemma acc_e l : accepts NE l = true <-> exists s ds, l = s ++ ds /\ In s [[]; [n2b 43]; [n2b 45]] /\ ds <> [] /\ Forall is_digit ds.
Proof.
  split.
  - destruct l as [|b l]; cbn [accepts num_step num_end]; [discriminate|]. destruct (beq_spec b x2b) as [->|]; cbn [orb].
    { intros H. apply acc_esign in H. exists [x2b], l. cbn. tauto. }
    destruct (beq_spec b x2d) as [->|]; cbn [orb].
    { intros H. apply acc_esign in H. exists [x2d], l. cbn. tauto. }
    destruct (digit b) eqn:D; [|discriminate]. apply digit_spec in D. intros H. apply acc_exp in H. exists [], (b :: l). cbn. split; [reflexivity|]. split; [tauto|]. split; [discriminate|constructor; assumption].
  - intros (s & ds & -> & I & N & D). cbn [In] in I. destruct I as [<-|[<-|[<-|[]]]].
    + cbn [app]. assert (A : accepts NExp ds = true) by (apply acc_exp, D). destruct ds as [|b ds]; [congruence|]. cbn [accepts num_step] in *.
      inversion D as [|? ? X]; subst. apply digit_spec in X. rewrite X in *.
      destruct (beq_spec b x2b) as [->|]; [discriminate X|]. destruct (beq_spec b x2d) as [->|]; [discriminate X|]. exact A.
    + cbn. apply acc_esign. auto.
    + cbn. apply acc_esign. auto.
Qed.
Definition tail_of (P : bytes -> Prop) (l : bytes) : Prop := exists a b, l = a ++ b /\ P a /\ exponent b.
Lemma exp_cons b l : b = x65 \/ b = x45 -> accepts NE l = true -> exponent (b :: l).
Proof. intros B H. apply acc_e in H as (s & ds & -> & I & N & D). right. exists b, s, ds. split; [reflexivity|]. split; [cbn; destruct B as [->| ->]; auto|auto]. Qed.
Lemma exp_inv l : exponent l -> l = [] \/ exists b l', l = b :: l' /\ (b = x65 \/ b = x45) /\ accepts NE l' = true.
Proof.
  intros [->|(c & s & ds & -> & I & R)]; [auto|]. right. exists c, (s ++ ds). split; [reflexivity|]. split; [cbn in I; destruct I as [<-|[<-|[]]]; auto|].
  apply acc_e. exists s, ds. tauto.
Qed.
Lemma ee b : (beq b x65 || beq b x45) = true <-> b = x65 \/ b = x45.
Proof. rewrite orb_true_iff, !beq_eq. reflexivity. Qed.
Lemma acc_frac l : accepts NFrac l = true <-> tail_of (Forall is_digit) l.
Proof.
  split.
  - induction l as [|b l IH]; cbn [accepts num_step].
    + intros _. exists [], []. split; [reflexivity|]. split; [constructor|left; reflexivity].
    + destruct (digit b) eqn:D; [apply digit_spec in D|].
      * intros H. destruct (IH H) as (x & y & -> & X & Y). exists (b :: x), y. split; [reflexivity|]. split; [constructor|]; assumption.
      * destruct (beq b x65 || beq b x45) eqn:E; [|discriminate]. apply ee in E. intros H. exists [], (b :: l). split; [reflexivity|]. split; [constructor|]. apply exp_cons; assumption.
  - intros (x & y & -> & X & Y). induction X as [|b x B X IH].
    + cbn [app]. apply exp_inv in Y as [->|(b & l' & -> & B & A)]; [reflexivity|]. cbn [accepts num_step].
      assert (digit b = false) as -> by (destruct B; subst; reflexivity). apply ee in B. rewrite B. exact A.
    + cbn [app accepts num_step]. apply digit_spec in B. rewrite B. exact IH.
Qed.
Lemma acc_dot l : accepts NDot l = true <-> tail_of (fun ds => ds <> [] /\ Forall is_digit ds) l.
Proof.
  split.
  - destruct l as [|b l]; cbn [accepts num_step num_end]; [discriminate|]. destruct (digit b) eqn:D; [|discriminate]. apply digit_spec in D.
    intros H. apply acc_frac in H as (x & y & -> & X & Y). exists (b :: x), y. split; [reflexivity|]. split; [split; [discriminate|constructor; assumption]|assumption].
  - intros (x & y & -> & [N X] & Y). destruct X as [|b x B X]; [congruence|]. cbn [app accepts num_step]. apply digit_spec in B. rewrite B. apply acc_frac. exists x, y. auto.
Qed.
Lemma acc_zero l : accepts NZero l = true <-> tail_of fraction l.
Proof.
  split.
  - destruct l as [|b l]; cbn [accepts num_step num_end]; [intros _; exists [], []; split; [reflexivity|]; split; left; reflexivity|].
    destruct (beq_spec b x2e) as [->|].
    + intros H. apply acc_dot in H as (x & y & -> & X & Y). exists (x2e :: x), y. split; [reflexivity|]. split; [right; exists x; split; [reflexivity|exact X]|exact Y].
    + destruct (beq b x65 || beq b x45) eqn:E; [|discriminate]. apply ee in E. intros H. exists [], (b :: l). split; [reflexivity|]. split; [left; reflexivity|]. apply exp_cons; assumption.
  - intros (x & y & -> & [->|(ds & -> & N & D)] & Y).
    + cbn [app]. apply exp_inv in Y as [->|(b & l' & -> & B & A)]; [reflexivity|]. cbn [accepts num_step].
      assert (beq b x2e = false) as -> by (destruct B; subst; reflexivity). apply ee in B. rewrite B. exact A.
    + cbn. apply acc_dot. exists ds, y. auto.
Qed.
Lemma acc_int l : accepts NInt l = true <-> exists ds f, l = ds ++ f /\ Forall is_digit ds /\ tail_of fraction f.
Proof.
  split.
  - induction l as [|b l IH]; cbn [accepts num_step].
    + intros _. exists [], []. split; [reflexivity|]. split; [constructor|]. apply acc_zero. reflexivity.
    + destruct (digit b) eqn:D; [apply digit_spec in D|].
      * intros H. destruct (IH H) as (x & y & -> & X & Y). exists (b :: x), y. split; [reflexivity|]. split; [constructor|]; assumption.
      * intros H. exists [], (b :: l). split; [reflexivity|]. split; [constructor|]. apply acc_zero. exact H.
  - intros (x & y & -> & X & Y). induction X as [|b x B X IH].
    + cbn [app]. apply acc_zero in Y. destruct y as [|b y]; [reflexivity|]. cbn [accepts num_step] in *. destruct (digit b) eqn:D; [|exact Y]. exfalso.
      destruct (beq_spec b x2e) as [->|]; [discriminate D|]. destruct (beq_spec b x65) as [->|]; [discriminate D|]. destruct (beq_spec b x45) as [->|]; [discriminate D|]. discriminate Y.
    + cbn [app accepts num_step]. apply digit_spec in B. rewrite B. exact IH.
Qed.
Lemma acc_neg l : accepts NNeg l = true <-> exists i f, l = i ++ f /\ whole i /\ tail_of fraction f.
Proof.
  split.
  - destruct l as [|b l]; cbn [accepts num_step num_end]; [discriminate|]. destruct (beq_spec b x30) as [->|N].
    + intros H. apply acc_zero in H. exists [x30], l. split; [reflexivity|]. split; [left; reflexivity|exact H].
    + destruct (digit b) eqn:D; [|discriminate]. apply digit_spec in D. intros H. apply acc_int in H as (ds & f & -> & X & Y). exists (b :: ds), f. split; [reflexivity|]. split; [|exact Y].
      right. exists b, ds. split; [reflexivity|]. split; [|exact X]. unfold is_digit, between in *. assert (b2N b <> 48)%N; [|lia]. intros Q. apply N. rewrite <- (n2b_b2N b), Q. reflexivity.
  - intros (i & f & -> & [->|(d & ds & -> & D & X)] & Y).
    + cbn. apply acc_zero. exact Y.
    + cbn [app accepts num_step]. destruct (beq_spec d x30) as [->|]; [exfalso; unfold between in D; vm_compute in D; destruct D as [D _]; apply D; reflexivity|].
      assert (digit d = true) as -> by (apply digit_spec; unfold is_digit, between in *; lia). apply acc_int. exists ds, f. auto.
Qed.
Lemma acc_begin l : accepts NBegin l = true <-> number l.
Proof.
  unfold number. split.
  - intros H. assert (C : (exists t, l = x2d :: t /\ accepts NNeg t = true) \/ accepts NNeg l = true).
    { destruct l as [|b l]; cbn [accepts num_step] in *; [discriminate|]. destruct (beq_spec b x2d) as [->|]; [left; eauto|right; exact H]. }
    destruct C as [(t & -> & C)|C]; apply acc_neg in C as (i & f & -> & W & x & y & -> & X & Y).
    + exists [x2d], i, x, y. split; [reflexivity|]. cbn; auto.
    + exists [], i, x, y. split; [reflexivity|]. cbn; auto.
  - intros (s & i & f & e & -> & I & W & X & Y). assert (A : accepts NNeg (i ++ f ++ e) = true) by (apply acc_neg; exists i, (f ++ e); split; [reflexivity|split; [exact W|exists f, e; auto]]).
    cbn [In] in I. destruct I as [<-|[<-|[]]]; cbn [app].
    + destruct (i ++ f ++ e) as [|b l]; [discriminate|]. cbn [accepts num_step] in *. destruct (beq_spec b x2d) as [->|]; [discriminate|exact A].
    + exact A.
Qed.
