(* Proofs about JSON: characters, strings, numbers, the parser. *)
From Coq Require Import List Arith NArith ZArith Lia Bool.
From Coq Require Import ZifyBool ZifyNat ZifyN.
From Verif Require Import BaseBytes SpecText ModelMessage ModelPayload ProofText ModelFiles SpecFiles ModelJson SpecJson.
Import ListNotations.
Open Scope nat_scope.

(* ----- characters ----- *)
Lemma in_between lo hi b : in_ lo hi b = true <-> between lo hi b.
Proof. unfold in_, between. lia. Qed.
Lemma in_false lo hi b : in_ lo hi b = false <-> ~ between lo hi b.
Proof. unfold in_, between. lia. Qed.
Lemma rune_len_char s n : rune_len s = S n -> utf8_char (firstn (S n) s) /\ length (firstn (S n) s) = S n /\ 1 <= n.
Proof.
  unfold rune_len. destruct s as [|a [|b s2]]; [discriminate|discriminate|].
  destruct (in_ 0xC2 0xDF a && cont b) eqn:E2.
  { intros H. injection H as <-. cbn [firstn length]. apply andb_true_iff in E2 as [X Y]. apply in_between in X, Y. split; [apply U2; assumption|split; auto]. }
  destruct s2 as [|c s3]; [discriminate|].
  destruct (_ && cont c) eqn:E3 in |- *.
  { intros H. injection H as <-. cbn [firstn length]. apply andb_true_iff in E3 as [X Z]. rewrite !orb_true_iff, !andb_true_iff in X. unfold cont in *. rewrite !in_between in *.
    split; [|split; auto]. destruct X as [[[[X Y]|[X Y]]|[X Y]]|[X Y]]; [apply U3a|apply U3b|apply U3c|apply U3d]; assumption. }
  destruct s3 as [|d s4]; [discriminate|].
  destruct (_ && cont c && cont d) eqn:E4 in |- *; [|discriminate].
  intros H. injection H as <-. cbn [firstn length]. apply andb_true_iff in E4 as [X W]. apply andb_true_iff in X as [X Z].
  rewrite !orb_true_iff, !andb_true_iff in X. unfold cont in *. rewrite !in_between in *.
  split; [|split; auto]. destruct X as [[[X Y]|[X Y]]|[X Y]]; [apply U4a|apply U4b|apply U4c]; assumption.
Qed.
Lemma char_len c s : utf8_char c -> (exists a, c = [a] /\ (b2N a < 128)%N) \/ (rune_len (c ++ s) = length c /\ 2 <= length c /\ exists a c', c = a :: c' /\ (128 <= b2N a)%N).
Proof.
  intros H. destruct H; [left; exists a; split; [reflexivity|unfold between in *; lia] |right..]; unfold tail in *;
    (split; [|split; [cbn; lia|do 2 eexists; split; [reflexivity|unfold between in *; lia]]]); cbn [app rune_len length]; unfold cont;
    repeat match goal with
    | |- context [in_ ?l ?h ?b] => first
        [ replace (in_ l h b) with true by (symmetry; apply in_between; unfold between in *; lia)
        | replace (in_ l h b) with false by (symmetry; apply in_false; unfold between in *; lia)
        | destruct (in_ l h b) eqn:?]
    end; cbn [andb orb]; try reflexivity.
  all: try (rewrite ?andb_true_r, ?orb_true_r, ?orb_false_r; cbn; reflexivity).
Qed.
Lemma ascii_char a : (b2N a < 128)%N -> utf8_char [a].
Proof. intros H. apply U1. unfold between. lia. Qed.
Lemma rune_none b s : (128 <= b2N b)%N -> rune_len (b :: s) = 0 -> no_char (b :: s).
Proof.
  intros H E c t Q U. destruct (char_len c t U) as [(a & -> & L)|(L & L2 & _)].
  - injection Q as -> _. lia.
  - rewrite <- Q, E in L. lia.
Qed.
Lemma rune_split s n : rune_len s = S n -> exists b s', s = b :: s' /\ (128 <= b2N b)%N.
Proof.
  intros H. destruct (rune_len_char _ _ H) as (U & L & G). rewrite <- (firstn_skipn (S n) s).
  destruct (char_len _ [] U) as [(a & Q & _)|(_ & _ & a & c' & Q & X)].
  - rewrite Q in L. cbn in L. lia.
  - rewrite Q. cbn. eauto.
Qed.

(* recursion over strings character by character *)
Lemma by_chars (P : bytes -> Prop) : P [] ->
  (forall b s, (b2N b < 128)%N -> P s -> P (b :: s)) ->
  (forall c s, utf8_char c -> 2 <= length c -> P s -> P (c ++ s)) ->
  (forall b s, (128 <= b2N b)%N -> rune_len (b :: s) = 0 -> P s -> P (b :: s)) ->
  forall s, P s.
Proof.
  intros H0 H1 H2 H3 s. remember (length s) as n eqn:E. assert (L : length s <= n) by lia. clear E. revert s L.
  induction n as [|n IH]; intros s L; destruct s as [|b s]; try exact H0; [cbn in L; lia|].
  destruct (N.ltb_spec (b2N b) 128) as [B|B]; [apply H1; [exact B|apply IH; cbn in L; lia]|].
  destruct (rune_len (b :: s)) as [|m] eqn:R; [apply H3; [exact B|exact R|apply IH; cbn in L; lia]|].
  destruct (rune_len_char _ _ R) as (U & X & G). rewrite <- (firstn_skipn (S m) (b :: s)). apply H2; [exact U|lia|].
  apply IH. rewrite skipn_length. cbn [length] in *. lia.
Qed.
(* passing over *)
Lemma coerce_skip n s : coerce n s = coerce 0 (skipn n s).
Proof. revert n. induction s as [|b s IH]; intros [|n]; try reflexivity. cbn [coerce skipn]. apply IH. Qed.
Lemma esc_skip n s : esc n s = esc 0 (skipn n s).
Proof. revert n. induction s as [|b s IH]; intros [|n]; try reflexivity. cbn [esc skipn]. apply IH. Qed.
Lemma unq_skip n s : unq n s = unq 0 (skipn n s).
Proof. revert n. induction s as [|b s IH]; intros [|n]; try reflexivity. cbn [unq skipn]. apply IH. Qed.
Lemma coerce_ascii b s : (b2N b < 128)%N -> coerce 0 (b :: s) = b :: coerce 0 s.
Proof. intros H. cbn [coerce]. destruct (N.ltb_spec (b2N b) 128); [reflexivity|lia]. Qed.
Lemma multi c s : utf8_char c -> 2 <= length c -> exists a c' n, c = a :: c' /\ (128 <= b2N a)%N /\ length c' = n /\ rune_len (c ++ s) = S n.
Proof.
  intros U L. destruct (char_len c s U) as [(a & -> & _)|(R & _ & a & c' & -> & X)]; [cbn in L; lia|].
  exists a, c', (length c'). auto.
Qed.
Lemma coerce_multi c s : utf8_char c -> 2 <= length c -> coerce 0 (c ++ s) = c ++ coerce 0 s.
Proof.
  intros U L. destruct (multi c s U L) as (a & c' & n & -> & X & N & R). cbn [app] in *. cbn [coerce]. destruct (N.ltb_spec (b2N a) 128); [lia|].
  rewrite R. cbn [firstn]. rewrite coerce_skip, <- N, firstn_app, Nat.sub_diag, firstn_all, skipn_app, Nat.sub_diag, skipn_all. cbn [firstn skipn app].
  rewrite app_nil_r. reflexivity.
Qed.
Lemma coerce_bad b s : (128 <= b2N b)%N -> rune_len (b :: s) = 0 -> coerce 0 (b :: s) = ufffd ++ coerce 0 s.
Proof. intros H R. cbn [coerce]. destruct (N.ltb_spec (b2N b) 128); [lia|]. rewrite R. reflexivity. Qed.
Lemma coerce_coerced s : coerced s (coerce 0 s).
Proof.
  induction s using by_chars.
  - constructor.
  - rewrite coerce_ascii by assumption. apply (Co_char [b]); [apply ascii_char|]; assumption.
  - rewrite coerce_multi by assumption. apply Co_char; assumption.
  - rewrite coerce_bad by assumption. apply Co_bad; [apply rune_none|]; assumption.
Qed.
(* characters are not prefixes of each other *)
Lemma char_prefix c1 t1 c2 t2 : utf8_char c1 -> utf8_char c2 -> c1 ++ t1 = c2 ++ t2 -> c1 = c2 /\ t1 = t2.
Proof.
  intros U1 U2 E. assert (L : length c1 = length c2).
  { destruct (char_len c1 t1 U1) as [(a & -> & X)|(R & L & a & c' & -> & X)], (char_len c2 t2 U2) as [(a2 & -> & X2)|(R2 & L2 & a2 & c2' & -> & X2)].
    - reflexivity.
    - injection E as -> _. lia.
    - injection E as -> _. lia.
    - rewrite E, R2 in R. congruence. }
  clear U1 U2. revert c2 L E. induction c1 as [|x c1 IH]; intros [|y c2] L E; try discriminate; [auto|]. injection E as -> E. injection L as L.
  destruct (IH _ L E) as [-> ->]. auto.
Qed.
Lemma coerced_fun s s1 : coerced s s1 -> forall s2, coerced s s2 -> s1 = s2.
Proof.
  induction 1 as [|c s s' U C IH|b s s' N C IH]; intros s2 H.
  - inversion H as [|c s s' U C E|]; [reflexivity|]. destruct c as [|x c]; [inversion U|discriminate].
  - inversion H as [E|c2 t t' U2 C2 E|b t t' N C2 E].
    + destruct c; [inversion U|discriminate].
    + destruct (char_prefix _ _ _ _ U U2 (eq_sym E)) as [<- <-]. f_equal. auto.
    + exfalso. apply (N c s); [congruence|assumption].
  - inversion H as [|c2 t t' U2 C2 E|b2 t t' N2 C2 E]; subst.
    + exfalso. apply (N c2 t); [congruence|assumption].
    + f_equal. auto.
Qed.
Lemma coerce_spec s s' : coerced s s' <-> s' = coerce 0 s.
Proof. split; [intros H; apply (coerced_fun s); [exact H|apply coerce_coerced]|intros ->; apply coerce_coerced]. Qed.
Lemma wf_coerce s : utf8_wf s -> coerce 0 s = s.
Proof.
  intros H. symmetry. apply coerce_spec. induction H; constructor; assumption.
Qed.
Lemma wf_app a b : utf8_wf a -> utf8_wf b -> utf8_wf (a ++ b).
Proof. induction 1; intros H2; [exact H2|]. rewrite <- app_assoc. constructor; auto. Qed.
Lemma ufffd_char : utf8_char ufffd.
Proof. apply U3d; unfold tail, between; vm_compute; split; discriminate. Qed.
Lemma coerce_wf s : utf8_wf (coerce 0 s).
Proof.
  induction s using by_chars.
  - constructor.
  - rewrite coerce_ascii by assumption. apply (WF_char [b]); [apply ascii_char|]; assumption.
  - rewrite coerce_multi by assumption. apply WF_char; assumption.
  - rewrite coerce_bad by assumption. apply WF_char; [apply ufffd_char|assumption].
Qed.
Lemma coerce_id s : coerce 0 s = s <-> utf8_wf s.
Proof. split; [intros <-; apply coerce_wf|apply wf_coerce]. Qed.

(* ----- strings ----- *)
Lemma hexval_spec b n : hex_digit b = Some n <-> hexval b n.
Proof.
  unfold hex_digit, hexval, is_digit. destruct (in_ 48 57 b) eqn:E1; [apply in_between in E1|apply in_false in E1].
  - unfold between in *. split; [intros H; injection H as <-; left; auto|]. intros [[_ ->]|[[? ->]|[? ->]]]; [reflexivity|exfalso; lia|exfalso; lia].
  - destruct (in_ 97 102 b) eqn:E2; [apply in_between in E2|apply in_false in E2].
    + unfold between in *. split; [intros H; injection H as <-; right; left; split; [lia|lia]|]. intros [[? ->]|[[_ ->]|[? ->]]]; [exfalso; lia|f_equal; lia|exfalso; lia].
    + destruct (in_ 65 70 b) eqn:E3; [apply in_between in E3|apply in_false in E3].
      * unfold between in *. split; [intros H; injection H as <-; right; right; split; [lia|lia]|]. intros [[? ->]|[[? ->]|[_ ->]]]; [exfalso; lia|exfalso; lia|f_equal; lia].
      * split; [discriminate|]. intros [[? ?]|[[? ?]|[? ?]]]; contradiction.
Qed.
Lemma getu4_spec a b c d t u : getu4 (a :: b :: c :: d :: t) = Some u <-> hex4 a b c d u.
Proof.
  unfold getu4, hex4. split.
  - destruct (hex_digit a) as [x|] eqn:A; [|discriminate]. destruct (hex_digit b) as [y|] eqn:B; [|discriminate].
    destruct (hex_digit c) as [z|] eqn:C; [|discriminate]. destruct (hex_digit d) as [w|] eqn:D; [|discriminate].
    intros H. assert (Q : (4096 * x + 256 * y + 16 * z + w)%N = u) by congruence. rewrite <- Q. clear H Q.
    apply hexval_spec in A, B, C, D. exists x, y, z, w. repeat (split; [assumption|]). lia.
  - intros (x & y & z & w & A & B & C & D & ->). apply hexval_spec in A, B, C, D. rewrite A, B, C, D. f_equal. lia.
Qed.
Lemma hexval_lt b n : hexval b n -> (n < 16)%N.
Proof. unfold hexval, is_digit, between. lia. Qed.
Lemma hex4_lt a b c d u : hex4 a b c d u -> (u < 65536)%N.
Proof. intros (x & y & z & w & A & B & C & D & ->). apply hexval_lt in A, B, C, D. lia. Qed.
Lemma hexval_hex b n : hexval b n -> is_hex b = true.
Proof. intros H. apply hexval_spec in H. unfold is_hex. rewrite H. reflexivity. Qed.
Lemma hex_hexval b : is_hex b = true -> exists n, hexval b n.
Proof. unfold is_hex. destruct (hex_digit b) as [n|] eqn:E; [|discriminate]. intros _. exists n. apply hexval_spec, E. Qed.

Lemma unq_ascii b s : (b2N b < 128)%N -> b <> backslash -> unq 0 (b :: s) = b :: unq 0 s.
Proof. intros H N. cbn [unq]. destruct (beq_spec b backslash); [contradiction|]. destruct (N.ltb_spec (b2N b) 128); [reflexivity|lia]. Qed.
Lemma not_backslash b : (128 <= b2N b)%N -> beq b backslash = false.
Proof. intros H. apply beq_neq. intros ->. vm_compute in H. apply H. reflexivity. Qed.
Lemma unq_multi c s : utf8_char c -> 2 <= length c -> unq 0 (c ++ s) = c ++ unq 0 s.
Proof.
  intros U L. destruct (multi c s U L) as (a & c' & n & -> & X & N & R). cbn [app] in *. cbn [unq]. rewrite not_backslash by exact X.
  destruct (N.ltb_spec (b2N a) 128); [lia|].
  rewrite R. cbn [firstn]. rewrite unq_skip, <- N, firstn_app, Nat.sub_diag, firstn_all, skipn_app, Nat.sub_diag, skipn_all. cbn [firstn skipn app].
  rewrite app_nil_r. reflexivity.
Qed.
Lemma unq_bad b s : (128 <= b2N b)%N -> rune_len (b :: s) = 0 -> unq 0 (b :: s) = ufffd ++ unq 0 s.
Proof. intros H R. cbn [unq]. rewrite not_backslash by exact H. destruct (N.ltb_spec (b2N b) 128); [lia|]. rewrite R. reflexivity. Qed.
Lemma unq_esc c s : c <> x75 -> unq 0 (backslash :: c :: s) = simple_esc c ++ unq 0 s.
Proof.
  intros N. change (unq 0 (backslash :: c :: s)) with
    (if beq c x75 then match getu4 s with None => [] | Some r =>
       if ((0xD800 <=? r)%N && (r <? 0xE000)%N) then
         match skipn 4 s with
         | b2 :: c2 :: t2 => match (if beq b2 backslash && beq c2 x75 then match getu4 t2 with Some r2 => pair16 r r2 | None => None end else None) with
              | Some p => utf8_EncodeRune p ++ unq 11 (c :: s) | None => replacement ++ unq 5 (c :: s) end
         | _ => replacement ++ unq 5 (c :: s)
         end
       else utf8_EncodeRune r ++ unq 5 (c :: s) end
     else simple_esc c ++ unq 1 (c :: s)).
  destruct (beq_spec c x75); [contradiction|]. reflexivity.
Qed.
Lemma unq_u a b c d u s : hex4 a b c d u ->
  unq 0 (u_esc a b c d ++ s) =
    if ((0xD800 <=? u)%N && (u <? 0xE000)%N) then
      match s with
      | b2 :: c2 :: t2 => match (if beq b2 backslash && beq c2 x75 then match getu4 t2 with Some r2 => pair16 u r2 | None => None end else None) with
           | Some p => utf8_EncodeRune p ++ unq 6 s | None => ufffd ++ unq 0 s end
      | _ => ufffd ++ unq 0 s
      end
    else utf8_EncodeRune u ++ unq 0 s.
Proof.
  intros H. apply (getu4_spec a b c d s) in H.
  change (unq 0 (u_esc a b c d ++ s)) with
    (match getu4 (a :: b :: c :: d :: s) with None => [] | Some r =>
       if ((0xD800 <=? r)%N && (r <? 0xE000)%N) then
         match s with
         | b2 :: c2 :: t2 => match (if beq b2 backslash && beq c2 x75 then match getu4 t2 with Some r2 => pair16 r r2 | None => None end else None) with
              | Some p => utf8_EncodeRune p ++ unq 6 s | None => replacement ++ unq 0 s end
         | _ => replacement ++ unq 0 s
         end
       else utf8_EncodeRune r ++ unq 0 s end).
  rewrite H. reflexivity.
Qed.

Lemma ch_inv b s : chars (b :: s) -> b <> backslash -> chars s.
Proof. intros H N. inversion H; subst; [assumption|exfalso; apply N; reflexivity|exfalso; apply N; reflexivity]. Qed.
Lemma ch_skip c s : Forall (fun b => (128 <= b2N b)%N) c -> chars (c ++ s) -> chars s.
Proof.
  induction 1 as [|b c H F IH]; intros C; [exact C|]. apply IH. apply (ch_inv b); [exact C|]. intros ->. vm_compute in H. apply H. reflexivity.
Qed.
Lemma ch_bytes c s : Forall (fun b => (128 <= b2N b)%N) c -> chars s -> chars (c ++ s).
Proof.
  induction 1 as [|b c H F IH]; intros C; [exact C|]. cbn [app]. apply Ch_plain; [lia|intros ->|intros ->|auto]; vm_compute in H; apply H; reflexivity.
Qed.
Lemma char_high c : utf8_char c -> 2 <= length c -> Forall (fun b => (128 <= b2N b)%N) c.
Proof. intros U L. destruct U; [cbn in L; lia|..]; unfold tail, between in *; repeat constructor; lia. Qed.
Lemma simple_ok c : In (b2N c) [34; 92; 47; 98; 102; 110; 114; 116]%N -> c <> x75 /\ simple_esc c = [n2b (escaped c)].
Proof. intros H. split; [intros ->; vm_compute in H; intuition discriminate|]. destruct c; try reflexivity; exfalso; vm_compute in H; intuition discriminate. Qed.
Lemma chars_u r a b c d t : chars r -> r = u_esc a b c d ++ t -> exists u, hex4 a b c d u /\ chars t.
Proof.
  intros C E. inversion C as [|x s P Q N C'|c0 s I C'|a0 b0 c0 d0 u s H C']; subst.
  - discriminate.
  - exfalso. injection H as -> _. apply N. reflexivity.
  - injection H as -> _. exfalso. vm_compute in I. intuition discriminate.
  - cbn in H0. injection H0 as -> -> -> -> ->. eauto.
Qed.
Lemma unq_denotes raw : chars raw -> denotes raw (unq 0 raw).
Proof.
  remember (length raw) as n eqn:E. assert (L : length raw <= n) by lia. clear E. revert raw L.
  induction n as [|n IH]; intros raw L C; [destruct raw; [constructor|cbn in L; lia]|].
  destruct raw as [|b raw]; [constructor|]. cbn [length] in L.
  destruct (N.leb_spec 128 (b2N b)) as [B|B].
  - destruct (rune_len (b :: raw)) as [|m] eqn:R.
    + rewrite unq_bad by assumption. apply D_bad; [apply rune_none; assumption|]. apply IH; [lia|]. apply (ch_inv b); [exact C|].
      intros ->. vm_compute in B. apply B. reflexivity.
    + destruct (rune_len_char _ _ R) as (U & X & G). pose proof (firstn_skipn (S m) (b :: raw)) as Q. rewrite <- Q in C |- *.
      rewrite unq_multi; [|exact U|lia]. apply D_char; [exact U|intros Z; rewrite Z in X; cbn in X; lia|].
      apply IH; [rewrite skipn_length; cbn [length]; lia|]. eapply ch_skip; [|exact C]. apply char_high; [exact U|lia].
  - inversion C as [|x s P Q N C'|c s I C'|a0 b0 c0 d0 u s H C']; subst.
    + rewrite unq_ascii by assumption. apply (D_char [b]); [apply ascii_char, B|intros Z; injection Z; exact N|]. apply IH; [lia|exact C'].
    + destruct (simple_ok c I) as [I1 I2]. change (n2b 92) with backslash. rewrite unq_esc by exact I1. rewrite I2. cbn [app]. apply D_esc; [exact I|]. apply IH; [cbn in L; lia|exact C'].
    + assert (D : denotes s (unq 0 s)) by (apply IH; [cbn in L; lia|exact C']).
      change (n2b 92 :: n2b 117 :: a0 :: b0 :: c0 :: d0 :: s) with (u_esc a0 b0 c0 d0 ++ s).
      rewrite (unq_u _ _ _ _ _ _ H). destruct ((0xD800 <=? u)%N && (u <? 0xE000)%N) eqn:S.
      * assert (HL : high u \/ low u) by (unfold high, low; lia).
        destruct s as [|b2 [|c2 t2]]; try (apply (D_lone _ _ _ _ u); [exact H|exact HL| |exact D]; intros (_ & ? & ? & ? & ? & ? & ? & Z & _); discriminate).
        destruct (beq_spec b2 backslash) as [->|B2]; cbn [andb]; [destruct (beq_spec c2 x75) as [->|C2]; cbn [andb]|].
        -- destruct t2 as [|a1 [|b1 [|c1 [|d1 t]]]];
             try (cbn [getu4]; apply (D_lone _ _ _ _ u); [exact H|exact HL| |exact D]; intros (_ & ? & ? & ? & ? & ? & ? & Z & _); discriminate Z).
           destruct (chars_u _ a1 b1 c1 d1 t C' eq_refl) as (u1 & H1 & Ct). rewrite (proj2 (getu4_spec a1 b1 c1 d1 t u1) H1).
           unfold pair16. destruct (_ && _ && _ && _)%N eqn:PP in |- *.
           ++ change (unq 6 (backslash :: x75 :: a1 :: b1 :: c1 :: d1 :: t)) with (unq 0 t). rewrite EncodeRune_ok by (unfold scalar; lia).
              replace ((u - 55296) * 1024 + (u1 - 56320) + 65536)%N with (0x10000 + (u - 0xD800) * 1024 + (u1 - 0xDC00))%N by lia.
              apply (D_pair a0 b0 c0 d0 u a1 b1 c1 d1 u1); try assumption; [unfold high; lia|unfold low; lia|]. apply IH; [cbn in L; lia|exact Ct].
           ++ apply (D_lone _ _ _ _ u); [exact H|exact HL| |exact D]. intros (Hu & ? & ? & ? & ? & u2 & ? & Z & H2 & Lu). injection Z as <- <- <- <- <-.
              apply (getu4_spec a1 b1 c1 d1 t) in H1, H2. rewrite H1 in H2. injection H2 as <-. unfold high, low in *. lia.
        -- apply (D_lone _ _ _ _ u); [exact H|exact HL| |exact D]. intros (_ & ? & ? & ? & ? & ? & ? & Z & _). injection Z as Z _. contradiction.
        -- apply (D_lone _ _ _ _ u); [exact H|exact HL| |exact D]. intros (_ & ? & ? & ? & ? & ? & ? & Z & _). injection Z as Z _. contradiction.
      * pose proof (hex4_lt _ _ _ _ _ H). rewrite EncodeRune_ok by (unfold scalar; lia). apply (D_hex _ _ _ _ u); try assumption; unfold high, low; lia.
Qed.
