(* Proofs about JSON: the parser accepts exactly the texts of the grammar. *)
From Coq Require Import List Arith NArith ZArith Lia Bool.
From Coq Require Import ZifyBool ZifyNat ZifyN.
From Verif Require Import BaseBytes SpecText ModelMessage ModelFiles SpecFiles ModelJson SpecJson ProofJson ProofJson2.
Import ListNotations.
Open Scope nat_scope.

Definition wsb (b : byte) : Prop := In (b2N b) [32; 9; 10; 13]%N.
Lemma ws_byte b : (beq b x20 || beq b x09 || beq b x0a || beq b x0d) = true <-> wsb b.
Proof.
  rewrite !orb_true_iff, !beq_eq. unfold wsb. cbn [In]. split.
  - intros [[[->| ->]| ->]| ->]; vm_compute; tauto.
  - rewrite <- (n2b_b2N b) at 5 6 7 8. intros [<-|[<-|[<-|[<-|[]]]]]; vm_compute; tauto.
Qed.
Lemma skip_app w s : ws w -> skip_ws (w ++ s) = skip_ws s.
Proof. induction 1 as [|b w B W IH]; [reflexivity|]. cbn [app skip_ws]. apply ws_byte in B. rewrite B. exact IH. Qed.
Lemma skip_id b s : ~ wsb b -> skip_ws (b :: s) = b :: s.
Proof. intros N. cbn [skip_ws]. destruct (_ || _ || _ || _) eqn:E; [|reflexivity]. apply ws_byte in E. contradiction. Qed.
Lemma skip_inv s : exists w, s = w ++ skip_ws s /\ ws w.
Proof.
  induction s as [|b s (w & E & W)]; [exists []; split; [reflexivity|constructor]|]. cbn [skip_ws]. destruct (_ || _ || _ || _) eqn:B.
  - apply ws_byte in B. exists (b :: w). cbn [app]. split; [congruence|]. constructor; assumption.
  - exists []. split; [reflexivity|constructor].
Qed.
Lemma strip_spec w : forall s r, strip w s = Some r <-> s = w ++ r.
Proof.
  induction w as [|a w IH]; intros s r; cbn [strip app]; [split; congruence|]. destruct s as [|b s]; [split; discriminate|].
  destruct (beq_spec a b) as [->|N]; [rewrite IH; split; [intros ->; reflexivity|intros H; injection H; auto]|].
  split; [discriminate|]. intros H. injection H as -> _. congruence.
Qed.
Lemma strip_skip c w s : ~ wsb c -> ws w -> strip [c] (skip_ws (w ++ c :: s)) = Some s.
Proof. intros N W. rewrite skip_app, skip_id by assumption. apply strip_spec. reflexivity. Qed.
Lemma strip_none c b s : b <> c -> strip [c] (b :: s) = None.
Proof. intros N. cbn [strip]. destruct (beq_spec c b); [congruence|reflexivity]. Qed.

(* the first character of a value *)
Definition headed (s : bytes) : Prop := exists b t, s = b :: t /\ ~ In (b2N b) [32; 9; 10; 13; 44; 93; 125]%N.
Lemma headed_ws s : headed s -> exists b t, s = b :: t /\ ~ wsb b /\ b <> x5d /\ b <> x7d /\ b <> x2c.
Proof.
  intros (b & t & -> & N). exists b, t. split; [reflexivity|]. unfold wsb. cbn [In] in *.
  split; [tauto|]. repeat split; intros ->; apply N; vm_compute; tauto.
Qed.
Lemma number_headed l : number l -> headed l /\ exists b t, l = b :: t /\ (b = x2d \/ is_digit b).
Proof.
  intros (s & i & f & e & -> & I & W & _). cbn [In] in I.
  assert (H : exists b t, s ++ i ++ f ++ e = b :: t /\ (b = x2d \/ is_digit b)).
  { destruct I as [<-|[<-|[]]]; cbn [app].
    - destruct W as [->|(d & ds & -> & D & _)]; cbn [app]; do 2 eexists; (split; [reflexivity|]); right.
      + vm_compute. split; discriminate.
      + unfold is_digit, between in *. lia.
    - do 2 eexists. split; [reflexivity|]. left. reflexivity. }
  split; [|exact H]. destruct H as (b & t & E & B). exists b, t. split; [exact E|]. destruct B as [->|B]; [vm_compute; intuition discriminate|].
  unfold is_digit, between in B. cbn [In]. intuition lia.
Qed.
Lemma value_headed v s : value v s -> headed s.
Proof.
  destruct 1; try (do 2 eexists; split; [reflexivity|vm_compute; intuition discriminate]).
  apply number_headed. assumption.
Qed.
Lemma head_skip w s r : ws w -> headed s -> skip_ws (w ++ s ++ r) = s ++ r.
Proof. intros W H. rewrite skip_app by exact W. destruct (headed_ws _ H) as (b & t & -> & N & _). cbn [app]. apply skip_id, N. Qed.
Definition is_num (v : json) : bool := match v with JNum _ => true | _ => false end.
Scheme value_m := Minimality for value Sort Prop with elements_m := Minimality for elements Sort Prop with entries_m := Minimality for entries Sort Prop.
Combined Scheme json_m from value_m, elements_m, entries_m.

Lemma ws_not : ~ wsb x2c /\ ~ wsb x5d /\ ~ wsb x7d /\ ~ wsb x3a /\ ~ wsb quote.
Proof. unfold wsb. vm_compute. intuition discriminate. Qed.
Lemma after_last c w r : In c [x5d; x7d] -> ws w -> strip [x2c] (skip_ws (w ++ c :: r)) = None /\ strip [c] (skip_ws (w ++ c :: r)) = Some r.
Proof.
  intros I W. assert (N : ~ wsb c) by (destruct I as [<-|[<-|[]]]; apply ws_not). split; [|apply strip_skip; assumption].
  rewrite skip_app, skip_id by assumption. apply strip_none. destruct I as [<-|[<-|[]]]; discriminate.
Qed.
Lemma stops_ws w s : ws w -> stops s -> stops (w ++ s).
Proof. intros W S. destruct W as [|b w B W]; [exact S|]. cbn [app stops]. cbn [In] in *. tauto. Qed.
Ltac stopped := match goal with |- _ \/ stops (?w ++ _ :: _) => right; apply stops_ws; [assumption|vm_compute; tauto] | |- _ \/ stops (_ :: _) => right; vm_compute; tauto end.

Lemma complete :
  (forall v s, value v s -> forall f w r, ws w -> length s <= f -> is_num v = false \/ stops r -> pval f (w ++ s ++ r) = Some (v, r)) /\
  (forall l s, elements l s -> (exists w t, s = w ++ t /\ ws w /\ headed t) /\ forall f r, S (length s) <= f -> pelems f (s ++ x5d :: r) = Some (l, r)) /\
  (forall l s, entries l s -> (exists w t, s = w ++ t /\ ws w /\ headed t) /\ forall f r, S (length s) <= f -> pmems f (s ++ x7d :: r) = Some (l, r)).
Proof.
  apply json_m; intros; lazymatch goal with
    | H : ws ?w, L : length _ <= ?f |- pval ?f (?w ++ _ ++ _) = _ => destruct f as [|f]; [cbn in L; try lia|]
    | |- _ => idtac end.
  - cbn [pval]. rewrite head_skip; [reflexivity|assumption|apply (value_headed _ _ V_null)].
  - cbn [pval]. rewrite head_skip; [reflexivity|assumption|apply (value_headed _ _ V_true)].
  - cbn [pval]. rewrite head_skip; [reflexivity|assumption|apply (value_headed _ _ V_false)].
  - exfalso. destruct (number_headed _ H) as (_ & b & t & -> & _). cbn in H1. lia.
  - destruct (number_headed _ H) as (Hd & b & t & E & B). cbn [pval]. rewrite head_skip by assumption.
    assert (A : accepts NBegin l = true) by (apply acc_begin; assumption). destruct H2 as [H2|H2]; [discriminate H2|].
    pose proof (num_ok _ _ r A H2) as Q. rewrite E in Q |- *. cbn [app] in Q |- *.
    assert (N : b <> quote /\ b <> x5b /\ b <> x7b /\ b <> x6e /\ b <> x74 /\ b <> x66).
    { destruct B as [->|B]; [repeat split; discriminate|]. unfold is_digit, between in B. repeat split; intros ->; vm_compute in B; intuition. }
    destruct N as (N1 & N2 & N3 & N4 & N5 & N6).
    rewrite (proj2 (beq_neq _ _) N1), (proj2 (beq_neq _ _) N2), (proj2 (beq_neq _ _) N3), (proj2 (beq_neq _ _) N4), (proj2 (beq_neq _ _) N5), (proj2 (beq_neq _ _) N6).
    rewrite Q. reflexivity.
  - cbn [pval]. rewrite head_skip by (try assumption; apply (value_headed _ _ (V_str _ H))).
    unfold in_quotes. cbn [app]. rewrite <- app_assoc. cbn [app]. change (n2b 34) with quote. rewrite beq_refl. rewrite scan_ok by assumption. reflexivity.
  - cbn [pval]. rewrite head_skip by (try assumption; apply (value_headed _ _ (V_empty _ H))).
    cbn [app]. rewrite <- app_assoc. cbn [app]. change (n2b 91) with x5b. change (n2b 93) with x5d.
    cbn [beq Byte.eqb]. change (beq x5b quote) with false. change (beq x5b x5b) with true. cbn iota. rewrite strip_skip by (try assumption; apply ws_not). reflexivity.
  - destruct H0 as ((w' & t & E & W & Hd) & IH). cbn [pval]. rewrite head_skip by (try assumption; apply (value_headed _ _ (V_arr _ _ H))).
    cbn [app]. rewrite <- app_assoc. cbn [app]. change (n2b 91) with x5b. change (n2b 93) with x5d.
    change (beq x5b quote) with false. change (beq x5b x5b) with true. cbn iota.
    assert (strip [x5d] (skip_ws (s ++ x5d :: r)) = None) as ->.
    { rewrite E, <- app_assoc, head_skip by assumption. destruct (headed_ws _ Hd) as (b & t' & -> & _ & N & _). apply strip_none, N. }
    rewrite IH; [reflexivity|]. cbn [length] in H2. rewrite app_length in H2. cbn in H2. lia.
  - cbn [pval]. rewrite head_skip by (try assumption; apply (value_headed _ _ (V_none _ H))).
    cbn [app]. rewrite <- app_assoc. cbn [app]. change (n2b 123) with x7b. change (n2b 125) with x7d.
    change (beq x7b quote) with false. change (beq x7b x5b) with false. change (beq x7b x7b) with true. cbn iota. rewrite strip_skip by (try assumption; apply ws_not). reflexivity.
  - destruct H0 as ((w' & t & E & W & Hd) & IH). cbn [pval]. rewrite head_skip by (try assumption; apply (value_headed _ _ (V_obj _ _ H))).
    cbn [app]. rewrite <- app_assoc. cbn [app]. change (n2b 123) with x7b. change (n2b 125) with x7d.
    change (beq x7b quote) with false. change (beq x7b x5b) with false. change (beq x7b x7b) with true. cbn iota.
    assert (strip [x7d] (skip_ws (s ++ x7d :: r)) = None) as ->.
    { rewrite E, <- app_assoc, head_skip by assumption. destruct (headed_ws _ Hd) as (b & t' & -> & _ & _ & N & _). apply strip_none, N. }
    rewrite IH; [reflexivity|]. cbn [length] in H2. rewrite app_length in H2. cbn in H2. lia.
  - split.
    { exists w1, (s ++ w2). split; [reflexivity|]. split; [assumption|]. destruct (value_headed _ _ H0) as (b & t & -> & N). exists b, (t ++ w2). auto. }
    intros f r L. destruct f as [|f]; [lia|]. cbn [pelems]. rewrite <- !app_assoc. rewrite !app_length in L.
    rewrite H1; [|assumption|lia|stopped]. destruct (after_last x5d w2 r ltac:(cbn; auto) H2) as [-> ->]. reflexivity.
  - destruct H4 as [_ IH]. split.
    { exists w1, (s ++ w2 ++ n2b 44 :: t). split; [reflexivity|]. split; [assumption|]. destruct (value_headed _ _ H0) as (b & t' & -> & N). do 2 eexists. split; [reflexivity|assumption]. }
    intros f r L. destruct f as [|f]; [lia|]. cbn [pelems]. rewrite <- ?app_assoc. cbn [app]. rewrite ?app_length in L. cbn [length] in L. change (n2b 44) with x2c.
    rewrite H1; [|assumption|lia|stopped]. rewrite strip_skip by (try assumption; apply ws_not). rewrite IH by lia. reflexivity.
  - split.
    { do 2 eexists. split; [reflexivity|]. split; [assumption|]. do 2 eexists. split; [reflexivity|]. vm_compute. intuition discriminate. }
    intros f r L. destruct f as [|f]; [lia|]. cbn [pmems]. unfold in_quotes. rewrite <- ?app_assoc. cbn [app]. rewrite <- ?app_assoc. cbn [app]. unfold in_quotes in L. cbn [app length] in L. rewrite ?app_length in L. cbn [app length] in L. rewrite ?app_length in L. cbn [length] in L. rewrite ?app_length in L.
    change (n2b 34) with quote. change (n2b 58) with x3a. rewrite strip_skip by (try assumption; apply ws_not). rewrite scan_ok by assumption.
    rewrite strip_skip by (try assumption; apply ws_not). rewrite <- ?app_assoc. rewrite H4; [|assumption|lia|stopped].
    destruct (after_last x7d w3 r ltac:(cbn; auto) H5) as [-> ->]. reflexivity.
  - destruct H7 as [_ IH]. split.
    { do 2 eexists. split; [reflexivity|]. split; [assumption|]. do 2 eexists. split; [reflexivity|]. vm_compute. intuition discriminate. }
    intros f r L. destruct f as [|f]; [lia|]. cbn [pmems]. unfold in_quotes. rewrite <- ?app_assoc. cbn [app]. rewrite <- ?app_assoc. cbn [app].
    unfold in_quotes in L. cbn [app length] in L. rewrite ?app_length in L. cbn [app length] in L. rewrite ?app_length in L. cbn [length] in L. rewrite ?app_length in L. cbn [length] in L.
    change (n2b 34) with quote. change (n2b 58) with x3a. change (n2b 44) with x2c. rewrite strip_skip by (try assumption; apply ws_not). rewrite scan_ok by assumption.
    rewrite strip_skip by (try assumption; apply ws_not). rewrite <- ?app_assoc. cbn [app]. rewrite H4; [|assumption|lia|stopped].
    rewrite strip_skip by (try assumption; apply ws_not). rewrite IH by lia. reflexivity.
Qed.
Lemma sound_parse f :
  (forall s v r, pval f s = Some (v, r) -> exists w t, s = w ++ t ++ r /\ ws w /\ value v t) /\
  (forall s l r, pelems f s = Some (l, r) -> exists t, s = t ++ x5d :: r /\ elements l t) /\
  (forall s l r, pmems f s = Some (l, r) -> exists t, s = t ++ x7d :: r /\ entries l t).
Proof.
  induction f as [|f (IHv & IHe & IHm)]; [repeat split; intros; discriminate|]. split; [|split].
  - intros s v r H. cbn [pval] in H. destruct (skip_inv s) as (w & E & W). exists w. destruct (skip_ws s) as [|b s'] eqn:Sk; [discriminate|].
    cut (exists t, b :: s' = t ++ r /\ value v t). { intros (t & Q & V). exists t. rewrite <- Q. auto. } clear E W Sk w s.
    destruct (beq_spec b quote) as [->|_].
    { destruct (scan_str Plain s') as [[raw r']|] eqn:S; [|discriminate]. injection H as <- <-.
      destruct (scan_inv _ _ _ _ (le_n _) S) as [C ->]. exists (in_quotes raw). split; [unfold in_quotes; cbn [app]; rewrite <- app_assoc; reflexivity|constructor; exact C]. }
    destruct (beq_spec b x5b) as [->|_].
    { destruct (strip [x5d] (skip_ws s')) as [r'|] eqn:S.
      - injection H as <- <-. apply strip_spec in S. destruct (skip_inv s') as (w & E & W). rewrite S in E. exists (x5b :: w ++ [x5d]).
        split; [cbn [app]; rewrite <- app_assoc; congruence|apply V_empty; exact W].
      - destruct (pelems f s') as [[l r']|] eqn:P; [|discriminate]. injection H as <- <-. destruct (IHe _ _ _ P) as (t & -> & X).
        exists (x5b :: t ++ [x5d]). split; [cbn [app]; rewrite <- app_assoc; reflexivity|apply V_arr; exact X]. }
    destruct (beq_spec b x7b) as [->|_].
    { destruct (strip [x7d] (skip_ws s')) as [r'|] eqn:S.
      - injection H as <- <-. apply strip_spec in S. destruct (skip_inv s') as (w & E & W). rewrite S in E. exists (x7b :: w ++ [x7d]).
        split; [cbn [app]; rewrite <- app_assoc; congruence|apply V_none; exact W].
      - destruct (pmems f s') as [[l r']|] eqn:P; [|discriminate]. injection H as <- <-. destruct (IHm _ _ _ P) as (t & -> & X).
        exists (x7b :: t ++ [x7d]). split; [cbn [app]; rewrite <- app_assoc; reflexivity|apply V_obj; exact X]. }
    destruct (beq_spec b x6e) as [->|_].
    { destruct (strip t_null _) as [r'|] eqn:S in H; [|discriminate]. injection H as <- <-. apply strip_spec in S. rewrite S. exists t_null. split; [reflexivity|constructor]. }
    destruct (beq_spec b x74) as [->|_].
    { destruct (strip t_true _) as [r'|] eqn:S in H; [|discriminate]. injection H as <- <-. apply strip_spec in S. rewrite S. exists t_true. split; [reflexivity|constructor]. }
    destruct (beq_spec b x66) as [->|_].
    { destruct (strip t_false _) as [r'|] eqn:S in H; [|discriminate]. injection H as <- <-. apply strip_spec in S. rewrite S. exists t_false. split; [reflexivity|constructor]. }
    destruct (scan_num NBegin (b :: s')) as [[l r']|] eqn:S; [|discriminate]. injection H as <- <-. destruct (num_inv _ _ _ _ S) as [A ->].
    exists l. split; [reflexivity|]. constructor. apply acc_begin, A.
  - intros s l r H. cbn [pelems] in H. destruct (pval f s) as [[v r1]|] eqn:P; [|discriminate]. destruct (IHv _ _ _ P) as (w & t & -> & W & V).
    destruct (skip_inv r1) as (w2 & E & W2). destruct (strip [x2c] (skip_ws r1)) as [r2|] eqn:S.
    + destruct (pelems f r2) as [[l' r3]|] eqn:P2; [|discriminate]. injection H as <- <-. apply strip_spec in S. destruct (IHe _ _ _ P2) as (t2 & -> & X).
      exists (w ++ t ++ w2 ++ x2c :: t2). split; [|apply E_next; assumption]. rewrite E, S, <- !app_assoc. reflexivity.
    + destruct (strip [x5d] (skip_ws r1)) as [r2|] eqn:S2; [|discriminate]. injection H as <- <-. apply strip_spec in S2.
      exists (w ++ t ++ w2). split; [|apply E_last; assumption]. rewrite E, S2, <- !app_assoc. reflexivity.
  - intros s l r H. cbn [pmems] in H. destruct (skip_inv s) as (w0 & E0 & W0). destruct (strip [quote] (skip_ws s)) as [s1|] eqn:S0; [|discriminate]. apply strip_spec in S0.
    destruct (scan_str Plain s1) as [[k s2]|] eqn:S1; [|discriminate]. destruct (scan_inv _ _ _ _ (le_n _) S1) as [C ->].
    destruct (skip_inv s2) as (w1 & E1 & W1). destruct (strip [x3a] (skip_ws s2)) as [s3|] eqn:S2; [|discriminate]. apply strip_spec in S2.
    destruct (pval f s3) as [[v r1]|] eqn:P; [|discriminate]. destruct (IHv _ _ _ P) as (w & t & -> & W & V).
    destruct (skip_inv r1) as (w2 & E & W2). destruct (strip [x2c] (skip_ws r1)) as [r2|] eqn:S.
    + destruct (pmems f r2) as [[l' r3]|] eqn:P2; [|discriminate]. injection H as <- <-. apply strip_spec in S. destruct (IHm _ _ _ P2) as (t2 & -> & X).
      exists (w0 ++ in_quotes k ++ w1 ++ x3a :: w ++ t ++ w2 ++ x2c :: t2). split; [|apply M_next; assumption].
      rewrite E0, S0, E1, S2, E, S. unfold in_quotes. cbn [app]. rewrite <- ?app_assoc. cbn [app]. rewrite <- ?app_assoc. cbn [app]. rewrite <- ?app_assoc. cbn [app]. rewrite <- ?app_assoc. reflexivity.
    + destruct (strip [x7d] (skip_ws r1)) as [r2|] eqn:S3; [|discriminate]. injection H as <- <-. apply strip_spec in S3.
      exists (w0 ++ in_quotes k ++ w1 ++ x3a :: w ++ t ++ w2). split; [|apply M_last; assumption].
      rewrite E0, S0, E1, S2, E, S3. unfold in_quotes. cbn [app]. rewrite <- ?app_assoc. cbn [app]. rewrite <- ?app_assoc. cbn [app]. rewrite <- ?app_assoc. cbn [app]. rewrite <- ?app_assoc. reflexivity.
Qed.
Lemma ws_stops w : ws w -> stops w.
Proof. intros W. rewrite <- (app_nil_r w). apply stops_ws; [exact W|exact Logic.I]. Qed.
Lemma ws_all w : skip_ws w = [] <-> ws w.
Proof.
  split; [intros H; destruct (skip_inv w) as (w' & E & W); rewrite H, app_nil_r in E; subst; exact W|].
  intros W. rewrite <- (app_nil_r w), skip_app by exact W. reflexivity.
Qed.
Theorem parse_spec s j : parse s = Some j <-> text_of j s.
Proof.
  unfold parse, text_of. split.
  - destruct (pval (S (length s)) s) as [[j' r]|] eqn:P; [|discriminate]. destruct (skip_ws r) eqn:S; [|discriminate]. intros H. injection H as ->.
    destruct (proj1 (sound_parse _) _ _ _ P) as (w & t & E & W & V). exists w, t, r. split; [exact E|]. split; [exact W|]. split; [exact V|]. apply ws_all, S.
  - intros (w1 & t & w2 & -> & W1 & V & W2). rewrite (proj1 complete _ _ V); [|exact W1| |right; apply ws_stops, W2].
    + rewrite (proj2 (ws_all w2) W2). reflexivity.
    + rewrite !app_length. lia.
Qed.
(* texts that begin as an object end with it *)
Lemma value_obj v t : value v (n2b 123 :: t) -> is_num v = false.
Proof. intros H. inversion H as [| | |l N| | | | |]; try reflexivity; subst. destruct (number_headed _ N) as (_ & b' & t' & E & B). injection E as <- <-.
  destruct B as [B|B]; [discriminate B|]. vm_compute in B. destruct B as [_ B]. exfalso. apply B. reflexivity. Qed.
Lemma cut_obj v t b1 b2 : value v (n2b 123 :: t) -> n2b 123 :: t = b1 ++ b2 -> b2 <> [] -> parse b1 = None.
Proof.
  intros V E N. destruct (parse b1) as [j|] eqn:P; [|reflexivity]. exfalso. apply parse_spec in P as (w1 & s & w2 & -> & W1 & V1 & W2).
  assert (w1 = []) as ->.
  { destruct W1 as [|b w B W]; [reflexivity|]. cbn [app] in E. injection E as Q _. subst b. vm_compute in B. intuition discriminate. }
  cbn [app] in E. destruct (value_headed _ _ V1) as (b & s' & -> & _). cbn [app] in E. injection E as <- E.
  assert (L : length (n2b 123 :: s') <= length (n2b 123 :: t)) by (rewrite E; cbn [length]; rewrite !app_length; lia).
  pose proof (proj1 complete _ _ V _ [] [] (Forall_nil _) (le_n _) (or_intror Logic.I)) as P1.
  pose proof (proj1 complete _ _ V1 _ [] (w2 ++ b2) (Forall_nil _) L (or_introl (value_obj _ _ V1))) as P2. cbn [app] in P1, P2. rewrite app_nil_r in P1.
  clear L. revert P1 P2. generalize (length (n2b 123 :: t)). intros f. rewrite E, <- app_assoc. intros -> P2.
  injection P2 as _ Q. destruct w2; [cbn in Q; congruence|discriminate].
Qed.

(* ----- printing ----- *)
Lemma json_rect' (P : json -> Prop) : P JNull -> (forall b, P (JBool b)) -> (forall l, P (JNum l)) -> (forall s, P (JStr s)) ->
  (forall l, Forall P l -> P (JArr l)) -> (forall l, Forall (fun kv => P (snd kv)) l -> P (JObj l)) -> forall j, P j.
Proof.
  intros H0 H1 H2 H3 H4 H5. fix IH 1. intros [| | | |l|l]; [exact H0|apply H1|apply H2|apply H3| |].
  - apply H4. induction l; constructor; [apply IH|assumption].
  - apply H5. induction l as [|[k v] l IHl]; constructor; [apply IH|assumption].
Qed.
(* leaves are as they should be *)
Inductive leaves : json -> Prop :=
| L_null : leaves JNull
| L_bool b : leaves (JBool b)
| L_num l : number l -> leaves (JNum l)
| L_str s : chars s -> leaves (JStr s)
| L_arr l : Forall leaves l -> leaves (JArr l)
| L_obj l : Forall (fun kv => chars (fst kv) /\ leaves (snd kv)) l -> leaves (JObj l).
Lemma join_cons x y l : join (x :: y :: l) = x ++ x2c :: join (y :: l).
Proof. reflexivity. Qed.
Theorem print_value j : leaves j -> value j (print j).
Proof.
  induction j as [|b|l|s|l IH|l IH] using json_rect'; intros H; inversion H as [| | | |? F|? F]; subst.
  - constructor.
  - destruct b; constructor.
  - constructor; assumption.
  - cbn [print]. apply V_str. assumption.
  - cbn [print]. destruct l as [|v l]; [apply (V_empty []); constructor|]. apply V_arr.
    revert v IH H F. induction l as [|v' l IHl]; intros v IH H F; inversion IH; inversion F; subst.
    + cbn [map join]. rewrite <- (app_nil_r (print v)). apply (E_last v (print v) [] []); [constructor|auto|constructor].
    + cbn [map]. rewrite join_cons. apply (E_next v (print v) [] [] (v' :: l)); [constructor|auto|constructor|]. apply IHl; auto. constructor; assumption.
  - cbn [print]. destruct l as [|v l]; [apply (V_none []); constructor|]. apply V_obj.
    revert v IH H F. induction l as [|v' l IHl]; intros [k v] IH H F; inversion IH; inversion F; subst; cbn [fst snd] in *.
    + cbn [map join fst snd]. rewrite <- (app_nil_r (print v)). apply (M_last k v (print v) [] [] [] []); try constructor; tauto.
    + cbn [map]. rewrite join_cons. cbn [fst snd]. rewrite <- app_assoc. cbn [app].
      apply (M_next k v (print v) [] [] [] [] (v' :: l)); try constructor; try tauto. apply IHl; auto. constructor; assumption.
Qed.
Theorem parse_print j : leaves j -> parse (print j) = Some j.
Proof. intros H. apply parse_spec. exists [], (print j), []. split; [rewrite app_nil_r; reflexivity|]. split; [constructor|]. split; [apply print_value, H|constructor]. Qed.
(* whole texts are UTF-8 if their leaves are *)
Inductive wf_leaves : json -> Prop :=
| LW_null : wf_leaves JNull
| LW_bool b : wf_leaves (JBool b)
| LW_num l : number l -> wf_leaves (JNum l)
| LW_str s : utf8_wf s -> wf_leaves (JStr s)
| LW_arr l : Forall wf_leaves l -> wf_leaves (JArr l)
| LW_obj l : Forall (fun kv => utf8_wf (fst kv) /\ wf_leaves (snd kv)) l -> wf_leaves (JObj l).
Lemma digits_ascii ds : Forall is_digit ds -> Forall (fun b => (b2N b < 128)%N) ds.
Proof. apply Forall_impl. unfold is_digit, between. lia. Qed.
Lemma number_ascii l : number l -> Forall (fun b => (b2N b < 128)%N) l.
Proof.
  intros (s & i & f & e & -> & I & W & F & E). rewrite !Forall_app. split; [|split; [|split]].
  - cbn [In] in I. destruct I as [<-|[<-|[]]]; repeat constructor.
  - destruct W as [->|(d & ds & -> & D & X)]; [repeat constructor|]. constructor; [unfold between in D; lia|apply digits_ascii, X].
  - destruct F as [->|(ds & -> & _ & X)]; [constructor|]. constructor; [vm_compute; reflexivity|apply digits_ascii, X].
  - destruct E as [->|(c & sg & ds & -> & C & G & _ & X)]; [constructor|]. constructor.
    + cbn [In] in C. destruct C as [<-|[<-|[]]]; vm_compute; reflexivity.
    + apply Forall_app. split; [cbn [In] in G; destruct G as [<-|[<-|[<-|[]]]]; repeat constructor|apply digits_ascii, X].
Qed.
Lemma wf_cons b s : (b2N b < 128)%N -> utf8_wf s -> utf8_wf (b :: s).
Proof. intros B S. apply (WF_char [b]); [apply ascii_char, B|exact S]. Qed.
Lemma wf_join l : Forall utf8_wf l -> utf8_wf (join l).
Proof. induction 1 as [|x l X L IH]; [constructor|]. destruct l as [|y l]; [exact X|]. rewrite join_cons. apply wf_app; [exact X|]. apply wf_cons; [vm_compute; reflexivity|exact IH]. Qed.
Lemma wf_quoted s : utf8_wf s -> utf8_wf (quoted s).
Proof. intros S. apply wf_cons; [vm_compute; reflexivity|]. apply wf_app; [exact S|]. apply wf_cons; [vm_compute; reflexivity|constructor]. Qed.
Theorem print_wf j : wf_leaves j -> utf8_wf (print j).
Proof.
  induction j as [|b|l|s|l IH|l IH] using json_rect'; intros H; inversion H as [| | | |? F|? F]; subst; cbn [print].
  - apply ascii_wf. repeat constructor.
  - apply ascii_wf. destruct b; repeat constructor.
  - apply ascii_wf, number_ascii. assumption.
  - apply wf_quoted. assumption.
  - apply wf_cons; [vm_compute; reflexivity|]. apply wf_app; [|apply wf_cons; [vm_compute; reflexivity|constructor]]. apply wf_join. apply Forall_map.
    rewrite Forall_forall in *. auto.
  - apply wf_cons; [vm_compute; reflexivity|]. apply wf_app; [|apply wf_cons; [vm_compute; reflexivity|constructor]]. apply wf_join. apply Forall_map.
    rewrite Forall_forall in *. intros [k v] I. cbn [fst snd]. destruct (F _ I) as [X Y]. apply wf_app; [apply wf_quoted, X|]. apply wf_cons; [vm_compute; reflexivity|]. apply (IH _ I), Y.
Qed.
