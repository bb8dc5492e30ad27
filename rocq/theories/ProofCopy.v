(* Proofs about copies of session infos. *)
From Coq Require Import List Arith NArith ZArith Lia Bool.
From Verif Require Import BaseBytes ModelMessage ModelCopy SpecCopy.
Import ListNotations.
Open Scope nat_scope.

Scheme sees_ind2 := Induction for sees Sort Prop
with sees_list_ind2 := Induction for sees_list Sort Prop
with sees_pairs_ind2 := Induction for sees_pairs Sort Prop.
Combined Scheme sees_mut from sees_ind2, sees_list_ind2, sees_pairs_ind2.

Lemma mkey_eqb_spec a b : reflect (a = b) (mkey_eqb a b).
Proof.
  destruct a as [x|], b as [y|]; cbn; try (constructor; congruence). destruct (bytes_eqb_spec x y); constructor; congruence.
Qed.
Lemma upd_length {A} (l : list A) : forall i x, length (upd l i x) = length l.
Proof. induction l; intros [|i] x; cbn; auto. Qed.
Lemma upd_same {A} (l : list A) : forall i x, i < length l -> nth_error (upd l i x) i = Some x.
Proof. induction l; intros [|i] x H; cbn in *; try lia; [reflexivity|apply IHl; lia]. Qed.
Lemma upd_other {A} (l : list A) : forall i j x, j <> i -> nth_error (upd l i x) j = nth_error l j.
Proof. induction l; intros [|i] [|j] x H; cbn; try reflexivity; try congruence. apply IHl. lia. Qed.
Lemma upd_split {A} (l : list A) : forall i x, i < length l -> upd l i x = firstn i l ++ x :: skipn (S i) l.
Proof. induction l; intros [|i] x H; cbn in *; try lia; [reflexivity|]. rewrite IHl by lia. reflexivity. Qed.

Lemma nth_error_ext_firstn {A} (l l' : list A) : length l <= length l' -> (forall i, i < length l -> nth_error l' i = nth_error l i) -> firstn (length l) l' = l.
Proof.
  revert l'. induction l as [|x l IH]; intros l' L H; [reflexivity|]. destruct l' as [|y l']; cbn in L; [lia|].
  pose proof (H 0 ltac:(cbn; lia)) as H0. cbn in H0. injection H0 as ->. cbn. f_equal. apply IH; [lia|]. intros i Li. apply (H (S i)). cbn. lia.
Qed.
Lemma skipn_add {A} (l : list A) : forall i j, skipn j (skipn i l) = skipn (i + j) l.
Proof. induction l as [|x l IH]; intros [|i] j; cbn; try reflexivity; [apply skipn_nil|apply IH]. Qed.
Lemma firstn_In {A} (l : list A) n x : In x (firstn n l) -> In x l.
Proof. intros H. rewrite <- (firstn_skipn n l), in_app_iff. auto. Qed.
Lemma skipn_In {A} (l : list A) n x : In x (skipn n l) -> In x l.
Proof. intros H. rewrite <- (firstn_skipn n l), in_app_iff. auto. Qed.
(* what is seen depends only on objects from lo on *)
Lemma sees_stable lo Q h : 
  (forall v x, sees lo Q h v x -> forall lo' (Q' : val -> Prop) h', lo' <= lo -> (forall v, Q v -> Q' v) -> (forall a o, lo <= a -> nth_error h a = Some o -> nth_error h' a = Some o) -> sees lo' Q' h' v x) /\
  (forall v x, sees_list lo Q h v x -> forall lo' (Q' : val -> Prop) h', lo' <= lo -> (forall v, Q v -> Q' v) -> (forall a o, lo <= a -> nth_error h a = Some o -> nth_error h' a = Some o) -> sees_list lo' Q' h' v x) /\
  (forall v x, sees_pairs lo Q h v x -> forall lo' (Q' : val -> Prop) h', lo' <= lo -> (forall v, Q v -> Q' v) -> (forall a o, lo <= a -> nth_error h a = Some o -> nth_error h' a = Some o) -> sees_pairs lo' Q' h' v x).
Proof.
  apply sees_mut; intros; try (econstructor; eauto; fail).
  - eapply S_slice with (l := l); eauto; [lia|]. eapply Forall_impl; [|eassumption]. auto.
  - eapply S_map with (l := l); eauto. lia.
Qed.
Definition same_below (n : nat) (h h' : heap) : Prop := length h <= length h' /\ forall a, a < length h -> a <> n -> nth_error h' a = nth_error h a.
Lemma same_below_trans n h1 h2 h3 : same_below n h1 h2 -> same_below n h2 h3 -> same_below n h1 h3.
Proof. intros [L1 A] [L2 B]. split; [lia|]. intros a La Na. rewrite B, A by lia. reflexivity. Qed.

Section Main.
Context (elem_zero : nat -> val).
Notation copyR := (copyRecursive elem_zero).
Notation Z := (zeros elem_zero).

Lemma set_index_facts h a l i v : nth_error h a = Some (OArr l) -> i < length l ->
  length (set_index h a i v) = length h /\ nth_error (set_index h a i v) a = Some (OArr (firstn i l ++ v :: skipn (S i) l)) /\
  forall b, b <> a -> nth_error (set_index h a i v) b = nth_error h b.
Proof.
  intros E L. unfold set_index. rewrite E. split; [apply upd_length|]. split.
  - rewrite upd_same by (apply nth_error_Some; congruence). rewrite upd_split by exact L. reflexivity.
  - intros b N. apply upd_other, N.
Qed.
Lemma assign_new l k v : ~ In k (map fst l) -> assign l k v = l ++ [(k, v)].
Proof.
  induction l as [|[k' v'] l IH]; intros N; cbn in *; [reflexivity|]. destruct (mkey_eqb_spec k' k) as [->|]; [tauto|]. rewrite IH by tauto. reflexivity.
Qed.
Lemma assoc_in l k v : NoDup (map fst l) -> In (k, v) l -> assoc l k = Some v.
Proof.
  induction l as [|[k' v'] l IH]; cbn; intros ND IN; [contradiction|]. inversion ND as [|? ? N ND']; subst.
  destruct (mkey_eqb_spec k' k) as [->|NE]; [|apply IH; [exact ND'|destruct IN as [E|IN]; [congruence|exact IN]]].
  destruct IN as [E|IN]; [congruence|]. exfalso. apply N. apply in_map_iff. exists (k, v). auto.
Qed.
Lemma set_key_facts h a l k v : nth_error h a = Some (OMap l) -> ~ In k (map fst l) ->
  length (set_key h a k v) = length h /\ nth_error (set_key h a k v) a = Some (OMap (l ++ [(k, v)])) /\
  forall b, b <> a -> nth_error (set_key h a k v) b = nth_error h b.
Proof.
  intros E L. unfold set_key. rewrite E. split; [apply upd_length|]. split.
  - rewrite upd_same by (apply nth_error_Some; congruence). rewrite assign_new by exact L. reflexivity.
  - intros b N. apply upd_other, N.
Qed.

(* a value copied into a larger heap *)
Definition good (h : heap) (v : val) (x : tree) : Prop :=
  forall h0, (forall a o, nth_error h a = Some o -> nth_error h0 a = Some o) -> no_nil_key x ->
  exists n h1 v1, (forall fuel, n <= fuel -> copyR fuel h0 v = Ok (h0 ++ h1, v1)) /\ sees (length h0) Z (h0 ++ h1) v1 x.
Fixpoint all_nnk (l : list tree) : Prop := match l with [] => True | x :: l' => no_nil_key x /\ all_nnk l' end.
Fixpoint all_nnk_pairs (l : list (mkey * tree)) : Prop := match l with [] => True | (k, x) :: l' => k <> KNil /\ no_nil_key x /\ all_nnk_pairs l' end.
Definition good_list (h : heap) (vs : list val) (xs : list tree) : Prop :=
  forall h0 a off a' i la l, (forall b o, nth_error h b = Some o -> nth_error h0 b = Some o) -> length h <= a' -> a' < length h0 ->
  nth_error h a = Some (OArr la) -> firstn (length vs) (skipn (off + i) la) = vs -> nth_error h0 a' = Some (OArr l) -> i + length vs <= length l -> all_nnk xs ->
  exists n h1 ws, (forall fuel, n <= fuel -> copy_elems (copyR fuel) h0 a off a' (seq i (length vs)) = Ok h1) /\
    same_below a' h0 h1 /\ length ws = length vs /\ nth_error h1 a' = Some (OArr (firstn i l ++ ws ++ skipn (i + length vs) l)) /\ sees_list (length h0) Z h1 ws xs.
Definition good_pairs (h : heap) (ps : list (mkey * val)) (xs : list (mkey * tree)) : Prop :=
  forall h0 a a' la l, (forall b o, nth_error h b = Some o -> nth_error h0 b = Some o) -> length h <= a' -> a' < length h0 ->
  nth_error h a = Some (OMap la) -> NoDup (map fst la) -> (forall p, In p ps -> In p la) -> nth_error h0 a' = Some (OMap l) ->
  NoDup (map fst l ++ map fst ps) -> all_nnk_pairs xs ->
  exists n h1 ws, (forall fuel, n <= fuel -> copy_keys (copyR fuel) h0 a a' (map fst ps) = Ok h1) /\
    same_below a' h0 h1 /\ map fst ws = map fst ps /\ nth_error h1 a' = Some (OMap (l ++ ws)) /\ sees_pairs (length h0) Z h1 ws xs.

Lemma firstn_skipn_cons {A} (la : list A) n k v vs : firstn (S n) (skipn k la) = v :: vs -> nth_error la k = Some v /\ firstn n (skipn (S k) la) = vs.
Proof.
  revert la. induction k as [|k IH]; intros la H.
  - destruct la as [|x la]; cbn in *; [discriminate|]. injection H as -> ->. auto.
  - destruct la as [|x la]; [discriminate|]. cbn [skipn] in H. apply IH in H. exact H.
Qed.
Lemma grow (h h0 h1 : heap) : (forall a o, nth_error h a = Some o -> nth_error h0 a = Some o) -> forall a o, nth_error h a = Some o -> nth_error (h0 ++ h1) a = Some o.
Proof. intros H a o E. specialize (H a o E). rewrite nth_error_app1; [exact H|]. apply nth_error_Some. congruence. Qed.

Lemma copy_good h : (forall v x, sees 0 anything h v x -> good h v x) /\
  (forall v x, sees_list 0 anything h v x -> good_list h v x) /\
  (forall v x, sees_pairs 0 anything h v x -> good_pairs h v x).
Proof.
  apply sees_mut.
  - intros t z h0 E N. exists 1, [], (VScalar t z). rewrite app_nil_r. split; [|constructor]. intros [|f] L; [lia|reflexivity].
  - intros t z h0 E N. exists 1, [], (VPtr t z). rewrite app_nil_r. split; [|constructor]. intros [|f] L; [lia|reflexivity].
  - intros t z h0 E N. exists 1, [], (VStruct t z). rewrite app_nil_r. split; [|constructor]. intros [|f] L; [lia|reflexivity].
  - intros h0 E N. exists 1, [], (VIface None). rewrite app_nil_r. split; [|constructor]. intros [|f] L; [lia|reflexivity].
  - intros v x _ IH h0 E N. destruct (IH h0 E N) as (n & h1 & v1 & C & SS). exists (S n), h1, (VIface (Some v1)). split; [|constructor; exact SS].
    intros [|f] L; [lia|]. cbn [copyRecursive]. rewrite C by lia. reflexivity.
  - intros t h0 E N. exists 1, [], (VSlice t None). rewrite app_nil_r. split; [|constructor]. intros [|f] L; [lia|reflexivity].
  - intros t a off len cap l vs xs _ A LC LL EV _ _ IH h0 E N.
    set (h0' := h0 ++ [OArr (repeat (elem_zero t) cap)]).
    assert (LV : length vs = len) by (rewrite EV, firstn_length, skipn_length; lia).
    assert (LH : length h <= length h0).
    { destruct (le_lt_dec (length h) (length h0)) as [|X]; [assumption|]. exfalso.
      destruct (nth_error h (length h0)) as [o|] eqn:HO; [|apply nth_error_None in HO; lia].
      specialize (E _ _ HO). assert (nth_error h0 (length h0) <> None) by congruence. apply nth_error_Some in H. lia. }
    destruct (IH h0' a off (length h0) 0 l (repeat (elem_zero t) cap)) as (n & h1 & ws & C & SB & LW & A1 & SS).
    + apply grow, E.
    + exact LH.
    + unfold h0'. rewrite app_length. cbn. lia.
    + exact A.
    + rewrite Nat.add_0_r, LV. symmetry. exact EV.
    + unfold h0'. rewrite nth_error_app2, Nat.sub_diag by lia. reflexivity.
    + rewrite repeat_length. lia.
    + cbn in N. clear -N. induction xs; cbn in *; [exact I|]. destruct N as [N1 N2]. auto.
    + assert (X : exists x, h1 = h0 ++ x).
      { exists (skipn (length h0) h1). rewrite <- (firstn_skipn (length h0) h1) at 1. f_equal.
        destruct SB as [LE AG]. unfold h0' in *. rewrite app_length in LE, AG. cbn in LE, AG.
        apply (nth_error_ext_firstn h0 h1); [lia|]. intros b Lb. rewrite AG by lia. apply nth_error_app1. lia. }
      destruct X as [x ->]. exists (S n), x, (VSlice t (Some (length h0, 0, len, cap))). split.
      * intros [|f] L; [lia|]. cbn [copyRecursive]. fold h0'. rewrite LV in C. rewrite C by lia. reflexivity.
      * cbn [firstn app Nat.add] in A1. eapply S_slice; [lia|exact A1| | |cbn [skipn]|cbn [skipn Nat.add]|].
        -- rewrite app_length, skipn_length, repeat_length. lia.
        -- exact LL.
        -- rewrite LV in LW. rewrite <- LW, firstn_app, Nat.sub_diag, firstn_all. cbn. rewrite app_nil_r. reflexivity.
        -- rewrite LV in *. rewrite skipn_app, skipn_all2 by lia. rewrite LW, Nat.sub_diag. cbn [app skipn].
           apply Forall_forall. intros y IN. apply firstn_In in IN. apply skipn_In in IN. apply repeat_spec in IN. subst y. exists t. reflexivity.
        -- eapply (proj1 (proj2 (sees_stable _ _ _))); [exact SS|unfold h0'; rewrite app_length; lia|auto|auto].
  - intros t h0 E N. exists 1, [], (VMap t None). rewrite app_nil_r. split; [|constructor]. intros [|f] L; [lia|reflexivity].
  - intros t a l xs _ A ND _ IH h0 E N.
    set (h0' := h0 ++ [OMap []]).
    assert (LH : length h <= length h0).
    { destruct (le_lt_dec (length h) (length h0)) as [|X]; [assumption|]. exfalso.
      destruct (nth_error h (length h0)) as [o|] eqn:HO; [|apply nth_error_None in HO; lia].
      specialize (E _ _ HO). assert (nth_error h0 (length h0) <> None) by congruence. apply nth_error_Some in H. lia. }
    destruct (IH h0' a (length h0) l []) as (n & h1 & ws & C & SB & LW & A1 & SS); auto.
    + apply grow, E.
    + unfold h0'. rewrite app_length. cbn. lia.
    + unfold h0'. rewrite nth_error_app2, Nat.sub_diag by lia. reflexivity.
    + assert (X : exists x, h1 = h0 ++ x).
      { exists (skipn (length h0) h1). rewrite <- (firstn_skipn (length h0) h1) at 1. f_equal.
        destruct SB as [LE AG]. unfold h0' in *. rewrite app_length in LE, AG. cbn in LE, AG.
        apply (nth_error_ext_firstn h0 h1); [lia|]. intros b Lb. rewrite AG by lia. apply nth_error_app1. lia. }
      destruct X as [x ->]. exists (S n), x, (VMap t (Some (length h0))). split.
      * intros [|f] L; [lia|]. cbn [copyRecursive]. unfold map_of at 1. rewrite (E _ _ A). cbn [rbind]. fold h0'. rewrite C by lia. reflexivity.
      * cbn [app] in A1. eapply S_map; [lia|exact A1|rewrite LW; exact ND|].
        eapply (proj2 (proj2 (sees_stable _ _ _))); [exact SS|unfold h0'; rewrite app_length; lia|auto|auto].
  - intros h0 a off a' i la l E La La' A F A' LI N. exists 0, h0, []. split; [reflexivity|]. split; [split; [lia|auto]|]. split; [reflexivity|]. split; [|constructor].
    cbn [length app]. rewrite Nat.add_0_r, firstn_skipn. exact A'.
  - intros v x vs xs _ IHv _ IHl h0 a off a' i la l E La La' A F A' LI N. cbn [length] in *. apply firstn_skipn_cons in F. destruct F as [FV FL].
    destruct N as [N1 N2]. destruct (IHv h0 E N1) as (n1 & h1 & v1 & C1 & S1).
    assert (AL : nth_error (h0 ++ h1) a' = Some (OArr l)) by (rewrite nth_error_app1; assumption).
    destruct (set_index_facts (h0 ++ h1) a' l i v1 AL ltac:(lia)) as (LS & AS & OS).
    set (h2 := set_index (h0 ++ h1) a' i v1) in *. set (l2 := firstn i l ++ v1 :: skipn (S i) l) in *.
    assert (LL2 : length l2 = length l) by (unfold l2; rewrite app_length; cbn [length]; rewrite firstn_length, skipn_length; lia).
    assert (E2 : forall b o, nth_error h b = Some o -> nth_error h2 b = Some o).
    { intros b o Eb. assert (b < length h) by (apply nth_error_Some; congruence). rewrite OS by lia. apply grow with (h := h); assumption. }
    destruct (IHl h2 a off a' (S i) la l2) as (n2 & h3 & ws & C2 & SB & LW & A3 & S3); auto.
    + rewrite LS, app_length. lia.
    + rewrite Nat.add_succ_r. exact FL.
    + lia.
    + exists (Nat.max n1 n2), h3, (v1 :: ws).
      assert (HB : same_below a' h0 h2). { split; [rewrite LS, app_length; lia|]. intros b Lb Nb. rewrite OS by exact Nb. apply nth_error_app1, Lb. }
      split; [|split; [|split; [|split]]].
      * intros fuel L. cbn [seq copy_elems]. unfold index at 1. rewrite (E _ _ A), FV. cbn [rbind]. rewrite C1 by lia. cbn [rbind]. apply C2. lia.
      * eapply same_below_trans; eassumption.
      * cbn. congruence.
      * rewrite A3. f_equal. f_equal. unfold l2.
        assert (FI : length (firstn i l) = i) by (rewrite firstn_length; lia).
        rewrite firstn_app, FI. replace (S i - i) with 1 by lia. rewrite (firstn_all2 (firstn i l)) by lia. cbn [firstn].
        rewrite skipn_app, FI. rewrite (skipn_all2 (firstn i l)) by lia. replace (S i + length vs - i) with (S (length vs)) by lia.
        change (skipn (S (length vs)) (v1 :: skipn (S i) l)) with (skipn (length vs) (skipn (S i) l)).
        rewrite skipn_add. replace (S i + length vs) with (i + S (length vs)) by lia. rewrite <- app_assoc. reflexivity.
      * constructor.
        -- eapply (proj1 (sees_stable _ _ _)); [exact S1|lia|auto|]. intros b o Lb Eb.
           assert (b < length (h0 ++ h1)) by (apply nth_error_Some; congruence). rewrite (proj2 SB) by lia. rewrite OS by lia. exact Eb.
        -- eapply (proj1 (proj2 (sees_stable _ _ _))); [exact S3|rewrite LS, app_length; lia|auto|auto].
  - intros h0 a a' la l E La La' A ND IN A' NK N. exists 0, h0, []. split; [reflexivity|]. split; [split; [lia|auto]|]. split; [reflexivity|]. split; [|constructor].
    rewrite app_nil_r. exact A'.
  - intros k v x ps xs _ IHv _ IHl h0 a a' la l E La La' A ND IN A' NK N. destruct N as (NN & N1 & N2).
    destruct (IHv h0 E N1) as (n1 & h1 & v1 & C1 & S1). cbn [map fst] in *.
    assert (AL : nth_error (h0 ++ h1) a' = Some (OMap l)) by (rewrite nth_error_app1; assumption).
    assert (NI : ~ In k (map fst l)). { apply NoDup_remove_2 in NK. intros X. apply NK. rewrite in_app_iff. auto. }
    destruct (set_key_facts (h0 ++ h1) a' l k v1 AL NI) as (LS & AS & OS).
    set (h2 := set_key (h0 ++ h1) a' k v1) in *.
    assert (E2 : forall b o, nth_error h b = Some o -> nth_error h2 b = Some o).
    { intros b o Eb. assert (b < length h) by (apply nth_error_Some; congruence). rewrite OS by lia. apply grow with (h := h); assumption. }
    destruct (IHl h2 a a' la (l ++ [(k, v1)])) as (n2 & h3 & ws & C2 & SB & LW & A3 & S3); auto.
    + rewrite LS, app_length. lia.
    + intros p P. apply IN. right. exact P.
    + rewrite map_app, <- app_assoc. exact NK.
    + exists (Nat.max n1 n2), h3, ((k, v1) :: ws).
      assert (HB : same_below a' h0 h2). { split; [rewrite LS, app_length; lia|]. intros b Lb Nb. rewrite OS by exact Nb. apply nth_error_app1, Lb. }
      split; [|split; [|split; [|split]]].
      * intros fuel L. cbn [copy_keys]. unfold map_of at 1. rewrite (E _ _ A). cbn [rbind].
        rewrite (assoc_in la k v ND (IN _ (or_introl eq_refl))), C1 by lia. cbn [rbind]. destruct k as [kb|]; [|congruence]. apply C2. lia.
      * eapply same_below_trans; eassumption.
      * cbn. congruence.
      * rewrite A3, <- app_assoc. reflexivity.
      * constructor.
        -- eapply (proj1 (sees_stable _ _ _)); [exact S1|lia|auto|]. intros b o Lb Eb.
           assert (b < length (h0 ++ h1)) by (apply nth_error_Some; congruence). rewrite (proj2 SB) by lia. rewrite OS by lia. exact Eb.
        -- eapply (proj2 (proj2 (sees_stable _ _ _))); [exact S3|rewrite LS, app_length; lia|auto|auto].
Qed.
End Main.
