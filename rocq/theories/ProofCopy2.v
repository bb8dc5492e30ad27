(* Proofs about copies of session infos: the theorems. *)
From Coq Require Import List Arith NArith ZArith Lia Bool.
From Verif Require Import BaseBytes ModelMessage ModelCopy SpecCopy ProofCopy.
Import ListNotations.
Open Scope nat_scope.

(* a value looks like one tree only *)
Lemma sees_unique_mut lo Q h :
  (forall v x, sees lo Q h v x -> forall lo' Q' y, sees lo' Q' h v y -> y = x) /\
  (forall v x, sees_list lo Q h v x -> forall lo' Q' y, sees_list lo' Q' h v y -> y = x) /\
  (forall v x, sees_pairs lo Q h v x -> forall lo' Q' y, sees_pairs lo' Q' h v y -> y = x).
Proof.
  apply sees_mut.
  - intros t z lo' Q' y H. inversion H; reflexivity.
  - intros t z lo' Q' y H. inversion H; reflexivity.
  - intros t z lo' Q' y H. inversion H; reflexivity.
  - intros lo' Q' y H. inversion H; reflexivity.
  - intros v x _ IH lo' Q' y H. inversion H as [| | | |? x' Hx| | | |]; subst. f_equal. eapply IH; eassumption.
  - intros t lo' Q' y H. inversion H; reflexivity.
  - intros t a off len cap l vs xs _ A _ _ EV _ _ IH lo' Q' y H. inversion H as [| | | | | |? ? ? ? ? l' vs' xs' _ A' _ _ EV' _ SL| |]; subst.
    f_equal. rewrite A in A'. injection A' as <-. eapply IH; eassumption.
  - intros t lo' Q' y H. inversion H; reflexivity.
  - intros t a l xs _ A _ _ IH lo' Q' y H. inversion H as [| | | | | | | |? ? l' xs' _ A' _ SL]; subst. f_equal. rewrite A in A'. injection A' as <-. eapply IH; eassumption.
  - intros lo' Q' y H. inversion H; reflexivity.
  - intros v x vs xs _ IH _ IHl lo' Q' y H. inversion H; subst. f_equal; eauto.
  - intros lo' Q' y H. inversion H; reflexivity.
  - intros k v x l xs _ IH _ IHl lo' Q' y H. inversion H; subst. f_equal; [f_equal|]; eauto.
Qed.
Theorem sees_unique : forall h v x y, sees 0 anything h v x -> sees 0 anything h v y -> x = y.
Proof. intros h v x y H1 H2. symmetry. eapply (proj1 (sees_unique_mut 0 anything h)); eassumption. Qed.

(* what a copy is: it looks like the original, which is not touched *)
Theorem copy_equal : forall zero h v x, sees 0 anything h v x -> no_nil_key x ->
  exists n h' v', (forall fuel, n <= fuel -> copyRecursive zero fuel h v = Ok (h', v')) /\ extends h h' /\ sees (length h) (zeros zero) h' v' x.
Proof.
  intros zero h v x S N. destruct (proj1 (copy_good zero h) v x S h ltac:(auto) N) as (n & h1 & v1 & C & S1).
  exists n, (h ++ h1), v1. split; [exact C|]. split; [exists h1; reflexivity|exact S1].
Qed.
(* nothing that is reached from the copy was there before *)
Lemma plain_list xs : plain_data (TSlice 0 0 xs) <-> Forall plain_data xs.
Proof. induction xs as [|x xs IH]; cbn in *; [split; auto|]. rewrite Forall_cons_iff, <- IH. reflexivity. Qed.
Lemma plain_pairs xs : plain_data (TMap 0 xs) <-> Forall (fun p => plain_data (snd p)) xs.
Proof. induction xs as [|[k x] xs IH]; cbn in *; [split; auto|]. rewrite Forall_cons_iff, <- IH. reflexivity. Qed.
Lemma firstn_plus_split {A} (n m : nat) (l : list A) : firstn (n + m) l = firstn n l ++ firstn m (skipn n l).
Proof. revert n. induction l as [|x l IH]; intros [|n]; cbn; try reflexivity; [rewrite firstn_nil; reflexivity|]. rewrite IH. reflexivity. Qed.
Lemma fresh_mut zero lo h : blank zero ->
  (forall v x, sees lo (zeros zero) h v x -> plain_data x -> forall a, reaches h v a -> lo <= a) /\
  (forall v x, sees_list lo (zeros zero) h v x -> Forall plain_data x -> forall w a, In w v -> reaches h w a -> lo <= a) /\
  (forall v x, sees_pairs lo (zeros zero) h v x -> Forall (fun p => plain_data (snd p)) x -> forall k w a, In (k, w) v -> reaches h w a -> lo <= a).
Proof.
  intros B. apply sees_mut.
  - intros t z _ a R. inversion R.
  - intros t z F. contradiction.
  - intros t z F. contradiction.
  - intros _ a R. inversion R.
  - intros v x _ IH P a R. inversion R; subst. apply IH; assumption.
  - intros t _ a R. inversion R.
  - intros t a off len cap l vs xs LA A LC LL EV TL _ IH P b R. change (plain_data (TSlice 0 0 xs)) in P. apply plain_list in P.
    inversion R as [| | |? ? ? ? ?|? ? ? ? ? l' v b' A' IN R'| |]; subst; [exact LA|]. rewrite A in A'. injection A' as <-.
    replace cap with (len + (cap - len)) in IN by lia. rewrite (firstn_plus_split len (cap - len)) in IN. apply in_app_iff in IN. destruct IN as [IN|IN]; [eapply IH; eassumption|].
    rewrite skipn_add in IN. rewrite Forall_forall in TL. destruct (TL v IN) as [t' ->]. exfalso. exact (B t' h b R').
  - intros t _ a R. inversion R.
  - intros t a l xs LA A ND _ IH P b R. change (plain_data (TMap 0 xs)) in P. apply plain_pairs in P.
    inversion R as [| | | | |? ?|? ? l' k v b' A' IN R']; subst; [exact LA|]. rewrite A in A'. injection A' as <-. eapply IH; eassumption.
  - intros _ w a [].
  - intros v x vs xs _ IH _ IHl P w a IN R. inversion P; subst. destruct IN as [<-|IN]; [apply IH; assumption|eapply IHl; eassumption].
  - intros _ k w a [].
  - intros k v x l xs _ IH _ IHl P k' w a IN R. inversion P; subst. destruct IN as [E|IN]; [injection E as _ <-; apply IH; assumption|eapply IHl; eassumption].
Qed.
Theorem copy_fresh : forall zero h v x n h' v' a, blank zero -> sees 0 anything h v x -> no_nil_key x -> plain_data x ->
  copyRecursive zero n h v = Ok (h', v') -> (forall fuel, n <= fuel -> copyRecursive zero fuel h v = Ok (h', v')) -> reaches h' v' a -> length h <= a.
Proof.
  intros zero h v x n h' v' a B S N P C CN R. destruct (copy_equal zero h v x S N) as (m & h2 & v2 & C2 & _ & S2).
  pose proof (CN (Nat.max n m) ltac:(lia)) as E1. pose proof (C2 (Nat.max n m) ltac:(lia)) as E2. rewrite E1 in E2. injection E2 as E3 E4. subst h2 v2.
  exact (proj1 (fresh_mut zero _ _ B) _ _ S2 P a R).
Qed.

(* copying gives the same result with more fuel *)
Lemma rbind_ok {A B} (r : res A) (k : A -> res B) b : rbind r k = Ok b -> exists a, r = Ok a /\ k a = Ok b.
Proof. destruct r; cbn; [eauto|discriminate|discriminate]. Qed.
Lemma rbind_pair {A B C} (r : res (A * B)) (k : A -> B -> res C) c : (do (x, y) <- r; k x y) = Ok c -> exists x y, r = Ok (x, y) /\ k x y = Ok c.
Proof. destruct r as [[x y]| |]; cbn; [eauto|discriminate|discriminate]. Qed.
Lemma copy_elems_mono (cp cp' : heap -> val -> res (heap * val)) : (forall h v r, cp h v = Ok r -> cp' h v = Ok r) ->
  forall is h a off a' r, copy_elems cp h a off a' is = Ok r -> copy_elems cp' h a off a' is = Ok r.
Proof.
  intros M. induction is as [|i is IH]; intros h a off a' r H; cbn [copy_elems] in *; [exact H|].
  apply rbind_ok in H. destruct H as (w & -> & H). cbn [rbind]. apply rbind_pair in H. destruct H as (h1 & w1 & C & H). rewrite (M _ _ _ C). cbn [rbind]. apply IH, H.
Qed.
Lemma copy_keys_mono (cp cp' : heap -> val -> res (heap * val)) : (forall h v r, cp h v = Ok r -> cp' h v = Ok r) ->
  forall ks h a a' r, copy_keys cp h a a' ks = Ok r -> copy_keys cp' h a a' ks = Ok r.
Proof.
  intros M. induction ks as [|k ks IH]; intros h a a' r H; cbn [copy_keys] in *; [exact H|].
  apply rbind_ok in H. destruct H as (l & -> & H). cbn [rbind]. destruct (assoc l k) as [w|]; [|discriminate].
  apply rbind_pair in H. destruct H as (h1 & w1 & C & H). rewrite (M _ _ _ C). cbn [rbind]. destruct k; [apply IH, H|discriminate].
Qed.
Theorem copy_more_fuel : forall zero fuel fuel' h v r, copyRecursive zero fuel h v = Ok r -> fuel <= fuel' -> copyRecursive zero fuel' h v = Ok r.
Proof.
  intros zero. induction fuel as [|f IH]; intros fuel' h v r H L; [discriminate|]. destruct fuel' as [|f']; [lia|].
  assert (M : forall h v r, copyRecursive zero f h v = Ok r -> copyRecursive zero f' h v = Ok r) by (intros; apply IH; [assumption|lia]).
  destruct v as [t z|t a|t fs|[w|]|t [[[[a off] len] cap]|]|t [a|]]; cbn [copyRecursive] in *; try exact H.
  - apply rbind_pair in H. destruct H as (h1 & w1 & C & H). rewrite (M _ _ _ C). exact H.
  - apply rbind_ok in H. destruct H as (h1 & C & H). rewrite (copy_elems_mono _ _ M _ _ _ _ _ _ C). exact H.
  - apply rbind_ok in H. destruct H as (l & -> & H). cbn [rbind]. apply rbind_ok in H. destruct H as (h1 & C & H). rewrite (copy_keys_mono _ _ M _ _ _ _ _ C). exact H.
Qed.
Theorem copy_no_sharing : forall zero h v x fuel h' v' a, blank zero -> sees 0 anything h v x -> no_nil_key x -> plain_data x ->
  copyRecursive zero fuel h v = Ok (h', v') -> reaches h' v' a -> length h <= a.
Proof.
  intros zero h v x fuel h' v' a B S N P C R. eapply copy_fresh with (n := fuel); try eassumption.
  intros fuel' L. eapply copy_more_fuel; eassumption.
Qed.
(* a copy and its original can be changed independently *)
Theorem copy_isolated : forall zero h v x fuel h' v', sees 0 anything h v x -> no_nil_key x -> copyRecursive zero fuel h v = Ok (h', v') ->
  (forall h2, agree (fun a => length h <= a) h' h2 -> sees 0 anything h2 v' x) /\
  (forall h2, agree (fun a => a < length h) h' h2 -> sees 0 anything h2 v x).
Proof.
  intros zero h v x fuel h' v' S N C. destruct (copy_equal zero h v x S N) as (m & h3 & v3 & C2 & [y ->] & S2).
  pose proof (copy_more_fuel zero fuel (Nat.max fuel m) h v _ C ltac:(lia)) as E1. rewrite (C2 (Nat.max fuel m) ltac:(lia)) in E1. injection E1 as E3 E4. subst h' v'.
  split; intros h2 AG.
  - eapply (proj1 (sees_stable _ _ _)); [exact S2|lia|intros; exact I|]. intros a o L E. rewrite AG by exact L. exact E.
  - eapply (proj1 (sees_stable _ _ _)); [exact S|lia|auto|]. intros a o _ E. assert (a < length h) by (apply nth_error_Some; congruence).
    rewrite AG by assumption. rewrite nth_error_app1 by assumption. exact E.
Qed.
(* structs, arrays and pointers are not looked into *)
Theorem copy_opaque : forall zero fuel h t l a,
  copyRecursive zero (S fuel) h (VStruct t l) = Ok (h, VStruct t l) /\ copyRecursive zero (S fuel) h (VPtr t a) = Ok (h, VPtr t a).
Proof. intros. split; reflexivity. Qed.

(* ----- session infos ----- *)
Theorem info_copy : forall zero h i x, sees 0 anything h (VMap 0 (data i)) x -> no_nil_key x ->
  exists n h' i', (forall fuel, n <= fuel -> Copy zero fuel h i = Ok (h', i')) /\ extends h h' /\ sees (length h) (zeros zero) h' (VMap 0 (data i')) x.
Proof.
  intros zero h [d] x S N. cbn [data] in *. destruct (copy_equal zero h _ x S N) as (n & h' & v' & C & E & S').
  assert (exists d', v' = VMap 0 d') as [d' ->].
  { specialize (C (Datatypes.S n) ltac:(lia)). destruct d as [a|]; cbn [copyRecursive] in C.
    - apply rbind_ok in C. destruct C as (l & _ & C). apply rbind_ok in C. destruct C as (h1 & _ & C). injection C as _ <-. eauto.
    - injection C as _ <-. eauto. }
  exists n, h', (MkInfo d'). split; [|split; assumption]. intros fuel L. unfold Copy, deepCopy. cbn [data]. rewrite C by exact L. reflexivity.
Qed.
Lemma pairs_keys lo Q h l xs : sees_pairs lo Q h l xs -> map fst xs = map fst l.
Proof. intros H. induction H; cbn; congruence. Qed.
Theorem info_fields : forall h i x, sees 0 anything h (VMap 0 (data i)) x ->
  exists fs, Fields h i = Ok fs /\ NoDup fs /\ match x with TMap _ xs => fs = map fst xs | _ => fs = [] end.
Proof.
  intros h [d] x S. unfold Fields. cbn [data] in *. inversion S as [| | | | | | |t|t a l xs _ A ND SP]; subst.
  - exists []. repeat split. constructor.
  - unfold map_of. rewrite A. cbn [rbind]. exists (map fst l). split; [reflexivity|]. split; [exact ND|]. symmetry. eapply pairs_keys, SP.
Qed.
Lemma pairs_in lo Q h l xs : sees_pairs lo Q h l xs -> forall k x, In (k, x) xs -> exists v, In (k, v) l /\ sees lo Q h v x.
Proof. intros H. induction H as [|k v x l xs S SP IH]; intros k' x' IN; [contradiction|]. destruct IN as [E|IN]; [injection E as <- <-; exists v; split; [left; reflexivity|exact S]|]. destruct (IH _ _ IN) as (w & W & Sw). exists w. split; [right; exact W|exact Sw]. Qed.
Lemma assoc_none l k : ~ In k (map fst l) -> assoc l k = None.
Proof. induction l as [|[k' v] l IH]; cbn; intros N; [reflexivity|]. destruct (mkey_eqb_spec k' k) as [->|]; [tauto|apply IH; tauto]. Qed.
Lemma nnk_pairs xs : no_nil_key (TMap 0 xs) <-> Forall (fun p => fst p <> KNil /\ no_nil_key (snd p)) xs.
Proof. induction xs as [|[k x] xs IH]; cbn in *; [split; auto|]. rewrite Forall_cons_iff, <- IH. cbn. tauto. Qed.
Theorem info_value : forall zero h i xs k, sees 0 anything h (VMap 0 (data i)) (TMap 0 xs) -> no_nil_key (TMap 0 xs) ->
  (~ In k (map fst xs) -> forall fuel, Value zero fuel h i k = Ok (h, None)) /\
  (In (k, TNil) xs -> forall fuel, Value zero fuel h i k = Ok (h, None)) /\
  (forall x, In (k, TIface x) xs -> exists n h' v, (forall fuel, n <= fuel -> Value zero fuel h i k = Ok (h', Some v)) /\
     extends h h' /\ sees (length h) (zeros zero) h' v x).
Proof.
  intros zero h [d] xs k S N. cbn [data] in *. inversion S as [| | | | | | | |t a l xs' _ A ND SP]; subst. apply nnk_pairs in N. rewrite Forall_forall in N.
  unfold Value, map_of. cbn [data]. rewrite A. cbn [rbind]. split; [|split].
  - intros NI fuel. rewrite (pairs_keys _ _ _ _ _ SP) in NI. rewrite assoc_none by exact NI. reflexivity.
  - intros IN fuel. destruct (pairs_in _ _ _ _ _ SP _ _ IN) as (v & IV & Sv). rewrite (assoc_in _ _ _ ND IV). inversion Sv; subst. reflexivity.
  - intros x IN. destruct (pairs_in _ _ _ _ _ SP _ _ IN) as (v & IV & Sv). rewrite (assoc_in _ _ _ ND IV). inversion Sv as [| | | |w x' Sw| | | |]; subst.
    destruct (copy_equal zero h w x Sw (proj2 (N _ IN))) as (n & h' & v' & C & E & S'). exists n, h', v'. split; [|split; assumption].
    intros fuel L. cbn [deepCopy]. rewrite C by exact L. reflexivity.
Qed.
Theorem info_value_nil : forall zero fuel h k, Value zero fuel h (MkInfo None) k = Ok (h, None).
Proof. reflexivity. Qed.

(* the map made of an info *)
Lemma fill_good zero h a la : nth_error h a = Some (OMap la) -> NoDup (map fst la) ->
  forall ps xs, sees_pairs 0 anything h ps xs -> (forall p, In p ps -> In p la) -> Forall (fun p => fst p <> KNil /\ no_nil_key (snd p)) xs -> Forall (fun p => iface (snd p)) xs ->
  forall h0 a' l, (forall b o, nth_error h b = Some o -> nth_error h0 b = Some o) -> length h <= a' -> a' < length h0 ->
  nth_error h0 a' = Some (OMap l) -> NoDup (map fst l ++ map fst ps) ->
  exists n h1 ws, (forall fuel, n <= fuel -> fill zero fuel h0 (MkInfo (Some a)) a' (map fst ps) = Ok h1) /\
    same_below a' h0 h1 /\ map fst ws = map fst ps /\ nth_error h1 a' = Some (OMap (l ++ ws)) /\ sees_pairs (length h0) (zeros zero) h1 ws xs.
Proof.
  intros A ND ps xs SP. induction SP as [|k v x ps xs Sv SP IH]; intros IN N T h0 a' l E La La' A' NK.
  - exists 0, h0, []. split; [reflexivity|]. split; [split; [lia|auto]|]. split; [reflexivity|]. split; [rewrite app_nil_r; exact A'|constructor].
  - inversion N as [|? ? [N1 N2] N3]; subst. inversion T as [|? ? T1 T2]; subst. cbn [fst snd map] in *.
    assert (V : exists n1 h1 o, (forall fuel, n1 <= fuel -> Value zero fuel h0 (MkInfo (Some a)) k = Ok (h0 ++ h1, o)) /\ sees (length h0) (zeros zero) (h0 ++ h1) (VIface o) x).
    { unfold Value, map_of. cbn [data]. rewrite (E _ _ A). cbn [rbind]. rewrite (assoc_in la k v ND (IN _ (or_introl eq_refl))).
      destruct x; try contradiction; inversion Sv as [| | | |w x' Sw| | | |]; subst.
      - exists 0, [], None. rewrite app_nil_r. split; [reflexivity|constructor].
      - destruct (proj1 (copy_good zero h) w x Sw h0 E N2) as (n1 & h1 & v1 & C & S1). exists n1, h1, (Some v1). split; [|constructor; exact S1].
        intros fuel L. cbn [deepCopy]. rewrite C by exact L. reflexivity. }
    destruct V as (n1 & h1 & o & C1 & S1).
    assert (AL : nth_error (h0 ++ h1) a' = Some (OMap l)) by (rewrite nth_error_app1; assumption).
    assert (NI : ~ In k (map fst l)). { apply NoDup_remove_2 in NK. intros X. apply NK. rewrite in_app_iff. auto. }
    destruct (set_key_facts (h0 ++ h1) a' l k (VIface o) AL NI) as (LS & AS & OS).
    set (h2 := set_key (h0 ++ h1) a' k (VIface o)) in *.
    assert (E2 : forall b o, nth_error h b = Some o -> nth_error h2 b = Some o).
    { intros b o' Eb. assert (b < length h) by (apply nth_error_Some; congruence). rewrite OS by lia. apply grow with (h := h); assumption. }
    destruct (IH (fun p P => IN p (or_intror P)) N3 T2 h2 a' (l ++ [(k, VIface o)])) as (n2 & h3 & ws & C2 & SB & LW & A3 & S3); auto.
    + rewrite LS, app_length. lia.
    + rewrite map_app, <- app_assoc. exact NK.
    + exists (Nat.max n1 n2), h3, ((k, VIface o) :: ws).
      assert (HB : same_below a' h0 h2). { split; [rewrite LS, app_length; lia|]. intros b Lb Nb. rewrite OS by exact Nb. apply nth_error_app1, Lb. }
      split; [|split; [|split; [|split]]].
      * intros fuel L. cbn [fill]. rewrite C1 by lia. cbn [rbind]. apply C2. lia.
      * eapply same_below_trans; eassumption.
      * cbn. congruence.
      * rewrite A3, <- app_assoc. reflexivity.
      * constructor.
        -- eapply (proj1 (sees_stable _ _ _)); [exact S1|lia|auto|]. intros b o' Lb Eb.
           assert (b < length (h0 ++ h1)) by (apply nth_error_Some; congruence). rewrite (proj2 SB) by lia. rewrite OS by lia. exact Eb.
        -- eapply (proj2 (proj2 (sees_stable _ _ _))); [exact S3|rewrite LS, app_length; lia|auto|auto].
Qed.
Theorem info_var_map : forall zero h i xs, sees 0 anything h (VMap 0 (data i)) (TMap 0 xs) -> no_nil_key (TMap 0 xs) -> Forall (fun p => iface (snd p)) xs ->
  exists n h' a', (forall fuel, n <= fuel -> SessionInfoToVarMap zero fuel h (Some i) = Ok (h', Some a')) /\ extends h h' /\
    sees (length h) (zeros zero) h' (VMap 0 (Some a')) (TMap 0 xs).
Proof.
  intros zero h [d] xs S N T. cbn [data] in *. inversion S as [| | | | | | | |t a l xs' _ A ND SP]; subst. apply nnk_pairs in N.
  destruct (fill_good zero h a l A ND l xs SP ltac:(auto) N T (h ++ [OMap []]) (length h) []) as (n & h1 & ws & C & SB & LW & A1 & SS); auto.
  - apply grow. auto.
  - rewrite app_length. cbn. lia.
  - rewrite nth_error_app2, Nat.sub_diag by lia. reflexivity.
  - exists n, h1, (length h). split; [|split].
    + intros fuel L. unfold SessionInfoToVarMap, Fields, map_of. cbn [data]. rewrite A. cbn [rbind]. rewrite C by exact L. reflexivity.
    + exists (skipn (length h) h1). rewrite <- (firstn_skipn (length h) h1) at 1. f_equal.
      destruct SB as [LE AG]. rewrite app_length in LE, AG. cbn in LE, AG. apply (nth_error_ext_firstn h h1); [lia|]. intros b Lb. rewrite AG by lia. apply nth_error_app1. lia.
    + eapply S_map; [lia|exact A1|cbn; rewrite LW; exact ND|]. eapply (proj2 (proj2 (sees_stable _ _ _))); [exact SS|rewrite app_length; lia|auto|auto].
Qed.
Theorem info_var_map_nil : forall zero fuel h,
  SessionInfoToVarMap zero fuel h None = Ok (h, None) /\ SessionInfoToVarMap zero fuel h (Some (MkInfo None)) = Ok (h ++ [OMap []], Some (length h)).
Proof. intros. split; reflexivity. Qed.
(* ----- sessions ----- *)
Theorem session_clone : forall zero h s, (forall i, s_info s = Some i -> exists x, sees 0 anything h (VMap 0 (data i)) x /\ no_nil_key x) ->
  exists n h' s', (forall fuel, n <= fuel -> Clone zero fuel h (Some s) = Ok (h', Some s')) /\ extends h h' /\
    s_key s' = s_key s /\ s_creation s' = s_creation s /\ s_lookup s' = s_lookup s /\
    match s_info s, s_info s' with
    | None, None => True
    | Some i, Some i' => forall x, sees 0 anything h (VMap 0 (data i)) x -> sees (length h) (zeros zero) h' (VMap 0 (data i')) x
    | _, _ => False
    end.
Proof.
  intros zero h [k cr lo [i|]] H; cbn [s_info s_key s_creation s_lookup] in *.
  - destruct (H i eq_refl) as (x & S & N). destruct (info_copy zero h i x S N) as (n & h' & i' & C & E & S').
    exists n, h', (MkSession k cr lo (Some i')). split; [intros fuel L; unfold Clone; cbn; rewrite C by exact L; reflexivity|]. split; [exact E|]. repeat split.
    intros y Sy. rewrite (sees_unique _ _ _ _ Sy S). exact S'.
  - exists 0, h, (MkSession k cr lo None). split; [reflexivity|]. split; [exists []; rewrite app_nil_r; reflexivity|]. repeat split.
Qed.
Theorem session_clone_nil : forall zero fuel h, Clone zero fuel h None = Ok (h, None).
Proof. reflexivity. Qed.

(* ----- what cannot be copied ----- *)
Theorem copy_nil_key : forall zero h t a v x, nth_error h a = Some (OMap [(KNil, v)]) -> sees 0 anything h v x -> no_nil_key x ->
  exists n, forall fuel, n <= fuel -> copyRecursive zero fuel h (VMap t (Some a)) = Panic.
Proof.
  intros zero h t a v x A S N. destruct (proj1 (copy_good zero h) v x S (h ++ [OMap []]) ltac:(apply grow; auto) N) as (n & h1 & v1 & C & _).
  exists (Datatypes.S n). intros [|f] L; [lia|]. cbn [copyRecursive]. unfold map_of at 1. rewrite A. cbn [rbind map fst copy_keys]. unfold map_of.
  rewrite nth_error_app1 by (apply nth_error_Some; congruence). rewrite A. cbn [rbind assoc mkey_eqb]. rewrite C by lia. reflexivity.
Qed.
Theorem copy_cyclic : forall zero fuel k t,
  copyRecursive zero fuel [OMap [(k, VIface (Some (VMap t (Some 0))))]] (VMap t (Some 0)) = Fuel.
Proof.
  intros zero fuel k t.
  assert (G : forall h, nth_error h 0 = Some (OMap [(k, VIface (Some (VMap t (Some 0))))]) -> copyRecursive zero fuel h (VMap t (Some 0)) = Fuel /\ copyRecursive zero fuel h (VIface (Some (VMap t (Some 0)))) = Fuel).
  { induction fuel as [|f IH]; intros h A; [split; reflexivity|]. split; cbn [copyRecursive].
    - unfold map_of at 1. rewrite A. cbn [rbind map fst copy_keys]. unfold map_of. rewrite nth_error_app1 by (apply nth_error_Some; congruence). rewrite A. cbn [rbind assoc].
      destruct (mkey_eqb_spec k k); [|congruence]. rewrite (proj2 (IH (h ++ [OMap []]) ltac:(rewrite nth_error_app1 by (apply nth_error_Some; congruence); exact A))). reflexivity.
    - rewrite (proj1 (IH h A)). reflexivity. }
  apply G. reflexivity.
Qed.
(* copies of infos and of their fields, once more *)
Lemma copy_info_inv zero fuel h i h' i' : Copy zero fuel h i = Ok (h', i') -> copyRecursive zero fuel h (VMap 0 (data i)) = Ok (h', VMap 0 (data i')).
Proof.
  unfold Copy, deepCopy. intros H. apply rbind_pair in H. destruct H as (h1 & o & H1 & H2). apply rbind_pair in H1. destruct H1 as (h2 & v & C & H1).
  injection H1 as -> <-. destruct v as [| | | | |[|t] d]; try discriminate. injection H2 as -> <-. exact C.
Qed.
Theorem info_isolated : forall zero fuel h i x h' i', sees 0 anything h (VMap 0 (data i)) x -> no_nil_key x -> Copy zero fuel h i = Ok (h', i') ->
  (forall h2, agree (fun a => length h <= a) h' h2 -> sees 0 anything h2 (VMap 0 (data i')) x) /\
  (forall h2, agree (fun a => a < length h) h' h2 -> sees 0 anything h2 (VMap 0 (data i)) x) /\
  (blank zero -> plain_data x -> forall a, reaches h' (VMap 0 (data i')) a -> length h <= a).
Proof.
  intros zero fuel h i x h' i' S N C. apply copy_info_inv in C. destruct (copy_isolated _ _ _ _ _ _ _ S N C) as [A B]. split; [exact A|]. split; [exact B|].
  intros BL P a R. eapply copy_no_sharing; eassumption.
Qed.
Theorem value_isolated : forall zero fuel h i xs k x h' v, sees 0 anything h (VMap 0 (data i)) (TMap 0 xs) -> no_nil_key (TMap 0 xs) -> In (k, TIface x) xs ->
  Value zero fuel h i k = Ok (h', Some v) ->
  (forall h2, agree (fun a => length h <= a) h' h2 -> sees 0 anything h2 v x) /\
  (forall h2, agree (fun a => a < length h) h' h2 -> sees 0 anything h2 (VMap 0 (data i)) (TMap 0 xs)) /\
  (blank zero -> plain_data x -> forall a, reaches h' v a -> length h <= a).
Proof.
  intros zero fuel h [d] xs k x h' v S N IN V. cbn [data] in *. inversion S as [| | | | | | | |t a l xs' _ A ND SP]; subst. pose proof N as N'. apply nnk_pairs in N. rewrite Forall_forall in N.
  unfold Value, map_of in V. cbn [data] in V. rewrite A in V. cbn [rbind] in V.
  destruct (pairs_in _ _ _ _ _ SP _ _ IN) as (w & IV & Sv). rewrite (assoc_in _ _ _ ND IV) in V. inversion Sv as [| | | |w' x' Sw| | | |]; subst.
  cbn [deepCopy] in V. apply rbind_pair in V. destruct V as (h1 & v1 & C & V). injection V as E1 E2. subst h1 v1.
  destruct (copy_isolated _ _ _ _ _ _ _ Sw (proj2 (N _ IN)) C) as [I1 I2]. split; [exact I1|]. split.
  - intros h2 AG. assert (EX : extends h h').
    { destruct (copy_equal zero h w' x Sw (proj2 (N _ IN))) as (m & h3 & v3 & C2 & EX & _).
      pose proof (copy_more_fuel zero fuel (Nat.max fuel m) h w' _ C ltac:(lia)) as E1. rewrite (C2 (Nat.max fuel m) ltac:(lia)) in E1. injection E1 as -> _. exact EX. }
    destruct EX as [y ->]. eapply (proj1 (sees_stable _ _ _)); [exact S|lia|auto|]. intros b o _ E. assert (b < length h) by (apply nth_error_Some; congruence).
    rewrite AG by assumption. rewrite nth_error_app1 by assumption. exact E.
  - intros BL P b R. eapply copy_no_sharing; try eassumption. exact (proj2 (N _ IN)).
Qed.
