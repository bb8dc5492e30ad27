(* Copies of session infos: C50. *)
From Coq Require Import List Arith NArith ZArith Lia Bool.
From Verif Require Import BaseBytes ModelMessage ModelCopy SpecCopy ProofCopy ProofCopy2.
Import ListNotations.
Open Scope nat_scope.

(* Copy ends, and returns an info that looks the same, made of new maps and slices only *)
Theorem C50_copy : forall zero h i x, sees 0 anything h (VMap 0 (data i)) x -> no_nil_key x ->
  exists n h' i', (forall fuel, n <= fuel -> Copy zero fuel h i = Ok (h', i')) /\ extends h h' /\ sees (length h) (zeros zero) h' (VMap 0 (data i')) x.
Proof. exact info_copy. Qed.
Print Assumptions C50_copy.
(* whatever happens to the original, the copy stays as it is; and the other way round. Nothing reached from
   the copy existed before *)
Theorem C50_isolated : forall zero fuel h i x h' i', sees 0 anything h (VMap 0 (data i)) x -> no_nil_key x -> Copy zero fuel h i = Ok (h', i') ->
  (forall h2, agree (fun a => length h <= a) h' h2 -> sees 0 anything h2 (VMap 0 (data i')) x) /\
  (forall h2, agree (fun a => a < length h) h' h2 -> sees 0 anything h2 (VMap 0 (data i)) x) /\
  (blank zero -> plain_data x -> forall a, reaches h' (VMap 0 (data i')) a -> length h <= a).
Proof. exact info_isolated. Qed.
Print Assumptions C50_isolated.
(* a value looks like one tree only, so "looks the same" above means equal *)
Theorem C50_unique : forall h v x y, sees 0 anything h v x -> sees 0 anything h v y -> x = y.
Proof. exact sees_unique. Qed.
Print Assumptions C50_unique.
Theorem C50_fields : forall h i x, sees 0 anything h (VMap 0 (data i)) x ->
  exists fs, Fields h i = Ok fs /\ NoDup fs /\ match x with TMap _ xs => fs = map fst xs | _ => fs = [] end.
Proof. exact info_fields. Qed.
Print Assumptions C50_fields.
Theorem C50_value : forall zero h i xs k, sees 0 anything h (VMap 0 (data i)) (TMap 0 xs) -> no_nil_key (TMap 0 xs) ->
  (~ In k (map fst xs) -> forall fuel, Value zero fuel h i k = Ok (h, None)) /\
  (In (k, TNil) xs -> forall fuel, Value zero fuel h i k = Ok (h, None)) /\
  (forall x, In (k, TIface x) xs -> exists n h' v, (forall fuel, n <= fuel -> Value zero fuel h i k = Ok (h', Some v)) /\
     extends h h' /\ sees (length h) (zeros zero) h' v x).
Proof. exact info_value. Qed.
Print Assumptions C50_value.
Theorem C50_value_isolated : forall zero fuel h i xs k x h' v, sees 0 anything h (VMap 0 (data i)) (TMap 0 xs) -> no_nil_key (TMap 0 xs) -> In (k, TIface x) xs ->
  Value zero fuel h i k = Ok (h', Some v) ->
  (forall h2, agree (fun a => length h <= a) h' h2 -> sees 0 anything h2 v x) /\
  (forall h2, agree (fun a => a < length h) h' h2 -> sees 0 anything h2 (VMap 0 (data i)) (TMap 0 xs)) /\
  (blank zero -> plain_data x -> forall a, reaches h' v a -> length h <= a).
Proof. exact value_isolated. Qed.
Print Assumptions C50_value_isolated.
Theorem C50_var_map : forall zero h i xs, sees 0 anything h (VMap 0 (data i)) (TMap 0 xs) -> no_nil_key (TMap 0 xs) -> Forall (fun p => iface (snd p)) xs ->
  exists n h' a', (forall fuel, n <= fuel -> SessionInfoToVarMap zero fuel h (Some i) = Ok (h', Some a')) /\ extends h h' /\
    sees (length h) (zeros zero) h' (VMap 0 (Some a')) (TMap 0 xs).
Proof. exact info_var_map. Qed.
Print Assumptions C50_var_map.
(* no info gives no map, an empty info an empty map *)
Theorem C50_var_map_nil : forall zero fuel h,
  SessionInfoToVarMap zero fuel h None = Ok (h, None) /\
  SessionInfoToVarMap zero fuel h (Some (MkInfo None)) = Ok (h ++ [OMap []], Some (length h)).
Proof. exact info_var_map_nil. Qed.
Print Assumptions C50_var_map_nil.
Theorem C50_clone : forall zero h s, (forall i, s_info s = Some i -> exists x, sees 0 anything h (VMap 0 (data i)) x /\ no_nil_key x) ->
  exists n h' s', (forall fuel, n <= fuel -> Clone zero fuel h (Some s) = Ok (h', Some s')) /\ extends h h' /\
    s_key s' = s_key s /\ s_creation s' = s_creation s /\ s_lookup s' = s_lookup s /\
    match s_info s, s_info s' with
    | None, None => True
    | Some i, Some i' => forall x, sees 0 anything h (VMap 0 (data i)) x -> sees (length h) (zeros zero) h' (VMap 0 (data i')) x
    | _, _ => False
    end.
Proof. exact session_clone. Qed.
Print Assumptions C50_clone.
(* what cannot be copied: a map with a nil key (panics), a cyclic value (does not end) *)
Theorem C50_nil_key : forall zero h t a v x, nth_error h a = Some (OMap [(KNil, v)]) -> sees 0 anything h v x -> no_nil_key x ->
  exists n, forall fuel, n <= fuel -> copyRecursive zero fuel h (VMap t (Some a)) = Panic.
Proof. exact copy_nil_key. Qed.
Print Assumptions C50_nil_key.
Theorem C50_cyclic : forall zero fuel k t,
  copyRecursive zero fuel [OMap [(k, VIface (Some (VMap t (Some 0))))]] (VMap t (Some 0)) = Fuel.
Proof. exact copy_cyclic. Qed.
Print Assumptions C50_cyclic.

(* {"a": s[1:3] of an array of 4, "b": {"c": nil}, "d": nil, "e": 5, "f": nil slice} *)
Definition ka : mkey := KVal [x61]. Definition kb : mkey := KVal [x62]. Definition kc : mkey := KVal [x63].
Definition kd : mkey := KVal [x64]. Definition ke : mkey := KVal [x65]. Definition kf : mkey := KVal [x66].
Definition some_heap : heap :=
  [OArr [VScalar 1 1%Z; VScalar 1 2%Z; VScalar 1 3%Z; VScalar 1 4%Z]; OMap [(kc, VIface None)];
   OMap [(ka, VIface (Some (VSlice 2 (Some (0, 1, 2, 3))))); (kb, VIface (Some (VMap 0 (Some 1)))); (kd, VIface None); (ke, VIface (Some (VScalar 1 5%Z))); (kf, VIface (Some (VSlice 2 None)))]].
Definition some_tree : list (mkey * tree) :=
  [(ka, TIface (TSlice 2 3 [TScalar 1 2%Z; TScalar 1 3%Z])); (kb, TIface (TMap 0 [(kc, TNil)])); (kd, TNil); (ke, TIface (TScalar 1 5%Z)); (kf, TIface (TNilSlice 2))].
Definition some_zero (t : nat) : val := VScalar t 0.
Example C50_case : sees 0 anything some_heap (VMap 0 (Some 2)) (TMap 0 some_tree) /\ no_nil_key (TMap 0 some_tree) /\ plain_data (TMap 0 some_tree) /\
  Forall (fun p => iface (snd p)) some_tree /\ blank some_zero /\
  Copy some_zero 9 some_heap (MkInfo (Some 2)) = Ok (some_heap ++
    [OMap [(ka, VIface (Some (VSlice 2 (Some (4, 0, 2, 3))))); (kb, VIface (Some (VMap 0 (Some 5)))); (kd, VIface None); (ke, VIface (Some (VScalar 1 5%Z))); (kf, VIface (Some (VSlice 2 None)))];
     OArr [VScalar 1 2%Z; VScalar 1 3%Z; VScalar 2 0%Z]; OMap [(kc, VIface None)]], MkInfo (Some 3)) /\
  Value some_zero 9 some_heap (MkInfo (Some 2)) kb = Ok (some_heap ++ [OMap [(kc, VIface None)]], Some (VMap 0 (Some 3))) /\
  Value some_zero 9 some_heap (MkInfo (Some 2)) kc = Ok (some_heap, None).
Proof.
  assert (ND : forall l : list mkey, (fix nd l := match l with [] => true | k :: l' => negb (existsb (mkey_eqb k) l') && nd l' end) l = true -> NoDup l).
  { induction l as [|k l IH]; intros H; constructor; apply andb_true_iff in H; destruct H as [H1 H2]; [|auto].
    intros IN. apply negb_true_iff in H1. rewrite <- not_true_iff_false in H1. apply H1. apply existsb_exists. exists k. split; [exact IN|]. destruct (mkey_eqb_spec k k); congruence. }
  split; [|split; [cbn; repeat split; discriminate|split; [cbn; auto 10|split; [repeat constructor|split; [intros t h a R; inversion R|split; [reflexivity|split; reflexivity]]]]]].
  eapply S_map; [lia|reflexivity|apply ND; reflexivity|].
  apply SP_cons; [apply S_iface; eapply S_slice; [lia|reflexivity|cbn; lia|lia|reflexivity|apply Forall_forall; intros; exact I|repeat constructor]|].
  apply SP_cons; [apply S_iface; eapply S_map; [lia|reflexivity|apply ND; reflexivity|repeat constructor]|].
  repeat constructor.
Qed.
(* structs (and arrays, pointers) are not copied: a slice in a struct is shared *)
Theorem C50_opaque : forall zero fuel h t l a,
  copyRecursive zero (S fuel) h (VStruct t l) = Ok (h, VStruct t l) /\ copyRecursive zero (S fuel) h (VPtr t a) = Ok (h, VPtr t a).
Proof. exact copy_opaque. Qed.
Print Assumptions C50_opaque.
