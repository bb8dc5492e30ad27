(* What a copy should be. *)
From Coq Require Import List Arith NArith ZArith Bool.
From Verif Require Import BaseBytes ModelMessage ModelCopy.
Import ListNotations.
Open Scope nat_scope.

(* the value without addresses: what a program can see by reading it *)
Inductive tree :=
| TScalar (t : nat) (z : Z)
| TPtr (t : nat) (a : nat)
| TStruct (t : nat) (fields : list val)
| TNil                                            (* an interface without a value *)
| TIface (x : tree)
| TNilSlice (t : nat)
| TSlice (t : nat) (cap : nat) (l : list tree)
| TNilMap (t : nat)
| TMap (t : nat) (l : list (mkey * tree)).

(* in the heap h, the value v looks like the tree x, and all the arrays and maps it is made of have
   addresses from lo on. Q: what is known of the elements of arrays between length and capacity *)
Inductive sees (lo : nat) (Q : val -> Prop) (h : heap) : val -> tree -> Prop :=
| S_scalar t z : sees lo Q h (VScalar t z) (TScalar t z)
| S_ptr t a : sees lo Q h (VPtr t a) (TPtr t a)
| S_struct t l : sees lo Q h (VStruct t l) (TStruct t l)
| S_nil : sees lo Q h (VIface None) TNil
| S_iface v x : sees lo Q h v x -> sees lo Q h (VIface (Some v)) (TIface x)
| S_nilslice t : sees lo Q h (VSlice t None) (TNilSlice t)
| S_slice t a off len cap l vs xs : lo <= a -> nth_error h a = Some (OArr l) -> off + cap <= length l -> len <= cap ->
    vs = firstn len (skipn off l) -> Forall Q (firstn (cap - len) (skipn (off + len) l)) -> sees_list lo Q h vs xs ->
    sees lo Q h (VSlice t (Some (a, off, len, cap))) (TSlice t cap xs)
| S_nilmap t : sees lo Q h (VMap t None) (TNilMap t)
| S_map t a l xs : lo <= a -> nth_error h a = Some (OMap l) -> NoDup (map fst l) -> sees_pairs lo Q h l xs ->
    sees lo Q h (VMap t (Some a)) (TMap t xs)
with sees_list (lo : nat) (Q : val -> Prop) (h : heap) : list val -> list tree -> Prop :=
| SL_nil : sees_list lo Q h [] []
| SL_cons v x vs xs : sees lo Q h v x -> sees_list lo Q h vs xs -> sees_list lo Q h (v :: vs) (x :: xs)
with sees_pairs (lo : nat) (Q : val -> Prop) (h : heap) : list (mkey * val) -> list (mkey * tree) -> Prop :=
| SP_nil : sees_pairs lo Q h [] []
| SP_cons k v x l xs : sees lo Q h v x -> sees_pairs lo Q h l xs -> sees_pairs lo Q h ((k, v) :: l) ((k, x) :: xs).

(* no map has a nil key *)
Fixpoint no_nil_key (x : tree) : Prop :=
  match x with
  | TIface x => no_nil_key x
  | TSlice _ _ l => (fix all (l : list tree) := match l with [] => True | x :: l' => no_nil_key x /\ all l' end) l
  | TMap _ l => (fix all (l : list (mkey * tree)) := match l with [] => True | (k, x) :: l' => k <> KNil /\ no_nil_key x /\ all l' end) l
  | _ => True
  end.
(* nothing but maps, slices and scalars *)
Fixpoint plain_data (x : tree) : Prop :=
  match x with
  | TPtr _ _ | TStruct _ _ => False
  | TIface x => plain_data x
  | TSlice _ _ l => (fix all (l : list tree) := match l with [] => True | x :: l' => plain_data x /\ all l' end) l
  | TMap _ l => (fix all (l : list (mkey * tree)) := match l with [] => True | (k, x) :: l' => plain_data x /\ all l' end) l
  | _ => True
  end.
Definition anything (v : val) : Prop := True.
Definition zeros (elem_zero : nat -> val) (v : val) : Prop := exists t, v = elem_zero t.
(* addresses that can be reached from a value: its slices, maps and pointers, and what these lead to *)
Inductive reaches (h : heap) : val -> nat -> Prop :=
| R_ptr t a : reaches h (VPtr t a) a
| R_struct t l v a : In v l -> reaches h v a -> reaches h (VStruct t l) a
| R_iface v a : reaches h v a -> reaches h (VIface (Some v)) a
| R_slice t a off len cap : reaches h (VSlice t (Some (a, off, len, cap))) a
| R_elem t a off len cap l v b : nth_error h a = Some (OArr l) -> In v (firstn cap (skipn off l)) -> reaches h v b ->
    reaches h (VSlice t (Some (a, off, len, cap))) b
| R_map t a : reaches h (VMap t (Some a)) a
| R_value t a l k v b : nth_error h a = Some (OMap l) -> In (k, v) l -> reaches h v b -> reaches h (VMap t (Some a)) b.
(* zero values lead nowhere *)
Definition blank (elem_zero : nat -> val) : Prop := forall t h a, ~ reaches h (elem_zero t) a.
(* h' has everything h has *)
Definition extends (h h' : heap) : Prop := exists x, h' = h ++ x.
(* the heaps agree on the addresses in p *)
Definition agree (p : nat -> Prop) (h h' : heap) : Prop := forall a, p a -> nth_error h' a = nth_error h a.
(* a variable of interface type *)
Definition iface (x : tree) : Prop := match x with TNil => True | TIface _ => True | _ => False end.
