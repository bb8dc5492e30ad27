(* Model of generic session infos: genericSessionInfo.go:7-120, sessionInfoToVarMap.go:6-15, session.go:59-75.
   Go values live in a heap of arrays and maps. Simplifications: map keys are byte strings or nil (they are
   comparable, so there is nothing to copy in them, and equal to themselves, so not NaN); a map is iterated in
   the order of its list of pairs; types are numbers, and elem_zero gives the zero value of the element type
   of a slice type. Recursion is limited by fuel: copying a cyclic value does not end. *)
From Coq Require Import List Arith NArith ZArith Bool.
From Verif Require Import BaseBytes ModelMessage.
Import ListNotations.
Open Scope nat_scope.

Inductive val :=
| VScalar (t : nat) (z : Z)                (* numbers, strings, bools *)
| VPtr (t : nat) (a : nat)                 (* pointers, channels, functions *)
| VStruct (t : nat) (fields : list val)    (* structs and arrays *)
| VIface (o : option val)                  (* variables of interface type *)
| VSlice (t : nat) (o : option (nat * nat * nat * nat))   (* array, offset, length, capacity; None: nil *)
| VMap (t : nat) (o : option nat).
Inductive mkey := KVal (b : bytes) | KNil.
Inductive obj := OArr (l : list val) | OMap (l : list (mkey * val)).
Definition heap := list obj.
Definition mkey_eqb (a b : mkey) : bool := match a, b with KVal x, KVal y => bytes_eqb x y | KNil, KNil => true | _, _ => false end.

(* what a call does: return, panic, or not be done *)
Inductive res (A : Type) := Ok (a : A) | Panic | Fuel.
Arguments Ok {A}. Arguments Panic {A}. Arguments Fuel {A}.
Definition rbind {A B} (r : res A) (k : A -> res B) : res B := match r with Ok a => k a | Panic => Panic | Fuel => Fuel end.
Notation "'do' x <- e ; k" := (rbind e (fun x => k)) (at level 200, x pattern, e at level 100, k at level 200).

(* reading and writing *)
Definition index (h : heap) (a i : nat) : res val :=
  match nth_error h a with Some (OArr l) => match nth_error l i with Some v => Ok v | None => Panic end | _ => Panic end.
Definition map_of (h : heap) (a : nat) : res (list (mkey * val)) := match nth_error h a with Some (OMap l) => Ok l | _ => Panic end.
Fixpoint assoc (l : list (mkey * val)) (k : mkey) : option val :=
  match l with [] => None | (k', v) :: l' => if mkey_eqb k' k then Some v else assoc l' k end.
Fixpoint assign (l : list (mkey * val)) (k : mkey) (v : val) : list (mkey * val) :=
  match l with [] => [(k, v)] | (k', v') :: l' => if mkey_eqb k' k then (k, v) :: l' else (k', v') :: assign l' k v end.
Fixpoint upd {A} (l : list A) (i : nat) (x : A) : list A :=
  match l, i with [], _ => [] | _ :: l', 0 => x :: l' | y :: l', S i' => y :: upd l' i' x end.
Definition set_index (h : heap) (a i : nat) (v : val) : heap :=
  match nth_error h a with Some (OArr l) => upd h a (OArr (upd l i v)) | _ => h end.
Definition set_key (h : heap) (a : nat) (k : mkey) (v : val) : heap :=
  match nth_error h a with Some (OMap l) => upd h a (OMap (assign l k v)) | _ => h end.

Section Copy.
Context (elem_zero : nat -> val).

(* genericSessionInfo.go:48-50 *)
Fixpoint copy_elems (cp : heap -> val -> res (heap * val)) (h : heap) (a off a' : nat) (is : list nat) : res heap :=
  match is with
  | [] => Ok h
  | i :: is' => do w <- index h a (off + i); do (h1, w1) <- cp h w; copy_elems cp (set_index h1 a' i w1) a off a' is'
  end.
(* genericSessionInfo.go:57-63; deepCopy of a key is the key, and reflect.ValueOf(nil) is not a key *)
Fixpoint copy_keys (cp : heap -> val -> res (heap * val)) (h : heap) (a a' : nat) (ks : list mkey) : res heap :=
  match ks with
  | [] => Ok h
  | k :: ks' =>
      do l <- map_of h a;
      match assoc l k with
      | None => Panic
      | Some w => do (h1, w1) <- cp h w;
                  match k with KNil => Panic | KVal _ => copy_keys cp (set_key h1 a' k w1) a a' ks' end
      end
  end.
(* genericSessionInfo.go:25-68; cpy starts out as the zero value, what is returned is what it is set to *)
Fixpoint copyRecursive (fuel : nat) (h : heap) (original : val) : res (heap * val) :=
  match fuel with
  | 0 => Fuel
  | S fuel' =>
      match original with
      | VIface None => Ok (h, VIface None)
      | VIface (Some v) => do (h1, v1) <- copyRecursive fuel' h v; Ok (h1, VIface (Some v1))
      | VSlice t None => Ok (h, VSlice t None)
      | VSlice t (Some (a, off, len, cap)) =>
          let a' := length h in
          do h1 <- copy_elems (copyRecursive fuel') (h ++ [OArr (repeat (elem_zero t) cap)]) a off a' (seq 0 len);
          Ok (h1, VSlice t (Some (a', 0, len, cap)))
      | VMap t None => Ok (h, VMap t None)
      | VMap t (Some a) =>
          let a' := length h in
          do l <- map_of h a;
          do h1 <- copy_keys (copyRecursive fuel') (h ++ [OMap []]) a a' (map fst l);
          Ok (h1, VMap t (Some a'))
      | _ => Ok (h, original)
      end
  end.
(* genericSessionInfo.go:7-23 *)
Definition deepCopy (fuel : nat) (h : heap) (src : option val) : res (heap * option val) :=
  match src with None => Ok (h, None) | Some v => do (h1, v1) <- copyRecursive fuel h v; Ok (h1, Some v1) end.

(* genericSessionInfo.go:73-120; type 0: map[string]interface{} *)
Record GenericSessionInfo := MkInfo { data : option nat }.
Definition GenericSessionInfoParser (data : option nat) : GenericSessionInfo := MkInfo data.
Definition Copy (fuel : nat) (h : heap) (sinf : GenericSessionInfo) : res (heap * GenericSessionInfo) :=
  do (h1, v) <- deepCopy fuel h (Some (VMap 0 (data sinf)));
  match v with Some (VMap 0 d) => Ok (h1, MkInfo d) | _ => Panic end.
Definition Fields (h : heap) (sinf : GenericSessionInfo) : res (list mkey) :=
  match data sinf with None => Ok [] | Some a => do l <- map_of h a; Ok (map fst l) end.
(* the values of the map are of interface type *)
Definition Value (fuel : nat) (h : heap) (sinf : GenericSessionInfo) (fieldName : mkey) : res (heap * option val) :=
  match data sinf with
  | None => Ok (h, None)
  | Some a => do l <- map_of h a;
              match assoc l fieldName with
              | Some (VIface o) => deepCopy fuel h o
              | Some _ => Panic   (* cannot be: ill-typed *)
              | None => Ok (h, None)
              end
  end.
(* sessionInfoToVarMap.go:6-15 *)
Fixpoint fill (fuel : nat) (h : heap) (sinf : GenericSessionInfo) (a' : nat) (fields : list mkey) : res heap :=
  match fields with
  | [] => Ok h
  | f :: fields' => do (h1, v) <- Value fuel h sinf f; fill fuel (set_key h1 a' f (VIface v)) sinf a' fields'
  end.
Definition SessionInfoToVarMap (fuel : nat) (h : heap) (info : option GenericSessionInfo) : res (heap * option nat) :=
  match info with
  | None => Ok (h, None)
  | Some sinf => let a' := length h in
                 do fs <- Fields h sinf;
                 do h1 <- fill fuel (h ++ [OMap []]) sinf a' fs; Ok (h1, Some a')
  end.
(* session.go:50-75 *)
Record Session := MkSession { s_key : bytes; s_creation : Z; s_lookup : Z; s_info : option GenericSessionInfo }.
Definition Clone (fuel : nat) (h : heap) (s : option Session) : res (heap * option Session) :=
  match s with
  | None => Ok (h, None)
  | Some s =>
      do (h1, info) <- match s_info s with
                       | None => Ok (h, None)
                       | Some i => do (h1, i1) <- Copy fuel h i; Ok (h1, Some i1)
                       end;
      Ok (h1, Some (MkSession (s_key s) (s_creation s) (s_lookup s) info))
  end.
End Copy.
