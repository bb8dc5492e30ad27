(* Errors of the session functions. *)
From Coq Require Import Strings.String.
From Coq Require Import List Arith NArith ZArith Bool.
From Verif Require Import BaseBytes ModelMessage ModelErrors SpecWrite ModelReport SpecReport ModelLog SpecLog ModelPath ModelFiles ModelFault.
Import ListNotations.
Open Scope list_scope.
Open Scope nat_scope.

(* a file system that keeps a log of the calls and gives the same answer to every call of a kind *)
Inductive dcall := CStat (p : bytes) | CRead (p : bytes) | CSave (p data : bytes) | CRemove (p : bytes).
Definition recorder (st : stat_of) (rd : bytes + err) (wr rm : option err) : disk (list dcall) :=
  MkDisk (fun l p => (l ++ [CStat p], st)) (fun l p => (l ++ [CRead p], rd)) (fun l p b => (l ++ [CSave p b], wr)) (fun l p => (l ++ [CRemove p], rm)).
Definition as_error (t : option bytes) : option err := option_map (fun t => Foreign (Some t)) t.

Section Says.
Context {I : Type}.
Variables (broken : err -> bytes) (c : jcodec I) (p : bytes).
(* writing a session file: the calls, and the error's text *)
Inductive saves (wr : option err) (f : sfile I) : list dcall -> option bytes -> Prop :=
| SV_code e : j_marshal c f = inr e -> saves wr f [] (Some (t$"Couldn't marshal session file: " ++ printed broken e))
| SV_write b e : j_marshal c f = inl b -> wr = Some e -> saves wr f [CSave p b] (Some (t$"Couldn't write session file: " ++ printed broken e))
| SV_done b : j_marshal c f = inl b -> wr = None -> saves wr f [CSave p b] None.
(* looking a session up *)
Inductive looks_up (st : stat_of) (rd : bytes + err) (wr : option err) (now : Z) : list dcall -> option (sfile I) + bytes -> Prop :=
| LU_none : st = SNotExist -> looks_up st rd wr now [CStat p] (inl None)
| LU_stat e : st = SError e -> looks_up st rd wr now [CStat p] (inr (t$"Unexpected error during file lookup: " ++ printed broken e))
| LU_read e : st = SExists -> rd = inr e ->
    looks_up st rd wr now [CStat p; CRead p] (inr (t$"Couldn't parse session file: Couldn't parse session file, failed reading file: " ++ printed broken e))
| LU_parse b e : st = SExists -> rd = inl b -> j_unmarshal c b = inr e ->
    looks_up st rd wr now [CStat p; CRead p] (inr (t$"Couldn't parse session file: " ++ printed broken e))
| LU_save b f l t : st = SExists -> rd = inl b -> j_unmarshal c b = inl f -> saves wr (MkSfile (sf_creation f) now (sf_info f)) l (Some t) ->
    looks_up st rd wr now (CStat p :: CRead p :: l) (inr (t$"Couldn't update last lookup field, failed writing file: " ++ t))
| LU_found b f l : st = SExists -> rd = inl b -> j_unmarshal c b = inl f -> saves wr (MkSfile (sf_creation f) now (sf_info f)) l None ->
    looks_up st rd wr now (CStat p :: CRead p :: l) (inl (Some f)).
End Says.
Definition as_lookup {I} (r : option (sfile I) + bytes) : option (sfile I) + err :=
  match r with inl x => inl x | inr t => inr (Foreign (Some t)) end.

(* opening the session directory: the path, or the text of the panic *)
Inductive opens (broken : err -> bytes) (stat : bytes -> stat_of) (mkdir : bytes -> option err) (path : bytes) : bytes + bytes -> Prop :=
| OP_there : stat path = SExists -> opens broken stat mkdir path (inl path)
| OP_made : stat path = SNotExist -> mkdir path = None -> opens broken stat mkdir path (inl path)
| OP_not_made e : stat path = SNotExist -> mkdir path = Some e ->
    opens broken stat mkdir path (inr (t$"Couldn't create default session directory ('" ++ path ++ t$"'): " ++ printed broken e))
| OP_error e : stat path = SError e ->
    opens broken stat mkdir path (inr (t$"Unexpected error during default session directory creation ('" ++ path ++ t$"'): " ++ printed broken e)).
Inductive opens_default (broken : err -> bytes) (abs : bytes * option err) (stat : bytes -> stat_of) (mkdir : bytes -> option err) (given : bytes) : bytes + bytes -> Prop :=
| OD_given r : given <> [] -> opens broken stat mkdir given r -> opens_default broken abs stat mkdir given r
| OD_default dir r : given = [] -> abs = (dir, None) -> opens broken stat mkdir (Join [dir; t$"wwrsess"]) r -> opens_default broken abs stat mkdir given r
| OD_nowhere dir e : given = [] -> abs = (dir, Some e) ->
    opens_default broken abs stat mkdir given (inr (t$"Failed to get the current directory ('" ++ dir ++ t$"') for the default session manager: " ++ printed broken e)).
Definition as_panic (r : bytes + bytes) : bytes + err := match r with inl x => inl x | inr t => inr (Foreign (Some t)) end.

(* a frame is written to the connection: the calls, and the error of the first that failed *)
Inductive notified (broken : err -> bytes) (errs : nat -> option err) (frame : bytes) : list call -> option err -> Prop :=
| NT chunks : concat chunks = frame ->
    notified broken errs frame (fst (run_calls (failing errs) 0 chunks)) (outcome broken errs 0 chunks).

(* the same file system and codec, errors not told apart *)
Definition forget_stat (s : stat_of) : stat := match s with SExists => StExists | SNotExist => StNotExist | SError _ => StError end.
Definition forget_sum {A} (x : A + err) : option A := match x with inl a => Some a | inr _ => None end.
Definition forget_codec {I} (c : jcodec I) : codec I := MkCodec (fun f => forget_sum (j_marshal c f)) (fun b => forget_sum (j_unmarshal c b)).
(* a program of ModelFiles over such a file system; opening and writing the file path are one call here *)
Fixpoint replay {D A} (ds : disk D) (path : bytes) (pr : prog A) (d : D) : D * A :=
  match pr with
  | Ret a => (d, a)
  | Stat p k => let (d1, s) := d_stat ds d p in replay ds path (k (forget_stat s)) d1
  | ReadFile p k => let (d1, r) := d_read ds d p in replay ds path (k (forget_sum r)) d1
  | OpenTrunc p k => replay ds p (k (Some 0)) d
  | WriteAt _ _ data k => let (d1, e) := d_write ds d path data in replay ds path (k (negb (is_some e))) d1
  | Remove p k => let (d1, e) := d_remove ds d p in replay ds path (k (negb (is_some e))) d1
  end.
Definition forget_done {I} (e : option err) : result I := if is_some e then RError else RDone.
Definition forget_lookup {I} (r : option (sfile I) + err) : result I :=
  match r with inr _ => RError | inl None => RNone | inl (Some f) => RFound (sf_creation f) (sf_lookup f) (sf_info f) end.
