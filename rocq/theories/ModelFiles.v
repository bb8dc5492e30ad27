(* Model of the default session manager, defaultSessionManager.go:13-169, over a file system.
   JSON encoding is a parameter, see [codec]. Programs are sequences of system calls; between two of
   them other programs may run, or the process may die. *)
From Coq Require Import List Arith NArith ZArith Bool.
From Verif Require Import BaseBytes BaseConc ModelMessage ModelPath.
Import ListNotations.
Open Scope nat_scope.

(* ----- the file system ----- *)
Fixpoint loc_eqb (a b : loc) : bool :=
  match a, b with
  | [], [] => true
  | x :: a', y :: b' => bytes_eqb x y && loc_eqb a' b'
  | _, _ => false
  end.
(* names of regular files, contents of files by number (open files may have lost their name) *)
Record fs := MkFs { f_dir : loc -> option nat; f_data : nat -> bytes; f_next : nat }.
Definition empty_fs : fs := MkFs (fun _ => None) (fun _ => []) 0.
Definition set_data (s : fs) (n : nat) (b : bytes) : fs :=
  MkFs (f_dir s) (fun m => if m =? n then b else f_data s m) (f_next s).
Definition set_dir (s : fs) (l : loc) (o : option nat) : fs :=
  MkFs (fun l' => if loc_eqb l' l then o else f_dir s l') (f_data s) (f_next s).
(* what a process can do about a place: everything; nothing, as a directory on the way to it does not
   exist; nothing, as it is not permitted *)
Inductive access := Fine | Missing | Denied.
Record env := MkEnv { e_cwd : loc; e_access : loc -> access }.

(* results of os.Stat as far as the code looks at them *)
Inductive stat := StExists | StNotExist | StError.
(* programs of system calls, returning an A *)
Inductive prog (A : Type) :=
| Ret (a : A)
| Stat (p : bytes) (k : stat -> prog A)
| ReadFile (p : bytes) (k : option bytes -> prog A)
| OpenTrunc (p : bytes) (k : option nat -> prog A)   (* O_WRONLY|O_CREATE|O_TRUNC; gives an open file *)
| WriteAt (n off : nat) (data : bytes) (k : bool -> prog A)  (* the data still to be written; false: failed *)
| Remove (p : bytes) (k : bool -> prog A).
Arguments Ret {A}. Arguments Stat {A}. Arguments ReadFile {A}. Arguments OpenTrunc {A}. Arguments WriteAt {A}. Arguments Remove {A}.

(* write b into the contents c at offset off *)
Definition splice (c : bytes) (off : nat) (b : bytes) : bytes :=
  firstn off c ++ repeat x00 (off - length c) ++ b ++ skipn (off + length b) c.
(* one system call. How n: it works, writes transfer n more bytes; Fail: it fails *)
Inductive how := How (n : nat) | Fail.
Definition stat_of (e : env) (s : fs) (p : bytes) : stat :=
  match e_access e (locate (e_cwd e) p) with
  | Missing => StNotExist
  | Denied => StError
  | Fine => match f_dir s (locate (e_cwd e) p) with Some _ => StExists | None => StNotExist end
  end.
Definition fine (e : env) (p : bytes) : bool :=
  match e_access e (locate (e_cwd e) p) with Fine => true | _ => false end.
Definition step {A} (e : env) (s : fs) (pr : prog A) (h : how) : option (fs * prog A) :=
  match pr, h with
  | Ret _, _ => None
  | Stat p k, How _ => Some (s, k (stat_of e s p))
  | Stat p k, Fail => Some (s, k StError)
  | ReadFile p k, How _ =>
      Some (s, k (if fine e p then match f_dir s (locate (e_cwd e) p) with Some n => Some (f_data s n) | None => None end else None))
  | ReadFile p k, Fail => Some (s, k None)
  | OpenTrunc p k, How _ =>
      if fine e p then
        match f_dir s (locate (e_cwd e) p) with
        | Some n => Some (set_data s n [], k (Some n))
        | None => let n := f_next s in
                  Some (set_data (set_dir (MkFs (f_dir s) (f_data s) (S n)) (locate (e_cwd e) p) (Some n)) n [], k (Some n))
        end
      else Some (s, k None)
  | OpenTrunc p k, Fail => Some (s, k None)
  | WriteAt n off data k, How m =>
      match data with
      | [] => Some (s, k true)
      | _ => let b := firstn (S m) data in
             Some (set_data s n (splice (f_data s n) off b), WriteAt n (off + length b) (skipn (S m) data) k)
      end
  | WriteAt n off data k, Fail => Some (s, k false)
  | Remove p k, How _ =>
      if fine e p then
        match f_dir s (locate (e_cwd e) p) with
        | Some _ => Some (set_dir s (locate (e_cwd e) p) None, k true)
        | None => Some (s, k false)
        end
      else Some (s, k false)
  | Remove p k, Fail => Some (s, k false)
  end.

(* ----- the session manager ----- *)
(* defaultSessionManager.go:13-17; times in nanoseconds, I: map[string]interface{} *)
Record sfile (I : Type) := MkSfile { sf_creation : Z; sf_lookup : Z; sf_info : I }.
Arguments MkSfile {I}. Arguments sf_creation {I}. Arguments sf_lookup {I}. Arguments sf_info {I}.
(* json.Marshal and json.Unmarshal of session files; None: error *)
Record codec (I : Type) := MkCodec { marshal : sfile I -> option bytes; unmarshal : bytes -> option (sfile I) }.
Arguments MkCodec {I}. Arguments marshal {I}. Arguments unmarshal {I}.

Section Manager.
Context {I A : Type} (c : codec I).

(* defaultSessionManager.go:20-29 *)
Definition Parse (filePath : bytes) (k : option (sfile I) -> prog A) : prog A :=
  ReadFile filePath (fun contents => k (match contents with None => None | Some b => unmarshal c b end)).
(* ioutil.WriteFile *)
Definition WriteFile (p data : bytes) (k : bool -> prog A) : prog A :=
  OpenTrunc p (fun f => match f with None => k false | Some n => WriteAt n 0 data k end).
(* defaultSessionManager.go:32-41; true: no error *)
Definition Save (filePath : bytes) (f : sfile I) (k : bool -> prog A) : prog A :=
  match marshal c f with None => k false | Some encoded => WriteFile filePath encoded k end.
End Manager.

(* what the hooks return: an error; no error; no such session; a session *)
Inductive result (I : Type) := RError | RDone | RNone | RFound (creation lookup : Z) (info : I).
Arguments RError {I}. Arguments RDone {I}. Arguments RNone {I}. Arguments RFound {I}.
Definition done {I} (ok : bool) : prog (result I) := Ret (if ok then RDone else RError).

(* defaultSessionManager.go:100-108; the session's creation and lookup times, and its info as a map *)
Definition OnSessionCreated {I} (c : codec I) (path sessionKey : bytes) (creation lookup : Z) (info : I) : prog (result I) :=
  Save c (filePath path sessionKey) (MkSfile creation lookup info) done.
(* defaultSessionManager.go:113-157; now: time.Now() *)
Definition OnSessionLookup {I} (c : codec I) (path key : bytes) (now : Z) : prog (result I) :=
  let p := filePath path key in
  Stat p (fun st =>
    match st with
    | StNotExist => Ret RNone
    | StError => Ret RError
    | StExists =>
        Parse c p (fun f =>
          match f with
          | None => Ret RError
          | Some file =>
              Save c (filePath path key) (MkSfile (sf_creation file) now (sf_info file)) (fun ok =>
                if ok : bool then Ret (RFound (sf_creation file) (sf_lookup file) (sf_info file)) else Ret RError)
          end)
    end).
(* defaultSessionManager.go:161-169 *)
Definition OnSessionClosed {I} (path sessionKey : bytes) : prog (result I) :=
  Remove (filePath path sessionKey) done.

(* calls of the hooks *)
Inductive hook (I : Type) :=
| HCreate (key : bytes) (creation lookup : Z) (info : I)
| HLookup (key : bytes) (now : Z)
| HClose (key : bytes).
Arguments HCreate {I}. Arguments HLookup {I}. Arguments HClose {I}.
Definition hook_key {I} (h : hook I) : bytes := match h with HCreate k _ _ _ => k | HLookup k _ => k | HClose k => k end.
Definition code {I} (c : codec I) (path : bytes) (h : hook I) : prog (result I) :=
  match h with
  | HCreate k cr lo i => OnSessionCreated c path k cr lo i
  | HLookup k now => OnSessionLookup c path k now
  | HClose k => OnSessionClosed path k
  end.

(* any number of calls at a time *)
Inductive fev (I : Type) := FCall (h : hook I) | FStep (i : nat) (w : how).
Arguments FCall {I}. Arguments FStep {I}.
Record world (I : Type) := MkWorld { w_fs : fs; w_ts : list (prog (result I)) }.
Arguments MkWorld {I}. Arguments w_fs {I}. Arguments w_ts {I}.
Definition fstep {I} (c : codec I) (e : env) (path : bytes) (w : world I) (ev : fev I) : option (world I) :=
  match ev with
  | FCall h => Some (MkWorld (w_fs w) (w_ts w ++ [code c path h]))
  | FStep i h =>
      let? pr := nth_error (w_ts w) i in
      let? r := step e (w_fs w) pr h in
      let '(s, pr') := r in Some (MkWorld s (set_nth (w_ts w) i pr'))
  end.
