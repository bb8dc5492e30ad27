(* Model of the path handling behind the default session manager: filepath.Clean and filepath.Join of
   the Go standard library on unix (path/filepath/path.go, path_unix.go), and the way the operating
   system finds the file a path names. Simplification: Clean works on the components of the path
   instead of a byte buffer; there are no symbolic links. *)
From Coq Require Import Strings.String.
From Coq Require Import List Arith NArith ZArith Bool.
From Verif Require Import BaseBytes ModelMessage.
Import ListNotations.
Open Scope nat_scope.

Definition slash : byte := x2f.
Definition dot : bytes := [x2e].
Definition dotdot : bytes := [x2e; x2e].

(* components of a path: n slashes separate n + 1 components *)
Fixpoint split (p : bytes) : list bytes :=
  match p with
  | [] => [[]]
  | c :: p' => if Byte.eqb c slash then [] :: split p'
               else match split p' with [] => [[c]] | w :: ws => (c :: w) :: ws end
  end.
(* strings.Join(cs, "/") *)
Fixpoint join (cs : list bytes) : bytes :=
  match cs with [] => [] | [c] => c | c :: cs' => c ++ slash :: join cs' end.
Definition rooted (p : bytes) : bool := match p with c :: _ => Byte.eqb c slash | [] => false end.

(* filepath.Clean, one component; out: components written so far, the last one first *)
Definition clean_step (root : bool) (out : list bytes) (c : bytes) : list bytes :=
  if bytes_eqb c [] || bytes_eqb c dot then out
  else if bytes_eqb c dotdot then
    match out with
    | top :: out' => if bytes_eqb top dotdot then if root then out else c :: out else out'
    | [] => if root then out else [c]
    end
  else c :: out.
Definition Clean (p : bytes) : bytes :=
  match p with
  | [] => dot
  | _ => let out := rev (fold_left (clean_step (rooted p)) (split p) []) in
         if rooted p then slash :: join out else match out with [] => dot | _ => join out end
  end.
(* filepath.Join: leading empty elements are skipped *)
Fixpoint Join (elem : list bytes) : bytes :=
  match elem with
  | [] => []
  | e :: elem' => if bytes_eqb e [] then Join elem' else Clean (join elem)
  end.

(* a place in the directory tree: names from the inside out, [] is the root *)
Definition loc := list bytes.
Definition enter (l : loc) (c : bytes) : loc :=
  if bytes_eqb c [] || bytes_eqb c dot then l else if bytes_eqb c dotdot then tl l else c :: l.
(* the place a path names, for a process whose working directory is cwd *)
Definition locate (cwd : loc) (p : bytes) : loc := fold_left enter (split p) (if rooted p then [] else cwd).

(* defaultSessionManager.go:94-96 *)
Definition suffix : bytes := list_byte_of_string ".wwrsess"%string.
Definition filePath (path sessionKey : bytes) : bytes := Join [path; sessionKey ++ suffix].
