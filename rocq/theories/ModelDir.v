(* Model of NewDefaultSessionManager, defaultSessionManager.go:49-91: directories, their permissions, and
   os.MkdirAll of the Go standard library (os/path.go). Simplifications: MkdirAll works on places instead
   of paths, so a path must not lead through a directory that does not exist and back (a/../b); directories
   are the only things in the way; the process owns the directories it meets, so the owner's bits count. *)
From Coq Require Import Strings.String.
From Coq Require Import List Arith NArith ZArith Bool.
From Verif Require Import BaseBytes ModelMessage ModelPath ModelFiles.
Import ListNotations.
Open Scope nat_scope.

(* directories and their modes *)
Definition dirs := loc -> option N.
Definition w_bit (mode : N) : bool := N.testbit mode 7.   (* 0200 *)
Definition x_bit (mode : N) : bool := N.testbit mode 6.   (* 0100 *)
(* a process: with all capabilities (root) or not; its umask *)
Record proc := MkProc { p_root : bool; p_umask : N }.
(* can names in the directory l be resolved? The root directory [] has an entry like all others *)
Fixpoint search (pr : proc) (d : dirs) (l : loc) : access :=
  let here := match d l with None => Missing | Some m => if p_root pr || x_bit m then Fine else Denied end in
  match l with
  | [] => here
  | _ :: p => match search pr d p with Fine => here | a => a end
  end.
(* os.Stat of a directory *)
Definition stat_dir (pr : proc) (d : dirs) (l : loc) : stat :=
  match (match l with [] => Fine | _ :: p => search pr d p end) with
  | Missing => StNotExist
  | Denied => StError
  | Fine => match d l with Some _ => StExists | None => StNotExist end
  end.
Definition set_mode (d : dirs) (l : loc) (m : N) : dirs := fun l' => if loc_eqb l' l then Some m else d l'.
(* mkdir(2); None: error *)
Definition mkdir (pr : proc) (d : dirs) (l : loc) (perm : N) : option dirs :=
  match l with
  | [] => None
  | _ :: p => match search pr d p, d p, d l with
              | Fine, Some m, None => if p_root pr || w_bit m then Some (set_mode d l (N.ldiff perm (p_umask pr))) else None
              | _, _, _ => None
              end
  end.
(* os.MkdirAll *)
Fixpoint MkdirAll (pr : proc) (d : dirs) (l : loc) (perm : N) : option dirs :=
  match stat_dir pr d l with
  | StExists => Some d
  | _ => match l with
         | [] => None
         | _ :: p =>
             match MkdirAll pr d p perm with
             | None => None
             | Some d1 => match mkdir pr d1 l perm with
                          | Some d2 => Some d2
                          | None => match stat_dir pr d1 l with StExists => Some d1 | _ => None end
                          end
             end
         end
  end.
(* defaultSessionManager.go:52-91; exe: directory of the executable, an absolute path. None: panics *)
Definition wwrsess : bytes := list_byte_of_string "wwrsess"%string.
Definition NewDefaultSessionManager (pr : proc) (cwd : loc) (exe : bytes) (d : dirs) (sessFilesPath : bytes) : option (dirs * bytes) :=
  let path := match sessFilesPath with [] => Join [exe; wwrsess] | _ => sessFilesPath end in
  let l := locate cwd path in
  match stat_dir pr d l with
  | StNotExist => match MkdirAll pr d l 416 with Some d' => Some (d', path) | None => None end   (* 0640 *)
  | StError => None
  | StExists => Some (d, path)
  end.
(* what a process can do about a file. Simplification: everything or nothing, so the directory must be
   writable, too *)
Definition file_access (pr : proc) (d : dirs) (l : loc) : access :=
  match l with
  | [] => Denied
  | _ :: p => match search pr d p with
              | Fine => match d p with Some m => if p_root pr || w_bit m then Fine else Denied | None => Missing end
              | a => a
              end
  end.
Definition env_of (pr : proc) (cwd : loc) (d : dirs) : env := MkEnv cwd (file_access pr d).
