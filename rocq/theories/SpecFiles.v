(* What users of the default session manager rely on. *)
From Coq Require Import List Arith NArith ZArith Bool.
From Verif Require Import BaseBytes ModelMessage ModelPath ModelFiles.
Import ListNotations.
Open Scope nat_scope.

(* ----- C46: places ----- *)
(* keys that are file names *)
Definition plain (key : bytes) : Prop := ~ In slash key.
(* a name a directory entry can have *)
Definition name_ok (n : bytes) : Prop := plain n /\ n <> [] /\ n <> dot /\ n <> dotdot.
Definition file_of (cwd : loc) (dir key : bytes) : loc := locate cwd (filePath dir key).
Definition dir_of (cwd : loc) (dir : bytes) : loc := locate cwd dir.

(* ----- C47: sessions as a map ----- *)
(* times whose year has four digits (UTC), as JSON wants it: nanoseconds since 1970 *)
Definition in_years (t : Z) : Prop := (-62167219200000000000 <= t < 253402300800000000000)%Z.
(* What is assumed of encoding/json. norm: what a value becomes on its way through JSON (numbers become
   float64, for example); nothing changes it any further. A file that was read can be written again.
   A truncated file cannot be read. *)
Record faithful {I} (c : codec I) (norm : I -> I) : Prop := {
  fa_round : forall f b, marshal c f = Some b ->
    unmarshal c b = Some (MkSfile (sf_creation f) (sf_lookup f) (norm (sf_info f)));
  fa_again : forall b f t, unmarshal c b = Some f -> in_years t ->
    exists b', marshal c (MkSfile (sf_creation f) t (sf_info f)) = Some b';
  fa_norm : forall b f, unmarshal c b = Some f -> norm (sf_info f) = sf_info f;
  fa_cut : forall f b b1 b2, marshal c f = Some b -> b = b1 ++ b2 -> b2 <> [] -> unmarshal c b1 = None }.

(* the map: creation, time of the last lookup, info *)
Definition smap (I : Type) := bytes -> option (Z * Z * I).
Definition put {I} (m : smap I) (k : bytes) (v : option (Z * Z * I)) : smap I := fun k' => if bytes_eqb k' k then v else m k'.
Definition no_sessions {I} : smap I := fun _ => None.
(* what a hook called on sessions m should return, and the sessions afterwards *)
Definition serve {I} (c : codec I) (norm : I -> I) (m : smap I) (h : hook I) : result I * smap I :=
  match h with
  | HCreate k cr lo i =>
      match marshal c (MkSfile cr lo i) with
      | Some _ => (RDone, put m k (Some (cr, lo, norm i)))
      | None => (RError, m)   (* the session cannot be encoded *)
      end
  | HLookup k now =>
      match m k with Some (cr, lo, i) => (RFound cr lo i, put m k (Some (cr, now, i))) | None => (RNone, m) end
  | HClose k => match m k with Some _ => (RDone, put m k None) | None => (RError, m) end
  end.
Fixpoint serve_all {I} (c : codec I) (norm : I -> I) (m : smap I) (hs : list (hook I)) : smap I :=
  match hs with [] => m | h :: hs' => serve_all c norm (snd (serve c norm m h)) hs' end.

(* running a program alone *)
Inductive steps {A} (e : env) (ok : how -> Prop) : fs -> prog A -> fs -> prog A -> Prop :=
| Steps_0 s pr : steps e ok s pr s pr
| Steps_1 s pr h s1 pr1 s2 pr2 : ok h -> step e s pr h = Some (s1, pr1) -> steps e ok s1 pr1 s2 pr2 -> steps e ok s pr s2 pr2.
Definition works (h : how) : Prop := h <> Fail.
Definition whatever (h : how) : Prop := True.
(* hooks called one after the other, with their results *)
Inductive runs {I} (c : codec I) (e : env) (dir : bytes) : fs -> list (hook I * result I) -> fs -> Prop :=
| Runs_0 s : runs c e dir s [] s
| Runs_1 s h r s1 l s2 : steps e works s (code c dir h) s1 (Ret r) -> runs c e dir s1 l s2 ->
    runs c e dir s ((h, r) :: l) s2.
(* the key is a file name, its file can be accessed, and lookups happen in the years 0 to 9999 *)
Definition usable {I} (e : env) (dir : bytes) (h : hook I) : Prop :=
  plain (hook_key h) /\ e_access e (file_of (e_cwd e) dir (hook_key h)) = Fine /\
  match h with HLookup _ now => in_years now | _ => True end.

(* what hooks return when their file cannot be accessed *)
Definition refused {I} (a : access) (h : hook I) : result I := match h, a with HLookup _ _, Missing => RNone | _, _ => RError end.

(* C48: calls that overlap in any way, that may fail, or stop at any point *)
Inductive disturbed {I} (c : codec I) (e : env) (dir : bytes) (ok : how -> Prop) : world I -> list (hook I) -> world I -> Prop :=
| Dist_0 w : disturbed c e dir ok w [] w
| Dist_call w h w1 hs w2 : fstep c e dir w (FCall h) = Some w1 -> disturbed c e dir ok w1 hs w2 -> disturbed c e dir ok w (h :: hs) w2
| Dist_step w i h w1 hs w2 : ok h -> fstep c e dir w (FStep i h) = Some w1 -> disturbed c e dir ok w1 hs w2 -> disturbed c e dir ok w hs w2.
Definition idle {I} (s : fs) : world I := MkWorld s [].

(* the time of the last lookup of k after it was created *)
Fixpoint last_lookup {I} (k : bytes) (t : Z) (hs : list (hook I)) : Z :=
  match hs with
  | [] => t
  | HLookup k' now :: hs' => last_lookup k (if bytes_eqb k' k then now else t) hs'
  | _ :: hs' => last_lookup k t hs'
  end.
(* the session k is neither created anew nor closed *)
Definition left_alone {I} (k : bytes) (h : hook I) : Prop :=
  match h with HCreate k' _ _ _ => k' <> k | HClose k' => k' <> k | HLookup _ _ => True end.
Definition not_created {I} (k : bytes) (h : hook I) : Prop := match h with HCreate k' _ _ _ => k' <> k | _ => True end.
Definition contents (s : fs) (l : loc) : option bytes := match f_dir s l with Some n => Some (f_data s n) | None => None end.
(* no two names of one file *)
Definition wf (s : fs) : Prop :=
  (forall l n, f_dir s l = Some n -> n < f_next s) /\
  (forall l1 l2 n, f_dir s l1 = Some n -> f_dir s l2 = Some n -> l1 = l2).
(* the files in dir hold the sessions m *)
Definition stores {I} (c : codec I) (e : env) (dir : bytes) (s : fs) (m : smap I) : Prop :=
  wf s /\ forall k, plain k ->
  match m k with
  | None => contents s (file_of (e_cwd e) dir k) = None
  | Some (cr, lo, i) => exists b, contents s (file_of (e_cwd e) dir k) = Some b /\ unmarshal c b = Some (MkSfile cr lo i)
  end.
