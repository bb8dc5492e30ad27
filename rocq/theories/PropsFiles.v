(* The default session manager: C46, C47, C48, C56, C57, C58. *)
From Coq Require Import Strings.String.
From Coq Require Import List Arith NArith ZArith Lia Bool.
From Verif Require Import BaseBytes BaseConc ModelMessage ModelKey ModelPath ModelFiles ModelDir SpecKey SpecFiles
  ProofKey ProofPath ProofFiles ProofFiles2 ProofFiles3 ProofFiles4 ProofDir ExampleFiles.
Import ListNotations.
Open Scope nat_scope.

(* ================= C46 ================= *)
(* keys without a slash name files in the directory, different keys different files *)
Theorem C46_inside_partial : forall cwd dir key, dir <> [] -> plain key ->
  file_of cwd dir key = (key ++ suffix) :: dir_of cwd dir.
Proof. exact file_inside. Qed.
Print Assumptions C46_inside_partial.
Theorem C46_distinct_partial : forall cwd dir k1 k2, dir <> [] -> plain k1 -> plain k2 ->
  file_of cwd dir k1 = file_of cwd dir k2 -> k1 = k2.
Proof. exact file_distinct. Qed.
Print Assumptions C46_distinct_partial.
(* the keys the default generator makes are such keys *)
Theorem C46_generated : forall rand b k, gives rand b -> generateSessionKey rand = Some k -> plain k.
Proof. exact generated_plain. Qed.
Print Assumptions C46_generated.
(* clients send any key. Not distinct: *)
Theorem C46_distinct_refuted : forall cwd dir key, dir <> [] ->
  dot ++ slash :: key <> key /\ file_of cwd dir (dot ++ slash :: key) = file_of cwd dir key.
Proof. exact file_alias_ne. Qed.
Print Assumptions C46_distinct_refuted.
(* not inside: every place whose name ends in .wwrsess is the file of some key *)
Theorem C46_inside_refuted : forall cwd dir name place, dir <> [] -> plain name -> Forall name_ok place ->
  exists key, file_of cwd dir key = (name ++ suffix) :: place.
Proof. exact file_anywhere. Qed.
Print Assumptions C46_inside_refuted.
Example C46_case : file_of [key "srv"] (key "run/./sessions") (key "abc") = [key "abc.wwrsess"; key "sessions"; key "run"; key "srv"] /\
  file_of [key "srv"] (key "/run/sessions/") (key "..") = [key "...wwrsess"; key "sessions"; key "run"] /\
  file_of [key "srv"] (key "sessions") (key "../../etc/x") = [key "x.wwrsess"; key "etc"].
Proof. vm_compute. auto. Qed.

(* ================= C47 ================= *)
(* the hooks, called one after the other, return what a map of sessions would; infos as JSON leaves them *)
Theorem C47_map_partial : forall I (c : codec I) norm e dir l s', faithful c norm -> dir <> [] ->
  runs c e dir empty_fs l s' -> Forall (usable e dir) (map fst l) ->
  forall l1 h r l2, l = l1 ++ (h, r) :: l2 -> r = fst (serve c norm (serve_all c norm no_sessions (map fst l1)) h).
Proof. exact @manager_map. Qed.
Print Assumptions C47_map_partial.
Theorem C47_found_partial : forall I (c : codec I) norm e dir h1 k cr lo i h2 now r l3 s', faithful c norm -> dir <> [] ->
  runs c e dir empty_fs (h1 ++ (HCreate k cr lo i, RDone) :: h2 ++ (HLookup k now, r) :: l3) s' ->
  Forall (usable e dir) (map fst (h1 ++ (HCreate k cr lo i, RDone) :: h2 ++ (HLookup k now, r) :: l3)) ->
  Forall (left_alone k) (map fst h2) ->
  r = RFound cr (last_lookup k lo (map fst h2)) (norm i).
Proof. exact @manager_found. Qed.
Print Assumptions C47_found_partial.
Theorem C47_gone_partial : forall I (c : codec I) norm e dir l k now r l3 s', faithful c norm -> dir <> [] ->
  runs c e dir empty_fs (l ++ (HLookup k now, r) :: l3) s' -> Forall (usable e dir) (map fst (l ++ (HLookup k now, r) :: l3)) ->
  (exists h1 h2, map fst l = h1 ++ HClose k :: h2 /\ forall h, In h h2 -> not_created k h) \/
  (forall h, In h (map fst l) -> not_created k h) ->
  r = RNone.
Proof. exact @manager_gone. Qed.
Print Assumptions C47_gone_partial.
(* every call comes to an end *)
Theorem C47_total : forall I (c : codec I) e dir s hs, exists rs s', length rs = length hs /\ runs c e dir s (combine hs rs) s'.
Proof. exact @manager_total. Qed.
Print Assumptions C47_total.
(* without access to the file nothing happens *)
Theorem C47_no_access : forall I (c : codec I) e dir h s r s',
  e_access e (file_of (e_cwd e) dir (hook_key h)) <> Fine -> runs c e dir s [(h, r)] s' ->
  s' = s /\ r = refused (e_access e (file_of (e_cwd e) dir (hook_key h))) h.
Proof. exact @manager_no_access. Qed.
Print Assumptions C47_no_access.
(* a session is also found under keys it was not created with *)
Theorem C47_map_refuted : forall I (c : codec I) norm e dir k cr lo i now r s', faithful c norm -> dir <> [] ->
  usable e dir (HCreate k cr lo i) -> in_years now ->
  runs c e dir empty_fs [(HCreate k cr lo i, RDone); (HLookup (dot ++ slash :: k) now, r)] s' ->
  r = RFound cr lo (norm i).
Proof. exact @manager_alias. Qed.
Print Assumptions C47_map_refuted.

Definition there : bytes := key "/srv/s".
Definition story : list (hook Z * result Z) :=
  [(HCreate (key "a") 10 10 7, RDone); (HLookup (key "b") 11, RNone); (HCreate (key "b") 12 12 (-4), RDone);
   (HLookup (key "a") 13, RFound 10 10 6); (HLookup (key "b") 14, RFound 12 12 (-4)); (HLookup (key "a") 15, RFound 10 13 6);
   (HClose (key "a"), RDone); (HLookup (key "a") 16, RNone); (HClose (key "a"), RError); (HLookup (key "b") 17, RFound 12 14 (-4))]%Z.
Lemma story_usable : Forall (usable everywhere there) (map fst story).
Proof.
  unfold story, usable, in_years, plain. repeat constructor; cbn; try lia;
  (intros H; repeat (destruct H as [H|H]; [discriminate H|]); exact H).
Qed.
Example C47_case : faithful toy toy_norm /\ (exists s', runs toy everywhere there empty_fs story s') /\ Forall (usable everywhere there) (map fst story).
Proof. split; [exact toy_faithful|]. split; [|exact story_usable]. apply (ran 99) with (hs := map fst story). vm_compute. reflexivity. Qed.
Example C47_case_alias : exists s', runs toy everywhere there empty_fs
  [(HCreate (key "a") 10 10 7, RDone); (HLookup (key "./a") 11, RFound 10 10 6)]%Z s'.
Proof. apply (ran 99) with (hs := [HCreate (key "a") 10 10 7; HLookup (key "./a") 11]%Z). vm_compute. reflexivity. Qed.
Definition locked : env := MkEnv [] (fun l => match l with [_] => Denied | _ => Missing end).
Example C47_case_no_access : exists s', runs toy locked (key "/") empty_fs [(HLookup (key "a") 1, RError)]%Z s' /\
  exists s', runs toy locked there empty_fs [(HLookup (key "a") 1, RNone); (HCreate (key "a") 1 1 1, RError)]%Z s'.
Proof.
  destruct (ran 9 toy locked (key "/") empty_fs [HLookup (key "a") 1%Z] [(HLookup (key "a") 1%Z, RError)] eq_refl) as [s' R]. exists s'. split; [exact R|].
  apply (ran 9) with (hs := [HLookup (key "a") 1; HCreate (key "a") 1 1 1]%Z). reflexivity.
Qed.

(* ================= C48 ================= *)
(* whatever other calls do, at whatever point they are when the process dies, fail, or overlap: the session k
   is found as before *)
Theorem C48_others : forall I (c : codec I) norm e dir l s hs w k now r s', faithful c norm -> dir <> [] ->
  runs c e dir empty_fs l s -> Forall (usable e dir) (map fst l) ->
  disturbed c e dir whatever (idle s) hs w -> (forall h, In h hs -> plain (hook_key h) /\ hook_key h <> k) ->
  usable e dir (HLookup (I := I) k now) -> runs c e dir (w_fs w) [(HLookup k now, r)] s' ->
  r = fst (serve c norm (serve_all c norm no_sessions (map fst l)) (HLookup k now)).
Proof. exact @crash_others. Qed.
Print Assumptions C48_others.
(* after a crash in a lookup: the old session, the new one, or an error - that exactly if the new contents were
   not written completely *)
Theorem C48_lookup_partial : forall I (c : codec I) norm e dir l s k cr lo i t s1 pr now r s', faithful c norm -> dir <> [] ->
  runs c e dir empty_fs l s -> Forall (usable e dir) (map fst l) ->
  serve_all c norm no_sessions (map fst l) k = Some (cr, lo, i) ->
  usable e dir (HLookup (I := I) k t) -> steps e whatever s (code c dir (HLookup k t)) s1 pr ->
  usable e dir (HLookup (I := I) k now) -> runs c e dir s1 [(HLookup k now, r)] s' ->
  r = RFound cr lo i \/ r = RFound cr t i \/
  (r = RError /\ exists b b1 b2, marshal c (MkSfile cr t i) = Some b /\ b = b1 ++ b2 /\ b2 <> [] /\
     contents s1 (file_of (e_cwd e) dir k) = Some b1).
Proof. exact @crash_lookup. Qed.
Print Assumptions C48_lookup_partial.
(* there is a point in every lookup of every session where a crash loses the session *)
Theorem C48_lookup_refuted : forall I (c : codec I) norm e dir l s k cr lo i t, faithful c norm -> dir <> [] ->
  runs c e dir empty_fs l s -> Forall (usable e dir) (map fst l) ->
  serve_all c norm no_sessions (map fst l) k = Some (cr, lo, i) -> usable e dir (HLookup (I := I) k t) ->
  exists s1 pr, steps e works s (code c dir (HLookup k t)) s1 pr /\
    forall now r s', usable e dir (HLookup (I := I) k now) -> runs c e dir s1 [(HLookup k now, r)] s' -> r = RError.
Proof. exact @crash_loses. Qed.
Print Assumptions C48_lookup_refuted.
Theorem C48_create : forall I (c : codec I) norm e dir l s k cr lo i s1 pr now r s', faithful c norm -> dir <> [] ->
  runs c e dir empty_fs l s -> Forall (usable e dir) (map fst l) ->
  usable e dir (HCreate k cr lo i) -> steps e whatever s (code c dir (HCreate k cr lo i)) s1 pr ->
  usable e dir (HLookup (I := I) k now) -> runs c e dir s1 [(HLookup k now, r)] s' ->
  r = fst (serve c norm (serve_all c norm no_sessions (map fst l)) (HLookup k now)) \/ r = RFound cr lo (norm i) \/ r = RError.
Proof. exact @crash_create. Qed.
Print Assumptions C48_create.
Theorem C48_close : forall I (c : codec I) norm e dir l s k s1 pr now r s', faithful c norm -> dir <> [] ->
  runs c e dir empty_fs l s -> Forall (usable e dir) (map fst l) ->
  usable e dir (HClose (I := I) k) -> steps e whatever s (code c dir (HClose k)) s1 pr ->
  usable e dir (HLookup (I := I) k now) -> runs c e dir s1 [(HLookup k now, r)] s' ->
  r = fst (serve c norm (serve_all c norm no_sessions (map fst l)) (HLookup k now)) \/ (r = RNone /\ pr = Ret RDone).
Proof. exact @crash_close. Qed.
Print Assumptions C48_close.
(* two stored sessions; a lookup of one is under way, its file half written, and a creation has just begun *)
Definition two : list (hook Z * result Z) := [(HCreate (key "a") 10 10 7, RDone); (HCreate (key "b") 11 11 2, RDone)]%Z.
Lemma two_usable : Forall (usable everywhere there) (map fst two).
Proof.
  unfold two, usable, in_years, plain. repeat constructor; cbn; try lia;
  (intros H; repeat (destruct H as [H|H]; [discriminate H|]); exact H).
Qed.
Lemma two_run : exists s, runs toy everywhere there empty_fs two s.
Proof. apply (ran 99) with (hs := map fst two). vm_compute. reflexivity. Qed.
Definition midway : list (fev Z) :=
  [FCall (HLookup (key "a") 12%Z); FCall (HCreate (key "c") 13 13 0)%Z; FStep 0 (How 0); FStep 0 (How 0); FStep 1 (How 0); FStep 0 (How 0); FStep 0 (How 3)].
Example C48_case_others : exists s l s2, run_all 99 toy everywhere there empty_fs (map fst two) = Some (l, s) /\ l = two /\
  (exists w, play toy everywhere there (idle s) midway = Some w /\ map returned (w_ts w) = [None; None] /\
     contents (w_fs w) (file_of [] there (key "a")) <> None /\
     runs toy everywhere there (w_fs w) [(HLookup (key "b") 20, RFound 11 11 2)]%Z s2 /\
     exists s3, runs toy everywhere there (w_fs w) [(HLookup (key "a") 20%Z, RError)] s3).
Proof.
  destruct (run_all 99 toy everywhere there empty_fs (map fst two)) as [[l s]|] eqn:E; [|vm_compute in E; discriminate E].
  exists s, l. destruct (play toy everywhere there (idle s) midway) as [w|] eqn:P.
  2: { exfalso. vm_compute in E. injection E as <- <-. vm_compute in P. discriminate P. }
  vm_compute in E. injection E as <- <-. vm_compute in P. injection P as <-.
  match goal with |- context [MkWorld ?f _] => set (s0 := f) end.
  destruct (ran 99 toy everywhere there s0 [HLookup (key "b") 20%Z] [(HLookup (key "b") 20, RFound 11 11 2)]%Z ltac:(vm_compute; reflexivity)) as [s2 R].
  exists s2. split; [reflexivity|]. split; [reflexivity|]. eexists. split; [reflexivity|]. split; [reflexivity|]. split; [vm_compute; discriminate|].
  split; [exact R|]. apply (ran 99 toy everywhere there s0 [HLookup (key "a") 20%Z]). vm_compute. reflexivity.
Qed.

(* ================= C56 ================= *)
(* overlapping calls for different sessions return what they would return alone, and leave the sessions
   they would leave one after the other *)
Theorem C56_distinct : forall I (c : codec I) norm e dir l s hs w, faithful c norm -> dir <> [] ->
  runs c e dir empty_fs l s -> Forall (usable e dir) (map fst l) ->
  disturbed c e dir works (idle s) hs w -> Forall (usable e dir) hs -> NoDup (map hook_key hs) ->
  (forall i h r, nth_error hs i = Some h -> nth_error (w_ts w) i = Some (Ret r) ->
     r = fst (serve c norm (serve_all c norm no_sessions (map fst l)) h)) /\
  ((forall i pr, nth_error (w_ts w) i = Some pr -> exists r, pr = Ret r) -> forall k now r s',
     usable e dir (HLookup (I := I) k now) -> runs c e dir (w_fs w) [(HLookup k now, r)] s' ->
     r = fst (serve c norm (serve_all c norm no_sessions (map fst l ++ hs)) (HLookup k now))).
Proof. exact @overlap_distinct. Qed.
Print Assumptions C56_distinct.
(* not so for one session: of two lookups one fails *)
Theorem C56_same_refuted : forall I (c : codec I) norm e dir l s k cr lo i t1 t2, faithful c norm -> dir <> [] ->
  runs c e dir empty_fs l s -> Forall (usable e dir) (map fst l) ->
  serve_all c norm no_sessions (map fst l) k = Some (cr, lo, i) -> usable e dir (HLookup (I := I) k t1) ->
  exists w, disturbed c e dir works (idle s) [HLookup k t1; HLookup k t2] w /\
    w_ts w = [Ret (RFound cr lo i); Ret RError].
Proof. exact @overlap_lookups. Qed.
Print Assumptions C56_same_refuted.
Definition mixed : list (fev Z) :=
  [FCall (HLookup (key "a") 12%Z); FCall (HCreate (key "c") 13 13 0)%Z; FStep 0 (How 0); FStep 1 (How 0); FStep 0 (How 0); FCall (HClose (key "b")); FStep 1 (How 2);
   FStep 0 (How 0); FStep 1 (How 99); FStep 0 (How 3); FStep 2 (How 0); FStep 0 (How 99); FStep 0 (How 0); FStep 1 (How 0)].
Example C56_case : (exists s w, runs toy everywhere there empty_fs two s /\ disturbed toy everywhere there works (idle s) (called mixed) w /\
    map returned (w_ts w) = [Some (RFound 10 10 6%Z); Some RDone; Some RDone]) /\
  NoDup (map hook_key (called mixed)) /\ serve_all toy toy_norm no_sessions (map fst two) (key "a") = Some (10, 10, 6)%Z.
Proof.
  split; [|split; [|vm_compute; reflexivity]].
  - destruct (run_all 99 toy everywhere there empty_fs (map fst two)) as [[l s]|] eqn:E; [|vm_compute in E; discriminate E].
    pose proof (run_all_runs _ _ _ _ _ _ _ _ E) as R. vm_compute in E. injection E as <- <-.
    match type of R with runs _ _ _ _ _ ?x => destruct (played toy everywhere there x mixed [Some (RFound 10 10 6%Z); Some RDone; Some RDone] ltac:(vm_compute; reflexivity) eq_refl) as (w & D & RS); exists x, w end.
    split; [exact R|]. split; [exact D|exact RS].
  - vm_compute. repeat constructor; cbn; intuition congruence.
Qed.

(* ================= C57 ================= *)
(* a session that was closed can come back *)
Theorem C57_closed_refuted : forall I (c : codec I) norm e dir l s k cr lo i t, faithful c norm -> dir <> [] ->
  runs c e dir empty_fs l s -> Forall (usable e dir) (map fst l) ->
  serve_all c norm no_sessions (map fst l) k = Some (cr, lo, i) -> usable e dir (HLookup (I := I) k t) ->
  exists w, disturbed c e dir works (idle s) [HLookup k t; HClose k] w /\ w_ts w = [Ret (RFound cr lo i); Ret RDone] /\
    forall now r s', usable e dir (HLookup (I := I) k now) -> runs c e dir (w_fs w) [(HLookup k now, r)] s' -> r = RFound cr t i.
Proof. exact @overlap_close. Qed.
Print Assumptions C57_closed_refuted.

(* ================= C58 ================= *)
(* root can use the session directory *)
Theorem C58_root_partial : forall I pr cwd exe d path d' dir, p_root pr = true -> NewDefaultSessionManager pr cwd exe d path = Some (d', dir) ->
  (path <> [] \/ exe <> []) ->
  dir <> [] /\ forall h : hook I, plain (hook_key h) -> e_access (env_of pr cwd d') (file_of cwd dir (hook_key h)) = Fine.
Proof. exact @dir_root. Qed.
Print Assumptions C58_root_partial.
(* anybody else cannot use the directory NewDefaultSessionManager made for them *)
Theorem C58_user_refuted : forall I pr cwd exe d path d' dir, p_root pr = false -> NewDefaultSessionManager pr cwd exe d path = Some (d', dir) ->
  dir <> [] -> stat_dir pr d (locate cwd dir) <> StExists ->
  forall (c : codec I) h s r s', plain (hook_key h) -> runs c (env_of pr cwd d') dir s [(h, r)] s' -> s' = s /\ r = RError.
Proof. exact @dir_user. Qed.
Print Assumptions C58_user_refuted.
Theorem C58_nested_refuted : forall pr cwd exe d path n p, p_root pr = false -> path <> [] -> locate cwd path = n :: p -> stat_dir pr d p <> StExists ->
  NewDefaultSessionManager pr cwd exe d path = None.
Proof. exact dir_nested. Qed.
Print Assumptions C58_nested_refuted.
(* what the permissions mean: names below a directory are found if it and all above have mode bit 0100, files
   in it can be used if it has 0200 as well; root can do everything but use directories that do not exist *)
Theorem C58_access : forall pr d n p, file_access pr d (n :: p) = Fine <->
  (forall x q, p = x ++ q -> exists m, d q = Some m /\ (p_root pr = false -> (m / 64) mod 2 = 1)%N) /\
  (exists m, d p = Some m /\ (p_root pr = false -> (m / 128) mod 2 = 1)%N).
Proof. exact access_exact. Qed.
Print Assumptions C58_access.
Theorem C58_exists : forall pr d n p, stat_dir pr d (n :: p) = StExists <->
  (forall x q, p = x ++ q -> exists m, d q = Some m /\ (p_root pr = false -> (m / 64) mod 2 = 1)%N) /\ exists m, d (n :: p) = Some m.
Proof. exact exists_exact. Qed.
Print Assumptions C58_exists.
(* /srv, mode 0755 *)
Definition srv : dirs := fun l => match l with [] => Some 493%N | [_] => if loc_eqb l [key "srv"] then Some 493%N else None | _ => None end.
Definition user : proc := MkProc false 18.
Definition root : proc := MkProc true 18.
Example C58_case :
  (exists d', NewDefaultSessionManager user [] (key "/srv") srv [] = Some (d', key "/srv/wwrsess") /\ d' [key "wwrsess"; key "srv"] = Some 416%N) /\
  NewDefaultSessionManager user [] (key "/srv") srv (key "/srv/a/b") = None /\
  (exists d', NewDefaultSessionManager root [] (key "/srv") srv (key "/srv/a/b") = Some (d', key "/srv/a/b")) /\
  NewDefaultSessionManager user [] (key "/srv") srv (key "/srv") = Some (srv, key "/srv").
Proof.
  split; [|split; [reflexivity|split; [eexists; reflexivity|reflexivity]]].
  eexists. split; [reflexivity|]. reflexivity.
Qed.
(* files in a directory with mode 0700 can be used, with mode 0640 (416) they cannot, with mode 0500 neither *)
Example C58_access_case : forall m, In m [448; 416; 320]%N ->
  file_access user (fun l => match l with [] => Some 493%N | [_] => Some m | _ => None end) [key "f"; key "srv"] = if (m =? 448)%N then Fine else Denied.
Proof. intros m [<-|[<-|[<-|[]]]]; reflexivity. Qed.
