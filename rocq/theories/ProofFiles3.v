(* The default session manager: crashes and overlapping calls. *)
From Coq Require Import List Arith NArith ZArith Lia Bool.
From Verif Require Import BaseBytes BaseConc ModelMessage ModelPath ModelFiles SpecFiles ProofPath ProofFiles ProofFiles2.
Import ListNotations.
Open Scope nat_scope.
#[local] Arguments filePath : simpl never.
#[local] Arguments locate : simpl never.
#[local] Arguments stat_of : simpl never.
#[local] Arguments fine : simpl never.

Section Crash.
Context {I : Type} (c : codec I) (norm : I -> I) (FA : faithful c norm) (e : env) (dir : bytes) (ND : dir <> []).
Notation file k := (file_of (e_cwd e) dir k).

(* what a lookup returns depends on the contents of the file *)
Definition outcome (o : option bytes) : result I :=
  match o with
  | None => RNone
  | Some b => match unmarshal c b with None => RError | Some f => RFound (sf_creation f) (sf_lookup f) (sf_info f) end
  end.
Lemma lookup_outcome s k now s' r : usable e dir (HLookup (I := I) k now) -> steps e works s (code c dir (HLookup k now)) s' (Ret r) ->
  r = outcome (contents s (file k)).
Proof.
  intros (P & AC & T) H. apply lookup_cases in H; [|exact AC]. cbn [hook_key] in *. destruct (contents s (file k)) as [b|]; cbn [outcome].
  - destruct H as [[_ [X|[[X _]|[E [X|(f & U' & X)]]]]]|(f & b2 & U' & M' & [(j & _ & [X|[X _]])|[C' E]])];
      try (exfalso; exact (X r eq_refl)); try (exfalso; exact (works_fail X)).
    + rewrite X. congruence.
    + destruct (fa_again _ _ FA _ _ now U' T) as [b' M]. congruence.
    + rewrite U'. congruence.
  - destruct H as [-> [X|[E|[X _]]]]; try (exfalso; exact (X r eq_refl)); try (exfalso; exact (works_fail X)). congruence.
Qed.
Lemma outcome_stored s m k : stores c e dir s m -> plain k ->
  outcome (contents s (file k)) = match m k with Some (cr, lo, i) => RFound cr lo i | None => RNone end.
Proof.
  intros S P. pose proof (stores_holds c e dir s m k S P) as H. unfold holds in H. destruct (m k) as [[[cr lo] i]|].
  - destruct H as (b & -> & U). cbn. rewrite U. reflexivity.
  - rewrite H. reflexivity.
Qed.
Lemma runs_one s h r s' : runs c e dir s [(h, r)] s' -> steps e works s (code c dir h) s' (Ret r).
Proof. intros H. inversion H as [|? ? ? s1 ? ? ST R]; subst. inversion R; subst. exact ST. Qed.
Lemma fst_serve_lookup m k now : fst (serve c norm m (HLookup k now)) = match m k with Some (cr, lo, i) => RFound cr lo i | None => RNone end.
Proof. cbn. destruct (m k) as [[[cr lo] i]|]; reflexivity. Qed.

Lemma prefix_unreadable f b j : marshal c f = Some b -> firstn j b = b \/ unmarshal c (firstn j b) = None.
Proof.
  intros M. destruct (skipn j b) as [|x r] eqn:E.
  - left. rewrite <- (firstn_skipn j b) at 2. rewrite E, app_nil_r. reflexivity.
  - right. apply (fa_cut _ _ FA f b (firstn j b) (x :: r) M); [|discriminate]. rewrite <- E. symmetry. apply firstn_skipn.
Qed.
Lemma never_empty b f t : unmarshal c b = Some f -> in_years t -> marshal c (MkSfile (sf_creation f) t (sf_info f)) <> Some [].
Proof.
  intros U T M. set (t2 := if Z.eq_dec t 0 then 1%Z else 0%Z).
  assert (T2 : in_years t2) by (unfold t2, in_years; destruct (Z.eq_dec t 0); lia).
  assert (TN : t2 <> t) by (unfold t2; destruct (Z.eq_dec t 0); lia).
  destruct (fa_again _ _ FA _ _ t2 U T2) as [b2 M2]. pose proof (fa_round _ _ FA _ _ M) as R. pose proof (fa_round _ _ FA _ _ M2) as R2. cbn in R, R2.
  destruct b2 as [|x b2]; [congruence|]. pose proof (fa_cut _ _ FA _ _ [] (x :: b2) M2 eq_refl ltac:(discriminate)). congruence.
Qed.
End Crash.

(* ----- C48 ----- *)
Theorem crash_others {I} : forall (c : codec I) norm e dir l s hs w k now r s', faithful c norm -> dir <> [] ->
  runs c e dir empty_fs l s -> Forall (usable e dir) (map fst l) ->
  disturbed c e dir whatever (idle s) hs w -> (forall h, In h hs -> plain (hook_key h) /\ hook_key h <> k) ->
  usable e dir (HLookup (I := I) k now) -> runs c e dir (w_fs w) [(HLookup k now, r)] s' ->
  r = fst (serve c norm (serve_all c norm no_sessions (map fst l)) (HLookup k now)).
Proof.
  intros c norm e dir l s hs w k now r s' FA ND R U D HK UL R1.
  pose proof (proj2 (serve_runs c norm FA e dir ND l _ _ _ (stores_empty c e dir) R U)) as S.
  destruct (disturbed_isolated c e dir whatever _ _ _ D (fun L => exists h, In h hs /\ L = file_of (e_cwd e) dir (hook_key h))) as [W ISO].
  - split; [apply S|]. intros [|i] pr E; discriminate.
  - intros h Hh. eauto.
  - apply runs_one in R1. rewrite (lookup_outcome c norm FA e dir _ _ _ _ _ UL R1), fst_serve_lookup.
    rewrite ISO.
    + apply outcome_stored; [exact S|apply UL].
    + intros (h & Hh & E). destruct (HK h Hh) as [P N]. apply N. symmetry. eapply file_distinct; [exact ND|apply UL|exact P|exact E].
Qed.

(* the lookup itself is cut off *)
Theorem crash_lookup {I} : forall (c : codec I) norm e dir l s k cr lo i t s1 pr now r s', faithful c norm -> dir <> [] ->
  runs c e dir empty_fs l s -> Forall (usable e dir) (map fst l) ->
  serve_all c norm no_sessions (map fst l) k = Some (cr, lo, i) ->
  usable e dir (HLookup (I := I) k t) -> steps e whatever s (code c dir (HLookup k t)) s1 pr ->
  usable e dir (HLookup (I := I) k now) -> runs c e dir s1 [(HLookup k now, r)] s' ->
  r = RFound cr lo i \/ r = RFound cr t i \/
  (r = RError /\ exists b b1 b2, marshal c (MkSfile cr t i) = Some b /\ b = b1 ++ b2 /\ b2 <> [] /\
     contents s1 (file_of (e_cwd e) dir k) = Some b1).
Proof.
  intros c norm e dir l s k cr lo i t s1 pr now r s' FA ND R U M UT ST UL R1.
  pose proof (proj2 (serve_runs c norm FA e dir ND l _ _ _ (stores_empty c e dir) R U)) as S.
  apply runs_one in R1. pose proof (lookup_outcome c norm FA e dir _ _ _ _ _ UL R1) as O.
  pose proof (outcome_stored c e dir s _ k S (proj1 UL)) as OS. rewrite M in OS.
  pose proof (stores_holds c e dir s _ k S (proj1 UL)) as HO. rewrite M in HO. destruct HO as (b & C & UM).
  apply lookup_cases in ST; [|apply UT]. rewrite C in ST.
  destruct ST as [[-> _]|(f & b' & U' & M' & G)].
  - left. congruence.
  - rewrite UM in U'. injection U' as <-. cbn [sf_creation sf_info] in *.
    pose proof (fa_round _ _ FA _ _ M') as RT. cbn in RT. pose proof (fa_norm _ _ FA _ _ UM) as N. cbn in N. rewrite N in RT.
    destruct G as [(j & C1 & _)|[C1 _]].
    + rewrite C1 in O. cbn in O. destruct (skipn j b') as [|x q] eqn:SK.
      * right. left. rewrite <- (firstn_skipn j b') in RT. rewrite SK, app_nil_r in RT. rewrite RT in O. exact O.
      * right. right. assert (UN : unmarshal c (firstn j b') = None).
        { apply (fa_cut _ _ FA _ b' (firstn j b') (x :: q) M'); [|discriminate]. rewrite <- SK. symmetry. apply firstn_skipn. }
        rewrite UN in O. split; [exact O|]. exists b', (firstn j b'), (x :: q). split; [exact M'|]. split; [rewrite <- SK; symmetry; apply firstn_skipn|].
        split; [discriminate|exact C1].
    + right. left. rewrite C1 in O. cbn in O. rewrite RT in O. exact O.
Qed.
(* every lookup of every session has such a point *)
Theorem crash_loses {I} : forall (c : codec I) norm e dir l s k cr lo i t, faithful c norm -> dir <> [] ->
  runs c e dir empty_fs l s -> Forall (usable e dir) (map fst l) ->
  serve_all c norm no_sessions (map fst l) k = Some (cr, lo, i) -> usable e dir (HLookup (I := I) k t) ->
  exists s1 pr, steps e works s (code c dir (HLookup k t)) s1 pr /\
    forall now r s', usable e dir (HLookup (I := I) k now) -> runs c e dir s1 [(HLookup k now, r)] s' -> r = RError.
Proof.
  intros c norm e dir l s k cr lo i t FA ND R U M UT.
  pose proof (proj2 (serve_runs c norm FA e dir ND l _ _ _ (stores_empty c e dir) R U)) as S.
  pose proof (stores_holds c e dir s _ k S (proj1 UT)) as HO. rewrite M in HO. destruct HO as (b & C & UM).
  destruct UT as (P & AC & T). cbn [hook_key] in *.
  destruct (fa_again _ _ FA _ _ t UM T) as [b' M']. pose proof (never_empty c norm FA _ _ t UM T) as NE. cbn [sf_creation sf_info] in *.
  destruct (f_dir s (file_of (e_cwd e) dir k)) as [n|] eqn:D; [|unfold contents in C; rewrite D in C; discriminate].
  exists (set_data s n []). eexists. split.
  - cbn [code]. unfold OnSessionLookup. eapply Steps_1 with (h := How 0); [discriminate|reflexivity|].
    rewrite (stat_contents e s _ (file_of (e_cwd e) dir k) eq_refl AC), C.
    eapply Steps_1 with (h := How 0); [discriminate|reflexivity|]. rewrite (read_contents e s _ (file_of (e_cwd e) dir k) eq_refl AC), C, UM.
    unfold Save. cbn [sf_creation sf_info]. rewrite M'. unfold WriteFile.
    eapply Steps_1 with (h := How 0); [discriminate| |apply Steps_0]. cbn [step].
    change (locate (e_cwd e) (filePath dir k)) with (file_of (e_cwd e) dir k). unfold fine. change (locate (e_cwd e) (filePath dir k)) with (file_of (e_cwd e) dir k). rewrite AC, D. reflexivity.
  - intros now r s' UL R1. apply runs_one in R1. rewrite (lookup_outcome c norm FA e dir _ _ _ _ _ UL R1).
    unfold contents. cbn [f_dir set_data]. rewrite D. cbn. rewrite Nat.eqb_refl.
    assert (unmarshal c [] = None) as ->; [|reflexivity].
    destruct b' as [|x b']; [exfalso; exact (NE M')|]. apply (fa_cut _ _ FA _ _ [] (x :: b') M' eq_refl). discriminate.
Qed.
Theorem crash_create {I} : forall (c : codec I) norm e dir l s k cr lo i s1 pr now r s', faithful c norm -> dir <> [] ->
  runs c e dir empty_fs l s -> Forall (usable e dir) (map fst l) ->
  usable e dir (HCreate k cr lo i) -> steps e whatever s (code c dir (HCreate k cr lo i)) s1 pr ->
  usable e dir (HLookup (I := I) k now) -> runs c e dir s1 [(HLookup k now, r)] s' ->
  r = fst (serve c norm (serve_all c norm no_sessions (map fst l)) (HLookup k now)) \/ r = RFound cr lo (norm i) \/ r = RError.
Proof.
  intros c norm e dir l s k cr lo i s1 pr now r s' FA ND R U UC ST UL R1.
  pose proof (proj2 (serve_runs c norm FA e dir ND l _ _ _ (stores_empty c e dir) R U)) as S.
  apply runs_one in R1. pose proof (lookup_outcome c norm FA e dir _ _ _ _ _ UL R1) as O.
  rewrite fst_serve_lookup. rewrite <- (outcome_stored c e dir s _ k S (proj1 UL)).
  apply create_cases in ST; [|apply UC]. destruct (marshal c (MkSfile cr lo i)) as [b|] eqn:M.
  - pose proof (fa_round _ _ FA _ _ M) as RT. cbn in RT. destruct ST as [[-> _]|[(j & C1 & _)|[C1 _]]].
    + left. exact O.
    + rewrite C1 in O. cbn in O. right. destruct (prefix_unreadable c norm FA _ b j M) as [E|UN]; [rewrite E, RT in O; left; exact O|rewrite UN in O; right; exact O].
    + rewrite C1 in O. cbn in O. rewrite RT in O. right. left. exact O.
  - destruct ST as [-> _]. left. exact O.
Qed.
Theorem crash_close {I} : forall (c : codec I) norm e dir l s k s1 pr now r s', faithful c norm -> dir <> [] ->
  runs c e dir empty_fs l s -> Forall (usable e dir) (map fst l) ->
  usable e dir (HClose (I := I) k) -> steps e whatever s (code c dir (HClose k)) s1 pr ->
  usable e dir (HLookup (I := I) k now) -> runs c e dir s1 [(HLookup k now, r)] s' ->
  r = fst (serve c norm (serve_all c norm no_sessions (map fst l)) (HLookup k now)) \/ (r = RNone /\ pr = Ret RDone).
Proof.
  intros c norm e dir l s k s1 pr now r s' FA ND R U UC ST UL R1.
  pose proof (proj2 (serve_runs c norm FA e dir ND l _ _ _ (stores_empty c e dir) R U)) as S.
  apply runs_one in R1. pose proof (lookup_outcome c norm FA e dir _ _ _ _ _ UL R1) as O.
  rewrite fst_serve_lookup. rewrite <- (outcome_stored c e dir s _ k S (proj1 UL)).
  apply close_cases in ST; [|apply UC]. destruct ST as [[-> _]|(_ & C1 & ->)]; [left; exact O|]. right. rewrite C1 in O. auto.
Qed.

(* ----- overlapping calls ----- *)
Lemma dist_app {I} (c : codec I) e dir ok w hs w1 hs' w2 : disturbed c e dir ok w hs w1 -> disturbed c e dir ok w1 hs' w2 -> disturbed c e dir ok w (hs ++ hs') w2.
Proof. intros D. induction D; intros D2; [exact D2| |]; econstructor; eauto. Qed.
(* two lookups of one session *)
Theorem overlap_lookups {I} : forall (c : codec I) norm e dir l s k cr lo i t1 t2, faithful c norm -> dir <> [] ->
  runs c e dir empty_fs l s -> Forall (usable e dir) (map fst l) ->
  serve_all c norm no_sessions (map fst l) k = Some (cr, lo, i) -> usable e dir (HLookup (I := I) k t1) ->
  exists w, disturbed c e dir works (idle s) [HLookup k t1; HLookup k t2] w /\
    w_ts w = [Ret (RFound cr lo i); Ret RError].
Proof.
  intros c norm e dir l s k cr lo i t1 t2 FA ND R U M UT.
  pose proof (proj2 (serve_runs c norm FA e dir ND l _ _ _ (stores_empty c e dir) R U)) as S.
  pose proof (stores_holds c e dir s _ k S (proj1 UT)) as HO. rewrite M in HO. destruct HO as (b & C & UM).
  destruct UT as (P & AC & T). cbn [hook_key] in *.
  destruct (fa_again _ _ FA _ _ t1 UM T) as [b' M']. pose proof (never_empty c norm FA _ _ t1 UM T) as NE. cbn [sf_creation sf_info] in *.
  destruct (f_dir s (file_of (e_cwd e) dir k)) as [n|] eqn:D; [|unfold contents in C; rewrite D in C; discriminate].
  assert (UE : unmarshal c [] = None) by (destruct b' as [|x b']; [exfalso; exact (NE M')|]; apply (fa_cut _ _ FA _ _ [] (x :: b') M' eq_refl); discriminate).
  assert (FN : fine e (filePath dir k) = true) by (unfold fine; change (locate (e_cwd e) (filePath dir k)) with (file_of (e_cwd e) dir k); rewrite AC; reflexivity).
  assert (RC : forall s, (if fine e (filePath dir k) then match f_dir s (locate (e_cwd e) (filePath dir k)) with Some n => Some (f_data s n) | None => None end else None) = contents s (file_of (e_cwd e) dir k))
    by (intros; apply read_contents; [reflexivity|exact AC]).
  assert (SC : forall s, stat_of e s (filePath dir k) = match contents s (file_of (e_cwd e) dir k) with Some _ => StExists | None => StNotExist end)
    by (intros; apply stat_contents; [reflexivity|exact AC]).
  set (s1 := set_data s n []).
  assert (C1 : contents s1 (file_of (e_cwd e) dir k) = Some []) by (unfold contents, s1; cbn [f_dir set_data]; rewrite D; cbn; rewrite Nat.eqb_refl; reflexivity).
  destruct b' as [|x b']; [exfalso; exact (NE M')|].
  eexists. split.
  - eapply Dist_call; [reflexivity|]. eapply Dist_call; [reflexivity|]. cbn [w_fs w_ts idle app code].
    eapply Dist_step with (i := 0) (h := How 0); [discriminate|cbn [fstep w_fs w_ts nth_error OnSessionLookup step set_nth]; rewrite SC, C; reflexivity|].
    eapply Dist_step with (i := 0) (h := How 0); [discriminate|cbn [fstep w_fs w_ts nth_error Parse step set_nth]; rewrite RC, C, UM; cbn [sf_creation sf_info sf_lookup]; unfold Save; rewrite M'; reflexivity|].
    eapply Dist_step with (i := 0) (h := How 0); [discriminate|cbn [fstep w_fs w_ts nth_error WriteFile step set_nth]; rewrite FN; change (locate (e_cwd e) (filePath dir k)) with (file_of (e_cwd e) dir k); rewrite D; reflexivity|].
    fold s1.
    eapply Dist_step with (i := 1) (h := How 0); [discriminate|cbn [fstep w_fs w_ts nth_error OnSessionLookup step set_nth]; rewrite SC, C1; reflexivity|].
    eapply Dist_step with (i := 1) (h := How 0); [discriminate|cbn [fstep w_fs w_ts nth_error Parse step set_nth]; rewrite RC, C1, UE; reflexivity|].
    eapply Dist_step with (i := 0) (h := How (length b')); [discriminate|cbn [fstep w_fs w_ts nth_error step set_nth]; reflexivity|].
    rewrite skipn_all2 by (cbn; lia).
    eapply Dist_step with (i := 0) (h := How 0); [discriminate|cbn [fstep w_fs w_ts nth_error step set_nth]; reflexivity|]. apply Dist_0.
  - reflexivity.
Qed.
(* a lookup overlapping with OnSessionClosed brings the session back *)
Theorem overlap_close {I} : forall (c : codec I) norm e dir l s k cr lo i t, faithful c norm -> dir <> [] ->
  runs c e dir empty_fs l s -> Forall (usable e dir) (map fst l) ->
  serve_all c norm no_sessions (map fst l) k = Some (cr, lo, i) -> usable e dir (HLookup (I := I) k t) ->
  exists w, disturbed c e dir works (idle s) [HLookup k t; HClose k] w /\ w_ts w = [Ret (RFound cr lo i); Ret RDone] /\
    forall now r s', usable e dir (HLookup (I := I) k now) -> runs c e dir (w_fs w) [(HLookup k now, r)] s' -> r = RFound cr t i.
Proof.
  intros c norm e dir l s k cr lo i t FA ND R U M UT.
  pose proof (proj2 (serve_runs c norm FA e dir ND l _ _ _ (stores_empty c e dir) R U)) as S.
  pose proof (stores_holds c e dir s _ k S (proj1 UT)) as HO. rewrite M in HO. destruct HO as (b & C & UM).
  destruct UT as (P & AC & T). cbn [hook_key] in *.
  destruct (fa_again _ _ FA _ _ t UM T) as [b' M']. pose proof (never_empty c norm FA _ _ t UM T) as NE. cbn [sf_creation sf_info] in *.
  pose proof (fa_round _ _ FA _ _ M') as RT. cbn in RT. pose proof (fa_norm _ _ FA _ _ UM) as N. cbn in N. rewrite N in RT.
  destruct (f_dir s (file_of (e_cwd e) dir k)) as [n|] eqn:D; [|unfold contents in C; rewrite D in C; discriminate].
  assert (FN : fine e (filePath dir k) = true) by (unfold fine; change (locate (e_cwd e) (filePath dir k)) with (file_of (e_cwd e) dir k); rewrite AC; reflexivity).
  assert (RC : forall s, (if fine e (filePath dir k) then match f_dir s (locate (e_cwd e) (filePath dir k)) with Some n => Some (f_data s n) | None => None end else None) = contents s (file_of (e_cwd e) dir k))
    by (intros; apply read_contents; [reflexivity|exact AC]).
  assert (SC : forall s, stat_of e s (filePath dir k) = match contents s (file_of (e_cwd e) dir k) with Some _ => StExists | None => StNotExist end)
    by (intros; apply stat_contents; [reflexivity|exact AC]).
  set (L := file_of (e_cwd e) dir k) in *. set (s1 := set_dir s L None).
  assert (D1 : f_dir s1 L = None) by (unfold s1; cbn; destruct (loc_eqb_spec L L); congruence).
  set (s2 := set_data (set_dir (MkFs (f_dir s1) (f_data s1) (Datatypes.S (f_next s1))) L (Some (f_next s1))) (f_next s1) []).
  set (s3 := set_data s2 (f_next s1) (splice (f_data s2 (f_next s1)) 0 b')).
  exists (MkWorld s3 [Ret (RFound cr lo i); Ret RDone]). split; [|split; [reflexivity|]].
  - eapply Dist_call; [reflexivity|]. eapply Dist_call; [reflexivity|]. cbn [w_fs w_ts idle app code].
    eapply Dist_step with (i := 0) (h := How 0); [discriminate|cbn [fstep w_fs w_ts nth_error OnSessionLookup step set_nth]; rewrite SC, C; reflexivity|].
    eapply Dist_step with (i := 0) (h := How 0); [discriminate|cbn [fstep w_fs w_ts nth_error Parse step set_nth]; rewrite RC, C, UM; cbn [sf_creation sf_info sf_lookup]; unfold Save; rewrite M'; reflexivity|].
    eapply Dist_step with (i := 1) (h := How 0); [discriminate|cbn [fstep w_fs w_ts nth_error OnSessionClosed step set_nth]; rewrite FN; change (locate (e_cwd e) (filePath dir k)) with L; rewrite D; reflexivity|].
    fold s1.
    eapply Dist_step with (i := 0) (h := How 0); [discriminate|cbn [fstep w_fs w_ts nth_error WriteFile step set_nth]; rewrite FN; change (locate (e_cwd e) (filePath dir k)) with L; rewrite D1; cbv zeta; reflexivity|].
    fold s2. destruct b' as [|x b']; [exfalso; exact (NE M')|].
    eapply Dist_step with (i := 0) (h := How (length b')); [discriminate|cbn [fstep w_fs w_ts nth_error step set_nth]; rewrite firstn_all2 by (cbn; lia); reflexivity|].
    rewrite skipn_all2 by (cbn; lia). fold s3.
    eapply Dist_step with (i := 0) (h := How 0); [discriminate|cbn [fstep w_fs w_ts nth_error step set_nth]; reflexivity|]. apply Dist_0.
  - intros now r s' UL R1. apply runs_one in R1. rewrite (lookup_outcome c norm FA e dir _ _ _ _ _ UL R1).
    fold L. cbn [w_fs]. assert (C3 : contents s3 L = Some b').
    { unfold contents, s3, s2. cbn. destruct (loc_eqb_spec L L); [|congruence]. rewrite !Nat.eqb_refl.
      unfold splice. cbn. rewrite skipn_nil, app_nil_r. reflexivity. }
    rewrite C3. cbn. rewrite RT. reflexivity.
Qed.
