(* Proofs about paths of session files. *)
From Coq Require Import List Arith NArith ZArith Lia Bool.
From Verif Require Import BaseBytes ModelMessage ModelPath ModelFiles SpecFiles.
Import ListNotations.
Open Scope nat_scope.

Lemma bytes_eqb_spec a b : reflect (a = b) (bytes_eqb a b).
Proof.
  revert b. induction a as [|x a IH]; intros [|y b]; cbn; try (constructor; congruence).
  destruct (beq_spec x y) as [->|N]; unfold beq in *; cbn.
  - rewrite (Byte.byte_dec_lb (eq_refl y)). cbn. destruct (IH b) as [->|N]; constructor; congruence.
  - destruct (Byte.eqb x y) eqn:E; [apply Byte.byte_dec_bl in E; contradiction|]. constructor. congruence.
Qed.
Lemma eqb_slash c : reflect (c = slash) (Byte.eqb c slash).
Proof. exact (beq_spec c slash). Qed.

Lemma split_app a b : split (a ++ slash :: b) = split a ++ split b.
Proof.
  induction a as [|c a IH]; cbn [app split]; [reflexivity|]. destruct (eqb_slash c) as [->|N]; [rewrite IH; reflexivity|].
  rewrite IH. destruct (split a) as [|w ws] eqn:E; [|reflexivity].
  exfalso. clear - E. destruct a as [|d a]; [discriminate|]. cbn in E. destruct (Byte.eqb d slash); [discriminate|]. destruct (split a); discriminate.
Qed.
Lemma split_plain a : plain a -> split a = [a].
Proof.
  induction a as [|c a IH]; intros H; [reflexivity|]. cbn [split]. destruct (eqb_slash c) as [->|N]; [exfalso; apply H; left; reflexivity|].
  rewrite IH; [reflexivity|]. intros X. apply H. right. exact X.
Qed.
Lemma split_join cs : cs <> [] -> Forall plain cs -> split (join cs) = cs.
Proof.
  induction cs as [|c cs IH]; intros N F; [congruence|]. inversion F as [|? ? P F']; subst. destruct cs as [|d cs].
  - apply split_plain. exact P.
  - change (join (c :: d :: cs)) with (c ++ slash :: join (d :: cs)). rewrite split_app, IH by (congruence || assumption). rewrite split_plain by assumption. reflexivity.
Qed.
Lemma split_all_plain p : Forall plain (split p).
Proof.
  induction p as [|c p IH]; cbn [split]; [constructor; [intros []|constructor]|].
  destruct (eqb_slash c) as [->|N]; [constructor; [intros []|exact IH]|].
  destruct (split p) as [|w ws]; inversion IH as [|? ? P F]; subst; constructor; try assumption.
  - intros [E|[]]. congruence.
  - intros [E|X]; [congruence|apply P, X].
Qed.

(* cleaning does not change the place that is named *)
Definition tidy (root : bool) (out : list bytes) : Prop :=
  Forall (fun c => plain c /\ c <> [] /\ c <> dot) out /\ (root = true -> ~ In dotdot out) /\
  (forall l1 x l2, out = l1 ++ x :: l2 -> x = dotdot -> Forall (eq dotdot) l2).
Definition walk (l : loc) (cs : list bytes) : loc := fold_left enter cs l.
Lemma enter_name l c : c <> [] -> c <> dot -> c <> dotdot -> enter l c = c :: l.
Proof. intros A B C. unfold enter. destruct (bytes_eqb_spec c []); [contradiction|]. destruct (bytes_eqb_spec c dot); [contradiction|]. destruct (bytes_eqb_spec c dotdot); [contradiction|reflexivity]. Qed.
Lemma enter_skip l c : c = [] \/ c = dot -> enter l c = l.
Proof. intros [->| ->]; reflexivity. Qed.
Lemma enter_up l : enter l dotdot = tl l.
Proof. reflexivity. Qed.

Lemma tidy_step root out c : tidy root out -> plain c -> tidy root (clean_step root out c).
Proof.
  intros (F & R & D) P. unfold clean_step. destruct (bytes_eqb_spec c []) as [|N0]; [repeat split; assumption|].
  destruct (bytes_eqb_spec c dot) as [|N1]; [repeat split; assumption|]. cbn [orb].
  destruct (bytes_eqb_spec c dotdot) as [->|N2].
  - destruct out as [|top out].
    + destruct root; [repeat split; assumption|]. repeat split.
      * constructor; [repeat split; assumption|constructor].
      * discriminate.
      * intros [|y l1] x l2 E X; [injection E as _ <-; constructor|injection E as _ E; destruct l1; discriminate].
    + destruct (bytes_eqb_spec top dotdot) as [->|NT].
      * destruct root; [repeat split; assumption|]. repeat split; [constructor; [repeat split; assumption|exact F]|discriminate|].
        intros [|y l1] x l2 E X; injection E as E1 E2; [|eapply D; eauto].
        subst l2. constructor; [reflexivity|]. apply (D [] dotdot out); reflexivity.
      * inversion F; subst. repeat split; [assumption| |].
        -- intros RT X. apply (R RT). right. exact X.
        -- intros l1 x l2 E X. apply (D (top :: l1) x l2); [cbn; congruence|exact X].
  - repeat split; [constructor; [repeat split; assumption|exact F]| |].
    + intros RT [X|X]; [congruence|apply (R RT X)].
    + intros [|y l1] x l2 E X; injection E as E1 E2; [congruence|eapply D; eauto].
Qed.
Lemma walk_snoc l cs c : walk l (cs ++ [c]) = enter (walk l cs) c.
Proof. unfold walk. rewrite fold_left_app. reflexivity. Qed.
Lemma walk_step root start out c : (root = true -> start = []) -> tidy root out ->
  walk start (rev (clean_step root out c)) = enter (walk start (rev out)) c.
Proof.
  intros S T. unfold clean_step. destruct (bytes_eqb_spec c []) as [->|N0]; [reflexivity|].
  destruct (bytes_eqb_spec c dot) as [->|N1]; [reflexivity|]. cbn [orb].
  destruct (bytes_eqb_spec c dotdot) as [->|N2].
  - destruct out as [|top out].
    + destruct root; [rewrite (S eq_refl); reflexivity|reflexivity].
    + destruct (bytes_eqb_spec top dotdot) as [->|NT].
      * destruct root; [exfalso; apply (proj1 (proj2 T) eq_refl); left; reflexivity|]. cbn [rev]. rewrite !walk_snoc. reflexivity.
      * cbn [rev]. rewrite walk_snoc, enter_up. destruct T as (F & _). inversion F as [|? ? (P & A & B) F']; subst. rewrite enter_name by assumption. reflexivity.
  - cbn [rev]. rewrite walk_snoc. reflexivity.
Qed.
Lemma clean_fold root start cs : forall out, (root = true -> start = []) -> tidy root out -> Forall plain cs ->
  tidy root (fold_left (clean_step root) cs out) /\
  walk start (rev (fold_left (clean_step root) cs out)) = walk (walk start (rev out)) cs.
Proof.
  induction cs as [|c cs IH]; intros out S T F; [split; [exact T|reflexivity]|]. inversion F as [|? ? P F']; subst. cbn [fold_left].
  destruct (IH (clean_step root out c) S (tidy_step _ _ _ T P) F') as [T' W]. split; [exact T'|].
  rewrite W, (walk_step _ _ _ _ S T). reflexivity.
Qed.
Lemma tidy_nil root : tidy root [].
Proof. repeat split; [constructor|intros _ []|intros l1 x l2 E; destruct l1; discriminate]. Qed.
Lemma rooted_join cs : cs <> [] -> Forall (fun c => plain c /\ c <> [] /\ c <> dot) cs -> rooted (join cs) = false.
Proof.
  intros N F. destruct cs as [|c cs]; [congruence|]. inversion F as [|? ? (P & A & B) F']; subst.
  destruct c as [|x c]; [congruence|]. assert (x <> slash) by (intros ->; apply P; left; reflexivity).
  destruct cs; cbn; destruct (eqb_slash x); congruence.
Qed.
Lemma locate_clean cwd p : locate cwd (Clean p) = locate cwd p.
Proof.
  destruct p as [|x p]; [reflexivity|]. unfold Clean. set (q := x :: p). set (root := rooted q).
  set (start := if root then [] else cwd : loc).
  assert (S : root = true -> start = []) by (subst start; intros ->; reflexivity).
  destruct (clean_fold root start (split q) [] S (tidy_nil root) (split_all_plain q)) as [(F & R & D) W].
  cbn [rev] in W. change (walk start []) with start in W. set (out := fold_left (clean_step root) (split q) []) in *.
  assert (FR : Forall (fun c => plain c /\ c <> [] /\ c <> dot) (rev out)) by (apply Forall_rev; exact F).
  assert (FP : Forall plain (rev out)) by (eapply Forall_impl; [|exact FR]; intros a H; apply H).
  assert (LQ : locate cwd q = walk start (split q)) by reflexivity. rewrite LQ, <- W. clear LQ W. clearbody out. unfold locate.
  destruct root eqn:E.
  - cbn [rooted]. change (Byte.eqb slash slash) with true. cbv iota. rewrite (S eq_refl).
    destruct (rev out) as [|c cs] eqn:RO; [reflexivity|].
    change (slash :: join (c :: cs)) with ([] ++ slash :: join (c :: cs)). rewrite split_app, split_join by (congruence || assumption). reflexivity.
  - destruct (rev out) as [|c cs] eqn:RO; [reflexivity|]. rewrite <- RO in *.
    assert (NE : rev out <> []) by congruence. rewrite (rooted_join _ NE FR), (split_join _ NE FP). reflexivity.
Qed.

(* where session files are *)
Lemma locate_file cwd dir key : dir <> [] ->
  file_of cwd dir key = walk (dir_of cwd dir) (split (key ++ suffix)).
Proof.
  intros N. unfold file_of, dir_of, filePath. cbn [Join]. destruct (bytes_eqb_spec dir []) as [|_]; [contradiction|].
  rewrite locate_clean. cbn [join]. unfold locate. rewrite split_app. unfold walk. rewrite fold_left_app.
  replace (rooted (dir ++ slash :: key ++ suffix)) with (rooted dir) by (destruct dir; [congruence|reflexivity]). reflexivity.
Qed.
Lemma plain_suffix key : plain key -> plain (key ++ suffix).
Proof. intros H X. apply in_app_or in X. destruct X as [X|X]; [apply H, X|]. vm_compute in X. intuition discriminate. Qed.
Lemma suffix_name key : plain key -> name_ok (key ++ suffix).
Proof.
  intros H. split; [apply plain_suffix, H|]. repeat split; intros E; apply (f_equal (@length byte)) in E; rewrite app_length in E; cbn in E; lia.
Qed.
Theorem file_inside : forall cwd dir key, dir <> [] -> plain key ->
  file_of cwd dir key = (key ++ suffix) :: dir_of cwd dir.
Proof.
  intros cwd dir key N P. rewrite locate_file by exact N. rewrite split_plain by (apply plain_suffix, P). cbn.
  destruct (suffix_name key P) as (_ & A & B & C). apply enter_name; assumption.
Qed.
Theorem file_distinct : forall cwd dir k1 k2, dir <> [] -> plain k1 -> plain k2 ->
  file_of cwd dir k1 = file_of cwd dir k2 -> k1 = k2.
Proof.
  intros cwd dir k1 k2 N P1 P2 E. rewrite !file_inside in E by assumption. injection E as E. eapply app_inv_tail. exact E.
Qed.
Theorem file_alias : forall cwd dir key, dir <> [] -> file_of cwd dir (dot ++ slash :: key) = file_of cwd dir key.
Proof.
  intros cwd dir key N. rewrite !locate_file by exact N. rewrite <- app_assoc. cbn [app]. 
  change (x2e :: slash :: key ++ suffix) with (dot ++ slash :: (key ++ suffix)). rewrite split_app. reflexivity.
Qed.
Fixpoint ups (n : nat) : bytes := match n with 0 => [] | S n' => dotdot ++ slash :: ups n' end.
Lemma walk_ups : forall n l rest, walk l (split (ups n ++ rest)) = walk (skipn n l) (split rest).
Proof.
  induction n as [|n IH]; intros l rest; [reflexivity|]. cbn [ups]. rewrite <- app_assoc. cbn [app].
  change (x2e :: x2e :: slash :: ups n ++ rest) with (dotdot ++ slash :: (ups n ++ rest)). rewrite split_app.
  change (walk l (split dotdot ++ split (ups n ++ rest))) with (walk (tl l) (split (ups n ++ rest))). rewrite IH.
  destruct l; [destruct n; reflexivity|reflexivity].
Qed.
Lemma walk_names : forall cs l, Forall name_ok cs -> walk l cs = rev cs ++ l.
Proof.
  induction cs as [|c cs IH]; intros l F; [reflexivity|]. inversion F as [|? ? (P & A & B & C) F']; subst.
  change (walk l (c :: cs)) with (walk (enter l c) cs). rewrite enter_name by assumption. rewrite (IH _ F'). cbn [rev]. rewrite <- app_assoc. reflexivity.
Qed.
Lemma join_snoc cs name : Forall name_ok cs -> plain name -> split (join (cs ++ [name]) ++ suffix) = cs ++ [name ++ suffix].
Proof.
  induction cs as [|c cs IH]; intros F P.
  - cbn [app join]. apply split_plain, plain_suffix, P.
  - inversion F as [|? ? O F']; subst. cbn [app]. destruct (cs ++ [name]) as [|d ds] eqn:E; [destruct cs; discriminate|].
    change (join (c :: d :: ds)) with (c ++ slash :: join (d :: ds)). rewrite <- app_assoc. cbn [app]. rewrite split_app, (IH F' P).
    rewrite (split_plain c (proj1 O)). reflexivity.
Qed.
(* every file called something.wwrsess, anywhere, is the file of some key *)
Theorem file_anywhere : forall cwd dir name place, dir <> [] -> plain name -> Forall name_ok place ->
  exists key, file_of cwd dir key = (name ++ suffix) :: place.
Proof.
  intros cwd dir name place N P F. exists (ups (length (dir_of cwd dir)) ++ join (rev place ++ [name])).
  rewrite locate_file by exact N. rewrite <- app_assoc, walk_ups, skipn_all. rewrite join_snoc by (try apply Forall_rev; assumption).
  rewrite walk_names; [|apply Forall_app; split; [apply Forall_rev, F|constructor; [apply suffix_name, P|constructor]]].
  rewrite rev_app_distr, rev_involutive, app_nil_r. reflexivity.
Qed.
Lemma file_alias_ne : forall cwd dir key, dir <> [] ->
  dot ++ slash :: key <> key /\ file_of cwd dir (dot ++ slash :: key) = file_of cwd dir key.
Proof.
  intros cwd dir key N. split; [|apply file_alias, N]. intros E. apply (f_equal (@length byte)) in E. rewrite app_length in E. cbn in E. lia.
Qed.
