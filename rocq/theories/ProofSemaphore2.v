(* The semaphore: calls and their steps. *)
From Coq Require Import List Arith ZArith Lia Bool.
From Verif Require Import BaseConc ModelMessage ModelSemaphore SpecSemaphore.
Import ListNotations.
Open Scope nat_scope.

Lemma set_nth_map {A B} (f : A -> B) (l : list A) i x y : nth_error l i = Some y -> f x = f y -> map f (set_nth l i x) = map f l.
Proof.
  revert i. induction l as [|a l IH]; intros [|i] H E; cbn in *; try discriminate; [injection H as ->; congruence|]. rewrite IH; auto.
Qed.
Lemma wake_calls ts t : map call_of (wake ts t) = map call_of ts.
Proof. unfold wake. destruct (nth_error ts t) as [[]|] eqn:E; try reflexivity; (eapply set_nth_map; [exact E|reflexivity]). Qed.
Lemma admit_calls ws : forall size cur ts, map call_of (snd (admit_waiters size cur ws ts)) = map call_of ts.
Proof.
  induction ws as [|[t n] ws IH]; intros size cur ts; cbn; [reflexivity|]. destruct (_ <? _)%Z; [reflexivity|]. rewrite IH. apply wake_calls.
Qed.
Lemma thread_calls s i t c s' : nth_error (s_threads s) i = Some t -> sthread_step s i t c = Some s' -> map call_of (s_threads s') = map call_of (s_threads s).
Proof.
  intros I H.
  assert (G : forall t', call_of t' = call_of t -> map call_of (set_nth (s_threads s) i t') = map call_of (s_threads s)) by (intros t' E; eapply set_nth_map; eauto).
  destruct t, c; cbn in H; try discriminate H;
    repeat match type of H with
    | context [if ?b then _ else _] => destruct b
    | context [match ?b with true => _ | false => _ end] => destruct b
    end; try discriminate H; try (injection H as <-; apply G; reflexivity).
  destruct (admit_waiters _ _ _ _) as [[cur ws] ts] eqn:E. injection H as <-. cbn. pose proof (admit_calls (s_waiters s) (s_size s) (s_cur s - n) (set_nth (s_threads s) i (ReR n))) as A.
  rewrite E in A. cbn in A. rewrite A. apply G. reflexivity.
Qed.
Lemma step_calls s e s' : sstep s e = Some s' -> map call_of (s_threads s') = map call_of (s_threads s) ++ calls [e].
Proof.
  destruct e as [c|i c]; cbn.
  - intros H. injection H as <-. cbn. rewrite map_app. destruct c; reflexivity.
  - destruct (nth_error (s_threads s) i) as [t|] eqn:I; [|discriminate]. intros H. rewrite app_nil_r. eapply thread_calls; eauto.
Qed.
Lemma run_calls es : forall s s', srun s es = Some s' -> map call_of (s_threads s') = map call_of (s_threads s) ++ calls es.
Proof.
  induction es as [|e es IH]; intros s s' H; cbn in H.
  - injection H as <-. cbn. rewrite app_nil_r. reflexivity.
  - destruct (sstep s e) as [s1|] eqn:E; [|discriminate]. rewrite (IH _ _ H), (step_calls _ _ _ E), <- app_assoc. f_equal.
    unfold calls. cbn. rewrite app_nil_r. reflexivity.
Qed.
Theorem all_calls size es s : srun (NewWeighted size) es = Some s -> map call_of (s_threads s) = calls es.
Proof. intros H. exact (run_calls es _ _ H). Qed.

(* steps *)
Definition left_ (t : sthread) : nat :=
  match t with Ac0 _ => 3 | AcD _ => 1 | AcW _ _ => 2 | AcC _ _ => 1 | AcR _ _ => 0 | Tr0 _ => 1 | TrR _ _ => 0 | Re0 _ => 1 | ReR _ | ReP _ => 0 end.
Lemma left_most t : left_ t <= most (call_of t).
Proof. destruct t; cbn; lia. Qed.
Lemma wake_left ts x i t : nth_error ts i = Some t -> exists t', nth_error (wake ts x) i = Some t' /\ left_ t' = left_ t.
Proof.
  intros I. unfold wake. destruct (Nat.eq_dec i x) as [->|N].
  - rewrite I. destruct t; eauto; (eexists; split; [eapply set_nth_eq; eauto|reflexivity]).
  - destruct (nth_error ts x) as [[]|] eqn:E; eauto; (exists t; rewrite set_nth_ne by auto; auto).
Qed.
Lemma admit_left ws : forall size cur ts i t, nth_error ts i = Some t -> exists t', nth_error (snd (admit_waiters size cur ws ts)) i = Some t' /\ left_ t' = left_ t.
Proof.
  induction ws as [|[x n] ws IH]; intros size cur ts i t I; cbn; [eauto|]. destruct (_ <? _)%Z; [cbn; eauto|].
  destruct (wake_left ts x i t I) as (t1 & I1 & E1). destruct (IH size (cur + n)%Z _ _ _ I1) as (t2 & I2 & E2). exists t2. split; [exact I2|congruence].
Qed.
Lemma thread_left s i t c s' : nth_error (s_threads s) i = Some t -> sthread_step s i t c = Some s' ->
  (exists t', nth_error (s_threads s') i = Some t' /\ left_ t' < left_ t) /\
  forall j u, j <> i -> nth_error (s_threads s) j = Some u -> exists u', nth_error (s_threads s') j = Some u' /\ left_ u' = left_ u.
Proof.
  intros I H.
  assert (G : forall t', left_ t' < left_ t -> (exists t'', nth_error (set_nth (s_threads s) i t') i = Some t'' /\ left_ t'' < left_ t) /\
     forall j u, j <> i -> nth_error (s_threads s) j = Some u -> exists u', nth_error (set_nth (s_threads s) i t') j = Some u' /\ left_ u' = left_ u).
  { intros t' L. split; [exists t'; split; [eapply set_nth_eq; eauto|exact L]|]. intros j u N J. exists u. rewrite set_nth_ne by auto. auto. }
  destruct t, c; cbn in H; try discriminate H;
    repeat match type of H with
    | context [if ?b then _ else _] => destruct b
    | context [match ?b with true => _ | false => _ end] => destruct b
    end; try discriminate H; try (injection H as <-; apply G; cbn; lia).
  destruct (admit_waiters _ _ _ _) as [[cur ws] ts] eqn:E. injection H as <-. cbn [s_threads sset].
  destruct (G (ReR n) ltac:(cbn; lia)) as [(t1 & I1 & L1) G2].
  pose proof (admit_left (s_waiters s) (s_size s) (s_cur s - n) (set_nth (s_threads s) i (ReR n))) as A. rewrite E in A. cbn [snd] in A. split.
  - destruct (A _ _ I1) as (t2 & I2 & L2). exists t2. split; [exact I2|lia].
  - intros j u N J. destruct (G2 j u N J) as (u1 & J1 & E1). destruct (A _ _ J1) as (u2 & J2 & E2). exists u2. split; [exact J2|congruence].
Qed.
Lemma steps_cons i e es : steps_of i (e :: es) = (match e with SvStep j _ => if j =? i then 1 else 0 | _ => 0 end) + steps_of i es.
Proof. unfold steps_of. cbn [filter]. destruct e as [|j c]; [reflexivity|]. destruct (j =? i); reflexivity. Qed.
Lemma run_left es : forall s s' i t, srun s es = Some s' -> nth_error (s_threads s) i = Some t -> steps_of i es <= left_ t.
Proof.
  induction es as [|e es IH]; intros s s' i t H I; [apply Nat.le_0_l|]. cbn [srun] in H. destruct (sstep s e) as [s1|] eqn:E; [|discriminate].
  rewrite steps_cons. destruct e as [c|j c]; cbn in E.
  - injection E as <-. eapply IH; [exact H|]. cbn. rewrite nth_error_app1; [exact I|]. apply nth_error_Some. congruence.
  - destruct (nth_error (s_threads s) j) as [u|] eqn:J; [|discriminate]. destruct (thread_left _ _ _ _ _ J E) as [(u' & J' & L) O].
    destruct (Nat.eqb_spec j i) as [->|N].
    + assert (u = t) by congruence. subst u. pose proof (IH _ _ _ _ H J'). lia.
    + destruct (O i t ltac:(auto) I) as (t' & I' & El). pose proof (IH _ _ _ _ H I'). lia.
Qed.
Theorem few_steps s es s' i t : srun s es = Some s' -> nth_error (s_threads s) i = Some t -> steps_of i es <= most (call_of t).
Proof. intros H I. pose proof (run_left _ _ _ _ _ H I). pose proof (left_most t). lia. Qed.
(* who waits *)
Theorem who_waits s i t : nth_error (s_threads s) i = Some t -> returned t = false ->
  (exists s', sstep s (SvStep i SeCtx) = Some s') \/ (exists s', sstep s (SvStep i SeRun) = Some s').
Proof.
  intros I N. cbn. rewrite I. destruct t as [n|n|n r|n r|n ok|n|n ok|n|n|n]; try discriminate N; cbn.
  - right. destruct (_ && _); [eauto|]. destruct (_ >? _)%Z; eauto.
  - left. eauto.
  - left. destruct r; eauto.
  - right. destruct r; eauto.
  - right. destruct (_ && _); eauto.
  - right. destruct (_ <? 0)%Z; [eauto|]. destruct (admit_waiters _ _ _ _) as [[cur ws] ts]. eauto.
Qed.
Theorem who_waits_on s i t : nth_error (s_threads s) i = Some t -> returned t = false ->
  ((forall s', sstep s (SvStep i SeRun) <> Some s') <-> exists n, t = AcD n \/ t = AcW n false).
Proof.
  intros I N. cbn. rewrite I. split.
  - intros H. destruct t as [n|n|n r|n r|n ok|n|n ok|n|n|n]; try discriminate N; cbn in H.
    + exfalso. destruct (_ && _); [eapply H; reflexivity|]. destruct (_ >? _)%Z; eapply H; reflexivity.
    + eauto.
    + destruct r; [exfalso; eapply H; reflexivity|eauto].
    + exfalso. destruct r; eapply H; reflexivity.
    + exfalso. destruct (_ && _); eapply H; reflexivity.
    + exfalso. destruct (_ <? 0)%Z; [eapply H; reflexivity|]. destruct (admit_waiters _ _ _ _) as [[cur ws] ts]. eapply H; reflexivity.
  - intros (n & [->| ->]) s'; cbn; discriminate.
Qed.
