(* Property C22: the weighted semaphore that limits concurrent handlers, for every interleaving of
   Acquire, TryAcquire and Release calls with weights >= 0. *)
From Coq Require Import List Arith ZArith Lia.
From Verif Require Import BaseConc ModelSemaphore SpecSemaphore ProofSemaphore ProofSemaphore2.
Import ListNotations.
Open Scope nat_scope.

(* C22: the weight granted and not handed back never exceeds the size *)
Theorem C22_never_over_admits size s : (0 <= size)%Z -> sreach size nonneg s -> (held s <= size)%Z.
Proof. exact (never_over size s). Qed.
Print Assumptions C22_never_over_admits.

(* C22: Release of more than what is held panics, any other Release returns *)
Theorem C22_release_panics_iff size s i n : (0 <= size)%Z -> sreach size nonneg s ->
  nth_error (s_threads s) i = Some (Re0 n) ->
  exists s', sstep s (SvStep i SeRun) = Some s' /\
    ((held s < n)%Z -> nth_error (s_threads s') i = Some (ReP n)) /\
    ((n <= held s)%Z -> nth_error (s_threads s') i = Some (ReR n)).
Proof. exact (release_panics size s i n). Qed.
Print Assumptions C22_release_panics_iff.

(* C22: Acquire succeeds at once exactly when the weight fits and nobody waits; otherwise it queues
   up, unless the weight exceeds the size *)
Theorem C22_acquire size s i n : (0 <= size)%Z -> sreach size nonneg s ->
  nth_error (s_threads s) i = Some (Ac0 n) ->
  exists s' t', sstep s (SvStep i SeRun) = Some s' /\ nth_error (s_threads s') i = Some t' /\
    (t' = AcR n true <-> (n <= size - held s)%Z /\ forall j m, ~ waits s j m) /\
    (t' <> AcR n true -> held s' = held s /\ (n <= size -> waits s' i n /\ s_arrived s' = s_arrived s ++ [i])%Z /\ (size < n -> t' = AcD n)%Z).
Proof. exact (acquire_immediately size s i n). Qed.
Print Assumptions C22_acquire.

(* C22: TryAcquire likewise, and it takes the weight exactly when it returns true *)
Theorem C22_try_acquire size s i n : (0 <= size)%Z -> sreach size nonneg s ->
  nth_error (s_threads s) i = Some (Tr0 n) ->
  exists s' b, sstep s (SvStep i SeRun) = Some s' /\ nth_error (s_threads s') i = Some (TrR n b) /\
    (b = true <-> (n <= size - held s)%Z /\ forall j m, ~ waits s j m) /\
    held s' = (held s + if b then n else 0)%Z.
Proof. exact (try_acquire_exact size s i n). Qed.
Print Assumptions C22_try_acquire.

(* C22: waiters are let in in the order of arrival *)
Theorem C22_fifo size s a b : (0 <= size)%Z -> sreach size nonneg s ->
  before (s_arrived s) a b -> let_in s b -> forall n, ~ waits s a n.
Proof. exact (fifo size s a b). Qed.
Print Assumptions C22_fifo.

(* C22: without cancellations, the first waiter never fits *)
Theorem C22_no_lost_wakeup size s i n : (0 <= size)%Z -> sreach size no_cancel s -> ~ panicked s -> waits s i n ->
  (forall a m, before (s_arrived s) a i -> ~ waits s a m) -> (size - held s < n)%Z.
Proof. exact (no_lost_wakeup size s i n). Qed.
Print Assumptions C22_no_lost_wakeup.

(* C22: ... so nobody waits while nothing is held *)
Theorem C22_idle size s : (0 <= size)%Z -> sreach size no_cancel s -> ~ panicked s -> held s = 0%Z ->
  forall i n, ~ waits s i n.
Proof. exact (idle_no_waiters size s). Qed.
Print Assumptions C22_idle.

(* C22: with equal weights, as in this library (weight 1), cancellations do no harm either *)
Theorem C22_no_lost_wakeup_uniform size w s i n : (0 <= size)%Z -> (0 <= w)%Z ->
  sreach size (uniform w) s -> ~ panicked s -> waits s i n -> (size - held s < w)%Z.
Proof. exact (uniform_no_lost size w s i n). Qed.
Print Assumptions C22_no_lost_wakeup_uniform.

(* C22: a cancelled Acquire fails, takes nothing, and leaves all others as they were *)
Theorem C22_cancel size s i n : (0 <= size)%Z -> sreach size nonneg s ->
  nth_error (s_threads s) i = Some (AcC n false) ->
  exists s', sstep s (SvStep i SeRun) = Some s' /\ nth_error (s_threads s') i = Some (AcR n false) /\ held s' = held s /\
    (forall j t, j <> i -> nth_error (s_threads s') j = Some t <-> nth_error (s_threads s) j = Some t) /\
    (forall j m, waits s' j m <-> waits s j m /\ j <> i) /\
    (forall j m, In (j, m) (s_waiters s') <-> In (j, m) (s_waiters s) /\ j <> i).
Proof. exact (cancel_exact size s i n). Qed.
Print Assumptions C22_cancel.

(* C22: threads are the calls made, in order; Acquire makes at most three steps, TryAcquire and Release one *)
Theorem C22_calls size es s : srun (NewWeighted size) es = Some s -> map call_of (s_threads s) = calls es.
Proof. exact (all_calls size es s). Qed.
Print Assumptions C22_calls.
Theorem C22_steps s es s' i t : srun s es = Some s' -> nth_error (s_threads s) i = Some t -> steps_of i es <= most (call_of t).
Proof. exact (few_steps s es s' i t). Qed.
Print Assumptions C22_steps.
(* C22: calls return when their context is done; without it only waiters and Acquire of more than the size wait *)
Theorem C22_returns s i t : nth_error (s_threads s) i = Some t -> returned t = false ->
  (exists s', sstep s (SvStep i SeCtx) = Some s') \/ (exists s', sstep s (SvStep i SeRun) = Some s').
Proof. exact (who_waits s i t). Qed.
Print Assumptions C22_returns.
Theorem C22_waiting s i t : nth_error (s_threads s) i = Some t -> returned t = false ->
  ((forall s', sstep s (SvStep i SeRun) <> Some s') <-> exists n, t = AcD n \/ t = AcW n false).
Proof. exact (who_waits_on s i t). Qed.
Print Assumptions C22_waiting.

(* C22 at full strength is false: when the first waiter is cancelled, those behind it that fit
   are not woken up. Size 2; 1 is held; a waiter for 2 is cancelled; a waiter for 1 stays. *)
Definition lost : list sevent :=
  [SvCall (CallAcquire 1); SvStep 0 SeRun; SvCall (CallAcquire 2); SvStep 1 SeRun; SvCall (CallAcquire 1); SvStep 2 SeRun;
   SvStep 1 SeCtx; SvStep 1 SeRun].
Theorem C22_lost_wakeup_refuted : exists s i n, sreach 2 nonneg s /\ ~ panicked s /\ waits s i n /\
  (forall a m, before (s_arrived s) a i -> ~ waits s a m) /\ (n <= 2 - held s)%Z.
Proof.
  destruct (srun (NewWeighted 2) lost) as [s|] eqn:E; [|vm_compute in E; discriminate].
  exists s, 2, 1%Z. split.
  - eapply srun_reach; [constructor| |exact E]. intros x e He. cbn in He.
    repeat (destruct He as [<-|He]; [cbn; solve [lia|exact I]|]). destruct He.
  - vm_compute in E. injection E as <-. split; [|split; [left; reflexivity|split; [|vm_compute; discriminate]]].
    + intros (i & n & H). cbn in H. do 3 (destruct i as [|i]; [discriminate|]). destruct i; discriminate.
    + intros a m (l1 & l2 & l3 & H) W. cbn in H.
      assert (a = 1).
      { destruct l1 as [|x1 [|x2 l1]]; cbn in H; [congruence| |]; apply (f_equal (@length nat)) in H; cbn in H; rewrite ?app_length in H; cbn in H; rewrite ?app_length in H; cbn in H; lia. }
      subst a. destruct W as [W|W]; discriminate.
Qed.
Print Assumptions C22_lost_wakeup_refuted.

(* concrete case: size 3; A takes 2, B waits for 2, C waits for 1; when A is done, B and C are let in *)
Definition demo : list sevent :=
  [SvCall (CallAcquire 2); SvCall (CallAcquire 2); SvCall (CallAcquire 1); SvStep 0 SeRun; SvStep 1 SeRun; SvStep 2 SeRun].
Example demo_waiting : option_map (fun s => (s_threads s, held s, s_arrived s)) (srun (NewWeighted 3) demo)
  = Some ([AcR 2 true; AcW 2 false; AcW 1 false], 2%Z, [1; 2]).
Proof. vm_compute. reflexivity. Qed.
Example demo_released : option_map (fun s => (s_threads s, held s)) (srun (NewWeighted 3) (demo ++ [SvCall (CallRelease 2); SvStep 3 SeRun]))
  = Some ([AcR 2 true; AcW 2 true; AcW 1 true; ReR 2], 3%Z).
Proof. vm_compute. reflexivity. Qed.
Example demo_policy : forall s e, In e (demo ++ [SvCall (CallRelease 2); SvStep 3 SeRun]) -> no_cancel s e.
Proof.
  intros s e H. cbn in H. repeat (destruct H as [<-|H]; [split; [cbn; solve [lia|exact I]|exact I]|]). destruct H.
Qed.
(* a cancelled Acquire makes three steps, the others one; a call for more than the size waits for its context *)
Example C22_steps_case : exists s, srun (NewWeighted 2) (lost ++ [SvCall (CallTryAcquire 1); SvStep 3 SeRun; SvCall (CallAcquire 9); SvStep 4 SeRun]) = Some s /\
  map call_of (s_threads s) = [CallAcquire 1; CallAcquire 2; CallAcquire 1; CallTryAcquire 1; CallAcquire 9] /\
  s_threads s = [AcR 1 true; AcR 2 false; AcW 1 false; TrR 1 false; AcD 9] /\ steps_of 1 lost = 3.
Proof. eexists. split; [vm_compute; reflexivity|]. repeat split; reflexivity. Qed.
