(* Data races: C75. The order of locks: C76. *)
From Coq Require Import List Arith Bool Lia.
From Verif Require Import BaseConc ModelAccess SpecAccess ProofAccess ProofAccess2 ProofAccess3 ProofAccess4 ProofAccess5 ProofAccess6.
Import ListNotations.
Open Scope nat_scope.

(* whatever is called, from wherever: no two goroutines are about to write one field *)
Theorem C75_writes : forall p s x, areach p s -> ~ write_race s x.
Proof. exact write_race_free. Qed.
Print Assumptions C75_writes.
(* two Close calls about to write con.isActive one after the other: the second waits for the lock *)
Example C75_writes_case : exists s, areach free s /\ about s 0 (Wr (IsActive, 0)) /\ waits_for s 1 (StateLock, 0).
Proof.
  set (ms := [Call (CClose 0 0); Call (CClose 0 0)] ++ repeat (Go 0) 4 ++ [Go2 0] ++ repeat (Go 0) 1 ++ repeat (Go 1) 1).
  destruct (turns new_state ms) as [s|] eqn:E; [|vm_compute in E; discriminate].
  exists s. split; [|split].
  - eapply turns_reach; [constructor| |exact E]. unfold ms; vm_compute; tauto.
  - vm_compute in E. injection E as <-. eexists; reflexivity.
  - vm_compute in E. injection E as <-. left. split; [eexists; reflexivity|reflexivity].
Qed.

(* no races on other fields than con.session (below) and the bytes of buffers of the in-memory transport
   (PropsBytes: that needs the order of channel operations) *)
Theorem C75_races_partial : forall p s x, fst x <> Session -> fst x <> BufData -> areach p s -> ~ race s x.
Proof. exact race_free. Qed.
Print Assumptions C75_races_partial.
(* IsActive about to read what Close has just written, and Close past its lock *)
Example C75_races_case : exists s, areach free s /\ about s 1 (Rd (IsActive, 0)) /\ st_locks s (StateLock, 0) = (false, 1).
Proof.
  set (ms := [Call (CClose 0 0); Call (CIsActive 0)] ++ repeat (Go 0) 4 ++ [Go2 0] ++ repeat (Go 0) 6 ++ repeat (Go 1) 3).
  destruct (turns new_state ms) as [s|] eqn:E; [|vm_compute in E; discriminate].
  exists s. split; [|split].
  - eapply turns_reach; [constructor| |exact E]. unfold ms; vm_compute; tauto.
  - vm_compute in E. injection E as <-. eexists; reflexivity.
  - vm_compute in E. injection E as <-. reflexivity.
Qed.

(* con.session: CreateSession, Close and handlers read it without its lock *)
Theorem C75_session_partial : forall p s c, (forall q, p_call p q \/ p_inner p q -> careful c q) -> areach p s -> ~ race s (Session, c).
Proof. exact session_race_free. Qed.
Print Assumptions C75_session_partial.
Example C75_session_case : exists p s, (forall q, p_call p q \/ p_inner p q -> careful 0 q) /\ areach p s /\
  about s 0 (Wr (Session, 0)) /\ waits_for s 1 (SessionLock, 0) /\ about s 2 (Lk (OpsLock, 0)).
Proof.
  exists (MkPolicy (fun q => careful 0 q) (fun q => careful 0 q) True).
  set (ms := [Call (CCloseSession 0 0); Call (CHasSession 0); Call CShutdown] ++ repeat (Go 0) 4 ++ [Go2 0] ++ repeat (Go 0) 3 ++ [Go2 0] ++ repeat (Go 0) 6 ++ [Go 0; Go 0] ++ repeat (Go 0) 10 ++ [Go 1; Go 2]).
  destruct (turns new_state ms) as [s|] eqn:E; [|vm_compute in E; discriminate].
  exists s. split; [intros q [H|H]; exact H|]. split; [|repeat split].
  - eapply turns_reach; [constructor| |exact E]. unfold ms; vm_compute; tauto.
  - vm_compute in E. injection E as <-. eexists; reflexivity.
  - vm_compute in E. injection E as <-. right. split; [eexists; reflexivity|reflexivity].
  - vm_compute in E. injection E as <-. eexists; reflexivity.
Qed.
(* the unchanged code: Close, CreateSession and a request to restore a session race with CloseSession *)
Theorem C75_session_refuted :
  (exists s, areach (only [CCloseSession 0 0; CClose 0 0]) s /\ race s (Session, 0)) /\
  (exists s, areach (only [CCloseSession 0 0; CCreateSession 0 0]) s /\ race s (Session, 0)) /\
  (exists s, areach (only [CCloseSession 0 0; CHandleConnection 0 0]) s /\ race s (Session, 0)).
Proof.
  split; [|split].
  - set (ms := [Call (CCloseSession 0 0); Call (CClose 0 0)]
      ++ repeat (Go 0) 4 ++ [Go2 0] ++ repeat (Go 0) 3 ++ [Go2 0] ++ repeat (Go 0) 18
      ++ repeat (Go 1) 4 ++ [Go2 1] ++ repeat (Go 1) 6 ++ [Go2 1] ++ repeat (Go 1) 2).
    destruct (turns new_state ms) as [s|] eqn:E; [|vm_compute in E; discriminate].
    exists s. split; [eapply turns_reach; [constructor| |exact E]; unfold ms; vm_compute; tauto|].
    vm_compute in E. injection E as <-. exists 0, 1. split; [lia|]. split; [|left]; eexists; reflexivity.
  - set (ms := [Call (CCreateSession 0 0); Call (CCloseSession 0 0)]
      ++ repeat (Go 0) 2 ++ [Go2 0] ++ repeat (Go 0) 7
      ++ repeat (Go 1) 4 ++ [Go2 1] ++ repeat (Go 1) 3 ++ [Go2 1] ++ repeat (Go 1) 18).
    destruct (turns new_state ms) as [s|] eqn:E; [|vm_compute in E; discriminate].
    exists s. split; [eapply turns_reach; [constructor| |exact E]; unfold ms; vm_compute; tauto|].
    vm_compute in E. injection E as <-. exists 1, 0. split; [lia|]. split; [|left]; eexists; reflexivity.
  - set (s0 := MkState (fun _ => (false, 0)) [[code_of (CHandleConnection 0 0)]; [code_of (CCloseSession 0 0)]]).
    set (m0 := firstn 93 (plan 300 s0 0 [false; true; true; true; false; true; true; true; false; false; true; true; true; false; true; false; true; true])).
    set (ms := [Call (CHandleConnection 0 0); Call (CCloseSession 0 0)] ++ m0 ++ repeat (Go 1) 4 ++ [Go2 1] ++ repeat (Go 1) 3 ++ [Go2 1] ++ repeat (Go 1) 6 ++ [Go2 1; Go 1; Go 1] ++ repeat (Go 0) 4).
    destruct (turns new_state ms) as [s|] eqn:E; [|vm_compute in E; discriminate].
    exists s. split; [eapply turns_reach; [constructor| |exact E]; unfold ms, m0; vm_compute; tauto|].
    vm_compute in E. injection E as <-. exists 1, 0. split; [lia|]. split; [|left]; eexists; reflexivity.
Qed.
Print Assumptions C75_session_refuted.

(* no lock is released that is not held: that would end the program, and no recover could prevent it *)
Theorem C75_unlock : forall p s i, areach p s -> ~ fatal s i.
Proof. exact fatal_free. Qed.
Print Assumptions C75_unlock.
Example C75_unlock_case : exists s, areach free s /\ about s 0 (Ul (StateLock, 0)) /\ st_locks s (StateLock, 0) = (true, 0).
Proof.
  set (ms := [Call (CClose 0 0)] ++ repeat (Go 0) 5).
  destruct (turns new_state ms) as [s|] eqn:E; [|vm_compute in E; discriminate].
  exists s. split; [eapply turns_reach; [constructor| |exact E]; unfold ms; vm_compute; tauto|].
  vm_compute in E. injection E as <-. split; [eexists; reflexivity|reflexivity].
Qed.

(* locks are no obstacle: in every state the goroutines can all finish without further calls, if channel operations
   do not hold them up, and then no lock is taken *)
Theorem C76_finish_partial : forall p s, (forall q, p_inner p q -> light q) -> ~ p_empty p -> areach p s ->
  exists s', onward p s s' /\ (forall i, ~ unfinished s' i) /\ forall l, st_locks s' l = (false, 0).
Proof. exact polite_finish. Qed.
Print Assumptions C76_finish_partial.
Theorem C76_free_partial : forall p s, (forall q, p_inner p q -> light q) -> ~ p_empty p -> areach p s -> (forall i, ~ unfinished s i) ->
  forall l, st_locks s l = (false, 0).
Proof. exact polite_free. Qed.
Print Assumptions C76_free_partial.
(* CreateSession's key generator signals while the session is locked; another call waits for that lock *)
Example C76_finish_case : exists p s, (forall q, p_inner p q -> light q) /\ ~ p_empty p /\ areach p s /\
  st_locks s (SessionLock, 0) = (true, 0) /\ st_locks s (WriterLock, 0) = (true, 0) /\ waits_for s 1 (SessionLock, 0).
Proof.
  exists (MkPolicy (fun _ => True) light False).
  set (ms := [Call (CCreateSession 0 0); Call (CHasSession 0)] ++ repeat (Go 0) 2 ++ [Go2 0] ++ repeat (Go 0) 4 ++ [Go2 0; Go 0; GoHook 0 (CSignal 0 0); Go2 0; Go 0; Go 0; Go 1]).
  destruct (turns new_state ms) as [s|] eqn:E; [|vm_compute in E; discriminate].
  exists s. split; [intros q H; exact H|]. split; [intros []|].
  split; [eapply turns_reach; [constructor| |exact E]; unfold ms; vm_compute; tauto|].
  vm_compute in E. injection E as <-. split; [reflexivity|]. split; [reflexivity|]. right. split; [eexists; reflexivity|reflexivity].
Qed.
(* the unchanged code: OnSessionClosed asking the connection for its session waits for ever, and so does
   everything else that needs it *)
Theorem C76_hook_refuted : exists p s, (forall q, p_call p q -> q = CCloseSession 0 0 \/ q = CHasSession 0) /\ (forall q, p_inner p q -> q = CHasSession 0) /\ ~ p_empty p /\
  areach p s /\ forall s', later p s s' -> waits_for s' 0 (SessionLock, 0) /\ forall i, about s' i (Lk (SessionLock, 0)) \/ about s' i (RLk (SessionLock, 0)) -> waits_for s' i (SessionLock, 0).
Proof.
  set (p := MkPolicy (fun q => q = CCloseSession 0 0 \/ q = CHasSession 0) (fun q => q = CHasSession 0) False).
  set (ms := [Call (CCloseSession 0 0)] ++ repeat (Go 0) 4 ++ [Go2 0] ++ repeat (Go 0) 3 ++ [Go2 0] ++ repeat (Go 0) 16 ++ [GoHook 0 (CHasSession 0); Go 0]).
  destruct (turns new_state ms) as [s|] eqn:E; [|vm_compute in E; discriminate].
  assert (areach p s) as R by (eapply turns_reach; [constructor| |exact E]; unfold ms; vm_compute; tauto).
  exists p, s. split; [intros q H; exact H|]. split; [intros q H; exact H|]. split; [intros []|]. split; [exact R|].
  intros s' La.
  assert (exists k, nth_error (st_threads s) 0 = Some (Do (RLk (SessionLock, 0)) :: k)) as [k Hk] by (vm_compute in E; injection E as <-; eexists; reflexivity).
  destruct (for_good p s s' 0 (Do (RLk (SessionLock, 0)) :: k) (SessionLock, 0) R Hk) as [A B]; auto.
  - right; eauto.
  - vm_compute in E. injection E as <-. reflexivity.
  - vm_compute in E. injection E as <-. reflexivity.
  - unfold waits_for. cbn. rewrite B. split; [right; split; [exists k; exact A|reflexivity]|intros i [H|H]; auto].
Qed.
Print Assumptions C76_hook_refuted.
(* the unchanged code: whoever closes a writer without having written keeps everybody else from writing *)
Theorem C76_empty_refuted : exists p s, (forall q, p_call p q -> q = CWrite 0) /\ (forall q, ~ p_inner p q) /\
  areach p s /\ (forall i, ~ unfinished s i) /\ forall s', later p s s' -> forall i, about s' i (Lk (WriterLock, 0)) -> waits_for s' i (WriterLock, 0).
Proof.
  set (p := MkPolicy (fun q => q = CWrite 0) (fun _ => False) True).
  set (ms := [Call (CWrite 0)] ++ repeat (Go 0) 4 ++ [Go2 0] ++ repeat (Go 0) 7).
  destruct (turns new_state ms) as [s|] eqn:E; [|vm_compute in E; discriminate].
  assert (areach p s) as R by (eapply turns_reach; [constructor| |exact E]; unfold ms; vm_compute; tauto).
  exists p, s. split; [intros q H; exact H|]. split; [intros q []|]. split; [exact R|]. split.
  - intros i (c & k & H). vm_compute in E. injection E as <-. destruct i as [|[|i]]; discriminate.
  - intros s' La i H.
    destruct (for_good p s s' 0 [] (WriterLock, 0) R) as [A B]; auto.
    + vm_compute in E. injection E as <-. reflexivity.
    + left; reflexivity.
    + vm_compute in E. injection E as <-. reflexivity.
    + vm_compute in E. injection E as <-. reflexivity.
    + left. split; auto. cbn. rewrite B. reflexivity.
Qed.
Print Assumptions C76_empty_refuted.

(* which locks and fields a call, or a goroutine the library starts, can come to use *)
Theorem C75_accesses : forall q a, (exists s i, areach (only [q]) s /\ about s i a) <-> does q a.
Proof. intros q a. rewrite does_occurs. apply table. Qed.
Print Assumptions C75_accesses.
Example C75_accesses_case : does (CClose 3 5) (Wr (IsActive, 3)) /\ does (CClose 3 5) (Lk (ReaderLock, 4)) /\ ~ does (CClose 3 5) (Wr (IsActive, 4)).
Proof.
  split; [cbn; tauto|]. split; [cbn; tauto|]. cbn. intros H. repeat (destruct H as [H|H]; [discriminate|]). exact H.
Qed.
