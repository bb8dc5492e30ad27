(* Data races, and locks that are waited for. *)
From Coq Require Import List Arith Bool.
From Verif Require Import BaseConc ModelAccess.
Import ListNotations.
Open Scope nat_scope.

Inductive areach (p : policy) : state -> Prop :=
| AR_new : areach p new_state
| AR_step s s' : areach p s -> step p s s' -> areach p s'.
(* anything goes *)
Definition free : policy := MkPolicy (fun _ => True) (fun _ => True) True.

(* goroutine i is about to do a *)
Definition about (s : state) (i : nat) (a : act) : Prop := exists k, nth_error (st_threads s) i = Some (Do a :: k).
(* two goroutines are about to access x at once, not both with sync/atomic, one to write it *)
Definition race (s : state) (x : field) : Prop := exists i j, i <> j /\ about s i (Wr x) /\ (about s j (Rd x) \/ about s j (Wr x) \/ about s j (At x)).
Definition write_race (s : state) (x : field) : Prop := exists i j, i <> j /\ about s i (Wr x) /\ about s j (Wr x).
(* goroutine i would end the program: it is about to unlock what is not locked *)
Definition fatal (s : state) (i : nat) : Prop := exists l, (about s i (Ul l) \/ about s i (RUl l)) /\
  match st_locks s l with (true, _) => about s i (RUl l) | (false, n) => n = 0 \/ about s i (Ul l) end.
(* the session calls on connection c that are careful about its session *)
Definition careful (c : nat) (q : call) : Prop :=
  match q with
  | CCreateSession c' _ | CClose c' _ | CHandleConnection c' _ | CHandleSignal c' _ | CHandleRequest c' _ => c' <> c
  | _ => True
  end.

(* only these calls are made, none from within hooks that hold locks *)
Definition only (qs : list call) : policy := MkPolicy (fun q => In q qs) (fun _ => False) False.
(* calls that hooks may make while locks are held: they take no lock of a session, and run no hooks *)
Definition light (q : call) : Prop :=
  match q with
  | CClose _ _ | CCreateSession _ _ | CCloseSession _ _ | CHasSession _ | CSession _ | CSessionKey _ | CSessionCreation _ | CSessionInfo _
  | CSrvCloseSession | CHandleConnection _ _ | CHandleSignal _ _ | CHandleRequest _ _ | CDial _ => False
  | _ => True
  end.
Definition unfinished (s : state) (i : nat) : Prop := exists c k, nth_error (st_threads s) i = Some (c :: k).
(* a reader gets a lock that a writer waits for (sync.RWMutex does not do that) *)
Definition overtakes (s s' : state) : Prop := exists l j, about s j (Lk l) /\ snd (st_locks s l) < snd (st_locks s' l).
(* runs without new calls in which readers do not overtake writers *)
Inductive onward (p : policy) : state -> state -> Prop :=
| On_end s : onward p s s
| On_step s s' s'' : step p s s' -> ~ overtakes s s' -> length (st_threads s') = length (st_threads s) -> onward p s' s'' -> onward p s s''.
(* all runs from s *)
Inductive later (p : policy) (s : state) : state -> Prop :=
| La_now : later p s s
| La_step s' s'' : later p s s' -> step p s' s'' -> later p s s''.
(* goroutine i waits for lock l *)
Definition waits_for (s : state) (i : nat) (l : lock) : Prop :=
  (about s i (Lk l) /\ effect (st_locks s) (Lk l) = None) \/ (about s i (RLk l) /\ effect (st_locks s) (RLk l) = None).

(* ---------- what calls lock and access ---------- *)
Definition locked (k : lkind) (n : nat) : list act := [Lk (k, n); Ul (k, n)].
Definition rlocked (k : lkind) (n : nat) : list act := [RLk (k, n); RUl (k, n)].
(* sending a message over socket k; closing the socket; reading from it *)
Definition sending (k : nat) : list act :=
  locked WriterLock k ++ locked BufLock k ++ locked ReaderLock (remote k) ++
  [At (Status, pair_of k); Rd (BufLen, k); Wr (BufLen, k); Wr (BufData, k); Rd (Reader, remote k); Wait].
Definition closing (k : nat) : list act :=
  locked ReaderLock k ++ locked ReaderLock (remote k) ++ locked TransLock 0 ++
  [At (Status, pair_of k); Rd (Reader, k); Rd (Reader, remote k); Wr (TConns, 0); Wait].
Definition reading (k : nat) : list act := locked ReadLock k ++ [Wr (ReadTimer, k); Rd (ReadTimer, k); Rd (BufData, remote k)] ++ closing k.
(* entering and leaving the registry of sessions; disconnecting *)
Definition registering (c : nat) : list act := locked RegLock 0 ++ [Rd (Session, c); Rd (Registry, 0); Wr (Registry, 0)].
Definition setting (c : nat) : list act := locked SessionLock c ++ [Wr (Session, c)].
Definition disconnecting (c k : nat) : list act := registering c ++ setting c ++ closing k.
(* what every handler does in the end *)
Definition leaving (c k : nat) : list act :=
  locked OpsLock 0 ++ [Rd (CurrentOps, 0); Wr (CurrentOps, 0); Rd (Shutdown_, 0)] ++
  locked StateLock c ++ [Rd (Tasks, c); Wr (Tasks, c); Rd (IsActive, c)] ++
  locked SemLock c ++ [Rd (SemCur, c); Wr (SemCur, c); Rd (SemWaiters, c); Wr (SemWaiters, c); Wait] ++ disconnecting c k.
Definition does (q : call) (a : act) : Prop :=
  match q with
  | CIsActive c => In a (rlocked StateLock c ++ [Rd (IsActive, c)])
  | CClose c k => In a (locked StateLock c ++ [Rd (IsActive, c); Wr (IsActive, c); Rd (Tasks, c)] ++ disconnecting c k)
  | CSignal _ k | CWrite k => In a (sending k)
  | CCreateSession c k | CCloseSession c k => In a (setting c ++ registering c ++ sending k)
  | CHasSession c | CSession c | CSessionKey c | CSessionCreation c | CSessionInfo c => In a (rlocked SessionLock c ++ [Rd (Session, c)])
  | CRun => In a [At (TStatus, 0); Wait]
  | CShutdown => In a (locked OpsLock 0 ++ [Wr (Shutdown_, 0); Rd (CurrentOps, 0); At (TStatus, 0); Rd (TConns, 0)]) \/ exists k, In a (closing k)
  | CActiveSessionsNum | CSessionConnectionsNum | CSessionConnections => In a (rlocked RegLock 0 ++ [Rd (Registry, 0)])
  | CSrvCloseSession => In a (rlocked RegLock 0 ++ [Rd (Registry, 0)]) \/ exists c k, In a (setting c ++ registering c ++ sending k)
  | CHandleConnection c k =>
      In a (sending k ++ reading k ++ locked ConnsLock 0 ++ [Rd (Connections, 0); Wr (Connections, 0)] ++ rlocked StateLock c ++ [Wr (IsActive, c)] ++
            rlocked RegLock 0 ++ rlocked SessionLock c ++ leaving c k)
  | CHandleSignal c k => In a (leaving c k)
  | CHandleRequest c k => In a (sending k ++ leaving c k)
  | CDial k => In a ([At (Status, pair_of k)] ++ locked ReaderLock k ++ locked ReaderLock (remote k) ++ [Wr (Reader, k); Wr (Reader, remote k)] ++
                     locked OpsLock 0 ++ [Rd (Shutdown_, 0); At (TStatus, 0)] ++ locked TransLock 0 ++ [Wr (TConns, 0)])
  | CRead k => In a (reading k)
  | CSockClose k => In a (closing k)
  | CIsConnected k => a = At (Status, pair_of k)
  | CCreate m => In a ([At (LastID, m)] ++ locked PendLock m ++ [Wr (Pending, m)])
  | CFulfill m | CFail m => In a (rlocked PendLock m ++ [Rd (Pending, m)] ++ locked PendLock m ++ [Wr (Pending, m); Wait])
  | CPending m | CIsPending m => In a (rlocked PendLock m ++ [Rd (Pending, m)])
  | CAwait m => In a ([Wait] ++ locked PendLock m ++ [Wr (Pending, m)])
  end.
