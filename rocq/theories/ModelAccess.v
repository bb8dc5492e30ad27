(* Model of who reads and writes shared fields, and of the locks held meanwhile: every function of the library
   as a sequence of lock operations and accesses. A data race is a state in which two goroutines are about to
   access one field and one of them writes.
   Source: /repo, files as cited.
   Simplifications: values are left out, so conditions may come out either way (more runs than there are);
   goroutines started by the library (go ...) may start at any time; every field that is written only before its
   object is shared (options, hooks, srv.impl, sock.remote, sock.sockType, session objects ...) is left out, as
   are messages (C59-C61), channels themselves, and objects of the user. A write to a map, a slice header or a
   list counts as a write to its field. A goroutine may stop at any point (a panic of a hook; locks stay as they
   are). RLock is not held up by waiting
   writers (more runs than there are; C76 does without those). *)
From Coq Require Import List Arith Bool.
From Verif Require Import BaseConc.
Import ListNotations.
Open Scope nat_scope.

(* ---------- locks and fields ---------- *)
(* n: number of the connection, of the socket (sockets of a pair: 2p server, 2p + 1 client), of the request manager *)
Inductive lkind :=
| OpsLock        (* server.go:27, one *)
| ConnsLock      (* server.go:28, one *)
| RegLock        (* sessionRegistry.go:12, one *)
| StateLock      (* connection.go:28 *)
| SessionLock    (* connection.go:44 *)
| SemLock        (* semaphore.go:36; the semaphore of a connection *)
| TransLock      (* transport/memchan/transport.go:29, one *)
| ReadLock | WriterLock | ReaderLock  (* transport/memchan/socket.go:51-65 *)
| BufLock        (* transport/memchan/buffer.go:15; of the socket's outbound buffer *)
| PendLock.      (* requestManager/requestManager.go:13 *)
Inductive fkind :=
| Shutdown_ | CurrentOps | Connections   (* server.go:24-29 *)
| Registry                               (* sessionRegistry.go:14: the map and the sets in it *)
| IsActive | Tasks | Session             (* connection.go:29-47 *)
| SemCur | SemWaiters                    (* semaphore.go:35-37 *)
| TConns | TStatus                       (* transport.go:28-30 *)
| Status                                 (* socket.go:42; shared by the two sockets of pair n *)
| Reader | ReadTimer                     (* socket.go:46, 63 *)
| BufLen | BufData                       (* buffer.go:12-13 *)
| LastID | Pending.                      (* requestManager.go:12, 16 *)
Definition lock := (lkind * nat)%type.
Definition field := (fkind * nat)%type.
Scheme Equality for lkind.
Scheme Equality for fkind.
Definition lock_eqb (a b : lock) : bool := lkind_beq (fst a) (fst b) && (snd a =? snd b).
(* the other socket of the pair, and the pair (entangleSockets.go:16-23) *)
Definition remote (k : nat) : nat := if Nat.even k then k + 1 else k - 1.
Definition pair_of (k : nat) : nat := Nat.div2 k.

(* ---------- programs ---------- *)
Inductive act :=
| Lk (l : lock) | Ul (l : lock) | RLk (l : lock) | RUl (l : lock)
| Rd (x : field) | Wr (x : field)
| At (x : field)     (* sync/atomic *)
| Wait.              (* an operation on a channel *)
Inductive code :=
| Nop | Do (a : act) | Seq (c d : code) | Alt (c d : code) | Rep (c : code)
| Any (f : nat -> code)   (* on some object *)
| IfFilled (c : code)     (* nothing if the buffer is empty *)
| Hook (inner : bool).    (* code of the user, which may call the library; inner: while locks are held *)
Notation "c ;; d" := (Seq c d) (at level 61, right associativity).

Definition lock_ k n := Do (Lk (k, n)).
Definition unlock k n := Do (Ul (k, n)).
Definition rlock k n := Do (RLk (k, n)).
Definition runlock k n := Do (RUl (k, n)).
Definition rd f n := Do (Rd (f, n)).
Definition wr f n := Do (Wr (f, n)).
Definition atomic f n := Do (At (f, n)).
Definition wait := Do Wait.
Definition hook := Hook false.
Definition inner_hook := Hook true.

(* ---------- transport/memchan ---------- *)
(* socket.go:266-268 *)
Definition IsConnected (k : nat) := atomic Status (pair_of k).
(* socket.go:140-166: getReader, writeReader, closeReader, resetReader *)
Definition getReader k := lock_ ReaderLock k ;; rd Reader k ;; unlock ReaderLock k.
Definition writeReader k := lock_ ReaderLock k ;; rd Reader k ;; wait ;; unlock ReaderLock k.
Definition closeReader k := lock_ ReaderLock k ;; rd Reader k ;; wait ;; unlock ReaderLock k.
Definition resetReader k := lock_ ReaderLock k ;; wr Reader k ;; unlock ReaderLock k.
(* socket.go:72-86 *)
Definition onBufferFlush k :=
  IsConnected k ;;
  Alt (unlock WriterLock k)
      (writeReader (remote k) ;; wait ;; unlock WriterLock k).
(* buffer.go:40-52 *)
Definition buf_write k :=
  lock_ BufLock k ;; rd BufLen k ;;
  Alt (wr BufLen k ;; unlock BufLock k)
      (rd BufLen k ;; wr BufData k ;; rd BufLen k ;; wr BufLen k ;; unlock BufLock k).
(* buffer.go:55-64: if the buffer is empty Close returns and keeps the locks *)
Definition buf_close k :=
  lock_ BufLock k ;; rd BufLen k ;;
  IfFilled
      (rd BufLen k ;; onBufferFlush k ;; wr BufLen k ;; unlock BufLock k).
(* socket.go:124-138, and what is done with the writer: any number of Write, and Close (message/writeMsg*.go) *)
Definition write_msg k :=
  lock_ WriterLock k ;; IsConnected k ;;
  Alt (unlock WriterLock k)
      (Rep (buf_write k) ;; buf_close k).
(* transport.go:128-132 *)
Definition onDisconnect := lock_ TransLock 0 ;; wr TConns 0 ;; unlock TransLock 0.
(* socket.go:279-304 *)
Definition sock_Close k :=
  atomic Status (pair_of k) ;;
  Alt Nop (closeReader (remote k) ;; wait ;; wait ;; closeReader k ;; onDisconnect).
(* socket.go:218-263, 168-215; the slice read by msg.ReadBytes is that of the remote socket's buffer *)
Definition sock_Read k :=
  lock_ ReadLock k ;; IsConnected k ;;
  Alt (unlock ReadLock k)
      (Alt (getReader k ;; wait)
           (wr ReadTimer k ;; rd ReadTimer k ;; getReader k ;; wait ;; wr ReadTimer k) ;;
       Alt (sock_Close k ;; unlock ReadLock k)
           (rd BufData (remote k) ;; wait ;; unlock ReadLock k)).
(* isShuttingDown.go:5-13 *)
Definition isShuttingDown := lock_ OpsLock 0 ;; rd Shutdown_ 0 ;; unlock OpsLock 0.
(* socket.go:89-121, transport.go:99-125; handleConnection starts in its own goroutine *)
Definition sock_Dial k :=
  hook ;; atomic Status (pair_of k) ;;
  Alt Nop (resetReader k ;; resetReader (remote k) ;;
    isShuttingDown ;;
    Alt Nop (atomic TStatus 0 ;; Alt Nop (lock_ TransLock 0 ;; wr TConns 0 ;; unlock TransLock 0))).
(* transport.go:57-63 *)
Definition trans_Serve := atomic TStatus 0 ;; Alt Nop wait.
(* transport.go:66-89; sock.Close returns no error *)
Definition trans_Shutdown :=
  atomic TStatus 0 ;;
  Alt Nop (wait ;; lock_ TransLock 0 ;; rd TConns 0 ;; unlock TransLock 0 ;; Rep (Any sock_Close)).

(* ---------- sessionRegistry.go ---------- *)
(* 36-61 *)
Definition register c :=
  lock_ RegLock 0 ;; rd Session c ;; rd Registry 0 ;;
  Alt (Alt (unlock RegLock 0 ;; rd Session c)
           (wr Registry 0 ;; rd Session c ;; wr Registry 0 ;; unlock RegLock 0))
      (rd Session c ;; wr Registry 0 ;; unlock RegLock 0).
(* 70-112; destroy: run the hook of the session manager, and is that with locks held *)
Definition deregister c (destroy : option bool) :=
  rd Session c ;;
  Alt Nop
    (lock_ RegLock 0 ;; rd Session c ;; rd Registry 0 ;;
     Alt (Alt (rd Session c ;; wr Registry 0 ;; unlock RegLock 0 ;; match destroy with Some inner => rd Session c ;; Hook inner | None => Nop end)
              (wr Registry 0 ;; rd Registry 0 ;; unlock RegLock 0))
         (unlock RegLock 0)).
(* 115-151 *)
Definition registry_read := rlock RegLock 0 ;; rd Registry 0 ;; Alt (rd Registry 0 ;; runlock RegLock 0) (runlock RegLock 0).
Definition activeSessionsNum := rlock RegLock 0 ;; rd Registry 0 ;; runlock RegLock 0.

(* ---------- connection.go; k: the socket of connection c ---------- *)
(* 84-90 *)
Definition con_IsActive c := rlock StateLock c ;; rd IsActive c ;; runlock StateLock c.
(* 93-97 *)
Definition registerTask c := lock_ StateLock c ;; rd Tasks c ;; wr Tasks c ;; unlock StateLock c.
(* 118-122 *)
Definition setSession c := lock_ SessionLock c ;; wr Session c ;; unlock SessionLock c.
(* 126-136 *)
Definition unlink c k := deregister c None ;; setSession c ;; sock_Close k.
(* 102-115 *)
Definition deregisterTask c k :=
  lock_ StateLock c ;; rd Tasks c ;; wr Tasks c ;; rd IsActive c ;; Alt Nop (rd Tasks c) ;; unlock StateLock c ;; Alt Nop (unlink c k).
(* 157-183 *)
Definition con_Signal k := Alt Nop (write_msg k).
(* 186-233 *)
Definition notifySessionCreated k := inner_hook ;; Alt Nop (write_msg k).
Definition con_CreateSession c k :=
  IsConnected k ;;
  Alt Nop
    (lock_ SessionLock c ;; rd Session c ;;
     Alt (unlock SessionLock c ;; rd Session c)
         (inner_hook ;; notifySessionCreated k ;;
          Alt (unlock SessionLock c)
              (wr Session c ;; register c ;; unlock SessionLock c ;; hook))).
(* 276-296 *)
Definition con_CloseSession c k :=
  lock_ SessionLock c ;; rd Session c ;;
  Alt (unlock SessionLock c)
      (deregister c (Some true) ;; wr Session c ;; unlock SessionLock c ;; write_msg k).
(* 299-349 *)
Definition con_HasSession c := rlock SessionLock c ;; rd Session c ;; runlock SessionLock c.
Definition con_Session c := rlock SessionLock c ;; rd Session c ;; inner_hook ;; runlock SessionLock c.
Definition con_SessionKey c := rlock SessionLock c ;; rd Session c ;; Alt (runlock SessionLock c) (rd Session c ;; runlock SessionLock c).
Definition con_SessionInfo c := rlock SessionLock c ;; rd Session c ;; Alt (runlock SessionLock c) (rd Session c ;; inner_hook ;; runlock SessionLock c).
(* 351-368 *)
Definition con_Close c k :=
  lock_ StateLock c ;; rd IsActive c ;;
  Alt (unlock StateLock c)
      (wr IsActive c ;; rd Tasks c ;; unlock StateLock c ;; Alt Nop (unlink c k)).

(* ---------- semaphore.go; handlerSlots of connection c ---------- *)
(* 44-84 *)
Definition sem_Acquire c :=
  lock_ SemLock c ;; rd SemCur c ;; rd SemWaiters c ;;
  Alt (rd SemCur c ;; wr SemCur c ;; unlock SemLock c)
      (Alt (unlock SemLock c ;; wait)
           (wr SemWaiters c ;; unlock SemLock c ;; wait ;;
            Alt Nop (lock_ SemLock c ;; wait ;; Alt Nop (wr SemWaiters c) ;; unlock SemLock c))).
(* 98-131 *)
Definition sem_Release c :=
  lock_ SemLock c ;; rd SemCur c ;; wr SemCur c ;;
  Alt (unlock SemLock c)
      (Rep (rd SemWaiters c ;; rd SemCur c ;; wr SemCur c ;; wr SemWaiters c ;; wait) ;; rd SemWaiters c ;; unlock SemLock c).

(* ---------- server: handlers ---------- *)
(* registerHandler.go:13-45; [go_on]: what follows if it returns true *)
Definition registerHandler c k (go_on : code) :=
  con_IsActive c ;;
  Alt Nop
    (Alt Nop (sem_Acquire c) ;;
     lock_ OpsLock 0 ;; rd Shutdown_ 0 ;; Alt Nop (rd CurrentOps 0 ;; wr CurrentOps 0) ;; unlock OpsLock 0 ;;
     Alt (write_msg k) (registerTask c ;; go_on)).
(* deregisterHandler.go:5-19 *)
Definition deregisterHandler c k :=
  lock_ OpsLock 0 ;; rd CurrentOps 0 ;; wr CurrentOps 0 ;; rd Shutdown_ 0 ;; Alt Nop (rd CurrentOps 0) ;; unlock OpsLock 0 ;;
  deregisterTask c k ;; Alt Nop (sem_Release c).
(* handleSignal.go:11-18 *)
Definition handleSignal c k := hook ;; deregisterHandler c k.
(* handleRequest.go:12-39, failMsg.go, fulfillMsg.go *)
Definition handleRequest c k := hook ;; Alt Nop (write_msg k) ;; deregisterHandler c k.
(* handleSessionRestore.go:12-107 *)
Definition handleSessionRestore c k :=
  Alt (write_msg k ;; deregisterHandler c k)
    (registry_read ;;
     Alt (write_msg k ;; deregisterHandler c k)
       (hook ;;
        Alt (write_msg k ;; deregisterHandler c k)
          (setSession c ;; register c ;; write_msg k ;; deregisterHandler c k))).
(* handleSessionClosure.go:9-43 *)
Definition handleSessionClosure c k :=
  Alt (write_msg k ;; deregisterHandler c k)
    (con_HasSession c ;;
     Alt (write_msg k ;; deregisterHandler c k)
       (deregister c (Some false) ;; setSession c ;; write_msg k ;; deregisterHandler c k)).
(* handleMessage.go:6-62 *)
Definition handleMessage c k :=
  Alt Nop (registerHandler c k
    (Alt (handleSignal c k) (Alt (handleRequest c k) (Alt (handleSessionRestore c k) (Alt (handleSessionClosure c k) (deregisterHandler c k)))))).
(* handleConnection.go:37-87 *)
Definition handleConnection c k :=
  write_msg k ;;
  Alt (sock_Close k)
    (lock_ ConnsLock 0 ;; rd Connections 0 ;; wr Connections 0 ;; unlock ConnsLock 0 ;; hook ;;
     Rep (sock_Read k ;; handleMessage c k) ;; sock_Read k ;; con_Close c k ;; hook).
(* server.go:55-71 *)
Definition srv_Shutdown :=
  lock_ OpsLock 0 ;; wr Shutdown_ 0 ;; rd CurrentOps 0 ;;
  Alt (unlock OpsLock 0 ;; trans_Shutdown) (unlock OpsLock 0 ;; wait ;; trans_Shutdown).
(* server.go:89-123 *)
Definition srv_CloseSession := registry_read ;; Rep (Any (fun c => Any (fun k => con_CloseSession c k))).

(* ---------- requestManager ---------- *)
(* requestManager.go:55-59 *)
Definition rm_deregister m := lock_ PendLock m ;; wr Pending m ;; unlock PendLock m.
(* requestManager.go:32-51 *)
Definition rm_Create m := atomic LastID m ;; lock_ PendLock m ;; wr Pending m ;; unlock PendLock m.
(* requestManager.go:65-101: Fulfill, Fail *)
Definition rm_resolve m := rlock PendLock m ;; rd Pending m ;; runlock PendLock m ;; Alt Nop (rm_deregister m ;; wait).
(* requestManager.go:104-118: PendingRequests, IsPending *)
Definition rm_read m := rlock PendLock m ;; rd Pending m ;; runlock PendLock m.
(* request.go:37-50 *)
Definition rm_AwaitReply m := wait ;; Alt Nop (rm_deregister m).

(* ---------- calls: functions of the API, and goroutines the library starts ---------- *)
Inductive call :=
| CIsActive (c : nat) | CClose (c k : nat) | CSignal (c k : nat) | CCreateSession (c k : nat) | CCloseSession (c k : nat)
| CHasSession (c : nat) | CSession (c : nat) | CSessionKey (c : nat) | CSessionCreation (c : nat) | CSessionInfo (c : nat)
| CRun | CShutdown | CActiveSessionsNum | CSessionConnectionsNum | CSessionConnections | CSrvCloseSession
| CHandleConnection (c k : nat) | CHandleSignal (c k : nat) | CHandleRequest (c k : nat)
| CDial (k : nat) | CRead (k : nat) | CWrite (k : nat) | CSockClose (k : nat) | CIsConnected (k : nat)
| CCreate (m : nat) | CFulfill (m : nat) | CFail (m : nat) | CPending (m : nat) | CIsPending (m : nat) | CAwait (m : nat).
Definition code_of (q : call) : code :=
  match q with
  | CIsActive c => con_IsActive c | CClose c k => con_Close c k | CSignal _ k => con_Signal k
  | CCreateSession c k => con_CreateSession c k | CCloseSession c k => con_CloseSession c k
  | CHasSession c => con_HasSession c | CSession c => con_Session c
  | CSessionKey c => con_SessionKey c | CSessionCreation c => con_SessionKey c | CSessionInfo c => con_SessionInfo c
  | CRun => trans_Serve | CShutdown => srv_Shutdown
  | CActiveSessionsNum => activeSessionsNum | CSessionConnectionsNum => registry_read | CSessionConnections => registry_read
  | CSrvCloseSession => srv_CloseSession
  | CHandleConnection c k => handleConnection c k | CHandleSignal c k => handleSignal c k | CHandleRequest c k => handleRequest c k
  | CDial k => sock_Dial k | CRead k => sock_Read k | CWrite k => write_msg k | CSockClose k => sock_Close k | CIsConnected k => IsConnected k
  | CCreate m => rm_Create m | CFulfill m => rm_resolve m | CFail m => rm_resolve m
  | CPending m => rm_read m | CIsPending m => rm_read m | CAwait m => rm_AwaitReply m
  end.

(* ---------- running ---------- *)
(* sync.RWMutex (and sync.Mutex): locked by a writer; number of readers *)
Definition locks := lock -> bool * nat.
Definition set_lock (s : locks) (l : lock) (v : bool * nat) : locks := fun l' => if lock_eqb l' l then v else s l'.
(* None: waits, or (Unlock of a lock that is not locked) a fatal error *)
Definition effect (s : locks) (a : act) : option locks :=
  match a with
  | Lk l => match s l with (false, 0) => Some (set_lock s l (true, 0)) | _ => None end
  | RLk l => match s l with (false, n) => Some (set_lock s l (false, S n)) | _ => None end
  | Ul l => match s l with (true, n) => Some (set_lock s l (false, n)) | _ => None end
  | RUl l => match s l with (b, S n) => Some (set_lock s l (b, n)) | _ => None end
  | Rd _ | Wr _ | At _ | Wait => Some s
  end.
(* what the user does: the calls made, those made by hooks that run while locks are held, and may buffers be
   closed that are empty *)
Record policy := MkPolicy { p_call : call -> Prop; p_inner : call -> Prop; p_empty : Prop }.
(* steps of a goroutine, given as what it has left to do *)
Inductive next (p : policy) : list code -> option act -> list code -> Prop :=
| Nx_nop k : next p (Nop :: k) None k
| Nx_do a k : next p (Do a :: k) (Some a) k
| Nx_seq c d k : next p (Seq c d :: k) None (c :: d :: k)
| Nx_alt1 c d k : next p (Alt c d :: k) None (c :: k)
| Nx_alt2 c d k : next p (Alt c d :: k) None (d :: k)
| Nx_rep0 c k : next p (Rep c :: k) None k
| Nx_rep c k : next p (Rep c :: k) None (c :: Rep c :: k)
| Nx_any f n k : next p (Any f :: k) None (f n :: k)
| Nx_empty c k : p_empty p -> next p (IfFilled c :: k) None k
| Nx_filled c k : next p (IfFilled c :: k) None (c :: k)
| Nx_hook0 i k : next p (Hook i :: k) None k
| Nx_hook (i : bool) q k : (if i then p_inner p q else p_call p q) -> next p (Hook i :: k) None (code_of q :: Hook i :: k).
Record state := MkState { st_locks : locks; st_threads : list (list code) }.
Definition new_state : state := MkState (fun _ => (false, 0)) [].
Inductive step (p : policy) : state -> state -> Prop :=
| St_call s q : p_call p q -> step p s (MkState (st_locks s) (st_threads s ++ [[code_of q]]))
| St_silent s i k k' : nth_error (st_threads s) i = Some k -> next p k None k' ->
    step p s (MkState (st_locks s) (set_nth (st_threads s) i k'))
| St_act s i k a k' l' : nth_error (st_threads s) i = Some k -> next p k (Some a) k' -> effect (st_locks s) a = Some l' ->
    step p s (MkState l' (set_nth (st_threads s) i k')).
