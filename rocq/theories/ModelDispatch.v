(* Model of the server's message dispatch: connection read loops, handler registration,
   concurrency limits, Connection.Close and Server.Shutdown. Every goroutine is a thread;
   every section under a lock, every hook invocation and every socket operation is one step.
   Source: /repo/handleConnection.go, handleMessage.go, registerHandler.go,
   deregisterHandler.go, handleRequest.go, handleSignal.go, connection.go (IsActive,
   registerTask, deregisterTask, unlink, Close), server.go (Shutdown, shutdownServer).
   Simplifications: unlink's session bookkeeping and the session requests are one step here
   (see ModelSession); con.tasks is an unbounded integer; the weighted semaphore is its
   specification (C22): only the read loop acquires, always with weight 1 and without
   cancellation, so acquiring is possible exactly when fewer than limit slots are taken. *)
From Coq Require Import List Arith ZArith Bool.
From Verif Require Import BaseBytes BaseConc ModelMessage ModelWrite ModelHandle SpecWrite.
Import ListNotations.
Open Scope nat_scope.

(* connection.go:23-51; c_next: number of frames read so far (has no influence) *)
Record conn := MkConn {
  c_limit : Z;        (* options.ConcurrencyLimit *)
  c_active : bool;    (* isActive *)
  c_tasks : Z;        (* tasks *)
  c_slots : Z;        (* handlerSlots: acquired weight *)
  c_next : nat }.

(* What happens, in order. Messages are named by connection and number of arrival. *)
Inductive event :=
| LConnected (c : nat)                        (* OnClientConnected invoked *)
| LFrame (c k : nat) (b : bytes) (m : option message) (* frame number k read; None: refused by
                                                 the parser, Read returned an error *)
| LReadErr (c : nat)                          (* sock.Read failed for another reason *)
| LDropped (c k : nat) (m : message)          (* ignored because the connection is inactive *)
| LShutReply (c k : nat) (m : message) (s : sent sink) (* failMsgShutdown finished *)
| LStart (c k : nat) (m : message)            (* OnSignal / OnRequest invoked *)
| LEnd (c k : nat)                            (* ... returned *)
| LReply (c k : nat) (m : message) (r : payload * goerr) (s : sent sink) (* the handler of a
                                                 request returned r, reply functions finished *)
| LSession (c k : nat) (m : message)          (* session request handled *)
| LUnlink (c : nat)                           (* unlink: registry, session, socket *)
| LDisconnected (c : nat)                     (* OnClientDisconnected invoked *)
| LShutdown (i : nat)                         (* Shutdown call of thread i set the flag *)
| LShutReturn (i : nat).                      (* ... returned *)

Record srv := MkSrv {
  v_buf : nat;                  (* options.MessageBufferSize *)
  v_shutdown : bool;
  v_ops : Z;                    (* currentOps, uint32 *)
  v_rdy : bool;                 (* shutdownRdy is closed *)
  v_crashed : bool;             (* a goroutine panicked *)
  v_n : nat;                    (* connections 0 .. v_n - 1 exist *)
  v_conn : nat -> conn;
  v_log : list event }.

Definition no_conn : conn := MkConn 0 false 0 0 0.
Definition upd (f : nat -> conn) (c : nat) (x : conn) : nat -> conn :=
  fun c' => if c' =? c then x else f c'.
Definition with_conn (g : srv) (c : nat) (x : conn) : srv :=
  MkSrv (v_buf g) (v_shutdown g) (v_ops g) (v_rdy g) (v_crashed g) (v_n g) (upd (v_conn g) c x) (v_log g).
Definition log (e : event) (g : srv) : srv :=
  MkSrv (v_buf g) (v_shutdown g) (v_ops g) (v_rdy g) (v_crashed g) (v_n g) (v_conn g) (v_log g ++ [e]).
Definition crash (g : srv) : srv :=
  MkSrv (v_buf g) (v_shutdown g) (v_ops g) (v_rdy g) true (v_n g) (v_conn g) (v_log g).
Definition with_ops (ops : Z) (rdy : bool) (g : srv) : srv :=
  MkSrv (v_buf g) (v_shutdown g) ops rdy (v_crashed g) (v_n g) (v_conn g) (v_log g).
Definition set_shutdown (g : srv) : srv :=
  MkSrv (v_buf g) true (v_ops g) (v_rdy g) (v_crashed g) (v_n g) (v_conn g) (v_log g).

(* a message being handled (handleRequest.go, handleSignal.go, deregisterHandler.go) *)
Inductive jstate :=
| JStart                          (* goroutine or call started, hook not yet invoked *)
| JRun                            (* OnSignal / OnRequest running *)
| JRep (r : payload * goerr)      (* OnRequest returned, reply to be sent *)
| JInt                            (* session request to be handled *)
| JOps | JTask | JUnlink | JSlot. (* deregisterHandler *)
(* read loop of a connection *)
Inductive rstate :=
| RHook | RHookIn                 (* OnClientConnected to be invoked / running *)
| RWait                           (* sock.Read *)
| RGot (k : nat) (m : message)    (* handleMessage entered *)
| RSlot (k : nat) (m : message) | ROps (k : nat) (m : message)   (* registerHandler *)
| RFail (k : nat) (m : message)   (* failMsgShutdown *)
| RReg (k : nat) (m : message) | RDisp (k : nat) (m : message)
| RJob (k : nat) (m : message) (j : jstate)   (* handler called by the read loop itself *)
| RClose | RUnlink | RBye | REnd.
Inductive thread :=
| TNew (lim : Z)                  (* handleConnection called by the transport *)
| TEnd
| TRd (c : nat) (s : rstate)
| TJob (c k : nat) (m : message) (j : jstate) (* handler in its own goroutine *)
| TCl0 (c : nat) | TClU (c : nat) | TClR (c : nat)   (* a Connection.Close call *)
| TSh0 | TShW | TShT | TShR.                         (* a Server.Shutdown call *)

(* resolution of the nondeterminism of a step *)
Inductive choice :=
| Go
| ChConf (ok : bool)              (* configuration message sent? *)
| ChFrame (b : bytes) | ChErr     (* sock.Read *)
| ChRet (r : payload * goerr)     (* return value of the hook (ignored for signals) *)
| ChWriter (ok : bool).           (* sock.GetWriter succeeds? *)
Definition writer_of (ok : bool) : option sink := if ok then Some empty_sink else None.

Definition set_slots (x : conn) (n : Z) : conn := MkConn (c_limit x) (c_active x) (c_tasks x) n (c_next x).
Definition set_tasks (x : conn) (n : Z) : conn := MkConn (c_limit x) (c_active x) n (c_slots x) (c_next x).
Definition set_inactive (x : conn) : conn := MkConn (c_limit x) false (c_tasks x) (c_slots x) (c_next x).
Definition bump (x : conn) : conn := MkConn (c_limit x) (c_active x) (c_tasks x) (c_slots x) (S (c_next x)).

(* one step of handling message m (number k on connection c); None for the new state: done.
   Outer None: the choice does not apply. *)
Definition job_step (g : srv) (c k : nat) (m : message) (j : jstate) (ch : choice)
  : option (srv * option jstate) :=
  let x := v_conn g c in
  match j, ch with
  (* handleRequest.go:13-17, handleSignal.go:12 *)
  | JStart, Go => Some (log (LStart c k m) g, Some JRun)
  | JRun, ChRet r =>
      match route_of (m_type m) with
      | RtRequest => Some (log (LEnd c k) g, Some (JRep r))
      | _ => Some (log (LEnd c k) g, Some JOps)
      end
  (* handleRequest.go:20-36 *)
  | JRep r, ChWriter ok =>
      match handleRequest sink_writer (writer_of ok) m r with
      | None => Some (crash g, Some (JRep r))
      | Some s => Some (log (LReply c k m r s) g, Some JOps)
      end
  | JInt, Go => Some (log (LSession c k m) g, Some JOps)
  (* deregisterHandler.go:6-11 *)
  | JOps, Go =>
      let ops := ((v_ops g - 1) mod 2 ^ 32)%Z in
      if v_shutdown g && (ops <? 1)%Z
      then if v_rdy g then Some (crash g, Some JOps)   (* close of closed channel *)
           else Some (with_ops ops true g, Some JTask)
      else Some (with_ops ops (v_rdy g) g, Some JTask)
  (* deregisterHandler.go:13, connection.go:105-118 *)
  | JTask, Go =>
      let x' := set_tasks x (c_tasks x - 1) in
      Some (with_conn g c x', Some (if negb (c_active x') && (c_tasks x' <? 1)%Z then JUnlink else JSlot))
  (* connection.go:129-139 *)
  | JUnlink, Go => Some (log (LUnlink c) g, Some JSlot)
  (* deregisterHandler.go:16-18 *)
  | JSlot, Go =>
      if (1 <? c_limit x)%Z
      then if (c_slots x - 1 <? 0)%Z then Some (crash g, Some JSlot)
           else Some (with_conn g c (set_slots x (c_slots x - 1)), None)
      else Some (g, None)
  | _, _ => None
  end.

(* handleMessage.go:27-46: does the handler get its own goroutine? *)
Definition async (lim : Z) : bool := (lim <? 0)%Z || (1 <? lim)%Z.

(* one step of the read loop: new server state, new state of the loop, started goroutine *)
Definition rd_step (g : srv) (c : nat) (s : rstate) (ch : choice)
  : option (srv * rstate * option thread) :=
  let x := v_conn g c in
  match s, ch with
  (* handleConnection.go:60 *)
  | RHook, Go => Some (log (LConnected c) g, RHookIn, None)
  | RHookIn, Go => Some (g, RWait, None)
  (* handleConnection.go:62-70, transport/memchan/socket.go Read *)
  | RWait, ChFrame b =>
      let k := c_next x in
      let g1 := with_conn g c (bump x) in
      match ReadBytes (NewMessage (v_buf g)) b with
      | None => Some (crash g, RWait, None)
      | Some (m, true, None) => Some (log (LFrame c k b (Some m)) g1, RGot k m, None)
      | Some _ => Some (log (LFrame c k b None) g1, RClose, None)
      end
  | RWait, ChErr => Some (log (LReadErr c) g, RClose, None)
  (* handleMessage.go:14-18, registerHandler.go:19-21 *)
  | RGot k m, Go =>
      if beq (m_type m) MsgHeartbeat then Some (g, RWait, None)
      else if negb (c_active x) then Some (log (LDropped c k m) g, RWait, None)
      else if (1 <? c_limit x)%Z then Some (g, RSlot k m, None) else Some (g, ROps k m, None)
  (* registerHandler.go:24-26 *)
  | RSlot k m, Go =>
      if (c_slots x <? c_limit x)%Z
      then Some (with_conn g c (set_slots x (c_slots x + 1)), ROps k m, None) else None
  (* registerHandler.go:28-35 *)
  | ROps k m, Go =>
      if v_shutdown g
      then Some (g, if RequiresReply m then RFail k m else RReg k m, None)
      else Some (with_ops ((v_ops g + 1) mod 2 ^ 32)%Z (v_rdy g) g, RReg k m, None)
  (* registerHandler.go:37-41 *)
  | RFail k m, ChWriter ok =>
      match failMsgShutdown sink_writer (writer_of ok) m with
      | None => Some (crash g, RFail k m, None)
      | Some r => Some (log (LShutReply c k m r) g, RWait, None)
      end
  (* registerHandler.go:43, connection.go:96-100 *)
  | RReg k m, Go => Some (with_conn g c (set_tasks x (c_tasks x + 1)), RDisp k m, None)
  (* handleMessage.go:27-59 *)
  | RDisp k m, Go =>
      match route_of (m_type m) with
      | RtSignal | RtRequest =>
          if async (c_limit x) then Some (g, RWait, Some (TJob c k m JStart))
          else Some (g, RJob k m JStart, None)
      | RtRestore | RtClosure => Some (g, RJob k m JInt, None)
      | _ => Some (g, RJob k m JOps, None)
      end
  | RJob k m j, _ =>
      match job_step g c k m j ch with
      | None => None
      | Some (g', Some j') => Some (g', RJob k m j', None)
      | Some (g', None) => Some (g', RWait, None)
      end
  (* handleConnection.go:77, connection.go:351-368 *)
  | RClose, Go =>
      if negb (c_active x) then Some (g, RBye, None)
      else Some (with_conn g c (set_inactive x), if (c_tasks x <? 1)%Z then RUnlink else RBye, None)
  | RUnlink, Go => Some (log (LUnlink c) g, RBye, None)
  (* handleConnection.go:78 *)
  | RBye, Go => Some (log (LDisconnected c) g, REnd, None)
  | _, _ => None
  end.

(* one step of thread i in state t *)
Definition tstep (g : srv) (i : nat) (t : thread) (ch : choice) : option (srv * thread * option thread) :=
  match t, ch with
  (* handleConnection.go:35-57 *)
  | TNew lim, ChConf false => Some (g, TEnd, None)
  | TNew lim, ChConf true =>
      Some (MkSrv (v_buf g) (v_shutdown g) (v_ops g) (v_rdy g) (v_crashed g) (S (v_n g))
                  (upd (v_conn g) (v_n g) (MkConn lim true 0 0 0)) (v_log g), TRd (v_n g) RHook, None)
  | TRd c s, _ => match rd_step g c s ch with Some (g', s', sp) => Some (g', TRd c s', sp) | None => None end
  | TJob c k m j, _ =>
      match job_step g c k m j ch with
      | Some (g', Some j') => Some (g', TJob c k m j', None)
      | Some (g', None) => Some (g', TEnd, None)
      | None => None
      end
  (* connection.go:351-368 *)
  | TCl0 c, Go =>
      let x := v_conn g c in
      if negb (c_active x) then Some (g, TClR c, None)
      else Some (with_conn g c (set_inactive x), if (c_tasks x <? 1)%Z then TClU c else TClR c, None)
  | TClU c, Go => Some (log (LUnlink c) g, TClR c, None)
  (* server.go:57-71 *)
  | TSh0, Go => Some (log (LShutdown i) (set_shutdown g), if (v_ops g <? 1)%Z then TShT else TShW, None)
  | TShW, Go => if v_rdy g then Some (g, TShT, None) else None
  | TShT, Go => Some (log (LShutReturn i) g, TShR, None)
  | _, _ => None
  end.

Record sys := MkSys { s_srv : srv; s_ts : list thread }.
(* newServer.go:53-72 *)
Definition new_server (buf : nat) : sys :=
  MkSys (MkSrv buf false 0 false false 0 (fun _ => no_conn) []) [].

Inductive ev := EvConnect (lim : Z) | EvClose (c : nat) | EvShutdown | EvStep (i : nat) (ch : choice).
Definition dstep (s : sys) (e : ev) : option sys :=
  let g := s_srv s in
  if v_crashed g then None else
  match e with
  | EvConnect lim => Some (MkSys g (s_ts s ++ [TNew lim]))
  | EvClose c => if c <? v_n g then Some (MkSys g (s_ts s ++ [TCl0 c])) else None
  | EvShutdown => Some (MkSys g (s_ts s ++ [TSh0]))
  | EvStep i ch =>
      match nth_error (s_ts s) i with
      | None => None
      | Some t =>
          match tstep g i t ch with
          | None => None
          | Some (g', t', sp) =>
              Some (MkSys g' (set_nth (s_ts s) i t' ++ match sp with Some x => [x] | None => [] end))
          end
      end
  end.
