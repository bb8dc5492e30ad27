(* Model of the life of pooled messages in the server: every connection's read loop takes a
   message from the shared pool, reads a frame into it and passes it on to a handler, which
   uses the message through its accessors and through the reply functions; the message goes
   back to the pool when the handler is done.
   Source: /repo/handleConnection.go:62-85, handleMessage.go, registerHandler.go:19-41 (only
   what happens to the message), handleRequest.go, handleSignal.go, handleSessionRestore.go,
   handleSessionClosure.go, message/message.go:259-314, message/syncPool.go.
   Messages are addresses in the pool's heap (ModelPool), so that two goroutines holding one
   address share the message. Simplifications: the accounting of tasks, slots and operations
   and the decision to refuse a message are left open (any message may be dropped, requests
   may get the shutdown reply, handlers may run in the read loop or in their own goroutine);
   see ModelDispatch for these. What the session requests do besides reading the message and
   replying is in ModelSession. *)
From Coq Require Import List Arith NArith ZArith Bool.
From Verif Require Import BaseBytes BaseConc ModelMessage ModelWrite ModelPool ModelPayload ModelHandle SpecWrite.
Import ListNotations.
Open Scope nat_scope.

(* the accessors of the Message interface (interfaces.go:300-319, message/message.go:259-296) *)
Inductive getter := GtIdentifier | GtName | GtEncoding | GtPayload | GtUtf8.
Inductive value := VBytes (b : bytes) | VEnc (e : encoding) | VText (t : option bytes).
Definition get_value (m : message) (g : getter) : option value :=
  match g with
  | GtIdentifier => option_map VBytes (acc_Identifier m)
  | GtName => option_map VBytes (acc_Name m)
  | GtEncoding => option_map VEnc (acc_PayloadEncoding m)
  | GtPayload => option_map VBytes (acc_Payload m)
  | GtUtf8 => if IsEmpty m then None else Some (VText (Payload_Utf8 (m_enc m) (g_get (m_buf m) (m_pld m))))
  end.

(* what a session request is answered with: fulfillMsg or failMsg *)
Inductive answer := AFulfill (p : payload) | AFail (e : goerr).
Definition answer_msg (gw : option sink) (m : message) (an : answer) : option (sent sink) :=
  match an with
  | AFulfill p => fulfillMsg sink_writer gw m p
  | AFail e => failMsg sink_writer gw m e
  end.

(* what happens; frames are numbered in the order they are read *)
Inductive vevent :=
| VFrame (c f : nat) (b : bytes)                   (* frame f = b accepted on connection c *)
| VSee (f : nat) (g : getter) (v : value)          (* the handler of f used an accessor *)
| VPeek (f : nat) (d : bytes)                      (* content of a payload slice kept by the handler of f *)
| VRet (f : nat) (r : payload * goerr)             (* OnRequest returned r / OnSignal returned *)
| VReply (c f : nat) (r : payload * goerr) (ok : bool) (s : sent sink)  (* its reply; ok: writer available *)
| VKey (f : nat) (key : bytes)                     (* session request: key taken from the payload *)
| VAnswer (c f : nat) (an : answer) (ok : bool) (s : sent sink)
| VShut (c f : nat) (s : sent sink)                (* shutdown reply *)
| VFree (f : nat).                                 (* the server closed the message of f *)

Inductive hstate :=
| HRun (req : bool)          (* OnRequest (true) / OnSignal (false) running *)
| HRep (r : payload * goerr) (* reply to be sent *)
| HSess | HAns               (* session request: key to be read / answer to be sent *)
| HDone.                     (* deregisterHandler, then msg.Close() *)
Inductive sthread :=
| SLoop (c : nat)                            (* messagePool.Get() *)
| SRead (c a : nat)                          (* sock.Read into the message at address a *)
| SFail (c a : nat)                          (* Read failed: msg.Close() *)
| SGot (c a f : nat) (b : bytes)             (* handleMessage *)
| SSkip (c a f : nat) (b : bytes)            (* refused: msg.Close() *)
| SJob (c a f : nat) (b : bytes) (sync : bool) (h : hstate) (* sync: called by the read loop *)
| SEnd.

Record serve := MkServe {
  z_pool : pool;
  z_ts : list sthread;
  z_n : nat;                                 (* frames accepted so far *)
  z_kept : list (nat * nat * gslice);        (* slices kept by handlers: frame, message, slice *)
  z_log : list vevent;
  z_crashed : bool }.
Definition z_say (e : vevent) (z : serve) : serve :=
  MkServe (z_pool z) (z_ts z) (z_n z) (z_kept z) (z_log z ++ [e]) (z_crashed z).
Definition z_with (p : pool) (z : serve) : serve :=
  MkServe p (z_ts z) (z_n z) (z_kept z) (z_log z) (z_crashed z).
Definition z_next (z : serve) : serve :=
  MkServe (z_pool z) (z_ts z) (S (z_n z)) (z_kept z) (z_log z) (z_crashed z).
Definition z_keep (k : nat * nat * gslice) (z : serve) : serve :=
  MkServe (z_pool z) (z_ts z) (z_n z) (k :: z_kept z) (z_log z) (z_crashed z).
Definition z_crash (z : serve) : serve :=
  MkServe (z_pool z) (z_ts z) (z_n z) (z_kept z) (z_log z) true.
Definition z_threads (ts : list sthread) (z : serve) : serve :=
  MkServe (z_pool z) ts (z_n z) (z_kept z) (z_log z) (z_crashed z).

Inductive schoice :=
| CGo
| CPick (k : option nat)      (* which free message the pool returns *)
| CFrame (b : bytes) | CErr   (* outcome of sock.Read *)
| CSkip | CShut (ok : bool) | CInline | CSpawn
| CSee (g : getter) | CKeep | CUserClose  (* the handler uses an accessor / keeps the payload / closes the message *)
| CRet (r : payload * goerr)
| CWriter (ok : bool)
| CAnswer (an : answer) (ok : bool).
Definition sink_of (ok : bool) : option sink := if ok then Some empty_sink else None.

Definition mem (z : serve) (a : nat) : option message := nth_error (p_heap (z_pool z)) a.

(* msg.Close() *)
Definition z_free (a : nat) (z : serve) : option serve :=
  match pool_close (z_pool z) a with Some p => Some (z_with p z) | None => None end.

(* handling of frame f (message at a) on connection c; None for the new state: done *)
Definition job (z : serve) (c a f : nat) (h : hstate) (ch : schoice) : option (serve * option hstate) :=
  match mem z a with
  | None => None
  | Some m =>
    match h, ch with
    (* handleRequest.go:13-17, handleSignal.go:12: the hook uses the message *)
    | HRun req, CSee g =>
        match get_value m g with
        | None => Some (z_crash z, Some h)                 (* panic "read after close" *)
        | Some v => Some (z_say (VSee f g v) z, Some h)
        end
    | HRun req, CKeep => Some (z_keep (f, a, m_pld m) z, Some h)
    | HRun req, CUserClose =>
        match z_free a z with None => Some (z_crash z, Some h) | Some z' => Some (z', Some h) end
    | HRun req, CRet r =>
        Some (z_say (VRet f r) z, Some (if req then HRep r else HDone))
    (* handleRequest.go:20-33 *)
    | HRep r, CWriter ok =>
        match handleRequest sink_writer (sink_of ok) m r with
        | None => Some (z_crash z, Some h)
        | Some s => Some (z_say (VReply c f r ok s) z, Some HDone)
        end
    (* handleSessionRestore.go:26-34; handleSessionClosure does not look at the payload *)
    | HSess, CGo => Some (z_say (VKey f (g_get (m_buf m) (m_pld m))) z, Some HAns)
    | HAns, CAnswer an ok =>
        match answer_msg (sink_of ok) m an with
        | None => Some (z_crash z, Some h)
        | Some s => Some (z_say (VAnswer c f an ok s) z, Some HDone)
        end
    (* handleRequest.go:35-38, handleSignal.go:14-17, handleSessionRestore.go:17-22 *)
    | HDone, CGo =>
        match z_free a z with
        | None => Some (z_crash z, Some h)
        | Some z' => Some (z_say (VFree f) z', None)
        end
    | _, _ => None
    end
  end.

(* handleMessage.go:27-59: what the handler of a message starts with *)
Definition first_state (m : message) : option hstate :=
  match route_of (m_type m) with
  | RtSkip => None
  | RtSignal => Some (HRun false)
  | RtRequest => Some (HRun true)
  | RtRestore => Some HSess
  | RtClosure => Some HAns
  | RtNone => Some HDone
  end.

Definition zstep (z : serve) (t : sthread) (ch : schoice) : option (serve * sthread * option sthread) :=
  match t, ch with
  (* handleConnection.go:64 *)
  | SLoop c, CPick k => let '(p, a) := Get (z_pool z) k in Some (z_with p z, SRead c a, None)
  (* handleConnection.go:67-70 *)
  | SRead c a, CFrame b =>
      match pool_read (z_pool z) a b with
      | None => Some (z_crash z, t, None)
      | Some (p, true, None) => Some (z_next (z_say (VFrame c (z_n z) b) (z_with p z)), SGot c a (z_n z) b, None)
      | Some (p, _, _) => Some (z_with p z, SFail c a, None)
      end
  | SRead c a, CErr => Some (z, SFail c a, None)
  (* handleConnection.go:71 *)
  | SFail c a, CGo => match z_free a z with None => Some (z_crash z, t, None) | Some z' => Some (z', SEnd, None) end
  (* handleMessage.go:14-24, registerHandler.go:19-21: heartbeat or inactive connection *)
  | SGot c a f b, CSkip => Some (z, SSkip c a f b, None)
  (* registerHandler.go:37-41 *)
  | SGot c a f b, CShut ok =>
      match mem z a with
      | None => None
      | Some m =>
          if RequiresReply m
          then match failMsgShutdown sink_writer (sink_of ok) m with
               | None => Some (z_crash z, t, None)
               | Some s => Some (z_say (VShut c f s) z, SSkip c a f b, None)
               end
          else None
      end
  (* handleMessage.go:27-59 *)
  | SGot c a f b, CInline =>
      match mem z a with
      | None => None
      | Some m => match first_state m with Some h => Some (z, SJob c a f b true h, None) | None => None end
      end
  (* go srv.handleSignal / handleRequest; goroutines have no names: here the new thread is the
     one that goes on reading *)
  | SGot c a f b, CSpawn =>
      match mem z a with
      | None => None
      | Some m => match first_state m with
                  | Some (HRun req) => Some (z, SJob c a f b false (HRun req), Some (SLoop c))
                  | _ => None
                  end
      end
  | SSkip c a f b, CGo =>
      match z_free a z with None => Some (z_crash z, t, None) | Some z' => Some (z_say (VFree f) z', SLoop c, None) end
  | SJob c a f b sync h, _ =>
      match job z c a f h ch with
      | None => None
      | Some (z', Some h') => Some (z', SJob c a f b sync h', None)
      | Some (z', None) => Some (z', if sync then SLoop c else SEnd, None)
      end
  | _, _ => None
  end.

(* newServer.go:60-64 *)
Definition new_serve (buf : nat) : serve := MkServe (NewSyncPool buf) [] 0 [] [] false.
Inductive zev :=
| ZConnect                        (* a connection is accepted; connections are numbered *)
| ZPeek (i : nat)                 (* somebody reads the i-th kept slice *)
| ZStep (i : nat) (ch : schoice).
Definition serve_step (z : serve) (e : zev) : option serve :=
  if z_crashed z then None else
  match e with
  | ZConnect => Some (z_threads (z_ts z ++ [SLoop (length (z_ts z))]) z)
  | ZPeek i =>
      match nth_error (z_kept z) i with
      | None => None
      | Some (f, a, g) =>
          match mem z a with None => None | Some m => Some (z_say (VPeek f (g_get (m_buf m) g)) z) end
      end
  | ZStep i ch =>
      match nth_error (z_ts z) i with
      | None => None
      | Some t =>
          match zstep z t ch with
          | None => None
          | Some (z', t', sp) =>
              Some (z_threads (set_nth (z_ts z) i t' ++ match sp with Some x => [x] | None => [] end) z')
          end
      end
  end.
