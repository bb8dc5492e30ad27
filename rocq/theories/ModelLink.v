(* Model of a server and its clients working together: every client has a request manager, its
   requests travel to the server over an ordered connection, the server's replies travel back
   and are given to the request manager.
   Server: ModelServe (/repo/handleConnection.go:62-85 and the handlers). Request manager:
   ModelRequests (/repo/requestManager/requestManager.go, request.go). Frames are written by
   /repo/message/writeMsgRequest.go, writeMsgNamelessRequest.go and read by
   /repo/message/read.go:9-22.
   /repo contains no client; how a client uses the request manager follows the comments there:
   Create, write the request with its identifier (once), AwaitReply; for every message read,
   Fulfill if it is a reply and Fail if it is an error reply (message.go:119-214).
   Simplifications: connections are reliable first-in-first-out queues of frames (memchan and
   websockets both are), nobody is forced to read, so that a broken connection is a queue that
   is no longer read. Handlers do not close messages (see C60 for those which do). *)
From Coq Require Import List Arith NArith ZArith Bool.
From Verif Require Import BaseBytes BaseConc ModelMessage ModelWrite ModelPool ModelPayload ModelHandle
  ModelServe ModelRequests SpecWrite.
Import ListNotations.
Open Scope nat_scope.

(* the requests of a client *)
Inductive say := SayRequest (name : bytes) (e : encoding) (p : bytes) | SayRestore (key : bytes) | SayClosure.
Definition write_say (id : bytes) (x : say) : option (sink * option werr) :=
  match x with
  | SayRequest name e p => WriteMsgRequest sink_writer empty_sink id name e p true
  | SayRestore key => WriteMsgNamelessRequest sink_writer empty_sink MsgRequestRestoreSession id key
  | SayClosure => WriteMsgNamelessRequest sink_writer empty_sink MsgRequestCloseSession id []
  end.
Definition frame_of (id : bytes) (x : say) : option bytes :=
  match write_say id x with Some (s, None) => Some (s_bytes s) | _ => None end.

(* frames are told apart by their first byte *)
Definition first_in (ts : list byte) (b : bytes) : bool :=
  match b with [] => false | t :: _ => existsb (beq t) ts end.
Definition request_types : list byte :=
  [MsgRequestCloseSession; MsgRequestRestoreSession; MsgRequestBinary; MsgRequestUtf8; MsgRequestUtf16].
Definition reply_types : list byte := [MsgReplyBinary; MsgReplyUtf8; MsgReplyUtf16].
Definition error_types : list byte :=
  [MsgReplyError; MsgReplyShutdown; MsgReplyInternalError; MsgReplySessionNotFound;
   MsgReplyMaxSessConnsReached; MsgReplySessionsDisabled].

(* a client and its connection. Frames from the server are tagged with the number of the frame
   they answer (None: they are no answer); the tag is not part of the frame *)
Record peer := MkPeer {
  q_mgr : manager;
  q_sent : list (option (nat * say) * bytes); (* everything sent; for requests: which request *)
  q_up : list bytes;                          (* on the way to the server *)
  q_down : list (option nat * bytes);         (* on the way to the client *)
  q_got : list (option nat * bytes) }.        (* everything the client has read *)
Definition new_peer : peer := MkPeer NewRequestManager [] [] [] [].
Record link := MkLink { n_srv : serve; n_peer : nat -> peer }.  (* by connection number *)
Definition new_link (buf : nat) : link := MkLink (new_serve buf) (fun _ => new_peer).
Definition set_peer (c : nat) (p : peer) (n : link) : link :=
  MkLink (n_srv n) (fun d => if d =? c then p else n_peer n d).

Definition with_mgr (m : manager) (p : peer) : peer := MkPeer m (q_sent p) (q_up p) (q_down p) (q_got p).
Definition put_up (o : option (nat * say)) (b : bytes) (p : peer) : peer :=
  MkPeer (q_mgr p) (q_sent p ++ [(o, b)]) (q_up p ++ [b]) (q_down p) (q_got p).
Definition take_up (rest : list bytes) (p : peer) : peer :=
  MkPeer (q_mgr p) (q_sent p) rest (q_down p) (q_got p).
Definition put_down (o : option nat) (b : bytes) (p : peer) : peer :=
  MkPeer (q_mgr p) (q_sent p) (q_up p) (q_down p ++ [(o, b)]) (q_got p).
Definition take_down (h : option nat * bytes) (rest : list (option nat * bytes)) (p : peer) : peer :=
  MkPeer (q_mgr p) (q_sent p) (q_up p) rest (q_got p ++ [h]).

(* what the server sends: closing a writer sends what has been written to it *)
Definition emitted (e : vevent) : option (nat * nat * bytes) :=
  match e with
  | VReply c f _ _ (Used s _) | VAnswer c f _ _ (Used s _) | VShut c f (Used s _) => Some (c, f, s_bytes s)
  | _ => None
  end.
Definition deliver (n : link) (e : vevent) : link :=
  match emitted e with
  | Some (c, f, w) => set_peer c (put_down (Some f) w (n_peer n c)) n
  | None => n
  end.

(* what the client does with the k-th message it has read *)
Definition call_for (m : message) (k : nat) : option rcall :=
  if existsb (beq (m_type m)) reply_types then Some (CallFulfill (MkRMsg (m_ident m) k))
  else if existsb (beq (m_type m)) error_types then Some (CallFail (m_ident m) (Some k))
  else None.
Definition on_frame (size k : nat) (w : bytes) : option rcall :=
  match ReadBytes (NewMessage size) w with
  | Some (m, true, None) => call_for m k
  | _ => None
  end.

Definition unsent (r : nat) (p : peer) : bool :=
  negb (existsb (fun e => match fst e with Some (r', _) => r =? r' | None => false end) (q_sent p)).

Inductive lev :=
| LClient (c : nat) (e : rev)            (* client c: a call or a step of a call *)
| LSend (c i : nat) (x : say)            (* ... writes the request its i-th call (Create) returned *)
| LOther (c : nat) (b : bytes)           (* ... sends something else *)
| LServe (e : zev)                       (* the server *)
| LPush (c : nat) (b : bytes)            (* the server sends a signal or a notification *)
| LRecv (c : nat).                       (* client c reads a frame *)

(* the server reads what is on the way to it *)
Definition read_up (n : link) (e : zev) : option link :=
  match e with
  | ZStep _ CUserClose => None
  | ZStep i (CFrame b) =>
      match nth_error (z_ts (n_srv n)) i with
      | Some (SRead c a) =>
          match q_up (n_peer n c) with
          | b' :: rest => if bytes_eqb b b' then Some (set_peer c (take_up rest (n_peer n c)) n) else None
          | [] => None
          end
      | _ => None
      end
  | _ => Some n
  end.

Definition link_step (size : nat) (n : link) (ev : lev) : option link :=
  match ev with
  | LClient c (EvCall (CallFulfill _)) | LClient c (EvCall (CallFail _ _)) => None (* see LRecv *)
  | LClient c e =>
      let p := n_peer n c in
      let? m := rstep (q_mgr p) e in Some (set_peer c (with_mgr m p) n)
  | LSend c i x =>
      let p := n_peer n c in
      match nth_error (threads (q_mgr p)) i with
      | Some (CrR r) =>
          let? q := nth_error (reqs (q_mgr p)) r in
          let? b := frame_of (r_id q) x in
          if unsent r p then Some (set_peer c (put_up (Some (r, x)) b p) n) else None
      | _ => None
      end
  | LOther c b =>
      if first_in request_types b then None else Some (set_peer c (put_up None b (n_peer n c)) n)
  | LServe e =>
      let? n1 := read_up n e in
      let? z := serve_step (n_srv n) e in
      Some (fold_left deliver (skipn (length (z_log (n_srv n))) (z_log z)) (MkLink z (n_peer n1)))
  | LPush c b =>
      if first_in (reply_types ++ error_types) b then None
      else Some (set_peer c (put_down None b (n_peer n c)) n)
  | LRecv c =>
      let p := n_peer n c in
      match q_down p with
      | [] => None
      | h :: rest =>
          let p1 := take_down h rest p in
          match on_frame size (length (q_got p)) (snd h) with
          | None => Some (set_peer c p1 n)
          | Some cl => let? m := rstep (q_mgr p) (EvCall cl) in Some (set_peer c (with_mgr m p1) n)
          end
      end
  end.
