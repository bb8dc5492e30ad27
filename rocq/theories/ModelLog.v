(* What the server writes into its two logs: /repo/failMsg.go, fulfillMsg.go, handleRequest.go, handleConnection.go,
   handleSessionRestore.go, handleSessionClosure.go, connection.go:230-232, newServer.go:74-84, sessionRegistry.go:84-98.
   An entry is the string handed to Logger.Output; prefix and flags of the loggers are the user's. %p of a connection
   is a parameter. Replies are those of ModelHandle (their writers: ModelReport). Which message gets which treatment is in
   ModelDispatch and ModelSession. *)
From Coq Require Import Strings.String.
From Coq Require Import List Arith NArith ZArith Bool.
From Verif Require Import BaseBytes ModelMessage ModelHandle ModelErrors ModelReport.
Import ListNotations.
Open Scope list_scope.
Open Scope nat_scope.

Inductive logger := WarnLog | ErrorLog.
Definition entry := (logger * bytes)%type.
(* log.Logger.Output: a newline at the end unless there is one *)
Definition lined (s : bytes) : bytes := match rev s with x0a :: _ => s | _ => s ++ [x0a] end.
Definition Printf (l : logger) (s : bytes) : entry := (l, lined s).
(* fmt.Sprintln(s, x): operands with a space between and a newline behind *)
Definition Println (l : logger) (s x : bytes) : entry := (l, lined (s ++ txt " " ++ x ++ [x0a])).

(* what a function has logged, and the writer it has used. res None: run-time panic; Some None: nothing was sent *)
Record out (W : Type) := MkOut { o_log : list entry; o_res : option (option W) }.
Arguments MkOut {W}. Arguments o_log {W}. Arguments o_res {W}.

Section Log.
(* broken, brokenv: what %s and %v print for an error whose Error() panics; con: %p of the connection *)
Variables (broken brokenv : err -> bytes) (con : bytes).
Context {W : Type} (ops : text_ops W) (gw : W + err).
(* %v of an error, also in Println *)
Definition pct_v (e : err) : bytes := shown brokenv (Some e) (Error broken e).

(* an error of GetWriter: failMsg.go:20-27, fulfillMsg.go:12-19 *)
Definition no_writer (e : err) : entry := Printf ErrorLog (txt "couldn't get writer for connection " ++ con ++ txt ": " ++ pct_s broken e).
(* if err := WriteMsg...; err != nil { log } *)
Definition written (r : option (W * option err)) (log : err -> entry) : out W :=
  match r with
  | None => MkOut [] None
  | Some (w, Some e) => MkOut [log e] (Some (Some w))
  | Some (w, None) => MkOut [] (Some (Some w))
  end.

(* fulfillMsg.go:6-33 *)
Definition fulfillMsg (m : message) (p : payload) : out W :=
  match gw with
  | inr e => MkOut [no_writer e] (Some None)
  | inl w => written (WriteMsgReply broken ops w (ident_of m) (fst p) (snd p))
                     (fun e => Printf ErrorLog (txt "couldn't write reply message for connection " ++ con ++ txt ": " ++ pct_s broken e))
  end.

(* failMsg.go:8-101 *)
Definition failMsg (m : message) (reqErr : option err) : out W :=
  if negb (RequiresReply m) then MkOut [] (Some None) else
  match gw with
  | inr e => MkOut [no_writer e] (Some None)
  | inl w =>
    let reply code text := written (WriteMsgReplyError broken ops w (ident_of m) code text true)
                                   (fun e => Println ErrorLog (txt "couldn't write error reply message: ") (pct_v e)) in
    let special t s := written (WriteMsgSpecialRequestReply broken ops w t (ident_of m)) (fun e => Println ErrorLog s (pct_v e)) in
    match reqErr with
    | Some (ErrRequest code text) | Some (Pointer (ErrRequest code text)) => reply code text
    | Some (NilPointer (ErrRequest _ _)) => MkOut [] None   (* err.Code *)
    | Some ErrMaxSessConnsReached => special MsgReplyMaxSessConnsReached (txt "couldn't write max sessions reached message: ")
    | Some ErrSessionNotFound => special MsgReplySessionNotFound (txt "couldn't write session not found message: ")
    | Some ErrSessionsDisabled => special MsgReplySessionsDisabled (txt "couldn't write sessions disabled message: ")
    | _ => special MsgReplyInternalError (txt "couldn't write internal error message: ")
    end
  end.

(* failMsg.go:104-122 *)
Definition failMsgShutdown (m : message) : out W :=
  match gw with
  | inr e => MkOut [no_writer e] None     (* goes on with a nil writer *)
  | inl w => written (WriteMsgSpecialRequestReply broken ops w MsgReplyShutdown (ident_of m))
                     (fun e => Println ErrorLog (txt "failed writing shutdown reply message: ") (pct_v e))
  end.

Definition after (l : list entry) (o : out W) : out W := MkOut (l ++ o_log o) (o_res o).
(* what comes behind a call that may panic *)
Definition before (o : out W) (l : list entry) : out W :=
  match o_res o with None => o | Some _ => MkOut (o_log o ++ l) (o_res o) end.

(* handleRequest.go:11-37; r: what OnRequest returned *)
Definition handleRequest (m : message) (r : payload * option err) : out W :=
  match snd r with
  | None => fulfillMsg m (fst r)
  | Some (ErrRequest _ _) | Some (Pointer (ErrRequest _ _)) | Some (NilPointer (ErrRequest _ _)) => failMsg m (snd r)
  | Some e => after [Printf ErrorLog (txt "request handler internal error: " ++ pct_v e)] (failMsg m None)
  end.

(* a call of OnSessionClosed by deregister: newServer.go:76-82, sessionRegistry.go:84-98. The recovering function
   uses asr.server, which is nil: it panics itself *)
Inductive hooked := HkDone | HkErr (e : err) | HkPanic.
Definition destroyed (h : hooked) : out W :=
  match h with
  | HkDone => MkOut [] (Some None)
  | HkErr e => MkOut [Printf ErrorLog (txt "session registry ")] (Some None)
  | HkPanic => MkOut [] None
  end.
(* connection.go:230-232; CreateSession is called by the user *)
Definition created (e : option err) : list entry :=
  match e with Some e => [Printf ErrorLog (txt "OnSessionCreated hook failed: " ++ pct_s broken e)] | None => [] end.

(* handleSessionRestore.go:11-108: why the session is not restored, or the encoded session. The panic where
   register fails (:90-95) is in ModelSession *)
Inductive restored :=
| ResDisabled | ResFull | ResFailed (e : err) | ResUnknown
| ResUncoded (obj : bytes) (e : err)   (* %v of the session object *)
| ResOk (encoded : bytes).
Definition handleSessionRestore (m : message) (r : restored) : out W :=
  match r with
  | ResDisabled => failMsg m (Some ErrSessionsDisabled)
  | ResFull => failMsg m (Some ErrMaxSessConnsReached)
  | ResFailed e => before (failMsg m None) [Printf ErrorLog (txt "session search handler failed: " ++ pct_s broken e)]
  | ResUnknown => failMsg m (Some ErrSessionNotFound)
  | ResUncoded obj e =>
      before (failMsg m None) [Printf ErrorLog (txt "couldn't encode session object (" ++ obj ++ txt "): " ++ pct_s broken e)]
  | ResOk encoded => fulfillMsg m (Utf8, encoded)
  end.
(* handleSessionClosure.go:9-45; hook: deregister called OnSessionClosed (None: it did not) *)
Inductive closure := ClDisabled | ClNone | ClSession (hook : option hooked).
Definition handleSessionClosure (m : message) (c : closure) : out W :=
  match c with
  | ClDisabled => failMsg m (Some ErrSessionsDisabled)
  | ClNone | ClSession None => fulfillMsg m (Binary, [])
  | ClSession (Some h) => match o_res (destroyed h) with None => destroyed h | Some _ => after (o_log (destroyed h)) (fulfillMsg m (Binary, [])) end
  end.

(* handleConnection.go:8-33; outer None: run-time panic *)
Definition writeConfMessage (configMsg : bytes) : option W * option err :=
  match gw with
  | inr e => (None, Some (Errorf (txt "couldn't get writer for configuration message: " ++ pct_s broken e)))
  | inl w =>
    let (w1, e) := t_write ops w configMsg in
    match e with
    | Some e =>
        let (w2, c) := t_close ops w1 in
        (Some w2, Some (match c with
                        | Some c => Errorf (txt "couldn't close writer after failed conf message write: " ++ pct_s broken e ++ txt ": " ++ pct_s broken c)
                        | None => Errorf (txt "couldn't write configuration message: " ++ pct_s broken e)
                        end))
    | None =>
        let (w2, c) := t_close ops w1 in
        (Some w2, match c with Some c => Some (Errorf (txt "couldn't close writer: " ++ pct_s broken c)) | None => None end)
    end
  end.
(* handleConnection.go:39-46; closed: what sock.Close() returns. Result: whether the connection is served *)
Definition start (configMsg : bytes) (closed : option err) : list entry * option W * bool :=
  match writeConfMessage configMsg with
  | (w, None) => ([], w, true)
  | (w, Some e) =>
      (Println ErrorLog (txt "couldn't write config message: ") (pct_v e) ::
       match closed with Some c => [Println ErrorLog (txt "couldn't close socket: ") (pct_v c)] | None => [] end, w, false)
  end.
End Log.

(* handleConnection.go:67-81: sock.Read returned an error; closed: IsCloseErr() *)
Definition read_failed (broken : err -> bytes) (closed : bool) (e : err) : list entry :=
  if negb closed then [Printf WarnLog (txt "abnormal closure error: " ++ pct_s broken e)] else [].
(* handleConnection.go:83-85, handleMessage.go:6-66: handleMessage returns nil on every path, so nothing is logged there *)
