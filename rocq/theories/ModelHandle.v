(* Model of the server's reply functions: what is sent to the client for one message.
   Source: /repo/handleMessage.go, handleRequest.go, handleSignal.go, failMsg.go,
   fulfillMsg.go, errors.go. The bookkeeping around these calls (registerHandler,
   deregisterHandler) is in ModelDispatch; session requests are in ModelSession. *)
From Coq Require Import List Arith NArith ZArith Bool.
From Verif Require Import BaseBytes ModelMessage ModelWrite.
Import ListNotations.
Open Scope nat_scope.

(* Go error values as far as the server tells them apart (errors.go); the text of a foreign
   error is what its Error() method returns. EReqPtr None: a nil *ErrRequest in an interface *)
Inductive goerr :=
| ENil
| EReq (code text : bytes)
| EReqPtr (p : option (bytes * bytes))
| EMaxSessConns
| ESessNotFound
| ESessDisabled
| EOther (text : bytes).

(* a payload: encoding and data *)
Definition payload := (encoding * bytes)%type.

(* effect of a reply function on the connection's socket *)
Inductive sent (W : Type) :=
| NotAsked                        (* GetWriter was not called *)
| NoWriter                        (* GetWriter returned an error *)
| Used (w : W) (e : option werr). (* GetWriter succeeded; final state of the writer and the
                                     (merely logged) error of WriteMsg* *)
Arguments NotAsked {W}.
Arguments NoWriter {W}.
Arguments Used {W} w e.

Section Handle.
(* [gw]: the writer con.sock.GetWriter() returns; None: it returns an error *)
Context {W : Type} (ops : writer_ops W) (gw : option W).

Definition used (r : wresult (W := W)) : option (sent W) :=
  match r with Some (w, e) => Some (Used w e) | None => None end.

(* msg.MsgIdentifierBytes *)
Definition ident_of (m : message) : bytes := g_get (m_buf m) (m_identB m).

(* fulfillMsg.go:6-33. None: run-time panic *)
Definition fulfillMsg (m : message) (p : payload) : option (sent W) :=
  match gw with
  | None => Some NoWriter
  | Some w => used (WriteMsgReply ops w (ident_of m) (fst p) (snd p))
  end.

(* failMsg.go:8-101 *)
Definition failMsg (m : message) (err : goerr) : option (sent W) :=
  if negb (RequiresReply m) then Some NotAsked else
  match gw with
  | None => Some NoWriter
  | Some w =>
    match err with
    | EReq code text => used (WriteMsgReplyError ops w (ident_of m) code text true)
    | EReqPtr (Some (code, text)) => used (WriteMsgReplyError ops w (ident_of m) code text true)
    | EReqPtr None => None (* err.Code with a nil pointer *)
    | EMaxSessConns =>
      used (WriteMsgSpecialRequestReply ops w MsgReplyMaxSessConnsReached (ident_of m))
    | ESessNotFound =>
      used (WriteMsgSpecialRequestReply ops w MsgReplySessionNotFound (ident_of m))
    | ESessDisabled =>
      used (WriteMsgSpecialRequestReply ops w MsgReplySessionsDisabled (ident_of m))
    | ENil | EOther _ =>
      used (WriteMsgSpecialRequestReply ops w MsgReplyInternalError (ident_of m))
    end
  end.

(* failMsg.go:104-122: the error of GetWriter is logged, but the function goes on with the
   nil writer: calling Write on it panics *)
Definition failMsgShutdown (m : message) : option (sent W) :=
  match gw with
  | None => None
  | Some w => used (WriteMsgSpecialRequestReply ops w MsgReplyShutdown (ident_of m))
  end.

(* handleRequest.go:11-39 up to deregisterHandler; [r]: what OnRequest returned *)
Definition handleRequest (m : message) (r : payload * goerr) : option (sent W) :=
  match snd r with
  | ENil => fulfillMsg m (fst r)
  | EReq _ _ => failMsg m (snd r)
  | EReqPtr _ => failMsg m (snd r)
  | _ => failMsg m ENil
  end.

End Handle.

(* handleMessage.go:14, 27-59: which handler a message is passed to *)
Inductive route := RtSkip (* heartbeat: not even registered *)
  | RtSignal | RtRequest | RtRestore | RtClosure | RtNone.
Definition route_of (t : byte) : route :=
  if beq t MsgHeartbeat then RtSkip else
  if beq t MsgSignalBinary || beq t MsgSignalUtf8 || beq t MsgSignalUtf16 then RtSignal else
  if beq t MsgRequestBinary || beq t MsgRequestUtf8 || beq t MsgRequestUtf16 then RtRequest else
  if beq t MsgRequestRestoreSession then RtRestore else
  if beq t MsgRequestCloseSession then RtClosure else RtNone.
(* RequiresReply by type number (message/message.go:242-257) is ModelMessage.RequiresReply *)
