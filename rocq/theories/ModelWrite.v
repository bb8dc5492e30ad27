(* Model of package message (writing side): WriteMsg*, CalcMsgLen*, NewAcceptConfMessage.
   Source: /repo/message/writeMsg*.go, calcMsgLen.go, newAcceptConfMessage.go,
   messageParts.go *)
From Coq Require Import List Arith NArith ZArith Bool.
From Verif Require Import BaseBytes ModelMessage.
Import ListNotations.
Open Scope nat_scope.

(* an io.WriteCloser: a state with Write and Close, which report whether they failed *)
Record writer_ops (W : Type) := MkOps {
  w_write : W -> bytes -> W * bool;   (* true: an error was returned *)
  w_close : W -> W * bool }.
Arguments w_write {W} _ _ _.
Arguments w_close {W} _ _.

(* returned errors: own validation error, error of Write, error of Close, or one of the
   first two combined with an error of Close (fmt.Errorf("%s: %s", ...)) *)
Inductive werr := WInvalid | WWrite | WClose | WInvalidClose | WWriteClose.

Section Writers.
Context {W : Type} (ops : writer_ops W).

(* outer None: run-time panic *)
Definition wresult := option (W * option werr).

(* if closeErr := writer.Close(); closeErr != nil { return "%s: %s" }; return err *)
Definition close_with (w : W) (e : werr) (e2 : werr) : wresult :=
  let '(w1, ce) := w_close ops w in Some (w1, Some (if ce then e2 else e)).
Definition reject (w : W) : wresult := close_with w WInvalid WInvalidClose.

(* if _, err := writer.Write(chunk); err != nil { close...; return err } *)
Definition try_write (chunk : bytes) (k : W -> wresult) (w : W) : wresult :=
  let '(w1, e) := w_write ops w chunk in
  if e then close_with w1 WWrite WWriteClose else k w1.

(* return writer.Close() *)
Definition close_end (w : W) : wresult :=
  let '(w1, ce) := w_close ops w in Some (w1, if ce then Some WClose else None).

(* message/messageParts.go:32-97 : msgNameLenBytes[i] = i *)
Definition msgNameLenBytes : bytes := map (fun i => n2b (N.of_nat i)) (seq 0 256).
(* msgNameLenBytes[n : n+1]; None: slice bounds out of range *)
Definition name_len_flag (n : nat) : option bytes :=
  if n + 1 <=? length msgNameLenBytes then Some (firstn 1 (skipn n msgNameLenBytes)) else None.
(* message/messageParts.go:30 *)
Definition msgHeaderPadding : bytes := [x00].

(* char < 32 || char > 126 *)
Definition bad_char (c : byte) : bool := (b2N c <? 32)%N || (126 <? b2N c)%N.

(* message/writeMsgErrorReply.go:10-105 *)
Definition WriteMsgReplyError (w : W) (requestIdent code message : bytes) (safeMode : bool) : wresult :=
  if safeMode && (length code <? 1) then reject w else
  if safeMode && (255 <? length code) then reject w else
  if safeMode && existsb bad_char code then reject w else
  try_write [MsgReplyError]
    (try_write requestIdent
      (fun w => let? fl := name_len_flag (length code) in
       try_write fl
         (try_write code
           (try_write message close_end)) w)) w.

(* message/writeMsgHeartbeat.go:10-20 *)
Definition WriteMsgHeartbeat (w : W) : wresult :=
  try_write [MsgHeartbeat] close_end w.

(* message/writeMsgNamelessRequest.go:10-50 *)
Definition WriteMsgNamelessRequest (w : W) (reqType : byte) (identifier binaryPayload : bytes) : wresult :=
  let? msgType :=
    (if beq reqType MsgRequestRestoreSession then Some [MsgRequestRestoreSession]
     else if negb (beq reqType MsgRequestCloseSession) then None (* panic *)
     else Some [MsgRequestCloseSession]) in
  try_write msgType
    (try_write identifier
      (fun w => if 0 <? length binaryPayload then try_write binaryPayload close_end w
                else close_end w)) w.

(* message/writeMsgReply.go:12-73 *)
Definition WriteMsgReply (w : W) (requestIdentifier : bytes) (payloadEncoding : encoding)
    (payloadData : bytes) : wresult :=
  if (payloadEncoding =? Utf16)%Z && negb (length payloadData mod 2 =? 0) then reject w else
  let msgType := if (payloadEncoding =? Utf8)%Z then [MsgReplyUtf8]
                 else if (payloadEncoding =? Utf16)%Z then [MsgReplyUtf16]
                 else [MsgReplyBinary] in
  try_write msgType
    (try_write requestIdentifier
      (fun w =>
        let pay := try_write payloadData close_end in
        if (payloadEncoding =? Utf16)%Z then try_write msgHeaderPadding pay w else pay w)) w.

(* message/writeMsgRequest.go:13-133 *)
Definition WriteMsgRequest (w : W) (identifier name : bytes) (payloadEncoding : encoding)
    (payloadData : bytes) (safeMode : bool) : wresult :=
  if (length name <? 1) && (length payloadData <? 1) then reject w else
  if 255 <? length name then reject w else
  if (payloadEncoding =? Utf16)%Z && negb (length payloadData mod 2 =? 0) then reject w else
  if safeMode && existsb bad_char name then reject w else
  let msgType := if (payloadEncoding =? Utf8)%Z then [MsgRequestUtf8]
                 else if (payloadEncoding =? Utf16)%Z then [MsgRequestUtf16]
                 else [MsgRequestBinary] in
  try_write msgType
    (try_write identifier
      (fun w => let? fl := name_len_flag (length name) in
       try_write fl
         (try_write name
           (fun w =>
             let pay := try_write payloadData close_end in
             if (payloadEncoding =? Utf16)%Z && negb (length name mod 2 =? 0)
             then try_write msgHeaderPadding pay w else pay w)) w)) w.

(* message/writeMsgSessionClosed.go:10-20 *)
Definition WriteMsgNotifySessionClosed (w : W) : wresult :=
  try_write [MsgNotifySessionClosed] close_end w.

(* message/writeMsgSessionCreated.go:10-31 *)
Definition WriteMsgNotifySessionCreated (w : W) (sessionInfo : bytes) : wresult :=
  try_write [MsgNotifySessionCreated] (try_write sessionInfo close_end) w.

(* message/writeMsgSignal.go:12-113 *)
Definition WriteMsgSignal (w : W) (name : bytes) (payloadEncoding : encoding)
    (payloadData : bytes) (safeMode : bool) : wresult :=
  if 255 <? length name then reject w else
  if (payloadEncoding =? Utf16)%Z && negb (length payloadData mod 2 =? 0) then reject w else
  if safeMode && existsb bad_char name then reject w else
  let msgType := if (payloadEncoding =? Utf8)%Z then [MsgSignalUtf8]
                 else if (payloadEncoding =? Utf16)%Z then [MsgSignalUtf16]
                 else [MsgSignalBinary] in
  try_write msgType
    (fun w => let? fl := name_len_flag (length name) in
     try_write fl
       (fun w =>
         let pay := try_write payloadData close_end in
         let pad := fun w =>
           if (payloadEncoding =? Utf16)%Z && negb (length name mod 2 =? 0)
           then try_write msgHeaderPadding pay w else pay w in
         if 0 <? length name then try_write name pad w else pad w) w) w.

(* message/writeMsgSpecialRequestReply.go:10-54 *)
Definition WriteMsgSpecialRequestReply (w : W) (reqType : byte) (reqIdent : bytes) : wresult :=
  match (if beq reqType MsgReplyInternalError then Some [MsgReplyInternalError]
         else if beq reqType MsgReplyMaxSessConnsReached then Some [MsgReplyMaxSessConnsReached]
         else if beq reqType MsgReplySessionNotFound then Some [MsgReplySessionNotFound]
         else if beq reqType MsgReplySessionsDisabled then Some [MsgReplySessionsDisabled]
         else if beq reqType MsgReplyShutdown then Some [MsgReplyShutdown]
         else None) with
  | None => reject w
  | Some msgType => try_write msgType (try_write reqIdent close_end) w
  end.

End Writers.

(* message/calcMsgLen.go:7-16 *)
Definition CalcMsgLenSignal (name : bytes) (encoding : encoding) (payload : bytes) : nat :=
  if (encoding =? Utf16)%Z && negb (length name mod 2 =? 0)
  then 3 + length name + length payload else 2 + length name + length payload.
(* message/calcMsgLen.go:20-29 *)
Definition CalcMsgLenRequest (name : bytes) (encoding : encoding) (payload : bytes) : nat :=
  if (encoding =? Utf16)%Z && negb (length name mod 2 =? 0)
  then 11 + length name + length payload else 10 + length name + length payload.

(* message/newAcceptConfMessage.go:11-37; arguments: versions, ReadTimeout in
   nanoseconds (int64), MessageBufferSize (uint32), SubProtocolName.
   None: an error is returned. Go integer division truncates toward zero. *)
Definition NewAcceptConfMessage (major minor : byte) (readTimeout : Z) (bufSize : N)
    (subProtocolName : bytes) : option bytes :=
  let readTimeoutMs := Z.quot readTimeout 1000000 in
  if (4294967295 <? readTimeoutMs)%Z then None else
  if (readTimeoutMs <? 0)%Z then None else
  Some (MsgAcceptConf :: major :: minor ::
        le_put 4 (Z.to_N readTimeoutMs) ++ le_put 4 bufSize ++ subProtocolName).

(* errors of Connection.Signal *)
Inductive serr := SProtocol | SOverflow | SNoWriter | SWrite (e : werr).
(* connection.go:159-186; [gw]: the writer GetWriter returns (None: it returned an error),
   [bufSize]: options.MessageBufferSize (uint32). Outer None: run-time panic *)
Definition ConnSignal {W} (ops : writer_ops W) (gw : option W) (bufSize : N)
    (name : bytes) (enc : encoding) (payload : bytes) : option (option W * option serr) :=
  if (length name <? 1) && (length payload <? 1) then Some (gw, Some SProtocol) else
  if (bufSize <? N.of_nat (CalcMsgLenSignal name enc payload) mod 2 ^ 32)%N
  then Some (gw, Some SOverflow) else
  match gw with
  | None => Some (None, Some SNoWriter)
  | Some w => let? (w1, e) := WriteMsgSignal ops w name enc payload true in
              Some (Some w1, option_map SWrite e)
  end.
