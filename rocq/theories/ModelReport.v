(* The writers of package message once more, this time with the errors they return: /repo/message/writeMsg*.go;
   Connection.Signal: connection.go:159-186; the texts of parse errors: message/parse*.go, read.go;
   Socket.Read of package memchan on a complete message: transport/memchan/socket.go:234-250.
   Errors are the values of ModelErrors; those of the writer and of GetWriter are arbitrary. *)
From Coq Require Import Strings.String.
From Coq Require Import List Arith NArith ZArith Bool.
From Verif Require Import BaseBytes ModelMessage ModelWrite ModelErrors.
From Verif Require ModelJson.
Import ListNotations.
Open Scope list_scope.
Open Scope nat_scope.

(* an io.WriteCloser: Write and Close return an error or nil (None) *)
Record text_ops (W : Type) := MkTops {
  t_write : W -> bytes -> W * option err;
  t_close : W -> W * option err }.
Arguments t_write {W} _ _ _.
Arguments t_close {W} _ _.

(* errors.New, fmt.Errorf *)
Definition Errorf (t : bytes) : err := Foreign (Some t).
(* %d of an int *)
Definition pct_d (n : nat) : bytes := ModelJson.dec (Z.of_nat n).
(* string(c) of a byte: the UTF-8 encoding of the code point c *)
Definition string_of (c : byte) : bytes :=
  if (b2N c <? 128)%N then [c] else [n2b (192 + b2N c / 64); n2b (128 + b2N c mod 64)].

Section Texts.
Variable broken : err -> bytes.      (* see ModelErrors *)
(* %s of an error *)
Definition pct_s (e : err) : bytes := shown broken (Some e) (Error broken e).
(* fmt.Errorf("%s: %s", e, c) *)
Definition joined (e c : err) : err := Errorf (pct_s e ++ txt ": " ++ pct_s c).

Section Writers.
Context {W : Type} (ops : text_ops W).
(* None: run-time panic *)
Definition tresult := option (W * option err).

(* if closeErr := writer.Close(); closeErr != nil { return fmt.Errorf("%s: %s", e, closeErr) }; return e *)
Definition close_with (w : W) (e : err) : tresult :=
  let '(w1, ce) := t_close ops w in Some (w1, Some (match ce with Some c => joined e c | None => e end)).
Definition reject (t : bytes) (w : W) : tresult := close_with w (Errorf t).
(* if _, err := writer.Write(chunk); err != nil { close; return err } *)
Definition try_write (chunk : bytes) (k : W -> tresult) (w : W) : tresult :=
  let '(w1, e) := t_write ops w chunk in match e with Some e => close_with w1 e | None => k w1 end.
(* return writer.Close() *)
Definition close_end (w : W) : tresult := Some (t_close ops w).

(* message/writeMsgErrorReply.go:10-105 *)
Definition WriteMsgReplyError (w : W) (requestIdent code message : bytes) (safeMode : bool) : tresult :=
  let go := try_write [MsgReplyError]
    (try_write requestIdent
      (fun w => let? fl := name_len_flag (length code) in
       try_write fl (try_write code (try_write message close_end)) w)) in
  if safeMode then
    if length code <? 1 then reject (txt "missing error code while creating a new error reply message") w
    else if 255 <? length code then
      reject (txt "invalid error code while creating a new error reply message,too long (" ++ pct_d (length code) ++ txt ")") w
    else match find bad_char code with
         | Some char => reject (txt "unsupported character in reply error - error code: " ++ string_of char) w
         | None => go w
         end
  else go w.

(* message/writeMsgHeartbeat.go:10-20 *)
Definition WriteMsgHeartbeat (w : W) : tresult := try_write [MsgHeartbeat] close_end w.

(* message/writeMsgNamelessRequest.go:10-50 *)
Definition WriteMsgNamelessRequest (w : W) (reqType : byte) (identifier binaryPayload : bytes) : tresult :=
  let? msgType :=
    (if beq reqType MsgRequestRestoreSession then Some [MsgRequestRestoreSession]
     else if negb (beq reqType MsgRequestCloseSession) then None (* panic *)
     else Some [MsgRequestCloseSession]) in
  try_write msgType
    (try_write identifier
      (fun w => if 0 <? length binaryPayload then try_write binaryPayload close_end w else close_end w)) w.

(* message/writeMsgReply.go:12-73 *)
Definition WriteMsgReply (w : W) (requestIdentifier : bytes) (payloadEncoding : encoding) (payloadData : bytes) : tresult :=
  if (payloadEncoding =? Utf16)%Z && negb (length payloadData mod 2 =? 0)
  then reject (txt "invalid UTF16 reply payload data length: " ++ pct_d (length payloadData)) w else
  let msgType := if (payloadEncoding =? Utf8)%Z then [MsgReplyUtf8]
                 else if (payloadEncoding =? Utf16)%Z then [MsgReplyUtf16]
                 else [MsgReplyBinary] in
  try_write msgType
    (try_write requestIdentifier
      (fun w =>
        let pay := try_write payloadData close_end in
        if (payloadEncoding =? Utf16)%Z then try_write msgHeaderPadding pay w else pay w)) w.

(* message/writeMsgRequest.go:13-133 *)
Definition WriteMsgRequest (w : W) (identifier name : bytes) (payloadEncoding : encoding)
    (payloadData : bytes) (safeMode : bool) : tresult :=
  if (length name <? 1) && (length payloadData <? 1)
  then reject (txt "request message requires either a name, or a payload, or both") w else
  if 255 <? length name then reject (txt "unsupported request message name length: " ++ pct_d (length name)) w else
  if (payloadEncoding =? Utf16)%Z && negb (length payloadData mod 2 =? 0)
  then reject (txt "invalid UTF16 request payload data length: " ++ pct_d (length payloadData)) w else
  match (if safeMode then find bad_char name else None) with
  | Some char => reject (txt "unsupported character in request name: " ++ string_of char) w
  | None =>
    let msgType := if (payloadEncoding =? Utf8)%Z then [MsgRequestUtf8]
                   else if (payloadEncoding =? Utf16)%Z then [MsgRequestUtf16]
                   else [MsgRequestBinary] in
    try_write msgType
      (try_write identifier
        (fun w => let? fl := name_len_flag (length name) in
         try_write fl
           (try_write name
             (fun w =>
               let pay := try_write payloadData close_end in
               if (payloadEncoding =? Utf16)%Z && negb (length name mod 2 =? 0)
               then try_write msgHeaderPadding pay w else pay w)) w)) w
  end.

(* message/writeMsgSessionClosed.go:10-20 *)
Definition WriteMsgNotifySessionClosed (w : W) : tresult := try_write [MsgNotifySessionClosed] close_end w.
(* message/writeMsgSessionCreated.go:10-31 *)
Definition WriteMsgNotifySessionCreated (w : W) (sessionInfo : bytes) : tresult :=
  try_write [MsgNotifySessionCreated] (try_write sessionInfo close_end) w.

(* message/writeMsgSignal.go:12-113; the texts speak of requests *)
Definition WriteMsgSignal (w : W) (name : bytes) (payloadEncoding : encoding) (payloadData : bytes) (safeMode : bool) : tresult :=
  if 255 <? length name then reject (txt "unsupported request message name length: " ++ pct_d (length name)) w else
  if (payloadEncoding =? Utf16)%Z && negb (length payloadData mod 2 =? 0)
  then reject (txt "invalid UTF16 signal payload data length: " ++ pct_d (length payloadData)) w else
  match (if safeMode then find bad_char name else None) with
  | Some char => reject (txt "unsupported character in request name: " ++ string_of char) w
  | None =>
    let msgType := if (payloadEncoding =? Utf8)%Z then [MsgSignalUtf8]
                   else if (payloadEncoding =? Utf16)%Z then [MsgSignalUtf16]
                   else [MsgSignalBinary] in
    try_write msgType
      (fun w => let? fl := name_len_flag (length name) in
       try_write fl
         (fun w =>
           let pay := try_write payloadData close_end in
           let pad := fun w =>
             if (payloadEncoding =? Utf16)%Z && negb (length name mod 2 =? 0)
             then try_write msgHeaderPadding pay w else pay w in
           if 0 <? length name then try_write name pad w else pad w) w) w
  end.

(* message/writeMsgSpecialRequestReply.go:10-54 *)
Definition WriteMsgSpecialRequestReply (w : W) (reqType : byte) (reqIdent : bytes) : tresult :=
  match (if beq reqType MsgReplyInternalError then Some [MsgReplyInternalError]
         else if beq reqType MsgReplyMaxSessConnsReached then Some [MsgReplyMaxSessConnsReached]
         else if beq reqType MsgReplySessionNotFound then Some [MsgReplySessionNotFound]
         else if beq reqType MsgReplySessionsDisabled then Some [MsgReplySessionsDisabled]
         else if beq reqType MsgReplyShutdown then Some [MsgReplyShutdown]
         else None) with
  | None => reject (txt "message type (" ++ pct_d (b2n reqType) ++ txt ") doesn't represent a special reply message") w
  | Some msgType => try_write msgType (try_write reqIdent close_end) w
  end.

(* connection.go:159-186; [gw]: what GetWriter returns *)
Definition Signal (gw : W + err) (bufSize : N) (name : bytes) (enc : encoding) (payload : bytes) : option ((W + err) * option err) :=
  if (length name <? 1) && (length payload <? 1) then Some (gw, Some (caused ErrProtocol "missing both name and payload")) else
  if (bufSize <? N.of_nat (CalcMsgLenSignal name enc payload) mod 2 ^ 32)%N then Some (gw, Some ErrBufferOverflow) else
  match gw with
  | inr e => Some (gw, Some e)
  | inl w => let? (w1, e) := WriteMsgSignal w name enc payload true in Some (inl w1, e)
  end.
End Writers.
End Texts.

(* the texts of the errors of the parsers for a frame b: message/parse*.go, parse.go:96, read.go:14 *)
Definition parse_text (b : bytes) (e : perr) : bytes :=
  let t := nth 0 b x00 in
  let signal := beq t MsgSignalBinary || beq t MsgSignalUtf8 in
  let request := beq t MsgRequestBinary || beq t MsgRequestUtf8 || beq t MsgRequestUtf16 in
  match e with
  | PTooShort =>
      if beq t MsgAcceptConf then txt "invalid msg length, too short"                                        (* parseAcceptConf.go:12 *)
      else if beq t MsgHeartbeat then txt "invalid heartbeat message (len: " ++ pct_d (length b) ++ txt ")"  (* parseHeartbeat.go:8 *)
      else if beq t MsgReplyError then txt "invalid error reply message, too short"                          (* parseErrorReply.go:14 *)
      else if beq t MsgNotifySessionCreated then txt "invalid session creation notification message, too short"
      else if beq t MsgNotifySessionClosed then txt "invalid session closure notification message, too short"
      else if beq t MsgRequestCloseSession then txt "invalid session destruction request message, too short"
      else if signal || beq t MsgSignalUtf16 then txt "invalid signal message, too short"                    (* parseSignal.go:13, parseSignalUtf16.go:13 *)
      else if request then txt "invalid request message, too short"                                          (* parseRequest.go:13, parseRequestUtf16.go:13 *)
      else if beq t MsgReplyUtf16 then txt "invalid UTF16 reply message, too short"                          (* parseReplyUtf16.go:11 *)
      else if beq t MsgReplyBinary || beq t MsgReplyUtf8 then txt "invalid reply message, too short"         (* parseReply.go:12 *)
      else if beq t MsgRequestRestoreSession then txt "invalid session restoration request message, too short"
      else txt "invalid special reply message, too short"                                                    (* parseSpecialReplyMessage.go:10 *)
  | PUnaligned =>
      if beq t MsgSignalUtf16 then txt "Unaligned UTF16 encoded signal message (probably missing header padding)"
      else if beq t MsgRequestUtf16 then txt "unaligned UTF16 encoded request message (probably missing header padding)"
      else txt "unaligned UTF16 encoded reply message (probably missing header padding)"
  | PBadNameLen =>
      if beq t MsgReplyError
      then txt "invalid error reply message, too short for specified code length (" ++ pct_d (b2n (nth 9 b x00)) ++ txt ")"
      else if signal
      then txt "invalid signal message, too short for full name (" ++ pct_d (b2n (nth 1 b x00)) ++ txt ") and the minimum payload (1)"
      else if beq t MsgSignalUtf16
      then txt "invalid signal message, too short for full name (" ++ pct_d (b2n (nth 1 b x00)) ++ txt ") and the minimum payload (2)"
      else txt "invalid request message, too short for full name (" ++ pct_d (b2n (nth 9 b x00)) ++ txt ")"
  | PZeroCode => txt "invalid error reply message, error code length flag is zero"                          (* parseErrorReply.go:29 *)
  | PBadType => txt "invalid message type"                                                                   (* parse.go:96 *)
  | POverflow => txt "message buffer overflow"                                                               (* read.go:14 *)
  | PReader => []                                                                                            (* Message.Read only *)
  end.
(* Message.ReadBytes (message/read.go:9-22) with the error it returns *)
Definition ReadBytes (m : message) (b : bytes) : option (message * bool * option err) :=
  let? (m1, ok, e) := ModelMessage.ReadBytes m b in
  Some (m1, ok, option_map (fun e => Errorf (parse_text b e)) e).
(* Socket.Read once the data has arrived: transport/memchan/socket.go:234-250 *)
Definition ReadData (m : message) (data : bytes) : option (message * option err) :=
  let? (m1, typeParsed, parseErr) := ReadBytes m data in
  Some (m1, match parseErr with
            | Some e => Some (ErrSockRead false (Some e))
            | None => if negb typeParsed then Some (ErrSockRead false (Some (text "no message type"))) else None
            end).
