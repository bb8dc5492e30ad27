(* Model of package message (reading side): Buffer, Message, ReadBytes, Read, parse*.
   Source: /repo/message/*.go, /repo/payload/*.go *)
From Coq Require Import List Arith NArith ZArith Bool.
From Verif Require Import BaseBytes.
Import ListNotations.
Open Scope nat_scope.

(* ---------- constants ---------- *)
(* message/message.go:9-117 *)
Definition MinLenSignal := 3.
Definition MinLenSignalUtf16 := 4.
Definition MinLenRequest := 11.
Definition MinLenRequestUtf16 := 11.
Definition MinLenReply := 9.
Definition MinLenReplyUtf16 := 10.
Definition MinLenReplyError := 11.
Definition MinLenRequestRestoreSession := 10.
Definition MinLenDoCloseSession := 9.
Definition MinLenNotifySessionCreated := 2.
Definition MinLenNotifySessionClosed := 1.
Definition MinLenAcceptConf := 11.

(* message/message.go:119-214 *)
Definition MsgReplyError : byte := n2b 0.
Definition MsgReplyShutdown : byte := n2b 1.
Definition MsgReplyInternalError : byte := n2b 2.
Definition MsgReplySessionNotFound : byte := n2b 3.
Definition MsgReplyMaxSessConnsReached : byte := n2b 4.
Definition MsgReplySessionsDisabled : byte := n2b 5.
Definition MsgNotifySessionCreated : byte := n2b 21.
Definition MsgNotifySessionClosed : byte := n2b 22.
Definition MsgAcceptConf : byte := n2b 23.
Definition MsgRequestCloseSession : byte := n2b 31.
Definition MsgRequestRestoreSession : byte := n2b 32.
Definition MsgHeartbeat : byte := n2b 33.
Definition MsgSignalBinary : byte := n2b 63.
Definition MsgSignalUtf8 : byte := n2b 64.
Definition MsgSignalUtf16 : byte := n2b 65.
Definition MsgRequestBinary : byte := n2b 127.
Definition MsgRequestUtf8 : byte := n2b 128.
Definition MsgRequestUtf16 : byte := n2b 129.
Definition MsgReplyBinary : byte := n2b 191.
Definition MsgReplyUtf8 : byte := n2b 192.
Definition MsgReplyUtf16 : byte := n2b 193.

(* payload/encoding.go:4-15; Encoding is a Go int, other values are possible *)
Definition encoding := Z.
Definition Binary : encoding := 0%Z.
Definition Utf8 : encoding := 1%Z.
Definition Utf16 : encoding := 2%Z.

(* ---------- Go slices ---------- *)
(* A slice of the message buffer: offset, length and capacity, all relative to the
   backing array [m_buf]. *)
Record view := MkView { v_off : nat; v_len : nat; v_cap : nat }.

(* Go s[a:b] : 0 <= a <= b <= cap(s), otherwise a run-time panic (None) *)
Definition v_slice (s : view) (a b : nat) : option view :=
  if (a <=? b) && (b <=? v_cap s)
  then Some (MkView (v_off s + a) (b - a) (v_cap s - a)) else None.
(* Go s[a:] = s[a:len(s)] *)
Definition v_from (s : view) (a : nat) : option view := v_slice s a (v_len s).
(* the bytes a view denotes *)
Definition v_get (buf : bytes) (s : view) : bytes :=
  firstn (v_len s) (skipn (v_off s) buf).
(* Go s[i] : 0 <= i < len(s), otherwise a run-time panic *)
Definition v_idx (buf : bytes) (s : view) (i : nat) : option byte :=
  if i <? v_len s then nth_error buf (v_off s + i) else None.

(* A []byte struct field: nil, a slice with an array of its own, or a slice of the
   message buffer (aliasing it) *)
Inductive gslice := GNil | GOwn (l : bytes) | GView (v : view).
Definition g_get (buf : bytes) (s : gslice) : bytes :=
  match s with GNil => [] | GOwn l => l | GView v => v_get buf v end.

(* Go copy(dst, src) for arrays: overwrites the first min(len) elements *)
Definition copy (dst src : bytes) : bytes :=
  firstn (length dst) src ++ skipn (length src) dst.

Notation "'let?' x := e 'in' k" :=
  (match e with Some x => k | None => None end)
  (at level 200, x pattern, e at level 100, k at level 200).

(* ---------- data types ---------- *)
(* message/message.go:217-223; ReadTimeout is a time.Duration in nanoseconds *)
Record server_conf := MkConf {
  c_major : byte; c_minor : byte; c_sub : gslice;
  c_timeout : Z; c_bufsize : N }.
Definition zero_conf := MkConf x00 x00 GNil 0 0.

(* message/message.go:226-238; MsgBuffer.buf / MsgBuffer.len inlined (buffer.go:10-13).
   m_pooled: onClose is set (syncPool.go:18), otherwise it is nil (newMessage.go:4-12) *)
Record message := MkMsg {
  m_buf : bytes; m_len : nat; m_type : byte;
  m_ident : bytes; m_identB : gslice; m_name : gslice;
  m_enc : encoding; m_pld : gslice; m_conf : server_conf; m_pooled : bool }.

Definition set_buf b m := MkMsg b (m_len m) (m_type m) (m_ident m) (m_identB m) (m_name m) (m_enc m) (m_pld m) (m_conf m) (m_pooled m).
Definition set_len l m := MkMsg (m_buf m) l (m_type m) (m_ident m) (m_identB m) (m_name m) (m_enc m) (m_pld m) (m_conf m) (m_pooled m).
Definition set_type t m := MkMsg (m_buf m) (m_len m) t (m_ident m) (m_identB m) (m_name m) (m_enc m) (m_pld m) (m_conf m) (m_pooled m).
Definition set_ident i m := MkMsg (m_buf m) (m_len m) (m_type m) i (m_identB m) (m_name m) (m_enc m) (m_pld m) (m_conf m) (m_pooled m).
Definition set_identB i m := MkMsg (m_buf m) (m_len m) (m_type m) (m_ident m) i (m_name m) (m_enc m) (m_pld m) (m_conf m) (m_pooled m).
Definition set_name n m := MkMsg (m_buf m) (m_len m) (m_type m) (m_ident m) (m_identB m) n (m_enc m) (m_pld m) (m_conf m) (m_pooled m).
Definition set_enc e m := MkMsg (m_buf m) (m_len m) (m_type m) (m_ident m) (m_identB m) (m_name m) e (m_pld m) (m_conf m) (m_pooled m).
(* msg.MsgPayload = pld.Payload{Encoding: e, Data: d} *)
Definition set_pld e d m := MkMsg (m_buf m) (m_len m) (m_type m) (m_ident m) (m_identB m) (m_name m) e d (m_conf m) (m_pooled m).
Definition set_conf c m := MkMsg (m_buf m) (m_len m) (m_type m) (m_ident m) (m_identB m) (m_name m) (m_enc m) (m_pld m) c (m_pooled m).

(* message/newMessage.go:4-12 *)
Definition NewMessage (bufferSize : nat) : message :=
  MkMsg (repeat x00 bufferSize) 0 x00 (repeat x00 8) (GOwn (repeat x00 8))
        GNil Binary GNil zero_conf false.

(* parse errors (texts are not modelled, only the branch they come from) *)
Inductive perr :=
| PTooShort | PUnaligned | PBadNameLen | PZeroCode | PBadType | POverflow | PReader.

(* ---------- Buffer ---------- *)
(* message/buffer.go:21-23 *)
Definition IsEmpty (m : message) : bool := m_len m <? 1.
(* message/buffer.go:26-28 *)
Definition BufClose (m : message) : message := set_len 0 m.
(* message/buffer.go:68-70 : buf.buf[:buf.len]; make() gives cap = len *)
Definition Data (m : message) : option view :=
  v_slice (MkView 0 (length (m_buf m)) (length (m_buf m))) 0 (m_len m).

(* ---------- parsers ---------- *)
(* every parser returns the updated message and the returned error (None = nil);
   an outer None is a run-time panic *)
Definition presult := option (message * option perr).

(* msg.MsgIdentifierBytes = dat[1:9]; copy(msg.MsgIdentifier[:], msg.MsgIdentifierBytes)
   (the same two statements in all parsers of messages with an identifier) *)
Definition read_ident (m : message) (dat : view) : option message :=
  let? iv := v_slice dat 1 9 in
  Some (set_ident (copy (m_ident m) (v_get (m_buf m) iv))
        (set_identB (GView iv) m)).

(* message/parseAcceptConf.go:10-31 *)
Definition parseAcceptConf (m : message) : presult :=
  if m_len m <? MinLenAcceptConf then Some (m, Some PTooShort) else
  let? dat := Data m in
  let? sub := (if MinLenAcceptConf <? m_len m
               then let? s := v_from dat 11 in Some (GView s)
               else Some GNil) in
  let? s1 := v_slice dat 1 2 in
  let? major := v_idx (m_buf m) s1 0 in
  let? s2 := v_slice dat 2 3 in
  let? minor := v_idx (m_buf m) s2 0 in
  let? st := v_slice dat 3 7 in
  let? sb := v_slice dat 7 11 in
  Some (set_conf (MkConf major minor sub
                   (Z.of_N (le_get (v_get (m_buf m) st)) * 1000000)%Z
                   (le_get (v_get (m_buf m) sb))) m, None).

(* message/parseHeartbeat.go:6-14 *)
Definition parseHeartbeat (m : message) : presult :=
  if negb (m_len m =? 1) then Some (m, Some PTooShort) else Some (m, None).

(* message/parseErrorReply.go:12-54 *)
Definition parseErrorReply (m : message) : presult :=
  if m_len m <? MinLenReplyError then Some (m, Some PTooShort) else
  let? dat := Data m in
  let? m1 := read_ident m dat in
  let? sl := v_slice dat 9 10 in
  let? cl := v_idx (m_buf m1) sl 0 in
  let errCodeLen := b2n cl in
  let errMessageOffset := 10 + errCodeLen in
  if errCodeLen <? 1 then Some (m1, Some PZeroCode) else
  if m_len m1 <? MinLenReplyError + errCodeLen - 1 then Some (m1, Some PBadNameLen) else
  let? name := v_slice dat 10 (10 + errCodeLen) in
  let? pl := v_from dat errMessageOffset in
  Some (set_pld Utf8 (GView pl) (set_name (GView name) m1), None).

(* message/parseSessionCreated.go:10-22 *)
Definition parseSessionCreated (m : message) : presult :=
  if m_len m <? MinLenNotifySessionCreated then Some (m, Some PTooShort) else
  let? dat := Data m in
  let? pl := v_from dat 1 in
  Some (set_pld Binary (GView pl) m, None).

(* message/parseSessionClosed.go:6-13 *)
Definition parseSessionClosed (m : message) : presult :=
  if negb (m_len m =? MinLenNotifySessionClosed) then Some (m, Some PTooShort)
  else Some (m, None).

(* message/parseCloseSession.go:6-18 *)
Definition parseCloseSession (m : message) : presult :=
  if negb (m_len m =? MinLenDoCloseSession) then Some (m, Some PTooShort) else
  let? dat := Data m in
  let? m1 := read_ident m dat in
  Some (m1, None).

(* message/parseSignal.go:11-46 *)
Definition parseSignal (m : message) : presult :=
  if m_len m <? MinLenSignal then Some (m, Some PTooShort) else
  let? dat := Data m in
  let? nl := v_idx (m_buf m) dat 1 in
  let nameLen := b2n nl in
  let minMsgLen := 2 + nameLen in
  if m_len m <? minMsgLen then Some (m, Some PBadNameLen) else
  if 0 <? nameLen then
    let? name := v_slice dat 2 minMsgLen in
    let? pl := v_from dat minMsgLen in
    Some (set_pld Binary (GView pl) (set_name (GView name) m), None)
  else
    let? pl := v_from dat 2 in
    Some (set_pld Binary (GView pl) m, None).

(* message/parseSignalUtf16.go:11-62 *)
Definition parseSignalUtf16 (m : message) : presult :=
  if m_len m <? MinLenSignalUtf16 then Some (m, Some PTooShort) else
  if negb (m_len m mod 2 =? 0) then Some (m, Some PUnaligned) else
  let? dat := Data m in
  let? nl := v_idx (m_buf m) dat 1 in
  let nameLen := b2n nl in
  let '(minMsgSize, payloadOffset) :=
    if negb (nameLen mod 2 =? 0)
    then (MinLenSignalUtf16 + nameLen + 1, 2 + nameLen + 1)
    else (MinLenSignalUtf16 + nameLen, 2 + nameLen) in
  if m_len m <? minMsgSize then Some (m, Some PBadNameLen) else
  if 0 <? nameLen then
    let? name := v_slice dat 2 (2 + nameLen) in
    let? pl := v_from dat payloadOffset in
    Some (set_pld Binary (GView pl) (set_name (GView name) m), None)
  else
    let? pl := v_from dat 2 in
    Some (set_pld Binary (GView pl) m, None).

(* message/parseRequest.go:11-55 *)
Definition parseRequest (m : message) : presult :=
  if m_len m <? MinLenRequest then Some (m, Some PTooShort) else
  let? dat := Data m in
  let? m1 := read_ident m dat in
  let? nl := v_idx (m_buf m1) dat 9 in
  let nameLen := b2n nl in
  let payloadOffset := 10 + nameLen in
  if 0 <? nameLen then
    if m_len m1 <? MinLenRequest + nameLen - 1 then Some (m1, Some PBadNameLen) else
    let? name := v_slice dat 10 (10 + nameLen) in
    let m2 := set_name (GView name) m1 in
    if MinLenRequest + nameLen - 1 <? m_len m2 then
      let? pl := v_from dat payloadOffset in
      Some (set_pld Binary (GView pl) m2, None)
    else Some (m2, None)
  else
    let? pl := v_from dat 10 in
    Some (set_pld Binary (GView pl) m1, None).

(* message/parseRequestUtf16.go:11-76 *)
Definition parseRequestUtf16 (m : message) : presult :=
  if m_len m <? MinLenRequestUtf16 then Some (m, Some PTooShort) else
  if negb (m_len m mod 2 =? 0) then Some (m, Some PUnaligned) else
  let? dat := Data m in
  let? m1 := read_ident m dat in
  let? nl := v_idx (m_buf m1) dat 9 in
  let nameLen := b2n nl in
  let min0 := if 0 <? nameLen then 10 + nameLen else 12 in
  let '(minRequiredMsgSize, payloadOffset) :=
    if (10 + nameLen <? m_len m1) && negb (nameLen mod 2 =? 0)
    then (min0 + 1, 10 + nameLen + 1) else (min0, 10 + nameLen) in
  if 0 <? nameLen then
    if m_len m1 <? minRequiredMsgSize then Some (m1, Some PBadNameLen) else
    let? name := v_slice dat 10 (10 + nameLen) in
    let m2 := set_name (GView name) m1 in
    if minRequiredMsgSize <? m_len m2 then
      let? pl := v_from dat payloadOffset in
      Some (set_pld Binary (GView pl) m2, None)
    else Some (m2, None)
  else
    let? pl := v_from dat 10 in
    Some (set_pld Binary (GView pl) m1, None).

(* message/parseReply.go:10-31 *)
Definition parseReply (m : message) : presult :=
  if m_len m <? MinLenReply then Some (m, Some PTooShort) else
  let? dat := Data m in
  let? m1 := read_ident m dat in
  if m_len m1 =? MinLenReply then Some (m1, None) else
  let? pl := v_from dat 9 in
  Some (set_pld Binary (GView pl) m1, None).

(* message/parseReplyUtf16.go:9-42 *)
Definition parseReplyUtf16 (m : message) : presult :=
  if m_len m <? MinLenReplyUtf16 then Some (m, Some PTooShort) else
  if negb (m_len m mod 2 =? 0) then Some (m, Some PUnaligned) else
  let? dat := Data m in
  let? m1 := read_ident m dat in
  if m_len m1 =? MinLenReplyUtf16 then Some (set_pld Utf16 GNil m1, None) else
  let? pl := v_from dat 10 in
  Some (set_pld Binary (GView pl) m1, None).

(* message/parseRestoreSession.go:10-28 *)
Definition parseRestoreSession (m : message) : presult :=
  if m_len m <? MinLenRequestRestoreSession then Some (m, Some PTooShort) else
  let? dat := Data m in
  let? m1 := read_ident m dat in
  let? pl := v_from dat 9 in
  Some (set_pld Binary (GView pl) m1, None).

(* message/parseSpecialReplyMessage.go:8-18 *)
Definition parseSpecialReplyMessage (m : message) : presult :=
  if m_len m <? 9 then Some (m, Some PTooShort) else
  let? dat := Data m in
  let? m1 := read_ident m dat in
  Some (m1, None).

(* message/parse.go:12-102 : the switch. Which parser runs and which payloadEncoding is
   assigned afterwards; None for the default branch *)
Definition parse_switch (t : byte) : option ((message -> presult) * encoding) :=
  if beq t MsgAcceptConf then Some (parseAcceptConf, Binary)
  else if beq t MsgHeartbeat then Some (parseHeartbeat, Binary)
  else if beq t MsgReplyError then Some (parseErrorReply, Binary)
  else if beq t MsgNotifySessionCreated then Some (parseSessionCreated, Binary)
  else if beq t MsgNotifySessionClosed then Some (parseSessionClosed, Binary)
  else if beq t MsgRequestCloseSession then Some (parseCloseSession, Binary)
  else if beq t MsgSignalBinary then Some (parseSignal, Binary)
  else if beq t MsgSignalUtf8 then Some (parseSignal, Utf8)
  else if beq t MsgSignalUtf16 then Some (parseSignalUtf16, Utf16)
  else if beq t MsgRequestBinary then Some (parseRequest, Binary)
  else if beq t MsgRequestUtf8 then Some (parseRequest, Utf8)
  else if beq t MsgRequestUtf16 then Some (parseRequestUtf16, Utf16)
  else if beq t MsgReplyBinary then Some (parseReply, Binary)
  else if beq t MsgReplyUtf8 then Some (parseReply, Utf8)
  else if beq t MsgReplyUtf16 then Some (parseReplyUtf16, Utf16)
  else if beq t MsgRequestRestoreSession then Some (parseRestoreSession, Binary)
  else if beq t MsgReplyShutdown then Some (parseSpecialReplyMessage, Binary)
  else if beq t MsgReplyInternalError then Some (parseSpecialReplyMessage, Binary)
  else if beq t MsgReplySessionNotFound then Some (parseSpecialReplyMessage, Binary)
  else if beq t MsgReplyMaxSessConnsReached then Some (parseSpecialReplyMessage, Binary)
  else if beq t MsgReplySessionsDisabled then Some (parseSpecialReplyMessage, Binary)
  else None.

(* message/parse.go:12-102; result: message, typeParsed, err *)
Definition parse (m : message) : option (message * bool * option perr) :=
  if IsEmpty m then Some (m, false, None) else
  (* msg.MsgBuffer.buf[0:1][0] *)
  let? s := v_slice (MkView 0 (length (m_buf m)) (length (m_buf m))) 0 1 in
  let? t := v_idx (m_buf m) s 0 in
  match parse_switch t with
  | None => Some (m, false, Some PBadType)
  | Some (p, enc) =>
      let? (m1, e) := p m in
      Some (set_enc enc (set_type t m1), true, e)
  end.

(* message/read.go:9-22 *)
Definition ReadBytes (m : message) (b : bytes) : option (message * bool * option perr) :=
  if length b <? 1 then Some (m, false, None) else
  if length (m_buf m) <? length b then Some (m, false, Some POverflow) else
  let m1 := if negb (IsEmpty m) then BufClose m else m in
  let? dst := v_slice (MkView 0 (length (m_buf m1)) (length (m_buf m1))) 0 (length b) in
  let m2 := set_buf (copy (v_get (m_buf m1) dst) b ++ skipn (v_len dst) (m_buf m1)) m1 in
  parse (set_len (length b) m2).

(* ---------- Message API ---------- *)
(* message/message.go:242-256 *)
Definition RequiresReply (m : message) : bool :=
  beq (m_type m) MsgRequestCloseSession || beq (m_type m) MsgRequestRestoreSession
  || beq (m_type m) MsgRequestBinary || beq (m_type m) MsgRequestUtf8
  || beq (m_type m) MsgRequestUtf16.

(* message/message.go:259-288; None is the panic "read after close" *)
Definition acc_Identifier (m : message) : option bytes :=
  if IsEmpty m then None else Some (m_ident m).
Definition acc_Name (m : message) : option bytes :=
  if IsEmpty m then None else Some (g_get (m_buf m) (m_name m)).
Definition acc_PayloadEncoding (m : message) : option encoding :=
  if IsEmpty m then None else Some (m_enc m).
Definition acc_Payload (m : message) : option bytes :=
  if IsEmpty m then None else Some (g_get (m_buf m) (m_pld m)).

(* message/message.go:299-314; result: message and whether onClose ran
   (pool.Put); None is the nil call panic of a message that is not pooled *)
Definition MsgClose (m : message) : option (message * bool) :=
  if IsEmpty m then Some (m, false) else
  let m1 := set_conf zero_conf (set_pld Binary GNil (set_name GNil (set_identB GNil
             (set_ident (repeat x00 8) (set_type x00 (BufClose m)))))) in
  if m_pooled m1 then Some (m1, true) else None.
