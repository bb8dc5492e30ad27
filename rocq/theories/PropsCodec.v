(* Property theorems C01-C17 (wire codec, streaming, message pool, text). *)
From Coq Require Import List Arith NArith ZArith Lia Bool.
From Verif Require Import BaseBytes ModelMessage ModelWrite ModelStream ModelPool ModelPayload.
From Verif Require Import SpecWire SpecMessage SpecWrite SpecStream SpecText SpecPool.
From Verif Require Import ProofMessage ProofWire ProofWrite ProofStream ProofText ProofPool ProofCodec ProofReread.
Import ListNotations.
Open Scope nat_scope.

(* sample data *)
Definition bs (l : list N) : bytes := map n2b l.
Definition id8 : bytes := bs [1; 2; 3; 4; 5; 6; 7; 8]%N.
Definition abc : bytes := bs [97; 98; 99]%N.
Definition hi16 : bytes := bs [104; 0; 105; 0]%N.

(* ================= C01 ================= *)
(* m_ident is a Go [8]byte, hence the hypothesis on its length *)
Theorem C01_read_never_panics : forall m b, length (m_ident m) = 8 ->
  exists m' ok e, ReadBytes m b = Some (m', ok, e) /\ length (m_ident m') = 8.
Proof. exact ReadBytes_total. Qed.
Print Assumptions C01_read_never_panics.
Theorem C01_stream_never_panics : forall fuel m s, length (m_ident m) = 8 -> length s + 2 <= fuel ->
  exists m' ok e rest, MsgRead fuel m s = Some (m', ok, e, rest) /\ length (m_ident m') = 8.
Proof. exact MsgRead_total. Qed.
Print Assumptions C01_stream_never_panics.
(* a used message with leftovers, and a truncated UTF-16 request claiming a 255 byte name *)
Example C01_case : exists m m' ok e,
  ReadBytes (NewMessage 64) (bs [63; 2; 97; 98; 99; 100]%N) = Some (m, true, None) /\
  ReadBytes m (bs [129; 1; 2; 3; 4; 5; 6; 7; 8; 255; 97; 98]%N) = Some (m', ok, e) /\ e = Some PBadNameLen.
Proof. vm_compute. do 4 eexists. repeat split. Qed.

(* ================= C02 ================= *)
Theorem C02_only_frame_bytes : forall m1 m2 b, blank m1 -> blank m2 -> 1 <= length b ->
  length b <= length (m_buf m1) -> length b <= length (m_buf m2) ->
  exists m1' m2' ok e, ReadBytes m1 b = Some (m1', ok, e) /\ ReadBytes m2 b = Some (m2', ok, e) /\
    observe m1' = observe m2' /\ pieces_of (observe m1') b.
Proof. exact same_obs. Qed.
Print Assumptions C02_only_frame_bytes.
(* a blank message whose buffer still holds an earlier frame *)
Example C02_case : exists m m1, 
  ReadBytes (pool_new (NewSyncPool 16)) (bs [63; 2; 97; 98; 99; 100]%N) = Some (m, true, None) /\
  MsgClose m = Some (m1, true) /\ blank m1 /\ m_buf m1 <> repeat x00 16.
Proof.
  vm_compute. do 2 eexists. split; [reflexivity|]. split; [reflexivity|].
  split; [|discriminate]. repeat split. intros v; discriminate.
Qed.

(* ================= C03 ================= *)
Theorem C03_accepts_exactly_the_format : forall m b, blank m ->
  exists m' ok e, ReadBytes m b = Some (m', ok, e) /\
    (ok = true /\ e = None <-> length b <= length (m_buf m) /\ exists c, frame b c) /\
    (b = [] -> m' = m /\ ok = false /\ e = None) /\
    (length (m_buf m) < length b -> m' = m /\ ok = false /\ e = Some POverflow) /\
    (1 <= length b <= length (m_buf m) -> (ok = true <-> In (b2N (nth 0 b x00)) known_types)) /\
    (forall c, length b <= length (m_buf m) -> frame b c -> shows (observe m') c).
Proof. exact ReadBytes_spec. Qed.
Print Assumptions C03_accepts_exactly_the_format.
(* the format is unambiguous: a frame has one meaning *)
Theorem C03_unambiguous : forall b c1 c2, frame b c1 -> frame b c2 -> c1 = c2.
Proof. exact frame_fun. Qed.
Print Assumptions C03_unambiguous.
Example C03_case : frame (bs [129; 1; 2; 3; 4; 5; 6; 7; 8; 3; 97; 98; 99; 0; 104; 0; 105; 0]%N)
                         (MkContent 129 id8 abc hi16 EU16 None).
Proof. apply (F_request16 id8 abc [x00] hi16); try reflexivity; try (cbn; lia). discriminate. Qed.

(* ================= C04 ================= *)
Theorem C04_signal_roundtrip : forall name e p safe,
  valid_signal name e p safe -> name ++ p <> [] -> (e = 2%Z -> p <> []) ->
  exists b, WriteMsgSignal sink_writer empty_sink name e p safe = Some (MkSink b 1, None) /\
    reads_as b (MkContent (sig_tag (enc_of e)) no_ident name p (enc_of e) None).
Proof. exact signal_roundtrip. Qed.
Print Assumptions C04_signal_roundtrip.
Example C04_case : valid_signal abc 2%Z hi16 true /\ abc ++ hi16 <> [] /\ hi16 <> [].
Proof.
  repeat split; try discriminate; try (cbn; lia). intros _. repeat constructor; cbn; lia.
Qed.

(* ================= C05 ================= *)
(* when Connection.Signal succeeds on a working writer, and what is on the wire then *)
Theorem C05_signal_accepts : forall bufSize name e p,
  (name ++ p <> [] /\ (N.of_nat (CalcMsgLenSignal name e p) mod 2 ^ 32 <= bufSize)%N /\ valid_signal name e p true ->
   ConnSignal sink_writer (Some empty_sink) bufSize name e p = Some (Some (MkSink (signal_frame name e p) 1), None)) /\
  (~ (name ++ p <> [] /\ (N.of_nat (CalcMsgLenSignal name e p) mod 2 ^ 32 <= bufSize)%N /\ valid_signal name e p true) ->
   exists s err, ConnSignal sink_writer (Some empty_sink) bufSize name e p = Some (Some s, Some err) /\ s_bytes s = []).
Proof. exact conn_signal_spec. Qed.
Print Assumptions C05_signal_accepts.
(* which error Connection.Signal returns, and what it does to the writer, whatever the writer does: without
   name and payload, and for frames that are too long (up to the conversion to uint32), no writer is used *)
Theorem C05_signal_calls : forall fails bufSize name e p,
  (name ++ p = [] -> forall gw, ConnSignal (log_writer fails) gw bufSize name e p = Some (gw, Some SProtocol)) /\
  (name ++ p <> [] ->
   ((bufSize < N.of_nat (length (signal_frame name e p)) mod 2 ^ 32)%N -> forall gw,
    ConnSignal (log_writer fails) gw bufSize name e p = Some (gw, Some SOverflow)) /\
   ((N.of_nat (length (signal_frame name e p)) mod 2 ^ 32 <= bufSize)%N ->
    ConnSignal (log_writer fails) None bufSize name e p = Some (None, Some SNoWriter) /\
    (valid_signal name e p true -> exists chunks, concat chunks = signal_frame name e p /\ forall calls,
     ConnSignal (log_writer fails) (Some calls) bufSize name e p =
       Some (Some (calls ++ fst (run_calls fails (length calls) chunks)), option_map SWrite (run_error fails (length calls) chunks))) /\
    (~ valid_signal name e p true -> forall calls,
     ConnSignal (log_writer fails) (Some calls) bufSize name e p =
       Some (Some (calls ++ [CClose]), Some (SWrite (if fails (length calls) then WInvalidClose else WInvalid)))))).
Proof. exact conn_signal_calls. Qed.
Print Assumptions C05_signal_calls.
(* a writer whose third call fails: the frame is given up, the error is that of Write; if the closing fails, too,
   of both; if only the Close fails, of Close *)
Example C05_calls_case :
  ConnSignal (log_writer (fun n => n =? 2)) (Some []) 64 abc 0%Z hi16 =
    Some (Some [CWrite [n2b 63]; CWrite [n2b 3]; CWrite abc; CClose], Some (SWrite WWrite)) /\
  ConnSignal (log_writer (fun n => 2 <=? n)) (Some []) 64 abc 0%Z hi16 =
    Some (Some [CWrite [n2b 63]; CWrite [n2b 3]; CWrite abc; CClose], Some (SWrite WWriteClose)) /\
  ConnSignal (log_writer (fun n => 4 <=? n)) (Some []) 64 abc 0%Z hi16 =
    Some (Some [CWrite [n2b 63]; CWrite [n2b 3]; CWrite abc; CWrite hi16; CClose], Some (SWrite WClose)) /\
  ConnSignal (log_writer (fun _ => false)) None 64 abc 0%Z hi16 = Some (None, Some SNoWriter) /\
  ConnSignal (log_writer (fun _ => false)) None 8 abc 0%Z hi16 = Some (None, Some SOverflow).
Proof. vm_compute. repeat split. Qed.
(* full statement (every accepted signal is readable) fails for UTF-16 without payload and,
   as far as the buffer check goes, for frames of 2^32 bytes and more *)
Theorem C05_signal_delivered_partial : forall bufSize name e p s,
  ConnSignal sink_writer (Some empty_sink) bufSize name e p = Some (Some s, None) ->
  (e = 2%Z -> p <> []) ->
  s_closed s = 1 /\ reads_as (s_bytes s) (MkContent (sig_tag (enc_of e)) no_ident name p (enc_of e) None) /\
  ((N.of_nat (length (s_bytes s)) < 2 ^ 32)%N -> (N.of_nat (length (s_bytes s)) <= bufSize)%N).
Proof. exact conn_signal_delivered. Qed.
Print Assumptions C05_signal_delivered_partial.
Example C05_case : exists s, ConnSignal sink_writer (Some empty_sink) 64 abc 2%Z hi16 = Some (Some s, None).
Proof. vm_compute. eexists. reflexivity. Qed.
Theorem C05_signal_refuted : forall name bufSize m,
  name <> [] -> length name <= 255 -> printable name -> (258 <= bufSize)%N ->
  blank m -> 258 <= length (m_buf m) ->
  exists s m' ok e, ConnSignal sink_writer (Some empty_sink) bufSize name 2%Z [] = Some (Some s, None) /\
    ReadBytes m (s_bytes s) = Some (m', ok, e) /\ (ok = false \/ e <> None).
Proof. exact conn_signal_unreadable. Qed.
Print Assumptions C05_signal_refuted.
Example C05_refuted_case : abc <> [] /\ length abc <= 255 /\ printable abc /\ blank (NewMessage 300).
Proof. split; [discriminate|]. split; [cbn; lia|]. split; [repeat constructor; cbn; lia|apply NewMessage_blank]. Qed.

(* ================= C06 ================= *)
Theorem C06_request_roundtrip : forall i name e p safe,
  length i = 8 -> valid_request name e p safe ->
  exists b, WriteMsgRequest sink_writer empty_sink i name e p safe = Some (MkSink b 1, None) /\
    reads_as b (MkContent (req_tag (enc_of e)) i name p (enc_of e) None).
Proof. exact request_roundtrip. Qed.
Print Assumptions C06_request_roundtrip.
Example C06_case : length id8 = 8 /\ valid_request abc 2%Z [] true.
Proof. repeat split; try discriminate; try (cbn; lia). intros _. repeat constructor; cbn; lia. Qed.

(* ================= C07 ================= *)
Theorem C07_reply_roundtrip : forall i e p,
  length i = 8 -> utf16_ok e p ->
  exists b, WriteMsgReply sink_writer empty_sink i e p = Some (MkSink b 1, None) /\
    reads_as b (MkContent (rep_tag (enc_of e)) i [] p (enc_of e) None).
Proof. exact reply_roundtrip. Qed.
Print Assumptions C07_reply_roundtrip.
Example C07_case : length id8 = 8 /\ utf16_ok 2%Z hi16 /\ utf16_ok 1%Z abc /\ utf16_ok 2%Z [].
Proof. repeat split; intros E; try discriminate E. Qed.

(* ================= C08 ================= *)
(* identifier, code and message; the encoding is not part of the statement for error
   replies ([shows]), because the code gets it wrong, see below *)
Theorem C08_error_roundtrip_partial : forall i c msg safe,
  length i = 8 -> 1 <= length c <= 255 -> valid_code c safe ->
  exists b, WriteMsgReplyError sink_writer empty_sink i c msg safe = Some (MkSink b 1, None) /\
    reads_as b (MkContent 0 i c msg EU8 None).
Proof. exact error_roundtrip. Qed.
Print Assumptions C08_error_roundtrip_partial.
Example C08_case : 1 <= length abc <= 255 /\ valid_code abc true.
Proof. split; [cbn; lia|]. intros _. split; [cbn; lia|repeat constructor; cbn; lia]. Qed.
(* every error reply is reported as binary, not UTF-8 *)
Theorem C08_error_encoding_refuted : forall b m c m' ok e, blank m -> length b <= length (m_buf m) ->
  frame b c -> k_type c = 0%N -> ReadBytes m b = Some (m', ok, e) -> m_enc m' = Binary.
Proof. exact error_encoding. Qed.
Print Assumptions C08_error_encoding_refuted.
Example C08_refuted_case : exists m, 
  ReadBytes (NewMessage 32) (bs [0; 1; 2; 3; 4; 5; 6; 7; 8; 1; 69; 104; 105]%N) = Some (m, true, None)
  /\ m_enc m = Binary /\ frame (bs [0; 1; 2; 3; 4; 5; 6; 7; 8; 1; 69; 104; 105]%N) (MkContent 0 id8 (bs [69]%N) (bs [104; 105]%N) EU8 None).
Proof.
  eexists. split; [vm_compute; reflexivity|]. split; [reflexivity|].
  apply (F_error id8 (bs [69]%N) (bs [104; 105]%N)); cbn; lia.
Qed.

(* ================= C09 ================= *)
Theorem C09_special_roundtrip : forall t i, (1 <= t <= 5)%N -> length i = 8 ->
  exists b, WriteMsgSpecialRequestReply sink_writer empty_sink (n2b t) i = Some (MkSink b 1, None) /\
    reads_as b (MkContent t i [] [] EBin None).
Proof. exact special_roundtrip. Qed.
Print Assumptions C09_special_roundtrip.
Theorem C09_restore_roundtrip : forall i key, length i = 8 -> key <> [] ->
  exists b, WriteMsgNamelessRequest sink_writer empty_sink (n2b 32) i key = Some (MkSink b 1, None) /\
    reads_as b (MkContent 32 i [] key EBin None).
Proof. exact nameless_roundtrip. Qed.
Print Assumptions C09_restore_roundtrip.
Theorem C09_close_roundtrip : forall i, length i = 8 ->
  exists b, WriteMsgNamelessRequest sink_writer empty_sink (n2b 31) i [] = Some (MkSink b 1, None) /\
    reads_as b (MkContent 31 i [] [] EBin None).
Proof. exact close_roundtrip. Qed.
Print Assumptions C09_close_roundtrip.
Theorem C09_created_roundtrip : forall info, info <> [] ->
  exists b, WriteMsgNotifySessionCreated sink_writer empty_sink info = Some (MkSink b 1, None) /\
    reads_as b (MkContent 21 no_ident [] info EBin None).
Proof. exact created_roundtrip. Qed.
Print Assumptions C09_created_roundtrip.
Theorem C09_closed_roundtrip :
  exists b, WriteMsgNotifySessionClosed sink_writer empty_sink = Some (MkSink b 1, None) /\
    reads_as b (MkContent 22 no_ident [] [] EBin None).
Proof. exact closed_roundtrip. Qed.
Print Assumptions C09_closed_roundtrip.
Theorem C09_heartbeat_roundtrip :
  exists b, WriteMsgHeartbeat sink_writer empty_sink = Some (MkSink b 1, None) /\
    reads_as b (MkContent 33 no_ident [] [] EBin None).
Proof. exact heartbeat_roundtrip. Qed.
Print Assumptions C09_heartbeat_roundtrip.
Example C09_case : length id8 = 8 /\ abc <> [].
Proof. split; [reflexivity|discriminate]. Qed.

(* ================= C10 ================= *)
Theorem C10_conf_roundtrip : forall major minor t s sub, (s < 2 ^ 32)%N ->
  (NewAcceptConfMessage major minor t s sub = None <-> (Z.quot t 1000000 < 0 \/ 2 ^ 32 <= Z.quot t 1000000)%Z) /\
  (forall b, NewAcceptConfMessage major minor t s sub = Some b ->
     length b = 11 + length sub /\
     reads_as b (MkContent 23 no_ident [] [] EBin
       (Some (MkWConf (b2N major) (b2N minor) (Z.to_N (Z.quot t 1000000)) s sub)))).
Proof. exact conf_roundtrip. Qed.
Print Assumptions C10_conf_roundtrip.
Example C10_case : exists b, NewAcceptConfMessage (n2b 2) (n2b 0) 60000000000 8192 abc = Some b /\ length b = 14.
Proof. vm_compute. eexists. split; reflexivity. Qed.

(* ================= C11 ================= *)
(* on every writer (any pattern of failing calls): the writer is closed exactly once, as the
   last call, and an error is returned exactly if a call failed; invalid arguments write nothing *)
Theorem C11_signal_closes : forall name e p safe,
  (valid_signal name e p safe -> writes (fun W ops w => WriteMsgSignal ops w name e p safe) (signal_frame name e p)) /\
  (~ valid_signal name e p safe -> rejects (fun W ops w => WriteMsgSignal ops w name e p safe)).
Proof. exact (fun n e p s => conj (signal_writes n e p s) (signal_rejects n e p s)). Qed.
Print Assumptions C11_signal_closes.
Theorem C11_request_closes : forall i name e p safe,
  (valid_request name e p safe -> writes (fun W ops w => WriteMsgRequest ops w i name e p safe) (request_frame i name e p)) /\
  (~ valid_request name e p safe -> rejects (fun W ops w => WriteMsgRequest ops w i name e p safe)).
Proof. exact (fun i n e p s => conj (request_writes i n e p s) (request_rejects i n e p s)). Qed.
Print Assumptions C11_request_closes.
Theorem C11_reply_closes : forall i e p,
  (utf16_ok e p -> writes (fun W ops w => WriteMsgReply ops w i e p) (reply_frame i e p)) /\
  (~ utf16_ok e p -> rejects (fun W ops w => WriteMsgReply ops w i e p)).
Proof. exact (fun i e p => conj (reply_writes i e p) (reply_rejects i e p)). Qed.
Print Assumptions C11_reply_closes.
(* the missing case is an unchecked code of more than 255 bytes, see C11_error_refuted *)
Theorem C11_error_closes_partial : forall i c m safe,
  (length c <= 255 -> valid_code c safe -> writes (fun W ops w => WriteMsgReplyError ops w i c m safe) (error_frame i c m)) /\
  (~ valid_code c safe -> rejects (fun W ops w => WriteMsgReplyError ops w i c m safe)).
Proof. exact (fun i c m s => conj (error_writes i c m s) (error_rejects i c m s)). Qed.
Print Assumptions C11_error_closes_partial.
Theorem C11_others_close : forall t i p info,
  writes (fun W ops w => WriteMsgHeartbeat ops w) [n2b 33] /\
  writes (fun W ops w => WriteMsgNotifySessionClosed ops w) [n2b 22] /\
  writes (fun W ops w => WriteMsgNotifySessionCreated ops w info) (n2b 21 :: info) /\
  writes (fun W ops w => WriteMsgNamelessRequest ops w (n2b 32) i p) (n2b 32 :: i ++ p) /\
  writes (fun W ops w => WriteMsgNamelessRequest ops w (n2b 31) i p) (n2b 31 :: i ++ p) /\
  ((1 <= t <= 5)%N -> writes (fun W ops w => WriteMsgSpecialRequestReply ops w (n2b t) i) (n2b t :: i)).
Proof. exact (fun t i p info => conj heartbeat_writes (conj closed_writes (conj (created_writes info)
  (conj (nameless_restore_writes i p) (conj (nameless_close_writes i p) (special_writes t i)))))). Qed.
Print Assumptions C11_others_close.
Theorem C11_special_rejects : forall t i, ~ (1 <= b2N t <= 5)%N ->
  rejects (fun W ops w => WriteMsgSpecialRequestReply ops w t i).
Proof. exact special_rejects. Qed.
Print Assumptions C11_special_rejects.
(* without safe mode a code of 256 bytes panics after two writes, leaving the writer open;
   so does WriteMsgNamelessRequest with a type of another request *)
Theorem C11_error_refuted : exists code, length code = 256 /\
  WriteMsgReplyError sink_writer empty_sink id8 code [] false = None.
Proof. exact (ex_intro _ (repeat x00 256) (conj eq_refl eq_refl)). Qed.
Print Assumptions C11_error_refuted.
Theorem C11_nameless_refuted : exists t, WriteMsgNamelessRequest sink_writer empty_sink t id8 [] = None.
Proof. exact (ex_intro _ (n2b 127) eq_refl). Qed.
Print Assumptions C11_nameless_refuted.
(* a writer whose third call fails *)
Example C11_case : exists l e,
  WriteMsgSignal (log_writer (fun i => Nat.eqb i 2)) [] abc 2%Z hi16 true = Some (l, Some e) /\
  l = [CWrite (bs [65]%N); CWrite (bs [3]%N); CWrite abc; CClose].
Proof. vm_compute. do 2 eexists. split; reflexivity. Qed.

(* ================= C12 ================= *)
Theorem C12_signal_length : forall name e p safe b,
  WriteMsgSignal sink_writer empty_sink name e p safe = Some (MkSink b 1, None) ->
  length b = CalcMsgLenSignal name e p.
Proof. exact signal_length. Qed.
Print Assumptions C12_signal_length.
Theorem C12_request_length : forall i name e p safe b, length i = 8 ->
  WriteMsgRequest sink_writer empty_sink i name e p safe = Some (MkSink b 1, None) ->
  length b = CalcMsgLenRequest name e p.
Proof. exact request_length. Qed.
Print Assumptions C12_request_length.
Example C12_case : exists b, WriteMsgRequest sink_writer empty_sink id8 abc 2%Z hi16 true = Some (MkSink b 1, None)
  /\ length b = 18.
Proof. vm_compute. eexists. split; reflexivity. Qed.

(* ================= C13 ================= *)
Theorem C13_request_accepts : forall i name e p,
  (exists s, WriteMsgRequest sink_writer empty_sink i name e p true = Some (s, None)) <-> valid_request name e p true.
Proof. exact request_accepts. Qed.
Print Assumptions C13_request_accepts.
Theorem C13_signal_accepts : forall name e p,
  (exists s, WriteMsgSignal sink_writer empty_sink name e p true = Some (s, None)) <-> valid_signal name e p true.
Proof. exact signal_accepts. Qed.
Print Assumptions C13_signal_accepts.
Theorem C13_reply_accepts : forall i e p,
  (exists s, WriteMsgReply sink_writer empty_sink i e p = Some (s, None)) <-> utf16_ok e p.
Proof. exact reply_accepts. Qed.
Print Assumptions C13_reply_accepts.
Theorem C13_error_accepts : forall i c msg,
  (exists s, WriteMsgReplyError sink_writer empty_sink i c msg true = Some (s, None)) <->
  1 <= length c <= 255 /\ printable c.
Proof. exact error_accepts. Qed.
Print Assumptions C13_error_accepts.
Example C13_case : valid_request abc 1%Z abc true /\ ~ valid_request (bs [10]%N) 1%Z abc true.
Proof.
  split.
  - repeat split; try discriminate; try (cbn; lia). intros _. repeat constructor; cbn; lia.
  - intros (_ & _ & _ & H). specialize (H eq_refl). inversion H; subst. cbn in *. lia.
Qed.

(* ================= C14 ================= *)
Theorem C14_pool_history : forall p h k p' a b m,
  pool_reach p h -> Get p k = (p', a) -> nth_error (p_heap p') a = Some m ->
  1 <= length b <= p_size p ->
  exists m1 m2 ok e, ReadBytes m b = Some (m1, ok, e) /\
    ReadBytes (NewMessage (p_size p)) b = Some (m2, ok, e) /\ observe m1 = observe m2.
Proof. exact history. Qed.
Print Assumptions C14_pool_history.
Theorem C14_reread_after_close : forall m m1 b, MsgClose m = Some (m1, true) -> 1 <= length b <= length (m_buf m) ->
  exists r1 r2 ok e, ReadBytes m1 b = Some (r1, ok, e) /\
    ReadBytes (NewMessage (length (m_buf m))) b = Some (r2, ok, e) /\ observe r1 = observe r2.
Proof. exact close_reread. Qed.
Print Assumptions C14_reread_after_close.
(* a message that was not closed keeps fields of the earlier frame: an empty reply read
   after a non-empty one still shows the payload of the earlier reply *)
Theorem C14_unclosed_refuted : exists m1 m2 m3,
  ReadBytes (NewMessage 64) (n2b 191 :: id8 ++ abc) = Some (m1, true, None) /\
  ReadBytes m1 (n2b 191 :: id8) = Some (m2, true, None) /\
  ReadBytes (NewMessage 64) (n2b 191 :: id8) = Some (m3, true, None) /\
  acc_Payload m2 = Some abc /\ acc_Payload m3 = Some [].
Proof. exact unclosed_reuse. Qed.
Print Assumptions C14_unclosed_refuted.
(* what holds of a message that was not closed, whatever it was used for before: a valid
   frame is accepted, and the type, the identifier, a name or payload that is not empty and
   the configuration are those of the frame. An empty payload is shown as empty for signals,
   error replies, session notifications, restoration requests and UTF16 replies *)
Theorem C14_unclosed_partial : forall m b c, length (m_ident m) = 8 -> frame b c -> length b <= length (m_buf m) ->
  exists m', ReadBytes m b = Some (m', true, None) /\ b2N (m_type m') = k_type c /\
    (k_type c <> 0%N -> m_enc m' = enc_no (k_enc c)) /\
    (has_ident (k_type c) = true -> m_ident m' = k_ident c /\ ident_bytes m' = k_ident c) /\
    (k_name c <> [] -> g_get (m_buf m') (m_name m') = k_name c) /\
    (k_payload c <> [] \/ In (k_type c) [0; 21; 32; 63; 64; 65; 193]%N -> g_get (m_buf m') (m_pld m') = k_payload c) /\
    (forall w, k_conf c = Some w -> b2N (c_major (m_conf m')) = w_major w /\ b2N (c_minor (m_conf m')) = w_minor w /\
       c_timeout (m_conf m') = (Z.of_N (w_timeout_ms w) * 1000000)%Z /\ c_bufsize (m_conf m') = w_bufsize w /\
       g_get (m_buf m') (c_sub (m_conf m')) = w_sub w).
Proof. exact reread. Qed.
Print Assumptions C14_unclosed_partial.
Example C14_unclosed_case : exists m1 m2,
  ReadBytes (NewMessage 64) (n2b 191 :: id8 ++ abc) = Some (m1, true, None) /\
  frame (n2b 193 :: repeat x00 8 ++ [x00]) (MkContent 193 (repeat x00 8) [] [] EU16 None) /\
  ReadBytes m1 (n2b 193 :: repeat x00 8 ++ [x00]) = Some (m2, true, None) /\
  acc_Payload m1 = Some abc /\ acc_Payload m2 = Some [] /\ m_ident m1 = id8 /\ m_ident m2 = repeat x00 8.
Proof.
  destruct (ReadBytes (NewMessage 64) (n2b 191 :: id8 ++ abc)) as [[[m1 ok] e]|] eqn:E1; [|vm_compute in E1; discriminate].
  vm_compute in E1. injection E1 as <- <- <-. eexists _, _. split; [reflexivity|].
  split; [apply (F_reply16 (repeat x00 8) x00 []); reflexivity|]. repeat split; reflexivity.
Qed.
(* the identifier as an array and as a slice agree in a new message and after reading
   anything into it, be it valid or not *)
Theorem C14_identifier : forall n b m ok e, ReadBytes (NewMessage n) b = Some (m, ok, e) ->
  length (m_ident m) = 8 /\ g_get (m_buf m) (m_identB m) = m_ident m.
Proof. exact new_ident. Qed.
Print Assumptions C14_identifier.
Example C14_identifier_case : exists m1 m2, ReadBytes (NewMessage 64) (n2b 127 :: id8 ++ [x05]) = Some (m1, true, Some PTooShort) /\ m_ident m1 = repeat x00 8 /\
  ReadBytes (NewMessage 64) (n2b 127 :: id8 ++ [x05; x41]) = Some (m2, true, Some PBadNameLen) /\ m_ident m2 = id8.
Proof. eexists _, _. repeat split; reflexivity. Qed.
(* a pool whose only message went through a full life cycle *)
Example C14_case : exists p1 p2 p3, Get (NewSyncPool 32) None = (p1, 0) /\
  pool_read p1 0 (n2b 191 :: id8 ++ abc) = Some (p2, true, None) /\ pool_close p2 0 = Some p3 /\
  pool_reach p3 [] /\ Get p3 (Some 0) = (put_free [] p3, 0).
Proof.
  exists (fst (Get (NewSyncPool 32) None)).
  destruct (pool_read (fst (Get (NewSyncPool 32) None)) 0 (n2b 191 :: id8 ++ abc)) as [[[p2 ok] e]|] eqn:E2; [|vm_compute in E2; discriminate].
  exists p2. destruct (pool_close p2 0) as [p3|] eqn:E3.
  2:{ vm_compute in E2. injection E2 as <- <- <-. vm_compute in E3. discriminate. }
  exists p3. split; [reflexivity|]. split.
  { vm_compute in E2. injection E2 as <- <- <-. vm_compute. reflexivity. }
  split; [reflexivity|]. split.
  - change [] with (remove Nat.eq_dec 0 [0]). eapply PR_close; [|left; reflexivity|exact E3].
    eapply PR_read; [|left; reflexivity|exact E2]. eapply (PR_get _ [] None); [apply (PR_new 32)|reflexivity].
  - vm_compute in E2. injection E2 as <- <- <-. vm_compute in E3. injection E3 as <-. reflexivity.
Qed.

(* ================= C15 ================= *)
Theorem C15_chunking : forall m s fuel d rest,
  length s + 2 <= fuel -> blank m -> stream s = (d, REof, rest) -> d <> [] ->
  length d <= length (m_buf m) -> (length d < length (m_buf m) \/ polite s) ->
  exists m1 m2 ok e, ReadBytes m d = Some (m1, ok, e) /\ MsgRead fuel m s = Some (m2, ok, e, rest) /\
    observe m1 = observe m2.
Proof. exact read_chunks. Qed.
Print Assumptions C15_chunking.
Theorem C15_empty : forall m s fuel rest,
  length s + 2 <= fuel ->
  stream s = ([], REof, rest) -> (0 < length (m_buf m) \/ polite s) ->
  exists m', MsgRead fuel m s = Some (m', false, None, rest).
Proof. exact MsgRead_empty. Qed.
Print Assumptions C15_empty.
(* missing: readers that report EOF together with the last data, see the refutation *)
Theorem C15_overflow_partial : forall m s fuel d rest,
  length s + 2 <= fuel ->
  stream s = (d, REof, rest) -> length (m_buf m) < length d -> eof_alone s ->
  exists m', MsgRead fuel m s = Some (m', false, Some POverflow, rest) /\ m_len m' = 0.
Proof. exact MsgRead_overflow. Qed.
Print Assumptions C15_overflow_partial.
Theorem C15_reader_error : forall m s fuel d rest,
  length s + 2 <= fuel ->
  stream s = (d, ROther, rest) -> length d < length (m_buf m) ->
  exists m', MsgRead fuel m s = Some (m', false, Some PReader, rest) /\ m_len m' = 0.
Proof. exact MsgRead_error. Qed.
Print Assumptions C15_reader_error.
Example C15_case : exists d, stream [(bs [191]%N, None); (id8, None); (abc, None); (hi16, Some REof); (abc, None)] =
    (d, REof, [(abc, None)]) /\ length d = 16 /\
  polite [(bs [191]%N, None); (id8, None); (abc, None); (hi16, Some REof); (abc, None)].
Proof. vm_compute. eexists. repeat split; discriminate. Qed.
(* a reader that delivers data together with EOF when the buffer is already full: the
   message is accepted although it is too long, and its start is overwritten *)
Theorem C15_overflow_refuted : exists m s d, blank m /\ stream s = (d, REof, []) /\ polite s /\
  length (m_buf m) < length d /\
  exists m', MsgRead (length s + 2) m s = Some (m', true, None, []) /\
  acc_Payload m' <> Some (firstn 3 (skipn 9 d)).
Proof. exact overflow_accepted. Qed.
Print Assumptions C15_overflow_refuted.

(* ================= C16 ================= *)
Theorem C16_get_exclusive_blank : forall p h k p' a, pool_reach p h -> Get p k = (p', a) ->
  ~ In a h /\ exists m, nth_error (p_heap p') a = Some m /\ blank m /\ length (m_buf m) = p_size p.
Proof. exact pool_get_spec. Qed.
Print Assumptions C16_get_exclusive_blank.
Theorem C16_holders_no_panic : forall p h a, pool_reach p h -> In a h ->
  (forall b, pool_read p a b <> None) /\ pool_close p a <> None.
Proof. exact pool_no_panic. Qed.
Print Assumptions C16_holders_no_panic.
Theorem C16_isolation : forall p o p' r a b, pool_step p o = Some (p', r) ->
  match o with OGet _ => True | ORead x _ => x = a | OClose x => x = a end ->
  a <> b -> b < length (p_heap p) -> nth_error (p_heap p') b = nth_error (p_heap p) b.
Proof. exact pool_isolated. Qed.
Print Assumptions C16_isolation.
Theorem C16_read_after_close : forall p a p' m, pool_close p a = Some p' -> nth_error (p_heap p') a = Some m ->
  acc_Identifier m = None /\ acc_Name m = None /\ acc_PayloadEncoding m = None /\ acc_Payload m = None.
Proof. exact closed_accessors. Qed.
Print Assumptions C16_read_after_close.
(* a message made with NewMessage, outside a pool, cannot be closed once it holds something *)
Theorem C16_unpooled : forall n m, (NewMessage n = m \/ exists b ok e, ReadBytes (NewMessage n) b = Some (m, ok, e)) ->
  m_pooled m = false /\ (MsgClose m = None <-> IsEmpty m = false) /\ (IsEmpty m = true -> MsgClose m = Some (m, false)).
Proof. exact unpooled. Qed.
Print Assumptions C16_unpooled.
Example C16_unpooled_case : exists m, ReadBytes (NewMessage 32) [MsgHeartbeat] = Some (m, true, None) /\ IsEmpty m = false /\ MsgClose m = None.
Proof. eexists. repeat split; reflexivity. Qed.
Example C16_case : pool_reach (fst (Get (fst (Get (NewSyncPool 32) None)) None)) [1; 0].
Proof. eapply (PR_get _ [0] None); [eapply (PR_get _ [] None); [apply (PR_new 32)|]|]; reflexivity. Qed.
(* closing twice across a reuse hands one message to two holders *)
Theorem C16_double_close : exists p1 p2 p3 p4 p5 p6 p7 r1 r2,
  Get (NewSyncPool 32) None = (p1, 0) /\ pool_read p1 0 r1 = Some (p2, true, None) /\
  pool_close p2 0 = Some p3 /\ Get p3 (Some 0) = (p4, 0) /\ pool_read p4 0 r2 = Some (p5, true, None) /\
  pool_close p5 0 = Some p6 /\ Get p6 (Some 0) = (p7, 0).
Proof. exact double_close. Qed.
Print Assumptions C16_double_close.

(* ================= C17 ================= *)
Theorem C17_utf8_output_wf : forall data out, Payload_Utf8 2%Z data = Some out -> utf8_wf out.
Proof. exact Utf8_wf. Qed.
Print Assumptions C17_utf8_output_wf.
Theorem C17_utf8_fails : forall e data,
  Payload_Utf8 e data = None <-> e = 2%Z /\ length data mod 2 <> 0.
Proof. exact Utf8_error. Qed.
Print Assumptions C17_utf8_fails.
Theorem C17_utf8_pass : forall e data, e <> 2%Z -> Payload_Utf8 e data = Some data.
Proof. exact Utf8_pass. Qed.
Print Assumptions C17_utf8_pass.
(* full statement without the bound fails, see below *)
Theorem C17_utf8_text_partial : forall text, Forall scalar text -> Forall (fun c => (c < 0x10000)%N) text ->
  Payload_Utf8 2%Z (utf16le text) = Some (utf8 text).
Proof. exact Utf8_text_bmp. Qed.
Print Assumptions C17_utf8_text_partial.
(* exact behaviour on all text: characters beyond the BMP become two U+FFFD *)
Theorem C17_utf8_text_exact : forall text, Forall scalar text ->
  Payload_Utf8 2%Z (utf16le text) =
  Some (utf8 (flat_map (fun c => if (c <? 0x10000)%N then [c] else [0xFFFD; 0xFFFD]%N) text)).
Proof. exact Utf8_text. Qed.
Print Assumptions C17_utf8_text_exact.
Theorem C17_utf8_text_refuted : exists text, Forall scalar text /\
  Payload_Utf8 2%Z (utf16le text) <> Some (utf8 text).
Proof. exact astral. Qed.
Print Assumptions C17_utf8_text_refuted.
(* single characters: what is none becomes U+FFFD *)
Theorem C17_rune : forall r, (scalar r -> utf8_EncodeRune r = utf8_of r) /\ (~ scalar r -> utf8_EncodeRune r = bs [0xEF; 0xBF; 0xBD]%N).
Proof. exact rune_exact. Qed.
Print Assumptions C17_rune.
Example C17_case : Forall scalar [0x41; 0x20AC; 0x1F600]%N /\
  utf8 [0x41; 0x20AC]%N = bs [0x41; 0xE2; 0x82; 0xAC]%N.
Proof. split; [repeat constructor; unfold scalar; lia|reflexivity]. Qed.
Example C17_rune_case : scalar 0x20AC /\ ~ scalar 0xDFFF /\ ~ scalar 0x110000.
Proof. unfold scalar. repeat split; lia. Qed.
