(* Errors of the writers and readers of messages, as values and texts: C82. *)
From Coq Require Import Strings.String.
From Coq Require Import List Arith NArith ZArith Lia Bool.
From Verif Require Import BaseBytes ModelMessage ModelErrors SpecWire SpecWrite SpecMessage ModelReport SpecReport ProofReport ProofReport2 ProofReport3.
From Verif Require ModelWrite.
Import ListNotations.
Open Scope list_scope.
Open Scope nat_scope.

(* ================= C82 ================= *)
(* signals: what is wrong with the arguments is said, and nothing is written; or nothing is wrong and the frame is written *)
Theorem C82_signal : forall broken name e p safe, go_length name -> go_length p ->
  (forall t, wrong_signal name e p safe t -> rejects_text broken (fun W ops w => WriteMsgSignal broken ops w name e p safe) t) /\
  (valid_signal name e p safe -> writes_text broken (fun W ops w => WriteMsgSignal broken ops w name e p safe) (signal_frame name e p)) /\
  (valid_signal name e p safe \/ exists t, wrong_signal name e p safe t).
Proof.
  exact (fun broken name e p safe Gn Gp => conj (fun t => signal_wrong broken name e p safe t Gn Gp)
    (conj (signal_right broken name e p safe) (signal_cases name e p safe Gn Gp))).
Qed.
Print Assumptions C82_signal.
Theorem C82_request : forall broken i name e p safe, go_length name -> go_length p ->
  (forall t, wrong_request name e p safe t -> rejects_text broken (fun W ops w => WriteMsgRequest broken ops w i name e p safe) t) /\
  (valid_request name e p safe -> writes_text broken (fun W ops w => WriteMsgRequest broken ops w i name e p safe) (request_frame i name e p)) /\
  (valid_request name e p safe \/ exists t, wrong_request name e p safe t).
Proof.
  exact (fun broken i name e p safe Gn Gp => conj (fun t => request_wrong broken i name e p safe t Gn Gp)
    (conj (request_right broken i name e p safe) (request_cases name e p safe Gn Gp))).
Qed.
Print Assumptions C82_request.
Theorem C82_reply : forall broken i e p, go_length p ->
  (forall n, odd16 e p -> number (length p) n ->
     rejects_text broken (fun W ops w => WriteMsgReply broken ops w i e p) (t$"invalid UTF16 reply payload data length: " ++ n)) /\
  (utf16_ok e p -> writes_text broken (fun W ops w => WriteMsgReply broken ops w i e p) (reply_frame i e p)).
Proof. exact (fun broken i e p G => conj (fun n => reply_wrong broken i e p n G) (reply_right broken i e p)). Qed.
Print Assumptions C82_reply.
(* without safe mode a code of more than 255 bytes panics: C22 *)
Theorem C82_error : forall broken i c m safe, go_length c ->
  (forall t, wrong_code c safe t -> rejects_text broken (fun W ops w => WriteMsgReplyError broken ops w i c m safe) t) /\
  (length c <= 255 -> valid_code c safe ->
     writes_text broken (fun W ops w => WriteMsgReplyError broken ops w i c m safe) (error_frame i c m)) /\
  (valid_code c safe \/ exists t, wrong_code c safe t).
Proof.
  exact (fun broken i c m safe G => conj (fun t => code_wrong broken i c m safe t G) (conj (code_right broken i c m safe) (code_cases c safe G))).
Qed.
Print Assumptions C82_error.
Theorem C82_special : forall broken i,
  (forall t n, ~ (1 <= b2N t <= 5)%N -> number (b2n t) n ->
     rejects_text broken (fun W ops w => WriteMsgSpecialRequestReply broken ops w t i)
       (t$"message type (" ++ n ++ t$") doesn't represent a special reply message")) /\
  (forall t, (1 <= t <= 5)%N -> writes_text broken (fun W ops w => WriteMsgSpecialRequestReply broken ops w (n2b t) i) (n2b t :: i)).
Proof. exact (fun broken i => conj (fun t n => special_wrong broken t i n) (fun t => special_right broken t i)). Qed.
Print Assumptions C82_special.
Theorem C82_others : forall broken i p info,
  writes_text broken (fun W ops w => WriteMsgHeartbeat broken ops w) [n2b 33] /\
  writes_text broken (fun W ops w => WriteMsgNotifySessionClosed broken ops w) [n2b 22] /\
  writes_text broken (fun W ops w => WriteMsgNotifySessionCreated broken ops w info) (n2b 21 :: info) /\
  writes_text broken (fun W ops w => WriteMsgNamelessRequest broken ops w (n2b 32) i p) (n2b 32 :: i ++ p) /\
  writes_text broken (fun W ops w => WriteMsgNamelessRequest broken ops w (n2b 31) i p) (n2b 31 :: i ++ p).
Proof. exact others_right. Qed.
Print Assumptions C82_others.
(* for any writer: these functions and those of ModelWrite (C12, C22, C58) do the same and fail together *)
Theorem C82_same_calls : forall broken W (ops : text_ops W) w i name c m e p t info safe,
  same_but_text (WriteMsgSignal broken ops w name e p safe) (ModelWrite.WriteMsgSignal (forget ops) w name e p safe) /\
  same_but_text (WriteMsgRequest broken ops w i name e p safe) (ModelWrite.WriteMsgRequest (forget ops) w i name e p safe) /\
  same_but_text (WriteMsgReply broken ops w i e p) (ModelWrite.WriteMsgReply (forget ops) w i e p) /\
  same_but_text (WriteMsgReplyError broken ops w i c m safe) (ModelWrite.WriteMsgReplyError (forget ops) w i c m safe) /\
  same_but_text (WriteMsgSpecialRequestReply broken ops w t i) (ModelWrite.WriteMsgSpecialRequestReply (forget ops) w t i) /\
  same_but_text (WriteMsgNamelessRequest broken ops w t i p) (ModelWrite.WriteMsgNamelessRequest (forget ops) w t i p) /\
  same_but_text (WriteMsgHeartbeat broken ops w) (ModelWrite.WriteMsgHeartbeat (forget ops) w) /\
  same_but_text (WriteMsgNotifySessionClosed broken ops w) (ModelWrite.WriteMsgNotifySessionClosed (forget ops) w) /\
  same_but_text (WriteMsgNotifySessionCreated broken ops w info) (ModelWrite.WriteMsgNotifySessionCreated (forget ops) w info).
Proof.
  exact (fun broken W ops w i name c m e p t info safe =>
    conj (same_signal broken ops w name e p safe) (conj (same_request broken ops w i name e p safe) (conj (same_reply broken ops w i e p)
    (conj (same_reply_error broken ops w i c m safe) (conj (same_special broken ops w t i) (conj (same_nameless broken ops w t i p)
    (conj (same_heartbeat broken ops w) (conj (same_closed broken ops w) (same_created broken ops w info))))))))).
Qed.
Print Assumptions C82_same_calls.
(* Connection.Signal of the server *)
Theorem C82_connection_signal : forall broken W (ops : text_ops W) gw buf name e p,
  (name ++ p = [] -> Signal broken ops gw buf name e p = Some (gw, Some (ErrProtocol (Some (Foreign (Some t$"missing both name and payload")))))) /\
  (name ++ p <> [] -> (buf < N.of_nat (length (signal_frame name e p)) mod 2 ^ 32)%N -> Signal broken ops gw buf name e p = Some (gw, Some ErrBufferOverflow)) /\
  (name ++ p <> [] -> (N.of_nat (length (signal_frame name e p)) mod 2 ^ 32 <= buf)%N ->
     (forall er, gw = inr er -> Signal broken ops gw buf name e p = Some (gw, Some er)) /\
     (forall w, gw = inl w -> Signal broken ops gw buf name e p =
        option_map (fun r => (inl (fst r), snd r)) (WriteMsgSignal broken ops w name e p true))).
Proof. exact @signal_error. Qed.
Print Assumptions C82_connection_signal.
(* Message.ReadBytes: an error exactly for a malformed frame, and its text *)
Theorem C82_read : forall m b, blank m -> go_length b -> b <> [] ->
  exists m' ok e, ReadBytes m b = Some (m', ok, e) /\ (forall t, e = Some (Foreign (Some t)) <-> malformed (length (m_buf m)) b t) /\
    (e = None \/ exists t, e = Some (Foreign (Some t))) /\ (e = None -> ok = true).
Proof. exact read_text. Qed.
Print Assumptions C82_read.
(* Socket.Read once the data is there: never a close error *)
Theorem C82_socket : forall m b, blank m -> go_length b ->
  exists m' r, ReadData m b = Some (m', r) /\
    (r = None <-> b <> [] /\ forall t, ~ malformed (length (m_buf m)) b t) /\
    (forall e, r = Some e <-> exists t, e = ErrSockRead false (Some (Foreign (Some t))) /\
       (b = [] /\ t = t$"no message type" \/ b <> [] /\ malformed (length (m_buf m)) b t)).
Proof. exact socket_text. Qed.
Print Assumptions C82_socket.

(* a name with a line feed behind a printable byte; an odd UTF-16 payload; the texts of two failures *)
Definition nobody (e : err) : bytes := [].
Lemma number_17 : number 17 t$"17".
Proof. exact (pct_d_number 17 eq_refl). Qed.
Example C82_case_newline : wrong_signal (t$"a" ++ [n2b 10]) Binary [] true (t$"unsupported character in request name: " ++ [n2b 10]).
Proof.
  apply WS_char with (n2b 10); try reflexivity; [cbn; lia|discriminate|]. exists t$"a", []. split; [reflexivity|]. split.
  - repeat constructor; apply Nat.leb_le; reflexivity.
  - intros H. apply Forall_inv in H. destruct H as [A _]. apply Nat.leb_le in A. discriminate.
Qed.
Example C82_case_odd : wrong_request t$"x" Utf16 (repeat (n2b 7) 17) true (t$"invalid UTF16 request payload data length: " ++ t$"17").
Proof.
  apply WR_odd; [discriminate|cbn; lia| |apply number_17]. intros H. specialize (H eq_refl). discriminate H.
Qed.
Example C82_case_two_errors :
  WriteMsgRequest nobody (reporter (fun _ => Some (Foreign (Some t$"EPIPE")))) [] (repeat x00 8) t$"x" Utf16 (repeat (n2b 7) 17) true
  = Some ([CClose], Some (Foreign (Some t$"invalid UTF16 request payload data length: 17: EPIPE"))).
Proof. vm_compute. reflexivity. Qed.
Example C82_case_short_name :
  exists m', ReadBytes (NewMessage 64) (n2b 63 :: n2b 17 :: t$"abc") =
    Some (m', true, Some (Foreign (Some t$"invalid signal message, too short for full name (17) and the minimum payload (1)"))).
Proof. eexists. vm_compute. reflexivity. Qed.
Example C82_case_second_write :
  (WriteMsgReply nobody (reporter (fun i => if i =? 1 then Some ErrDialTimeout else None)) [] (repeat x00 8) Binary t$"hello")
  = Some ([CWrite [n2b 191]; CWrite (repeat x00 8); CClose], Some ErrDialTimeout).
Proof. vm_compute. reflexivity. Qed.
Example C82_case_blank : blank (NewMessage 64) /\ go_length (n2b 63 :: n2b 17 :: t$"abc").
Proof. split; [|reflexivity]. repeat split. cbn. discriminate. Qed.
