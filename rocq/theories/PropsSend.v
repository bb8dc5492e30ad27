(* Messages written to a socket of the in-memory transport: C86. *)
From Coq Require Import Strings.String.
From Coq Require Import List Arith NArith ZArith Lia Bool.
From Verif Require Import BaseBytes ModelMessage ModelErrors SpecWire SpecWrite ModelReport SpecReport ModelSend SpecSend ProofReport ProofSend.
From Verif Require ModelFault ModelMemchan.
Import ListNotations.
Open Scope list_scope.
Open Scope nat_scope.

(* ================= C86 ================= *)
(* GetWriter of a socket nobody writes to *)
Theorem C86_getwriter : forall cap sent w, ready cap sent w ->
  (exists w', GetWriter w true = Some (w', inl w') /\ taken cap sent w' /\ forall c, GetWriter w' c = None) /\
  GetWriter w false = Some (w, inr (ErrDisconnected (Some (Foreign (Some t$"can't write to a closed socket"))))).
Proof. exact getwriter_spec. Qed.
Print Assumptions C86_getwriter.
(* any state: a held writer blocks, and so does a buffer that Close left locked *)
Theorem C86_blocks : forall w connected verdict,
  (w_writer w = true -> forall c, GetWriter w c = None) /\
  (w_writer w = false -> exists w', GetWriter w true = Some (w', inl w') /\ w_writer w' = true /\ but_writer w w') /\
  (w_writer w = false -> GetWriter w false = Some (w, inr (ErrDisconnected (Some (Foreign (Some t$"can't write to a closed socket")))))) /\
  (w_locked w = true -> forall p, exists w', t_write (wire_ops connected verdict) w p = (w', None) /\ w_stuck w' = true /\ but_stuck w w') /\
  (w_locked w = true -> exists w', t_close (wire_ops connected verdict) w = (w', None) /\ w_stuck w' = true /\ but_stuck w w') /\
  (w_locked w = false -> forall p, w_stuck (fst (t_write (wire_ops connected verdict) w p)) = w_stuck w) /\
  (w_locked w = false -> w_stuck (fst (t_close (wire_ops connected verdict) w)) = w_stuck w).
Proof. exact any_socket. Qed.
Print Assumptions C86_blocks.
Theorem C86_signal : forall broken name e p safe, go_length name -> go_length p ->
  (forall t, wrong_signal name e p safe t -> withholds (fun W ops w => WriteMsgSignal broken ops w name e p safe) t) /\
  (valid_signal name e p safe -> delivers (fun W ops w => WriteMsgSignal broken ops w name e p safe) (signal_frame name e p)).
Proof. exact signal_sent. Qed.
Print Assumptions C86_signal.
Theorem C86_request : forall broken i name e p safe, go_length name -> go_length p ->
  (forall t, wrong_request name e p safe t -> withholds (fun W ops w => WriteMsgRequest broken ops w i name e p safe) t) /\
  (valid_request name e p safe -> delivers (fun W ops w => WriteMsgRequest broken ops w i name e p safe) (request_frame i name e p)).
Proof. exact request_sent. Qed.
Print Assumptions C86_request.
Theorem C86_reply : forall broken i e p, go_length p ->
  (forall n, odd16 e p -> number (length p) n ->
     withholds (fun W ops w => WriteMsgReply broken ops w i e p) (t$"invalid UTF16 reply payload data length: " ++ n)) /\
  (utf16_ok e p -> delivers (fun W ops w => WriteMsgReply broken ops w i e p) (reply_frame i e p)).
Proof. exact reply_sent. Qed.
Print Assumptions C86_reply.
Theorem C86_error : forall broken i c m safe, go_length c ->
  (forall t, wrong_code c safe t -> withholds (fun W ops w => WriteMsgReplyError broken ops w i c m safe) t) /\
  (length c <= 255 -> valid_code c safe -> delivers (fun W ops w => WriteMsgReplyError broken ops w i c m safe) (error_frame i c m)).
Proof. exact error_sent. Qed.
Print Assumptions C86_error.
Theorem C86_special : forall broken i,
  (forall t n, ~ (1 <= b2N t <= 5)%N -> number (b2n t) n ->
     withholds (fun W ops w => WriteMsgSpecialRequestReply broken ops w t i) (t$"message type (" ++ n ++ t$") doesn't represent a special reply message")) /\
  (forall t, (1 <= t <= 5)%N -> delivers (fun W ops w => WriteMsgSpecialRequestReply broken ops w (n2b t) i) (n2b t :: i)).
Proof. exact special_sent. Qed.
Print Assumptions C86_special.
Theorem C86_others : forall broken i p info,
  delivers (fun W ops w => WriteMsgHeartbeat broken ops w) [n2b 33] /\
  delivers (fun W ops w => WriteMsgNotifySessionClosed broken ops w) [n2b 22] /\
  delivers (fun W ops w => WriteMsgNotifySessionCreated broken ops w info) (n2b 21 :: info) /\
  delivers (fun W ops w => WriteMsgNamelessRequest broken ops w (n2b 32) i p) (n2b 32 :: i ++ p) /\
  delivers (fun W ops w => WriteMsgNamelessRequest broken ops w (n2b 31) i p) (n2b 31 :: i ++ p).
Proof. exact others_sent. Qed.
Print Assumptions C86_others.
(* Connection.Signal with a message buffer as large as the socket's: too long a signal costs nothing, a wrong one the socket *)
Theorem C86_connection_signal : forall broken cap sent w connected verdict name e p,
  taken cap sent w -> go_length name -> go_length p -> name ++ p <> [] ->
  (N.of_nat (length (signal_frame name e p)) < 2 ^ 32)%N ->
  exists w' r, Signal broken (wire_ops connected verdict) (inl w) (N.of_nat cap) name e p = Some (inl w', r) /\
    (cap < length (signal_frame name e p) -> w' = w /\ r = Some ErrBufferOverflow) /\
    (length (signal_frame name e p) <= cap -> valid_signal name e p true ->
       (connected = true -> ready cap (sent ++ [signal_frame name e p]) w' /\ r = verdict (signal_frame name e p)) /\
       (connected = false -> ready cap sent w' /\ r = Some (Foreign (Some t$"can't write to a closed socket")))) /\
    (length (signal_frame name e p) <= cap -> forall t, wrong_signal name e p true t ->
       wedged sent w' /\ r = Some (Foreign (Some (t ++ t$": no data written")))).
Proof. exact conn_signal. Qed.
Print Assumptions C86_connection_signal.
(* CreateSession with a session that does not fit *)
Theorem C86_session_too_large : forall broken cap sent w connected verdict key info hook, taken cap sent w -> cap <= length info ->
  exists w', ModelFault.CreateSession broken (wire_ops connected verdict) true true None key (inl info) hook (inl w) =
    Some (ModelFault.MkEnd (inl w') None false [] (Some (Foreign (Some
      (t$"Couldn't notify client about the session creation: message buffer overflow: no data written"))))) /\ wedged sent w'.
Proof. exact create_over. Qed.
Print Assumptions C86_session_too_large.
(* and with one that does *)
Theorem C86_session : forall broken cap sent w connected verdict key info hook, taken cap sent w -> length info < cap ->
  exists w' s h l r, ModelFault.CreateSession broken (wire_ops connected verdict) true true None key (inl info) hook (inl w) =
    Some (ModelFault.MkEnd (inl w') s h l r) /\
    (connected = true -> ready cap (sent ++ [n2b 21 :: info]) w' /\
       (verdict (n2b 21 :: info) = None -> s = Some key /\ h = true /\ r = None) /\
       (forall x, verdict (n2b 21 :: info) = Some x -> s = None /\ h = false /\
          r = Some (Foreign (Some (t$"Couldn't notify client about the session creation: " ++ printed broken x))))) /\
    (connected = false -> ready cap sent w' /\ s = None /\ h = false /\
       r = Some (Foreign (Some t$"Couldn't notify client about the session creation: can't write to a closed socket"))).
Proof. exact create_fits. Qed.
Print Assumptions C86_session.

(* ---------- concrete cases ---------- *)
Definition example_wire : wire := MkWire (ModelMemchan.new_buffer 8) false false [] false.
Example C86_ready : ready 8 [] example_wire.
Proof. constructor; reflexivity. Qed.
Example C86_taken : exists w, GetWriter example_wire true = Some (w, inl w) /\ taken 8 [] w.
Proof. eexists. split; [reflexivity|]. exists example_wire. split; [exact C86_ready|reflexivity]. Qed.
Definition sent_by (w : wire) (name : bytes) (e : encoding) (p : bytes) (connected : bool) : option (wire * option err) :=
  match GetWriter w connected with
  | Some (_, inl w1) => WriteMsgSignal (fun _ => []) (wire_ops connected (fun _ => None)) w1 name e p true
  | Some (w1, inr x) => Some (w1, Some x)
  | None => None
  end.
(* two signals, one after the other *)
Example C86_two : match sent_by example_wire t$"ab" Utf8 t$"xyz" true with
  | Some (w, None) => match sent_by w t$"c" Binary t$"d" true with
      | Some (w', None) => w_sent w' = [n2b 64 :: n2b 2 :: t$"abxyz"; n2b 63 :: n2b 1 :: t$"cd"] | _ => False end
  | _ => False end.
Proof. vm_compute. reflexivity. Qed.
(* one that is too long: nothing can be sent after it *)
Example C86_too_long : match sent_by example_wire t$"ab" Utf8 t$"vwxyz" true with
  | Some (w, Some (Foreign (Some t))) => t = t$"message buffer overflow: no data written" /\ sent_by w t$"c" Binary t$"d" true = None
  | _ => False end.
Proof. vm_compute. split; reflexivity. Qed.
(* so is one with an odd number of bytes of UTF-16 *)
Example C86_odd : match sent_by example_wire t$"ab" Utf16 t$"xyz" true with
  | Some (w, Some (Foreign (Some t))) => t = t$"invalid UTF16 signal payload data length: 3: no data written" /\ sent_by w t$"c" Binary t$"d" true = None
  | _ => False end.
Proof. vm_compute. split; reflexivity. Qed.
