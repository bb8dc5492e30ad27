(* Property theorems C38 (application requests; session requests are in PropsSession) and C39. *)
From Coq Require Import List Arith NArith ZArith Lia Bool.
From Verif Require Import BaseBytes ModelMessage ModelWrite ModelHandle.
From Verif Require Import SpecWire SpecMessage SpecWrite SpecHandle ProofMessage ProofHandle PropsCodec.
Import ListNotations.
Open Scope nat_scope.

(* ================= C38 ================= *)
(* for every result of the handler that can be put on the wire at all *)
Theorem C38_one_reply_partial : forall m b c r,
  received m b c -> app_request (k_type c) -> sendable r ->
  sends (fun W ops gw => handleRequest ops gw m r) (reply_content (k_ident c) r).
Proof. exact handle_request_sends. Qed.
Print Assumptions C38_one_reply_partial.
(* all other results get no reply at all: the client's request stays unanswered; a nil
   *ErrRequest crashes the handler goroutine *)
Theorem C38_unsendable_refuted : forall m b c r,
  received m b c -> app_request (k_type c) -> ~ sendable r ->
  (snd r = EReqPtr None /\ forall W ops w, @handleRequest W ops (Some w) m r = None) \/
  (snd r <> EReqPtr None /\ sends_nothing (fun W ops gw => handleRequest ops gw m r)).
Proof. exact handle_request_unsendable. Qed.
Print Assumptions C38_unsendable_refuted.
(* failing a message that wants no reply sends nothing *)
Theorem C38_no_reply_unless_wanted : forall m b c e, received m b c -> ~ wants_reply (k_type c) ->
  forall W ops gw, @failMsg W ops gw m e = Some NotAsked.
Proof. exact failMsg_silent. Qed.
Print Assumptions C38_no_reply_unless_wanted.
(* every message is passed to the handler of its kind: heartbeats to none, signals to
   OnSignal, requests to OnRequest *)
Theorem C38_routing : forall m b c, received m b c ->
  (route_of (m_type m) = RtSkip <-> k_type c = 33%N) /\
  (route_of (m_type m) = RtSignal <-> app_signal (k_type c)) /\
  (route_of (m_type m) = RtRequest <-> app_request (k_type c)) /\
  (route_of (m_type m) = RtRestore <-> k_type c = 32%N) /\
  (route_of (m_type m) = RtClosure <-> k_type c = 31%N).
Proof. exact routing. Qed.
Print Assumptions C38_routing.
Definition sample_request : bytes := bs [129; 1; 2; 3; 4; 5; 6; 7; 8; 3; 97; 98; 99; 0; 104; 0; 105; 0]%N.
Example C38_case : exists m, received m sample_request (MkContent 129 id8 abc hi16 EU16 None) /\
  handleRequest sink_writer (Some empty_sink) m ((2%Z, hi16), ENil) =
    Some (Used (MkSink (bs [193; 1; 2; 3; 4; 5; 6; 7; 8; 0; 104; 0; 105; 0]%N) 1) None) /\
  sendable ((2%Z, hi16), ENil) /\ sendable ((0%Z, []), EReq abc hi16) /\ ~ sendable ((2%Z, abc), ENil) /\
  ~ sendable ((0%Z, []), EReq [] abc).
Proof.
  eexists. split.
  { exists (NewMessage 32). split; [apply NewMessage_blank|]. split; [cbn; lia|]. split.
    - apply (F_request16 id8 abc [x00] hi16); try reflexivity; try (cbn; lia). discriminate.
    - vm_compute. reflexivity. }
  split; [vm_compute; reflexivity|]. split; [|split; [|split]].
  - intros _. reflexivity.
  - intros _. split; [cbn; lia|repeat constructor; cbn; lia].
  - intros U. specialize (U eq_refl). discriminate U.
  - intros V. destruct (V eq_refl) as [L _]. cbn in L. lia.
Qed.
Example C38_silent_case : exists m, received m (bs [63; 2; 97; 98; 99; 100]%N)
  (MkContent 63 no_ident (bs [97; 98]%N) (bs [99; 100]%N) EBin None) /\ ~ wants_reply 63.
Proof.
  eexists. split.
  { exists (NewMessage 32). split; [apply NewMessage_blank|]. split; [cbn; lia|]. split.
    - apply (F_signal EBin (bs [97; 98]%N) (bs [99; 100]%N)); try (cbn; lia); discriminate.
    - vm_compute. reflexivity. }
  unfold wants_reply, app_request. lia.
Qed.

(* ================= C39 ================= *)
(* non-interference: all calls on the socket are the same for any two foreign errors,
   whatever payload accompanies them *)
Theorem C39_foreign_errors_hidden : forall m p1 p2 e1 e2,
  ~ (exists c t, e1 = EReq c t) -> ~ (exists q, e1 = EReqPtr q) -> e1 <> ENil ->
  ~ (exists c t, e2 = EReq c t) -> ~ (exists q, e2 = EReqPtr q) -> e2 <> ENil ->
  forall W ops gw, @handleRequest W ops gw m (p1, e1) = @handleRequest W ops gw m (p2, e2).
Proof. exact foreign_error. Qed.
Print Assumptions C39_foreign_errors_hidden.
(* what is sent instead, and what is sent for ErrRequest and *ErrRequest; the payload
   returned along with an error is never sent *)
Theorem C39_error_replies : forall m b c p code text other,
  received m b c -> app_request (k_type c) -> valid_code code true ->
  sends (fun W ops gw => handleRequest ops gw m (p, EOther other)) (MkContent 2 (k_ident c) [] [] EBin None) /\
  sends (fun W ops gw => handleRequest ops gw m (p, EReq code text)) (MkContent 0 (k_ident c) code text EU8 None) /\
  sends (fun W ops gw => handleRequest ops gw m (p, EReqPtr (Some (code, text))))
        (MkContent 0 (k_ident c) code text EU8 None).
Proof. exact error_replies. Qed.
Print Assumptions C39_error_replies.
Example C39_case : forall m, ReadBytes (NewMessage 32) sample_request = Some (m, true, None) ->
  received m sample_request (MkContent 129 id8 abc hi16 EU16 None) /\
  handleRequest sink_writer (Some empty_sink) m ((2%Z, hi16), EOther abc) =
    Some (Used (MkSink (bs [2; 1; 2; 3; 4; 5; 6; 7; 8]%N) 1) None) /\
  handleRequest sink_writer (Some empty_sink) m ((2%Z, hi16), EReq abc hi16) =
    Some (Used (MkSink (bs [0; 1; 2; 3; 4; 5; 6; 7; 8; 3; 97; 98; 99; 104; 0; 105; 0]%N) 1) None).
Proof.
  intros m E. split.
  { exists (NewMessage 32). split; [apply NewMessage_blank|]. split; [cbn; lia|]. split; [|exact E].
    apply (F_request16 id8 abc [x00] hi16); try reflexivity; try (cbn; lia). discriminate. }
  vm_compute in E. injection E as <-. split; vm_compute; reflexivity.
Qed.
