(* Property theorems C77: error values tell what happened. *)
From Coq Require Import Strings.String.
From Coq Require Import List Arith NArith ZArith Lia Bool.
From Verif Require Import BaseBytes BaseConc ModelMessage ModelRequests ModelWrite ModelHandle ModelErrors SpecWire SpecMessage SpecWrite SpecRequests SpecHandle SpecErrors.
From Verif Require Import ProofMessage ProofErrors PropsCodec PropsHandle PropsRequests.
Import ListNotations.
Open Scope nat_scope.
Open Scope list_scope.

(* the error of a context is translated to an error of the kind users can ask for, and its text is kept.
   Whatever is passed, the result can be printed *)
Theorem C77_translate : forall broken e, exists x, TranslateContextError broken e = Some x /\ Error broken x <> None /\
  (IsErrTimeout (Some x) = true <-> e = Some DeadlineExceeded) /\
  (IsErrCanceled (Some x) = true <-> e = Some Canceled) /\
  (e = Some DeadlineExceeded \/ e = Some Canceled -> speaks_for x e) /\
  (forall c t, e = Some c -> Error broken c = Some t -> exists pre, Error broken x = Some (pre ++ t)).
Proof. exact translate_all. Qed.
Print Assumptions C77_translate.
(* the third argument is an error with the same text that is not context.Canceled itself *)
Example C77_translate_case : forall broken,
  TranslateContextError broken (Some DeadlineExceeded) = Some (ErrDeadlineExceeded (Some DeadlineExceeded)) /\
  Error broken (ErrDeadlineExceeded (Some DeadlineExceeded)) = Some (txt "context deadline exceeded") /\
  TranslateContextError broken (Some (text "context canceled")) = Some (text "unexpected context error: context canceled") /\
  TranslateContextError broken (Some (ErrCanceled (Some Canceled))) = Some (text "unexpected context error: context canceled") /\
  TranslateContextError broken (Some (NilPointer ErrInternal)) = Some (text "unexpected context error: <nil>") /\
  TranslateContextError broken None = Some (text "unexpected context error: %!s(<nil>)").
Proof. intros broken. repeat split; reflexivity. Qed.

(* timeouts and cancellations are recognised by their type alone: not behind a pointer, nor as the
   cause of another error *)
Theorem C77_timeout : forall e, IsErrTimeout e = true <-> exists c, e = Some (ErrTimeout c) \/ e = Some (ErrDeadlineExceeded c).
Proof. exact is_timeout. Qed.
Print Assumptions C77_timeout.
Theorem C77_canceled : forall e, IsErrCanceled e = true <-> exists c, e = Some (ErrCanceled c).
Proof. exact is_canceled. Qed.
Print Assumptions C77_canceled.
Example C77_kinds_case : IsErrTimeout (Some (ErrTimeout (Some Canceled))) = true /\ IsErrCanceled (Some (ErrTimeout (Some Canceled))) = false /\
  IsErrTimeout (Some (Pointer (ErrTimeout None))) = false /\ IsErrTimeout (Some (ErrTransmission (Some (ErrTimeout None)))) = false /\
  IsErrTimeout (Some DeadlineExceeded) = false /\ IsErrCanceled (Some Canceled) = false.
Proof. repeat split. Qed.

(* AwaitReply: the error returned when its context is done is a timeout exactly if the context's deadline
   passed, and a cancellation exactly if the context was canceled *)
Theorem C77_await : forall broken s i r c, rreach anything s -> (N.of_nat (creations s) < 2 ^ 64)%N -> nth_error (threads s) i = Some (Aw1 r (ctx_kind c)) ->
  exists s' a x, rstep s (EvStep i ChRun) = Some s' /\ nth_error (threads s') i = Some (AwR r (AwCtx a)) /\
    TranslateContextError broken c = Some x /\
    (a = ModelRequests.ErrDeadlineExceeded <-> IsErrTimeout (Some x) = true) /\ (a = ModelRequests.ErrCanceled <-> IsErrCanceled (Some x) = true).
Proof. exact await_error. Qed.
Print Assumptions C77_await.
Example C77_await_case : exists s, rrun NewRequestManager (two_requests ++ [EvStep 2 (ChCtx (ctx_kind (Some Canceled)))]) = Some s /\
  nth_error (threads s) 2 = Some (Aw1 0 (ctx_kind (Some Canceled))) /\
  option_map (fun s => nth_error (threads s) 2) (rstep s (EvStep 2 ChRun)) = Some (Some (AwR 0 (AwCtx ModelRequests.ErrCanceled))).
Proof. eexists. split; [vm_compute; reflexivity|split; reflexivity]. Qed.

(* Error() panics exactly for errors that speak for a cause they do not have *)
Theorem C77_text : forall broken e, Error broken e = None <-> hollow e.
Proof. exact error_hollow. Qed.
Print Assumptions C77_text.
Theorem C77_speaks : forall broken e c, speaks_for e (Some c) -> Error broken e = Error broken c.
Proof. intros broken e c H. exact (speaks_text broken e (Some c) H). Qed.
Print Assumptions C77_speaks.
Theorem C77_reports : forall broken e pre,
  (forall c t, reports e pre (Some c) -> Error broken c = Some t -> Error broken e = Some (txt pre ++ t)) /\
  (reports e pre None -> Error broken e = Some (txt pre ++ txt "%!s(<nil>)")).
Proof. intros broken e pre. split; [exact (reports_cause broken e pre)|exact (reports_nothing broken e pre)]. Qed.
Print Assumptions C77_reports.
Example C77_versions_case : forall broken required supported, Error broken (ErrIncompatibleProtocolVersion required supported) =
  Some (txt "unsupported protocol version: " ++ required ++ txt " (supported: " ++ supported ++ txt ")").
Proof. reflexivity. Qed.
(* ErrNewProtocol gives a protocol error that speaks for its argument *)
Example C77_protocol_case : forall e, (exists c, ErrNewProtocol e = ErrProtocol c) /\ speaks_for (ErrNewProtocol e) e.
Proof. intros e. split; [exists e; reflexivity|apply Sp_protocol]. Qed.
Example C77_text_case : forall broken, hollow (ErrDisconnected (Some (ErrTimeout None))) /\ ~ hollow (ErrDisconnected None) /\
  Error broken (ErrDisconnected (Some (ErrTimeout None))) = None /\
  Error broken (ErrTransmission (Some (Pointer (ErrProtocol (Some (ErrRequest (txt "C") (txt "text")))))))
    = Some (txt "message transmission failed: text") /\
  Error broken (ErrTransmission (Some (ErrTimeout None))) = Some (txt "message transmission failed: " ++ broken (ErrTimeout None)).
Proof.
  intros broken. split; [apply (error_hollow broken); reflexivity|]. split; [intros H; apply (error_hollow broken) in H; discriminate|].
  repeat split.
Qed.
(* errors without content say what they are, and can be told apart by what they say *)
Theorem C77_distinct : forall broken, (forall e t, In (e, t) plain -> Error broken e = Some (txt t)) /\ NoDup (map (fun p => Error broken (fst p)) plain).
Proof.
  intros broken. split.
  - intros e t H. cbn in H. repeat destruct H as [H|H]; try (injection H as <- <-; reflexivity). destruct H.
  - repeat (constructor; [cbn; intros H; repeat destruct H as [H|H]; try discriminate H; exact H|]). constructor.
Qed.
Print Assumptions C77_distinct.

(* every error the library makes has a text, and a cause if it reports one; the only timeout among them is an exceeded deadline of a
   context, the only cancellation a canceled context *)
Theorem C77_made : forall broken e, made e -> Error broken e <> None /\ forall pre, ~ reports e pre None /\ ~ speaks_for e None.
Proof. intros broken e M. split; [exact (made_speaks broken e M)|]. intros pre. exact (made_cause e pre M). Qed.
Print Assumptions C77_made.
Theorem C77_made_kinds : forall e, made e ->
  (IsErrTimeout (Some e) = true <-> e = ErrDeadlineExceeded (Some DeadlineExceeded)) /\
  (IsErrCanceled (Some e) = true <-> e = ErrCanceled (Some Canceled)).
Proof. exact made_kinds. Qed.
Print Assumptions C77_made_kinds.
Example C77_made_all : Forall made [ErrBufferOverflow; ErrMaxSessConnsReached; ErrSessionNotFound; ErrSessionsDisabled; ErrSockRead true None;
  ErrSockRead false (Some (text "read deadline exceeded")); ErrNewProtocol (Some (text "missing both name and payload"))].
Proof. repeat constructor. Qed.
Example C77_made_case : made (ErrDeadlineExceeded (Some DeadlineExceeded)) /\ made (caused ErrDisconnected "server unreachable") /\
  ~ made (ErrTimeout None).
Proof.
  split; [apply (M_context (fun _ => []) (Some DeadlineExceeded)); reflexivity|]. split; [constructor|].
  intros H. apply (made_speaks (fun _ => [])) in H. apply H. reflexivity.
Qed.

(* what a client is told about each error value a handler may return: code and message of an ErrRequest,
   or of what a *ErrRequest points to; nothing about any other; a nil *ErrRequest crashes the handler *)
Theorem C77_handler_errors : forall m b c p t e, received m b c -> app_request (k_type c) ->
  (forall code text, e = ErrRequest code text \/ e = Pointer (ErrRequest code text) -> valid_code code true ->
     sends (fun W ops gw => handleRequest ops gw m (p, seen t (Some e))) (MkContent 0 (k_ident c) code text EU8 None)) /\
  ((forall code text, e <> ErrRequest code text /\ e <> Pointer (ErrRequest code text) /\ e <> NilPointer (ErrRequest code text)) ->
     sends (fun W ops gw => handleRequest ops gw m (p, seen t (Some e))) (MkContent 2 (k_ident c) [] [] EBin None)) /\
  (forall code text, e = NilPointer (ErrRequest code text) -> forall W ops w, @handleRequest W ops (Some w) m (p, seen t (Some e)) = None).
Proof. exact handle_errors. Qed.
Print Assumptions C77_handler_errors.
(* a session error returned by a handler, and a request error inside another error, are hidden too *)
Example C77_handler_case : forall m, ReadBytes (NewMessage 32) sample_request = Some (m, true, None) ->
  received m sample_request (MkContent 129 id8 abc hi16 EU16 None) /\
  map (fun e => handleRequest sink_writer (Some empty_sink) m ((2%Z, hi16), seen abc (Some e)))
    [ErrSessionNotFound; ErrTransmission (Some (ErrRequest abc hi16)); Pointer (ErrRequest abc hi16); NilPointer (ErrRequest [] []); NilPointer ErrInternal] =
  [Some (Used (MkSink (bs [2; 1; 2; 3; 4; 5; 6; 7; 8]%N) 1) None); Some (Used (MkSink (bs [2; 1; 2; 3; 4; 5; 6; 7; 8]%N) 1) None);
   Some (Used (MkSink (bs [0; 1; 2; 3; 4; 5; 6; 7; 8; 3; 97; 98; 99; 104; 0; 105; 0]%N) 1) None); None;
   Some (Used (MkSink (bs [2; 1; 2; 3; 4; 5; 6; 7; 8]%N) 1) None)].
Proof.
  intros m E. split; [apply (C39_case m E)|]. vm_compute in E. injection E as <-. vm_compute. reflexivity.
Qed.

(* and about the errors the server itself fails a message with *)
Theorem C77_failed : forall m b c t e, received m b c -> wants_reply (k_type c) ->
  (forall code text, request_error e code text -> valid_code code true ->
     sends (fun W ops gw => failMsg ops gw m (seen t (Some e))) (MkContent 0 (k_ident c) code text EU8 None)) /\
  (forall n, session_error e n -> sends (fun W ops gw => failMsg ops gw m (seen t (Some e))) (special_content n (k_ident c))) /\
  ((forall code text, ~ request_error e code text) -> (forall n, ~ session_error e n) -> (forall code text, e <> NilPointer (ErrRequest code text)) ->
     sends (fun W ops gw => failMsg ops gw m (seen t (Some e))) (special_content 2 (k_ident c))).
Proof. exact fail_errors. Qed.
Print Assumptions C77_failed.
Theorem C77_seen : forall t e,
  (seen t e = ENil <-> e = None) /\ (seen t e = EOther t -> exists x, e = Some x) /\
  (forall c m, seen t e = EReq c m <-> e = Some (ErrRequest c m)) /\
  (forall c m, seen t e = EReqPtr (Some (c, m)) <-> e = Some (Pointer (ErrRequest c m))).
Proof. exact seen_exact. Qed.
Print Assumptions C77_seen.
Example C77_failed_case : forall m, ReadBytes (NewMessage 32) sample_request = Some (m, true, None) ->
  map (fun e => failMsg sink_writer (Some empty_sink) m (seen abc (Some e)))
    [ErrSessionNotFound; ErrMaxSessConnsReached; ErrSessionsDisabled; Pointer ErrSessionNotFound; ErrProtocol (Some ErrSessionNotFound)] =
  map (fun n => Some (Used (MkSink (bs [n; 1; 2; 3; 4; 5; 6; 7; 8]%N) 1) None)) [3; 4; 5; 2; 2]%N.
Proof. intros m E. vm_compute in E. injection E as <-. vm_compute. reflexivity. Qed.
