(* What users rely on when they look at errors. *)
From Coq Require Import Strings.String.
From Coq Require Import List NArith.
From Verif Require Import BaseBytes ModelRequests ModelErrors SpecWire SpecHandle.
Import ListNotations.

(* errors that speak with the text of their cause *)
Inductive speaks_for : err -> option err -> Prop :=
| Sp_deadline c : speaks_for (ErrDeadlineExceeded c) c
| Sp_protocol c : speaks_for (ErrProtocol c) c
| Sp_timeout c : speaks_for (ErrTimeout c) c
| Sp_canceled c : speaks_for (ErrCanceled c) c
| Sp_disconnected c : speaks_for (ErrDisconnected (Some c)) (Some c)
| Sp_pointer e : speaks_for (Pointer e) (Some e).
(* errors that add something to the text of their cause *)
Inductive reports : err -> string -> option err -> Prop :=
| Re_transmission c : reports (ErrTransmission c) "message transmission failed: " c
| Re_read c : reports (ErrSockRead false c) "reading socket failed: " c.
(* errors without a text: nothing at the end of the chain *)
Inductive hollow : err -> Prop :=
| Ho_none e : speaks_for e None -> hollow e
| Ho_some e c : speaks_for e (Some c) -> hollow c -> hollow e
| Ho_nil e : hollow (NilPointer e)
| Ho_foreign : hollow (Foreign None).

(* how ModelRequests sees the error of a context *)
Definition ctx_kind (e : option err) : ctx_err :=
  match e with
  | Some DeadlineExceeded => CtxDeadline
  | Some Canceled => CtxCanceled
  | _ => CtxOther
  end.

(* the errors without content, and what they say *)
Definition plain : list (err * string) :=
  [(ErrBufferOverflow, "message buffer overflow"); (ErrDisconnected None, "disconnected"); (ErrDialTimeout, "dial timed out");
   (ErrInternal, "internal server error"); (ErrMaxSessConnsReached, "reached maximum number of concurrent session connections");
   (ErrServerShutdown, "server is currently being shut down and won't process the request");
   (ErrSessionNotFound, "session not found"); (ErrSessionsDisabled, "sessions are disabled for this server");
   (DeadlineExceeded, "context deadline exceeded"); (Canceled, "context canceled"); (ErrSockRead true None, "socket closed")]%string.

(* the request errors: by value and behind a pointer *)
Inductive request_error : err -> bytes -> bytes -> Prop :=
| Rq_value c m : request_error (ErrRequest c m) c m
| Rq_pointer c m : request_error (Pointer (ErrRequest c m)) c m.
(* errors with a reply of their own: the number of its type *)
Inductive session_error : err -> N -> Prop :=
| Se_notfound : session_error ErrSessionNotFound 3
| Se_maxconns : session_error ErrMaxSessConnsReached 4
| Se_disabled : session_error ErrSessionsDisabled 5.
