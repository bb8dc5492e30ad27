(* Model of error values: their texts, what tells them apart, and the translation of context errors.
   Source: /repo/errors.go, /repo/translateContextError.go, /repo/transport/memchan/sockReadErr.go *)
From Coq Require Import Strings.String.
From Coq Require Import List Bool.
From Verif Require Import BaseBytes ModelHandle.
Import ListNotations.

Definition txt (s : string) : bytes := list_byte_of_string s.
Open Scope list_scope.

(* the values an interface of type error can hold; a nil interface is None in [option err].
   Other types (of the standard library and of users) are told apart by nothing but their text *)
Inductive err :=
| ErrBufferOverflow                                          (* errors.go:8 *)
| ErrDeadlineExceeded (cause : option err)                   (* errors.go:17-19 *)
| ErrDisconnected (cause : option err)                       (* errors.go:27-29 *)
| ErrDialTimeout                                             (* errors.go:40 *)
| ErrIncompatibleProtocolVersion (required supported : bytes)  (* errors.go:50-53 *)
| ErrInternal                                                (* errors.go:65 *)
| ErrMaxSessConnsReached                                     (* errors.go:74 *)
| ErrProtocol (cause : option err)                           (* errors.go:82-84 *)
| ErrRequest (code message : bytes)                          (* errors.go:99-102 *)
| ErrServerShutdown                                          (* errors.go:111 *)
| ErrSessionNotFound                                         (* errors.go:120 *)
| ErrSessionsDisabled                                        (* errors.go:129 *)
| ErrTimeout (cause : option err)                            (* errors.go:137-139 *)
| ErrTransmission (cause : option err)                       (* errors.go:148-150 *)
| ErrCanceled (cause : option err)                           (* errors.go:158-160 *)
| ErrSockRead (closed : bool) (cause : option err)           (* sockReadErr.go:6-11 *)
| DeadlineExceeded                                           (* context.DeadlineExceeded *)
| Canceled                                                   (* context.Canceled *)
| Pointer (e : err)                                          (* a pointer to one of the structs above *)
| NilPointer (e : err)                                       (* a nil pointer of the type "pointer to the type of e" *)
| Foreign (text : option bytes).                             (* any other; None: its Error() panics *)

Section Texts.
(* package fmt prints an error whose Error() method panics without panicking itself; what it
   prints depends on the Go version *)
Variable broken : err -> bytes.

(* fmt's %s of an error, given the result of its Error() *)
Definition shown (e : option err) (text : option bytes) : bytes :=
  match e, text with
  | None, _ => txt "%!s(<nil>)"
  | Some (NilPointer _), _ => txt "<nil>"
  | Some _, Some t => t
  | Some e, None => broken e
  end.

(* the methods Error(); None: run-time panic *)
Fixpoint Error (e : err) : option bytes :=
  match e with
  | ErrBufferOverflow => Some (txt "message buffer overflow")                     (* errors.go:11-13 *)
  | ErrDeadlineExceeded c => match c with Some c => Error c | None => None end    (* errors.go:22-24 *)
  | ErrDisconnected c => match c with Some c => Error c | None => Some (txt "disconnected") end (* errors.go:32-37 *)
  | ErrDialTimeout => Some (txt "dial timed out")                                 (* errors.go:43-45 *)
  | ErrIncompatibleProtocolVersion r s =>                                         (* errors.go:56-62 *)
      Some (txt "unsupported protocol version: " ++ r ++ txt " (supported: " ++ s ++ txt ")")
  | ErrInternal => Some (txt "internal server error")                             (* errors.go:68-70 *)
  | ErrMaxSessConnsReached => Some (txt "reached maximum number of concurrent session connections") (* errors.go:77-79 *)
  | ErrProtocol c => match c with Some c => Error c | None => None end            (* errors.go:94-96 *)
  | ErrRequest _ m => Some m                                                      (* errors.go:105-107 *)
  | ErrServerShutdown => Some (txt "server is currently being shut down and won't process the request") (* errors.go:114-116 *)
  | ErrSessionNotFound => Some (txt "session not found")                          (* errors.go:123-125 *)
  | ErrSessionsDisabled => Some (txt "sessions are disabled for this server")     (* errors.go:132-134 *)
  | ErrTimeout c => match c with Some c => Error c | None => None end             (* errors.go:142-144 *)
  | ErrTransmission c =>                                                          (* errors.go:153-155 *)
      Some (txt "message transmission failed: " ++ shown c (match c with Some c => Error c | None => None end))
  | ErrCanceled c => match c with Some c => Error c | None => None end            (* errors.go:163-165 *)
  | ErrSockRead true _ => Some (txt "socket closed")                              (* sockReadErr.go:14-19 *)
  | ErrSockRead false c => Some (txt "reading socket failed: " ++ shown c (match c with Some c => Error c | None => None end))
  | DeadlineExceeded => Some (txt "context deadline exceeded")
  | Canceled => Some (txt "context canceled")
  | Pointer e => Error e
  | NilPointer _ => None
  | Foreign t => t
  end.
Definition text_of (e : option err) : option bytes := match e with Some e => Error e | None => None end.

(* translateContextError.go:9-16; comparing with context.DeadlineExceeded and context.Canceled is
   comparing with these values: both types are comparable *)
Definition TranslateContextError (e : option err) : option err :=
  match e with
  | Some DeadlineExceeded => Some (ErrDeadlineExceeded e)
  | Some Canceled => Some (ErrCanceled e)
  | _ => Some (Foreign (Some (txt "unexpected context error: " ++ shown e (text_of e))))
  end.
End Texts.

(* errors.go:169-177 *)
Definition IsErrTimeout (e : option err) : bool :=
  match e with Some (ErrTimeout _) => true | Some (ErrDeadlineExceeded _) => true | _ => false end.
(* errors.go:181-187 *)
Definition IsErrCanceled (e : option err) : bool :=
  match e with Some (ErrCanceled _) => true | _ => false end.
(* errors.go:86-91 *)
Definition ErrNewProtocol (e : option err) : err := ErrProtocol e.
(* sockReadErr.go:22-24 *)
Definition IsCloseErr (closed : bool) (cause : option err) : bool := closed.

(* the cases of the type switches in failMsg.go:29-100 and handleRequest.go:20-36: how the
   server's reply functions (ModelHandle) see an error value. [t]: the text printed into the log *)
Definition seen (t : bytes) (e : option err) : goerr :=
  match e with
  | None => ENil
  | Some (ErrRequest c m) => EReq c m
  | Some (Pointer (ErrRequest c m)) => EReqPtr (Some (c, m))
  | Some (NilPointer (ErrRequest _ _)) => EReqPtr None
  | Some ErrMaxSessConnsReached => EMaxSessConns
  | Some ErrSessionNotFound => ESessNotFound
  | Some ErrSessionsDisabled => ESessDisabled
  | Some _ => EOther t
  end.

(* the errors made by the library, apart from those of packages message and payload and of the
   session managers, which are all results of errors.New and fmt.Errorf *)
Definition text (s : string) : err := Foreign (Some (txt s)).
Definition caused (mk : option err -> err) (s : string) : err := mk (Some (text s)).
Inductive made : err -> Prop :=
| M_text t : made (Foreign (Some t))                               (* errors.New, fmt.Errorf *)
| M_overflow : made ErrBufferOverflow                              (* connection.go:169, buffer.go:46 *)
| M_signal : made (caused ErrProtocol "missing both name and payload")        (* connection.go:163 *)
| M_disabled : made ErrSessionsDisabled                            (* connection.go:189, 280, handleSession*.go *)
| M_maxconns : made ErrMaxSessConnsReached                         (* handleSessionRestore.go:34 *)
| M_notfound : made ErrSessionNotFound                             (* handleSessionRestore.go:52 *)
| M_nosession : made (caused ErrDisconnected "Can't create session on disconnected connection")
                                                                   (* connection.go:193-197 *)
| M_unreachable : made (caused ErrDisconnected "server unreachable")          (* socket.go:94-96 *)
| M_closed : made (caused ErrDisconnected "can't write to a closed socket")   (* socket.go:127-129 *)
| M_gone : made (ErrSockRead true None)                            (* socket.go:173, 194, 216 *)
| M_expired : made (ErrSockRead false (Some (text "read deadline exceeded"))) (* socket.go:189 *)
| M_parse t : made (ErrSockRead false (Some (Foreign (Some t))))   (* socket.go:240, 245 *)
| M_context broken c e : TranslateContextError broken c = Some e -> made e.  (* request.go:42 *)
