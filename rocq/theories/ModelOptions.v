(* Model of the server options, of NewServer and of the handshake.
   Source: /repo/serverOptions.go, newServer.go, handleConnection.go:8-46 *)
From Coq Require Import List Arith NArith ZArith Bool.
From Verif Require Import BaseBytes ModelMessage ModelWrite.
Import ListNotations.
Open Scope nat_scope.

(* serverOptions.go:13-22 *)
Definition OptionUnset : Z := 0.
Definition Disabled : Z := 1.
Definition Enabled : Z := 2.

(* values of interface or pointer type: nil, the library's default, or one given by the user *)
Inductive part := PNil | PDefault | PGiven (n : nat).
Definition is_nil (p : part) : bool := match p with PNil => true | _ => false end.

(* serverOptions.go:26-42; durations in nanoseconds (int64), Sessions is an int32 *)
Record options := MkOptions {
  op_sessions : Z;
  op_manager : part;
  op_keygen : part;
  op_parser : part;
  op_max : N;
  op_warn : part;
  op_error : part;
  op_timeout : Z;
  op_subname : bytes;
  op_bufsize : N }.

Definition set_sessions x o := MkOptions x (op_manager o) (op_keygen o) (op_parser o) (op_max o) (op_warn o) (op_error o) (op_timeout o) (op_subname o) (op_bufsize o).
Definition set_manager x o := MkOptions (op_sessions o) x (op_keygen o) (op_parser o) (op_max o) (op_warn o) (op_error o) (op_timeout o) (op_subname o) (op_bufsize o).
Definition set_keygen x o := MkOptions (op_sessions o) (op_manager o) x (op_parser o) (op_max o) (op_warn o) (op_error o) (op_timeout o) (op_subname o) (op_bufsize o).
Definition set_parser x o := MkOptions (op_sessions o) (op_manager o) (op_keygen o) x (op_max o) (op_warn o) (op_error o) (op_timeout o) (op_subname o) (op_bufsize o).
Definition set_warn x o := MkOptions (op_sessions o) (op_manager o) (op_keygen o) (op_parser o) (op_max o) x (op_error o) (op_timeout o) (op_subname o) (op_bufsize o).
Definition set_error x o := MkOptions (op_sessions o) (op_manager o) (op_keygen o) (op_parser o) (op_max o) (op_warn o) x (op_timeout o) (op_subname o) (op_bufsize o).
Definition set_timeout x o := MkOptions (op_sessions o) (op_manager o) (op_keygen o) (op_parser o) (op_max o) (op_warn o) (op_error o) x (op_subname o) (op_bufsize o).
Definition set_bufsize x o := MkOptions (op_sessions o) (op_manager o) (op_keygen o) (op_parser o) (op_max o) (op_warn o) (op_error o) (op_timeout o) (op_subname o) x.

Definition minMsgBufferSize : N := 32.
Definition second : Z := 1000000000.

(* the statements of Prepare *)
(* serverOptions.go:48-50 *)
Definition prep_sessions op := if (op_sessions op =? OptionUnset)%Z then set_sessions Enabled op else op.
(* serverOptions.go:52-56; mk: NewDefaultSessionManager("") succeeds (it panics if the session
   directory cannot be made). None: panic *)
Definition prep_manager (mk : bool) op :=
  if (op_sessions op =? Enabled)%Z && is_nil (op_manager op)
  then if mk then Some (set_manager PDefault op) else None else Some op.
(* serverOptions.go:58-60 *)
Definition prep_keygen op := if (op_sessions op =? Enabled)%Z && is_nil (op_keygen op) then set_keygen PDefault op else op.
(* serverOptions.go:62-64 *)
Definition prep_parser op := if is_nil (op_parser op) then set_parser PDefault op else op.
(* serverOptions.go:66-68 *)
Definition prep_timeout op := if (op_timeout op <? 1 * second)%Z then set_timeout (60 * second)%Z op else op.
(* serverOptions.go:71-84 *)
Definition prep_warn op := if is_nil (op_warn op) then set_warn PDefault op else op.
Definition prep_error op := if is_nil (op_error op) then set_error PDefault op else op.
(* serverOptions.go:89-99; true: an error is returned *)
Definition prep_bufsize op :=
  if (op_bufsize op =? 0)%N then (set_bufsize 8192 op, false)
  else if (op_bufsize op <? minMsgBufferSize)%N then (op, true)
  else (op, false).
(* serverOptions.go:46-100. Result: the options as left behind, and whether an error is returned;
   None: panic *)
Definition Prepare (mk : bool) (op : options) : option (options * bool) :=
  let? op := prep_manager mk (prep_sessions op) in
  Some (prep_bufsize (prep_error (prep_warn (prep_timeout (prep_parser (prep_keygen op)))))).

(* what NewServer keeps of the options (newServer.go:53-74); messages of the pool have v_msgbuf bytes *)
Record srv := MkSrv {
  v_options : options; v_conf : bytes; v_enabled : bool; v_msgbuf : N; v_max : N;
  v_manager : part; v_keygen : part; v_parser : part }.
Inductive new_err := NoImpl | NoTransport | BadOptions | BadConf | BadTransport.

(* newServer.go:13-95. initialize: does transport.Initialize, given the options, succeed. None: panic *)
Definition NewServer (impl transport : bool) (initialize : options -> bool) (mk : bool) (opts : options) : option (srv + new_err) :=
  if negb impl then Some (inr NoImpl) else
  if negb transport then Some (inr NoTransport) else
  let? prepared := Prepare mk opts in
  let '(opts, err) := prepared in
  if err : bool then Some (inr BadOptions) else
  match NewAcceptConfMessage x02 x00 (op_timeout opts) (op_bufsize opts) (op_subname opts) with
  | None => Some (inr BadConf)
  | Some configMsg =>
      let s := MkSrv opts configMsg (op_sessions opts =? Enabled)%Z (op_bufsize opts) (op_max opts)
                 (op_manager opts) (op_keygen opts) (op_parser opts) in
      if initialize opts then Some (inl s) else Some (inr BadTransport)
  end.

(* handleConnection.go:17-32, once GetWriter has returned a writer *)
Definition writeConfMessage (s : srv) {W} (ops : writer_ops W) (w : W) : wresult :=
  try_write ops (v_conf s) (close_end ops) w.
