(* What is promised of server options and of the handshake. *)
From Coq Require Import List Arith NArith ZArith Bool.
From Verif Require Import BaseBytes ModelMessage ModelWrite ModelOptions SpecWire SpecMessage.
Import ListNotations.
Open Scope nat_scope.

(* sessions are wanted: asked for, or nothing said *)
Definition wants_sessions (o : options) : Prop := op_sessions o = 0%Z \/ op_sessions o = 2%Z.
Definition given_or (d p p' : part) : Prop := (p <> PNil /\ p' = p) \/ (p = PNil /\ p' = d).
(* o' is o with everything unspecified filled in *)
Record filled (o o' : options) : Prop := {
  f_sessions_on : wants_sessions o -> op_sessions o' = 2%Z;
  f_sessions_off : ~ wants_sessions o -> op_sessions o' = op_sessions o;
  f_manager_on : wants_sessions o -> given_or PDefault (op_manager o) (op_manager o');
  f_manager_off : ~ wants_sessions o -> op_manager o' = op_manager o;
  f_keygen_on : wants_sessions o -> given_or PDefault (op_keygen o) (op_keygen o');
  f_keygen_off : ~ wants_sessions o -> op_keygen o' = op_keygen o;
  f_parser : given_or PDefault (op_parser o) (op_parser o');
  f_warn : given_or PDefault (op_warn o) (op_warn o');
  f_error : given_or PDefault (op_error o) (op_error o');
  f_max : op_max o' = op_max o;
  f_subname : op_subname o' = op_subname o;
  f_timeout_long : (1000000000 <= op_timeout o)%Z -> op_timeout o' = op_timeout o;
  f_timeout_short : (op_timeout o < 1000000000)%Z -> op_timeout o' = 60000000000%Z;
  f_bufsize_set : op_bufsize o <> 0%N -> op_bufsize o' = op_bufsize o;
  f_bufsize_unset : op_bufsize o = 0%N -> op_bufsize o' = 8192%N }.
(* usable options *)
Record in_range (o : options) : Prop := {
  r_sessions : op_sessions o <> 0%Z;
  r_manager : op_sessions o = 2%Z -> op_manager o <> PNil /\ op_keygen o <> PNil;
  r_parser : op_parser o <> PNil;
  r_logs : op_warn o <> PNil /\ op_error o <> PNil;
  r_timeout : (1000000000 <= op_timeout o)%Z;
  r_bufsize : (32 <= op_bufsize o)%N }.

(* what the handshake message says *)
Definition handshake (o : options) : content :=
  MkContent 23 no_ident [] [] EBin
    (Some (MkWConf 2 0 (Z.to_N (Z.quot (op_timeout o) 1000000)) (op_bufsize o) (op_subname o))).

(* why NewServer refuses *)
Definition why_not (impl tr : bool) (init : options -> bool) (mk : bool) (o : options) (e : new_err) : Prop :=
  match e with
  | NoImpl => impl = false
  | NoTransport => impl = true /\ tr = false
  | BadOptions => impl = true /\ tr = true /\ exists o', Prepare mk o = Some (o', true)
  | BadConf => impl = true /\ tr = true /\ exists o', Prepare mk o = Some (o', false) /\ (2 ^ 32 * 1000000 <= op_timeout o')%Z
  | BadTransport => impl = true /\ tr = true /\ exists o', Prepare mk o = Some (o', false) /\ (op_timeout o' < 2 ^ 32 * 1000000)%Z /\ init o' = false
  end.
