(* The configuration message and the closing of a session over a socket of the in-memory transport. *)
From Coq Require Import Strings.String.
From Coq Require Import List Arith NArith ZArith Bool.
From Verif Require Import BaseBytes ModelErrors ModelSend SpecSend SpecReport ModelLog SpecLog.
Import ListNotations.
Open Scope list_scope.
Open Scope nat_scope.

(* the connection is given up: this error is logged, and that of closing the socket *)
Definition given_up (broken brokenv : err -> bytes) (t : bytes) (closed : option err) (log : list entry) (served : bool) : Prop :=
  served = false /\ exists a b, log = a ++ b /\
    one a (with_error broken brokenv t$"couldn't write config message: " (Foreign (Some t))) /\
    match closed with None => b = [] | Some c => one b (with_error broken brokenv t$"couldn't close socket: " c) end.
