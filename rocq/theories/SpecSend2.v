(* The sockets of ModelMemchan as ModelSend sees them. *)
From Coq Require Import Strings.String.
From Coq Require Import List Arith Bool.
From Verif Require Import BaseBytes ModelErrors ModelMemchan SpecReport.
From Verif Require ModelReport ModelSend.
Import ListNotations.
Open Scope list_scope.
Open Scope nat_scope.

(* what was handed over by k *)
Definition handed (k : sock) (l : list event) : list bytes :=
  flat_map (fun e => match e with LSend _ k' _ b => if sock_eqb k' k then [b] else [] | _ => [] end) l.
Definition view (k : sock) (n : net) : ModelSend.wire :=
  ModelSend.MkWire (u_buf (n_sock n k)) (negb (free (u_blk (n_sock n k)))) (negb (free (u_wlk (n_sock n k)))) (handed k (n_log n)) false.
(* the error behind each result of a writer: socket.go:71-85, 127-129, 281-291, buffer.go:58 *)
Definition told (r : wrres) : option err :=
  match r with
  | WrDisconnected => Some (ErrDisconnected (Some (Foreign (Some t$"can't write to a closed socket"))))
  | WrEmpty => Some (Foreign (Some t$"no data written"))
  | WrClosed => Some (Foreign (Some t$"can't write to a closed socket"))
  | WrRead => None
  | WrSockClosed => Some (Foreign (Some t$"socket closed"))
  end.
(* the steps of a writer of socket k that is in Close; in between, others do to the rest whatever they like *)
Inductive goes_on (i : nat) (k : sock) : net -> wstate -> net -> wstate -> Prop :=
| GO_refl n s : goes_on i k n s n s
| GO_others n s n1 n2 s2 : view k n1 = view k n -> goes_on i k n1 s n2 s2 -> goes_on i k n s n2 s2
| GO_step n s ch n1 s1 w n2 s2 : write_step i n k s ch = Some (n1, s1, w) -> goes_on i k n1 s1 n2 s2 -> goes_on i k n s n2 s2
(* a reader, or Close, answers *)
| GO_answer n v n2 s2 : v = WrRead \/ v = WrSockClosed -> goes_on i k (set_wlk k None n) (WReset v) n2 s2 -> goes_on i k n WParked n2 s2.
