(* Answers of the server over a socket of the in-memory transport, and what it logs. *)
From Coq Require Import Strings.String.
From Coq Require Import List Arith NArith ZArith Bool.
From Verif Require Import BaseBytes ModelErrors ModelSend SpecSend SpecReport ModelLog SpecLog.
Import ListNotations.
Open Scope list_scope.
Open Scope nat_scope.

(* the frame reaches the peer if it fits and the socket is not closed meanwhile; if not, that is logged. A frame that
   does not fit is the last thing the connection was asked to send *)
Definition carries (connected : bool) (verdict : bytes -> option err) (cap : nat) (sent : list bytes) (frame : bytes) (line : err -> bytes)
    (log : list entry) (res : option (option wire)) : Prop :=
  exists w', res = Some (Some w') /\
    (length frame <= cap -> connected = true -> ready cap (sent ++ [frame]) w' /\
       match verdict frame with None => log = [] | Some e => one log (line e) end) /\
    (length frame <= cap -> connected = false -> ready cap sent w' /\ one log (line (Foreign (Some t$"can't write to a closed socket")))) /\
    (cap < length frame -> wedged sent w' /\ one log (line (Foreign (Some t$"message buffer overflow: no data written")))).
(* there is no frame for it: the peer gets nothing, now or later *)
Definition loses (sent : list bytes) (t : bytes) (line : err -> bytes) (log : list entry) (res : option (option wire)) : Prop :=
  exists w', res = Some (Some w') /\ wedged sent w' /\ one log (line (Foreign (Some (t ++ t$": no data written")))).
