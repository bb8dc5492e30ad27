(* What the peer makes of a series of messages over the in-memory transport. *)
From Coq Require Import List Arith NArith ZArith Bool.
From Verif Require Import BaseBytes ModelMessage SpecWire SpecWrite SpecSeries.
Import ListNotations.
Open Scope list_scope.
Open Scope nat_scope.

(* a message and what it says *)
Inductive meant : letter -> content -> Prop :=
| M_signal name e p safe : valid_signal name e p safe -> name ++ p <> [] -> (e = 2%Z -> p <> []) ->
    meant (LSignal name e p safe) (MkContent (sig_tag (enc_of e)) no_ident name p (enc_of e) None)
| M_request i name e p safe : length i = 8 -> valid_request name e p safe ->
    meant (LRequest i name e p safe) (MkContent (req_tag (enc_of e)) i name p (enc_of e) None)
| M_reply i e p : length i = 8 -> utf16_ok e p -> meant (LReply i e p) (MkContent (rep_tag (enc_of e)) i [] p (enc_of e) None)
| M_error i c m safe : length i = 8 -> 1 <= length c <= 255 -> valid_code c safe -> meant (LError i c m safe) (MkContent 0 i c m EU8 None)
| M_special t i : (1 <= t <= 5)%N -> length i = 8 -> meant (LSpecial (n2b t) i) (MkContent t i [] [] EBin None)
| M_heartbeat : meant LHeartbeat (MkContent 33 no_ident [] [] EBin None)
| M_closed : meant LClosed (MkContent 22 no_ident [] [] EBin None)
| M_created info : info <> [] -> meant (LCreated info) (MkContent 21 no_ident [] info EBin None)
| M_restore i key : length i = 8 -> key <> [] -> meant (LRestore i key) (MkContent 32 i [] key EBin None)
| M_close i : length i = 8 -> meant (LClose i []) (MkContent 31 i [] [] EBin None).
(* request identifiers have eight bytes *)
Definition eight (l : letter) : Prop :=
  match l with
  | LRequest i _ _ _ _ | LReply i _ _ | LError i _ _ _ | LSpecial _ i | LRestore i _ | LClose i _ => length i = 8
  | _ => True
  end.
(* the contents of the messages sent while the socket was connected throughout *)
Inductive reaching : list (letter * bool * bool) -> list content -> Prop :=
| R_none : reaching [] []
| R_through l c ls cs : meant l c -> reaching ls cs -> reaching ((l, true, true) :: ls) (c :: cs)
| R_missed l c o t ls cs : meant l c -> o && t = false -> reaching ls cs -> reaching ((l, o, t) :: ls) cs.
