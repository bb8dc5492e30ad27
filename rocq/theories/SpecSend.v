(* Messages written to a socket of the in-memory transport: what is sent, what is returned, what remains locked. *)
From Coq Require Import Strings.String.
From Coq Require Import List Arith NArith ZArith Bool.
From Verif Require Import BaseBytes ModelErrors ModelSend SpecReport.
From Verif Require ModelMemchan ModelReport.
Import ListNotations.
Open Scope list_scope.
Open Scope nat_scope.

(* a socket nobody writes to, with a buffer of cap bytes, over which these messages went *)
Record ready (cap : nat) (sent : list bytes) (w : wire) : Prop := MkReady {
  r_size : length (ModelMemchan.b_data (w_buf w)) = cap;
  r_empty : ModelMemchan.b_len (w_buf w) = 0;
  r_buffer : w_locked w = false;
  r_writer : w_writer w = false;
  r_sent : w_sent w = sent;
  r_going : w_stuck w = false }.
(* the same socket in the hands of one that called GetWriter *)
Definition taken (cap : nat) (sent : list bytes) (w : wire) : Prop :=
  exists w0, ready cap sent w0 /\ GetWriter w0 true = Some (w, inl w).
(* nobody gets to write any more *)
Definition wedged (sent : list bytes) (w : wire) : Prop :=
  w_sent w = sent /\ w_locked w = true /\ w_stuck w = false /\ forall connected, GetWriter w connected = None.

(* the frame goes out as one message if it fits; else nothing goes out, and the socket is lost *)
Definition delivers (f : forall W, ModelReport.text_ops W -> W -> option (W * option err)) (frame : bytes) : Prop :=
  forall cap sent w, taken cap sent w -> forall connected verdict,
  exists w' e, f _ (wire_ops connected verdict) w = Some (w', e) /\
    (length frame <= cap -> connected = true -> ready cap (sent ++ [frame]) w' /\ e = verdict frame) /\
    (length frame <= cap -> connected = false -> ready cap sent w' /\ e = Some (Foreign (Some (t$"can't write to a closed socket")))) /\
    (cap < length frame -> wedged sent w' /\ e = Some (Foreign (Some (t$"message buffer overflow: no data written")))).
(* nothing goes out, and the socket is lost *)
Definition withholds (f : forall W, ModelReport.text_ops W -> W -> option (W * option err)) (t : bytes) : Prop :=
  forall cap sent w, taken cap sent w -> forall connected verdict,
  exists w', f _ (wire_ops connected verdict) w = Some (w', Some (Foreign (Some (t ++ t$": no data written")))) /\ wedged sent w'.

(* one field of the socket aside, nothing changes *)
Definition but_writer (w w' : wire) : Prop := w_buf w' = w_buf w /\ w_locked w' = w_locked w /\ w_sent w' = w_sent w /\ w_stuck w' = w_stuck w.
Definition but_stuck (w w' : wire) : Prop := w_buf w' = w_buf w /\ w_locked w' = w_locked w /\ w_writer w' = w_writer w /\ w_sent w' = w_sent w.
