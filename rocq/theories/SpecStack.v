(* What users of a server over the in-memory transport rely on. *)
From Coq Require Import List Arith ZArith Bool.
From Verif Require Import BaseBytes BaseConc ModelMessage ModelWrite ModelHandle ModelStack SpecWrite.
From Verif Require ModelDispatch ModelMemchan SpecDispatch SpecMemchan.
Import ListNotations.
Open Scope nat_scope.

(* runs: all interleavings; [ok] restricts the steps *)
Inductive kreach (buf : nat) (conf : bytes) (ok : stack -> event -> stack -> Prop) : stack -> Prop :=
| KR_new : kreach buf conf ok (new_stack buf conf)
| KR_step s e s' : kreach buf conf ok s -> kstep s e = Some s' -> ok s e s' -> kreach buf conf ok s'.
Fixpoint krun (s : stack) (es : list event) : option stack :=
  match es with [] => Some s | e :: es' => match kstep s e with Some s' => krun s' es' | None => None end end.
Inductive klater (ok : stack -> event -> stack -> Prop) (s : stack) : stack -> Prop :=
| KL_now : klater ok s s
| KL_step s1 e s2 : klater ok s s1 -> kstep s1 e = Some s2 -> ok s1 e s2 -> klater ok s s2.
Definition always (s : stack) (e : event) (s' : stack) : Prop := True.

(* the step of the dispatch machine in a step of the stack *)
Definition srv_event (e : event) : option ModelDispatch.ev :=
  match e with
  | ESrv e' => Some e'
  | EAccept _ lim => Some (ModelDispatch.EvConnect lim)
  | _ => None
  end.
(* no signal is registered after the shutdown flag was set, and less than 2^32 messages are being
   handled at once (see C25) *)
Definition quiet (s : stack) (e : event) (s' : stack) : Prop :=
  match srv_event e with Some e' => SpecDispatch.calm (k_srv s) e' | None => True end.
(* pairs are dialed only while they are not in use (see C42) *)
Definition apart (s : stack) (e : event) (s' : stack) : Prop := SpecMemchan.calm (k_net s').

Notation dlog s := (ModelDispatch.v_log (ModelDispatch.s_srv (k_srv s))).
Notation tlog s := (ModelMemchan.n_log (ModelMemchan.s_net (k_net s))).
Definition alive (s : stack) : Prop :=
  ModelDispatch.v_crashed (vsrv s) = false /\ ModelMemchan.n_crashed (vnet s) = false.
(* Shutdown was called; returned *)
Definition shut_called (s : stack) : Prop := exists i, In (ModelDispatch.LShutdown i) (dlog s).
Definition shut_returned (s : stack) : Prop := exists i, In (ModelDispatch.LShutReturn i) (dlog s).
Definition run_at (s : stack) (i : nat) (r : run) : Prop := nth_error (k_runs s) i = Some r.

(* connections announced by dials of pair p; calls of handleConnection with its server socket *)
Definition new_of (p : nat) (e : ModelMemchan.event) : bool := match e with ModelMemchan.LNew q => q =? p | _ => false end.
Definition accepted (s : stack) (p : nat) : nat :=
  count (fun i => match k_new s i with Some (q, _) => q =? p | None => false end) (seq 0 (length (ModelDispatch.s_ts (k_srv s)))).
(* what was read from connection c, in order *)
Definition frames (c : nat) (l : list ModelDispatch.event) : list bytes :=
  flat_map (fun e => match e with ModelDispatch.LFrame c' _ b _ => if c' =? c then [b] else [] | _ => [] end) l.

(* the dial has not passed its question whether the server is shutting down *)
Definition unasked (t : ModelMemchan.thread) : bool :=
  match t with
  | ModelMemchan.TDial _ (ModelMemchan.DlActive | ModelMemchan.DlAdd | ModelMemchan.DlDone ModelMemchan.DlNil) => false
  | _ => true
  end.
(* the dial has marked the pair as connected and did not return yet *)
Definition dialing_on (st : ModelMemchan.dlstate) : bool :=
  match st with
  | ModelMemchan.DlHook | ModelMemchan.DlCAS | ModelMemchan.DlDone _ => false
  | _ => true
  end.
(* thread i of the server sets up or reads a connection over pair p *)
Definition looping (t : ModelDispatch.thread) : bool :=
  match t with
  | ModelDispatch.TNew _ => true
  | ModelDispatch.TRd _ (ModelDispatch.RClose | ModelDispatch.RUnlink | ModelDispatch.RBye | ModelDispatch.REnd) => false
  | ModelDispatch.TRd _ _ => true
  | _ => false
  end.
Definition loop (s : stack) (i p g : nat) (t : ModelDispatch.thread) : Prop :=
  sthread s i = Some t /\ looping t = true /\ k_new s i = Some (p, g).
(* a pair is dialed again only when the server has left the read loop of its last connection *)
Definition waited (s : stack) : Prop := forall i p g t j st,
  loop s i p g t -> nthread s j = Some (ModelMemchan.TDial p st) -> dialing_on st = false.
Definition settled (s : stack) (e : event) (s' : stack) : Prop := apart s e s' /\ waited s'.

(* what writer j handed to the remote reader *)
Definition sends_of (j : nat) (l : list ModelMemchan.event) : list (ModelMemchan.sock * nat * bytes) :=
  flat_map (fun e => match e with ModelMemchan.LSend i k g b => if i =? j then [(k, g, b)] else [] | _ => [] end) l.
(* message b was given to a writer of pair p's server socket, which has been closed: the writer sent
   it once if it says so, else nothing. st: the reply function got the writer. P: about messages the
   writer reports as read *)
Definition carried (s : stack) (p : nat) (b : bytes) (st : sent sink) (P : nat -> nat -> bytes -> Prop) : Prop :=
  exists j res, nthread s j = Some (ModelMemchan.TWrite (p, ModelMemchan.Srv) (ModelMemchan.WDone res)) /\
    (st = NoWriter <-> res = ModelMemchan.WrDisconnected) /\
    match res with
    | ModelMemchan.WrRead | ModelMemchan.WrSockClosed =>
        exists g, sends_of j (tlog s) = [((p, ModelMemchan.Srv), g, b)] /\ (res = ModelMemchan.WrRead -> P p g b)
    | _ => sends_of j (tlog s) = []
    end.
(* ... the message of a reply function *)
Definition replied (s : stack) (P : nat -> nat -> bytes -> Prop) (c : nat) (text : option (sent sink)) (st : sent sink) : Prop :=
  match text with
  | Some (Used w _) => exists p g, k_conn s c = Some (p, g) /\ carried s p (s_bytes w) st P
  | _ => True
  end.
(* the client of pair p has read b from its reader channel number g *)
Definition client_got (s : stack) (p g : nat) (b : bytes) : Prop :=
  exists i, In (ModelMemchan.LRead i (p, ModelMemchan.Clt) g b) (tlog s).
