(* When a server over the in-memory transport can go on, and what it waits for: definitions of the statements. *)
From Coq Require Import List Arith ZArith Bool.
From Verif Require Import BaseBytes BaseConc ModelMessage ModelStack SpecStack.
From Verif Require ModelDispatch ModelMemchan SpecDispatch SpecMemchan SpecSettle.
Import ListNotations.
Open Scope nat_scope.

(* thread i of the server can go on: by itself, by calling the transport, or because its call has returned *)
Definition goes (s : stack) (i : nat) : Prop :=
  (exists s', kstep s (EUse i) = Some s') \/ exists ch s', kstep s (ESrv (ModelDispatch.EvStep i ch)) = Some s'.
(* it has returned, waits for a call of the transport, for a slot of its connection or for the handlers to end *)
Definition kept (s : stack) (i : nat) (t : ModelDispatch.thread) : Prop :=
  SpecDispatch.finished t = true \/
  (exists u j x, k_io s i = Some (u, j) /\ nthread s j = Some x /\ SpecMemchan.finished x = false) \/
  (exists c k m, t = ModelDispatch.TRd c (ModelDispatch.RSlot k m) /\
     ModelDispatch.c_limit (ModelDispatch.v_conn (vsrv s) c) =
       Z.of_nat (count (SpecDispatch.holds c) (ModelDispatch.s_ts (k_srv s)) + count (SpecDispatch.leaked c) (dlog s))) \/
  (t = ModelDispatch.TShW /\ ModelDispatch.v_rdy (vsrv s) = false).
(* call j of the transport can go on *)
Definition call_goes (s : stack) (j : nat) : Prop :=
  (exists ch s', kstep s (ENet (ModelMemchan.EvStep j ch)) = Some s') \/
  (forall lim, exists s', kstep s (EAccept j lim) = Some s') /\ exists p, nthread s j = Some (ModelMemchan.TDial p ModelMemchan.DlAdd).
(* Shutdown of the transport is about to close the channel Run waits for *)
Definition to_close_chan (s : stack) (j : nat) : Prop :=
  nthread s j = Some (ModelMemchan.TDown ModelMemchan.ShList) /\ exists s', kstep s EChan = Some s'.

(* calls a user can make *)
Definition is_call (e : event) : bool :=
  match e with
  | ERun => true
  | ENet (ModelMemchan.EvStep _ _) => false
  | ENet _ => true
  | ESrv (ModelDispatch.EvStep _ _) => false
  | ESrv _ => true
  | _ => false
  end.
(* no goroutine of the server is in call j *)
Definition foreign (s : stack) (j : nat) : Prop := forall i u, k_io s i <> Some (u, j).
(* nothing happens any more without new calls, unless somebody else uses the writer they have *)
Definition still (s : stack) : Prop := forall e s', kstep s e = Some s' -> is_call e = true \/
  exists j ch k, e = ENet (ModelMemchan.EvStep j ch) /\ nthread s j = Some (ModelMemchan.TWrite k ModelMemchan.WOpen) /\ foreign s j.
(* the server cannot write to the client of pair p: a message was sent to the client, who does not read; somebody
   keeps the writer of the socket; or closed it without having written *)
Definition unread (s : stack) (p : nat) : Prop :=
  (exists j g b, nthread s j = Some (ModelMemchan.TWrite (p, ModelMemchan.Srv) ModelMemchan.WParked) /\ ModelMemchan.n_on (vnet s) p = true /\
     SpecMemchan.sent (p, ModelMemchan.Srv) g (tlog s) = SpecMemchan.got (p, ModelMemchan.Clt) g (tlog s) ++ [b] /\
     forall h m d st, nthread s h = Some (ModelMemchan.TRead (p, ModelMemchan.Clt) m d st) -> exists r, st = ModelMemchan.RdDone r) \/
  (exists j, nthread s j = Some (ModelMemchan.TWrite (p, ModelMemchan.Srv) ModelMemchan.WOpen) /\ foreign s j) \/
  (exists j, In (ModelMemchan.LWriter j (p, ModelMemchan.Srv) ModelMemchan.WrEmpty) (tlog s)).
(* thread i waits in a write to the client of pair p *)
Definition writes_to (s : stack) (i p : nat) : Prop := exists f j st, k_io s i = Some (UWrite p f, j) /\
  nthread s j = Some (ModelMemchan.TWrite (p, ModelMemchan.Srv) st) /\ (st = ModelMemchan.WParked \/ st = ModelMemchan.WGet).
Definition held (s : stack) (i : nat) (t : ModelDispatch.thread) : Prop :=
  SpecDispatch.finished t = true \/
  (exists p, writes_to s i p /\ unread s p) \/
  (exists c k m, t = ModelDispatch.TRd c (ModelDispatch.RSlot k m) /\
     (SpecSettle.exhausted (k_srv s) c \/ exists i' k' m' j p, sthread s i' = Some (ModelDispatch.TJob c k' m' j) /\ writes_to s i' p /\ unread s p)) \/
  (t = ModelDispatch.TShW /\ exists i' t' p, sthread s i' = Some t' /\ SpecDispatch.registered t' = true /\ writes_to s i' p /\ unread s p).
(* pairs are not dialed while in use, closed politely (see C43), and no signal is registered after the shutdown flag was set *)
Definition tidy (s : stack) (e : event) (s' : stack) : Prop := quiet s e s' /\ SpecMemchan.orderly (k_net s').
(* what the owner of a writer writes *)
Definition is_write (e : event) : bool := match e with ENet (ModelMemchan.EvStep _ (ModelMemchan.ChWrite _)) => true | _ => false end.
