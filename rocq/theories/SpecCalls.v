(* Session calls come to an end: definitions of the statement. *)
From Coq Require Import List Arith NArith ZArith Bool.
From Verif Require Import BaseBytes ModelSession SpecSession.
Import ListNotations.
Open Scope nat_scope.

(* the server's own steps: no call begins *)
Definition own (e : ev) : bool := match e with EvStep _ _ => true | _ => false end.
(* calls that begin in a run, and steps made by calls *)
Definition calls (es : list ev) : nat := length (filter (fun e => negb (own e)) es).
Definition steps (es : list ev) : nat := length (filter own es).
(* no call can make a step *)
Definition at_rest (f : config) (s : sys) : Prop := forall i ch, sstep f s (EvStep i ch) = None.
(* steps made by thread i *)
Definition steps_of (i : nat) (es : list ev) : nat :=
  length (filter (fun e => match e with EvStep j _ => j =? i | _ => false end) es).
(* calls other than Server.CloseSession, which calls CloseSession for each connection *)
Definition single (t : thread) : bool := match t with TServer _ _ => false | _ => true end.
