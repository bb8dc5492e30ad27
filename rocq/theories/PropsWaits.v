(* C72: calls on the in-memory transport wait only for their peers *)
From Coq Require Import List Arith NArith ZArith Lia Bool.
From Verif Require Import BaseBytes BaseConc ModelMessage ModelMemchan SpecMemchan SpecWaits ProofMemchan7 ProofWaits ProofWaits2 PropsCodec PropsMemchan.
Import ListNotations.
Open Scope nat_scope.

(* when no call on a pair can go on, but for writers at the disposal of their owners, unfinished calls wait for
   messages that nobody sends or reads; a writer and a reader never wait for each other. Calls of Close, Dial and
   Shutdown never wait. Pairs are not dialed while in use, and closed politely (see C43 for the other cases) *)
Theorem C72_rest_partial : forall size s p i t, mreach size orderly s -> rests p s -> at_ s i t -> on_pair p t = true ->
  finished t = false -> waits_for s t.
Proof. intros size s p i t R Q. exact (rest size s R p Q i t). Qed.
Print Assumptions C72_rest_partial.
Theorem C72_open_partial : forall size s p i k, mreach size orderly s -> rests p s -> fst k = p -> at_ s i (TWrite k WOpen) -> can_step s i.
Proof. intros size s p i k R Q. exact (open_steps size s R p Q k i). Qed.
Print Assumptions C72_open_partial.
Theorem C72_shutdown_partial : forall size s i st, mreach size orderly s -> at_ s i (TDown st) -> st <> ShDone -> can_step s i.
Proof. intros size s i st R. exact (down_steps size s R i st). Qed.
Print Assumptions C72_shutdown_partial.
(* calls make few steps, apart from writes of the owner of a writer: at most 7, 9, 6, 7 (GetWriter to Close, Read,
   Close, Dial), Shutdown 7 for each pair it found *)
Theorem C72_call : forall s es s' i t, mrun s es = Some s' -> at_ s i t -> listed t = true -> moves i es <= most t.
Proof. exact call_most. Qed.
Print Assumptions C72_call.
Theorem C72_listing : forall s i ch s', at_ s i (TDown ShList) -> mstep s (EvStep i ch) = Some s' ->
  exists l, ch = ChOrder l /\ length l = length (n_conns (s_net s)) /\ s' = MkSys (s_net s) (set_nth (s_ts s) i (TDown (ShLoop l))).
Proof. exact listing. Qed.
Print Assumptions C72_listing.

Ltac still := intros j u J O C; destruct C as (ch & s' & C);
  repeat (destruct j as [|j]; [injection J as <-; try (destruct ch; discriminate C); try (eexists; reflexivity)|]);
  try (destruct j; discriminate J).
(* at rest: a writer nobody reads from, one behind it; a reader nobody writes to, one behind it *)
Example C72_rest_case : exists s, mreach 4 orderly s /\ rests 0 s /\ at_ s 1 (TWrite k0 WParked) /\ at_ s 2 (TWrite k0 WGet) /\
  at_ s 3 (TRead k0 msg false (RdWait 1)) /\ at_ s 4 (TRead k0 msg true RdStart).
Proof.
  reached well (call 0 (EvDial 0) dials ++ call 1 (EvWrite k0) (waits_for_reader [beat]) ++ [EvWrite k0] ++
    call 3 (EvRead k0 msg false) [Go; Go] ++ [EvRead k0 msg true]).
  split; [still|]. repeat split; reflexivity.
Qed.
(* the owner of a writer has the next move *)
Example C72_open_case : exists s, mreach 4 orderly s /\ rests 0 s /\ at_ s 1 (TWrite k0 WOpen) /\ at_ s 2 (TWrite k0 WGet).
Proof.
  reached well (call 0 (EvDial 0) dials ++ call 1 (EvWrite k0) [Go; ChWrite beat] ++ [EvWrite k0]).
  split; [still|]. repeat split; reflexivity.
Qed.
(* after a Close without data the next writer waits for nothing *)
Example C72_wedged_case : exists s, mreach 4 orderly s /\ rests 0 s /\ at_ s 1 (TWrite k0 (WDone WrEmpty)) /\ at_ s 2 (TWrite k0 WGet).
Proof.
  reached well (call 0 (EvDial 0) dials ++ call 1 (EvWrite k0) [Go; ChClose] ++ [EvWrite k0]).
  split; [still|]. repeat split; reflexivity.
Qed.
(* Close at the wrong moment: the pair is at rest and disconnected, and a writer and a reader still wait *)
Theorem C72_rest_refuted : exists s, mreach 4 calm s /\ rests 0 s /\ off s 0 /\ at_ s 1 (TWrite k0 WParked).
Proof.
  reached calmly (call 0 (EvDial 0) dials ++ call 1 (EvWrite k0) [Go; ChWrite beat; ChClose; Go; Go] ++ call 2 (EvClose k0) closes ++ [EvStep 1 Go]).
  split; [still|]. split; reflexivity.
Qed.
Print Assumptions C72_rest_refuted.
Theorem C72_reader_refuted : exists s r, mreach 4 calm s /\ rests 0 s /\ off s 0 /\ at_ s 2 (TRead k1 msg false (RdAck r)).
Proof.
  set (r := RdOk (match ReadBytes msg beat with Some (m, _, _) => m | None => msg end)).
  assert (exists s, mreach 4 calm s /\ rests 0 s /\ off s 0 /\ at_ s 2 (TRead k1 msg false (RdAck r))) as (s & H); [|eauto].
  reached calmly (call 0 (EvDial 0) dials ++ call 1 (EvWrite k0) (waits_for_reader [beat]) ++ call 2 (EvRead k1 msg false) [Go; Go; Go; Go] ++
    call 3 (EvClose k0) [Go; Go; ChWith 1; Go; Go; Go] ++ [EvStep 1 Go]).
  split; [|split; reflexivity]. intros j u J O C; destruct C as (ch & s' & C).
  repeat (destruct j as [|j]; [injection J as <-; destruct ch as [| | | |x| | |]; try discriminate C; destruct x as [|[|[|[|[|]]]]]; discriminate C|]).
  destruct j; discriminate J.
Qed.
Print Assumptions C72_reader_refuted.
(* 7 steps of a writer, 5 and 9 of readers, 7 of Dial *)
Definition run72 : list ev :=
  call 0 (EvDial 0) dials ++ transfer 1 ++ call 3 (EvRead k0 msg true) [Go; Go; ChTimeout; Go; Go; Go; Go; Go; Go].
Example C72_call_case : exists s, mrun (new_sys 4) run72 = Some s /\ map (fun i => moves i run72) [0; 1; 2; 3] = [7; 6; 5; 9] /\
  map finished (s_ts s) = [true; true; true; true].
Proof. eexists. split; [vm_compute; reflexivity|]. split; reflexivity. Qed.
Example C72_shutdown_case : exists s, mreach 4 orderly s /\ at_ s 1 (TDown ShList) /\
  mstep s (EvStep 1 (ChOrder [0])) = Some (MkSys (s_net s) (set_nth (s_ts s) 1 (TDown (ShLoop [0])))) /\
  match mrun s (map (EvStep 1) (ChOrder [0] :: Go :: closes ++ [Go])) with Some s' => at_ s' 1 (TDown ShDone) | None => False end.
Proof.
  reached well (call 0 (EvDial 0) dials ++ call 1 EvDown [Go]). repeat split; reflexivity.
Qed.
