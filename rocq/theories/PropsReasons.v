(* Property theorems C78: calls on in-memory sockets fail for the reason they report. *)
From Coq Require Import List Arith NArith ZArith Lia Bool.
From Verif Require Import BaseBytes BaseConc ModelMessage ModelMemchan SpecMemchan SpecReasons.
From Verif Require Import ProofMemchan ProofReasons PropsCodec PropsMemchan.
Import ListNotations.
Open Scope nat_scope.

(* every result of Read, GetWriter, Close of a writer and Dial has its reason, if pairs are not dialed
   while they are in use *)
Theorem C78_reasons_partial : forall size (ok : sys -> Prop) s e s' l x, (forall s, ok s -> calm s) -> mreach size ok s -> mstep s e = Some s' -> ok s' ->
  mlog s' = mlog s ++ l -> In x l -> reason s e s' x.
Proof. exact reasons. Qed.
Print Assumptions C78_reasons_partial.
(* for most results nothing is needed *)
Theorem C78_sure_reasons : forall size s e s' l x, mreach size anything s -> mstep s e = Some s' -> sure x = true ->
  mlog s' = mlog s ++ l -> In x l -> reason s e s' x.
Proof. exact sure_reasons. Qed.
Print Assumptions C78_sure_reasons.
(* the other way round: calls that look at a closed socket fail with the errors for closed sockets *)
Theorem C78_closed : forall s i k, n_crashed (s_net s) = false -> off s (fst k) ->
  (forall m d, at_ s i (TRead k m d RdStart) -> u_rlk (n_sock (s_net s) k) = None ->
     exists s', mstep s (EvStep i Go) = Some s' /\ mlog s' = mlog s ++ [LReader i k RdClosed]) /\
  (at_ s i (TWrite k WGet) -> u_wlk (n_sock (s_net s) k) = None ->
     exists s', mstep s (EvStep i Go) = Some s' /\ mlog s' = mlog s ++ [LWriter i k WrDisconnected]) /\
  (at_ s i (TWrite k WFlush) -> exists s', mstep s (EvStep i Go) = Some s' /\ at_ s' i (TWrite k (WReset WrClosed))).
Proof. exact closed_at_once. Qed.
Print Assumptions C78_closed.
(* a pair dialed twice; a writer and a reader on a socket whose peer closes; a reader that comes later; a
   reader whose deadline passes; a refused dial, and one after the shutdown of the transport *)
Example C78_case : exists s, mreach 4 calm s /\
  mlog s = [LNew 0; LDialed 0 0 DlNil; LDialed 1 0 DlAlready; LOpen 2 k0; LWrite 2 k0 beat true; LSend 2 k0 1 beat; LWriter 2 k0 WrSockClosed;
            LReader 3 k0 RdClosed; LReader 5 k1 RdClosed; LNew 0; LDialed 6 0 DlNil; LReader 7 k0 RdTimeout; LDialed 8 0 DlRefused; LDown 9; LDialed 10 0 DlClosed].
Proof.
  reached calmly (call 0 (EvDial 0) dials ++ call 1 (EvDial 0) [ChAccept true; Go] ++ call 2 (EvWrite k0) (waits_for_reader [beat]) ++
    call 3 (EvRead k0 msg false) [Go; Go] ++ call 4 (EvClose k1) [Go; Go; Go; ChWith 2; Go; Go] ++ [EvStep 2 Go; EvStep 3 Go; EvStep 3 Go] ++
    call 5 (EvRead k1 msg false) [Go] ++ call 6 (EvDial 0) dials ++ call 7 (EvRead k0 msg true) [Go; Go; ChTimeout; Go; Go; Go; Go; Go; Go] ++
    call 8 (EvDial 0) [ChAccept false] ++ call 9 EvDown [Go; ChOrder []; Go] ++ call 10 (EvDial 0) [ChAccept true; Go; Go; Go; ChShutting false; Go]).
  reflexivity.
Qed.
Example C78_step_case : exists s, mreach 4 calm s /\ exists s', mstep s (EvStep 1 Go) = Some s' /\ (mlog s' = mlog s ++ [LReader 1 k1 RdClosed]) /\
  n_on (s_net s) 0 = false /\ ProofMemchan8.calmb s' = true.
Proof.
  reached calmly (call 0 (EvDial 0) dials ++ call 1 (EvRead k1 msg true) [Go; Go] ++ call 2 (EvClose k0) closes ++ [EvStep 1 Go]).
  eexists. split; [vm_compute; reflexivity|]. repeat split; reflexivity.
Qed.
(* a pair dialed again: a Read that begins when Dial has connected the pair, but not replaced the channels yet,
   takes the channel of the old connection, holds the socket to be closed though it is connected all the time,
   and closes it: the old channel is closed a second time, which panics *)
Theorem C78_redial_refuted : exists s0, mreach 4 anything s0 /\ exists s1 s2 s3 s4, connected s0 0 /\ at_ s0 3 (TRead k1 msg false RdStart) /\
  mstep s0 (EvStep 3 Go) = Some s1 /\ connected s1 0 /\ mstep s1 (EvStep 3 Go) = Some s2 /\ connected s2 0 /\
  mstep s2 (EvStep 3 Go) = Some s3 /\ connected s3 0 /\ at_ s3 3 (TRead k1 msg false (RdFail RdClosed ClStart)) /\
  mrun s3 (map (EvStep 3) [Go; Go]) = Some s4 /\ n_crashed (s_net s4) = true.
Proof.
  reached freely (call 0 (EvDial 0) dials ++ call 1 (EvClose k0) closes ++ call 2 (EvDial 0) [ChAccept true; Go] ++ [EvRead k1 msg false]).
  do 4 eexists. repeat (split; [vm_compute; reflexivity|]). vm_compute. reflexivity.
Qed.
Print Assumptions C78_redial_refuted.
