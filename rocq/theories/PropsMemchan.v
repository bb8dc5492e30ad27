(* Property theorems C40 - C45 (in-memory transport). [mreach size ok s]: state s is reachable,
   with buffers of the given size, by any interleaving of the steps of any number of calls of
   GetWriter/Write/Close, Read, Close, Dial and Shutdown, through states satisfying ok only. *)
From Coq Require Import List Arith NArith ZArith Lia Bool.
From Verif Require Import BaseBytes BaseConc ModelMessage ModelWrite ModelMemchan.
From Verif Require Import SpecWire SpecMessage SpecWrite SpecMemchan.
From Verif Require Import ProofWrite ProofMemchan ProofMemchan2 ProofMemchan5 ProofMemchan6 ProofMemchan7 ProofMemchan8.
From Verif Require Import PropsCodec.
Import ListNotations.
Open Scope nat_scope.

(* ----- sample runs ----- *)
Definition k0 : sock := (0, Srv).
Definition k1 : sock := (0, Clt).
Definition call (i : nat) (e : ev) (chs : list choice) : list ev := e :: map (EvStep i) chs.
(* undisturbed calls: Dial; a writer until it waits for the reader; Read; Close *)
Definition dials : list choice := [ChAccept true; Go; Go; Go; ChShutting false; Go; Go].
Definition waits_for_reader (ps : list bytes) : list choice := Go :: map ChWrite ps ++ [ChClose; Go; Go; Go].
Definition reads (j : nat) : list choice := [Go; Go; Go; Go; ChWith j].
Definition closes : list choice := [Go; Go; Go; Go; Go; Go].
Definition beat : bytes := [n2b 33].
Definition msg : message := NewMessage 32.
(* a heartbeat sent from k0 to k1 *)
Definition transfer (i : nat) : list ev :=
  call i (EvWrite k0) (waits_for_reader [beat]) ++ call (S i) (EvRead k1 msg false) (reads i) ++ [EvStep i Go].

Lemma freely size es (P : sys -> Prop) : (forall s, mrun (new_sys size) es = Some s -> P s) ->
  (match mrun (new_sys size) es with Some _ => true | None => false end) = true ->
  exists s, mreach size anything s /\ P s.
Proof.
  intros H E. destruct (mrun (new_sys size) es) as [s|] eqn:R; [|discriminate]. exists s. split; [|apply H; reflexivity]. clear - R.
  assert (G : forall es s0, mreach size anything s0 -> mrun s0 es = Some s -> mreach size anything s).
  { induction es0 as [|e es0 IH]; intros s0 M Q; cbn in Q; [injection Q as <-; exact M|]. destruct (mstep s0 e) eqn:E; [|discriminate].
    apply (IH _ (MR_step _ _ _ _ _ M E I) Q). }
  apply (G _ _ (MR_new _ _) R).
Qed.
Lemma well size es (P : sys -> Prop) : (forall s, checked_run orderlyb (new_sys size) es = Some s -> P s) ->
  (match checked_run orderlyb (new_sys size) es with Some _ => true | None => false end) = true ->
  exists s, mreach size orderly s /\ P s.
Proof.
  intros H E. destruct (checked_run orderlyb (new_sys size) es) as [s|] eqn:R; [|discriminate]. exists s. split; [|apply H; reflexivity].
  eapply checked_reach; [apply orderlyb_spec|apply MR_new|exact R].
Qed.
Lemma calmly size es (P : sys -> Prop) : (forall s, checked_run calmb (new_sys size) es = Some s -> P s) ->
  (match checked_run calmb (new_sys size) es with Some _ => true | None => false end) = true ->
  exists s, mreach size calm s /\ P s.
Proof.
  intros H E. destruct (checked_run calmb (new_sys size) es) as [s|] eqn:R; [|discriminate]. exists s. split; [|apply H; reflexivity].
  eapply checked_reach; [apply calmb_spec|apply MR_new|exact R].
Qed.
Ltac reached L es :=
  apply (L _ es); [|vm_compute; reflexivity]; let s := fresh "s" in let E := fresh "E" in intros s E; vm_compute in E; injection E as <-.
Ltac in_log := vm_compute; repeat (first [left; reflexivity | right]).

(* ================= C40 ================= *)
(* a write succeeds exactly if it fits behind what is pending *)
Theorem C40_write_fits : forall size ok s l1 i k p b l2, mreach size ok s -> mlog s = l1 ++ LWrite i k p b :: l2 ->
  (b = true <-> length (pending i l1) + length p <= size).
Proof. exact write_fits. Qed.
Print Assumptions C40_write_fits.
(* what is flushed was written by that writer since it was obtained; if no write failed, it is
   exactly what was written *)
Theorem C40_flush_partial : forall size ok s l1 i k g b l2, mreach size ok s -> mlog s = l1 ++ LSend i k g b :: l2 ->
  ~ failed i l1 -> b = written i l1 /\ b <> [].
Proof. exact flush_exact. Qed.
Print Assumptions C40_flush_partial.
(* the functions WriteMsg* stop at the first failing write: what they flush is exactly their frame *)
Theorem C40_messages : forall size s i k f frame s1 e s2, mreach size anything s -> at_ s i (TWrite k WOpen) ->
  pending i (mlog s) = [] -> writes f frame -> frame <> [] -> called f s i k s1 e -> mfrom anything s1 s2 ->
  forall k' g b, In (LSend i k' g b) (mlog s2) -> k' = k /\ b = frame.
Proof. exact call_delivers. Qed.
Print Assumptions C40_messages.
Theorem C40_messages_flushed : forall size s i k f frame s' e, mreach size anything s -> at_ s i (TWrite k WOpen) ->
  pending i (mlog s) = [] -> writes f frame -> frame <> [] -> length frame <= size -> called f s i k s' e ->
  at_ s' i (TWrite k WFlush) /\ pending i (mlog s') = frame.
Proof. exact call_fits. Qed.
Print Assumptions C40_messages_flushed.
(* the hypothesis [called] can be met *)
Theorem C40_messages_run : forall size s i k f, mreach size anything s -> at_ s i (TWrite k WOpen) ->
  pending i (mlog s) = [] -> can_step s i -> (rejects f \/ exists frame, writes f frame) -> exists s' e, called f s i k s' e.
Proof. exact call_exists. Qed.
Print Assumptions C40_messages_run.
(* two writes, delivered as one message; the buffer is used again *)
Example C40_case : exists s, mreach 4 orderly s /\
  In (LSend 1 k0 1 (bs [1; 2; 3]%N)) (mlog s) /\ In (LRead 2 k1 1 (bs [1; 2; 3]%N)) (mlog s) /\ In (LWriter 1 k0 WrRead) (mlog s) /\
  ~ failed 1 (mlog s) /\ written 1 (mlog s) = bs [1; 2; 3]%N /\ In (LSend 3 k0 1 beat) (mlog s) /\
  In (LReader 4 k1 (RdOk (match ReadBytes msg beat with Some (m, _, _) => m | None => msg end))) (mlog s).
Proof.
  reached well (call 0 (EvDial 0) dials ++ call 1 (EvWrite k0) (waits_for_reader [bs [1; 2]%N; bs [3]%N]) ++
    call 2 (EvRead k1 msg false) (reads 1) ++ [EvStep 1 Go] ++ transfer 3).
  do 3 (split; [in_log|]). split. { intros (k & p & H). cbn in H. repeat (destruct H as [H|H]; [discriminate H|]). exact H. }
  split; [reflexivity|]. split; in_log.
Qed.
Example C40_messages_case : exists s, mreach 4 anything s /\ at_ s 1 (TWrite k0 WOpen) /\ pending 1 (mlog s) = [] /\ can_step s 1 /\
  writes (fun W ops w => WriteMsgHeartbeat ops w) beat.
Proof.
  reached freely (call 0 (EvDial 0) dials ++ call 1 (EvWrite k0) [Go]). split; [reflexivity|]. split; [reflexivity|].
  split; [exists (ChWrite []); eexists; vm_compute; reflexivity|apply heartbeat_writes].
Qed.
(* a write that does not fit discards what was written before, and no more: a caller that goes on
   writing delivers the rest of its message *)
Theorem C40_overflow_refuted : exists s, mreach 4 orderly s /\
  mlog s = [LNew 0; LDialed 0 0 DlNil; LOpen 1 k0; LWrite 1 k0 (bs [1; 2; 3]%N) true; LWrite 1 k0 (bs [4; 5]%N) false;
            LWrite 1 k0 beat true; LSend 1 k0 1 beat; LRead 2 k1 1 beat;
            LReader 2 k1 (RdOk (match ReadBytes msg beat with Some (m, _, _) => m | None => msg end)); LWriter 1 k0 WrRead].
Proof.
  reached well (call 0 (EvDial 0) dials ++ call 1 (EvWrite k0) (waits_for_reader [bs [1; 2; 3]%N; bs [4; 5]%N; beat]) ++
    call 2 (EvRead k1 msg false) (reads 1) ++ [EvStep 1 Go]).
  reflexivity.
Qed.
Print Assumptions C40_overflow_refuted.

(* ================= C41 ================= *)
(* whenever a WriteMsg* function gets invalid arguments, or a message that does not fit, nobody ever
   gets a writer of that socket again, nor an error: GetWriter never returns *)
Theorem C41_wedged_refuted : forall size s i k f s1 e s2, mreach size anything s -> at_ s i (TWrite k WOpen) -> pending i (mlog s) = [] ->
  (rejects f \/ exists frame, writes f frame /\ size < length frame) -> called f s i k s1 e -> mfrom anything s1 s2 ->
  e <> None /\ at_ s1 i (TWrite k (WDone WrEmpty)) /\
  exists l, mlog s2 = mlog s1 ++ l /\ (forall j, ~ In (LOpen j k) l) /\ (forall j r, ~ In (LWriter j k r) l).
Proof. exact failed_call_wedges. Qed.
Print Assumptions C41_wedged_refuted.
(* a signal with too long a name; a signal that is too long *)
Example C41_case : exists s s1 e1 s2 e2, mreach 4 anything s /\ at_ s 1 (TWrite k0 WOpen) /\ pending 1 (mlog s) = [] /\
  called (fun W ops w => WriteMsgSignal ops w (repeat x00 256) 0%Z [] false) s 1 k0 s1 e1 /\
  rejects (fun W ops w => WriteMsgSignal ops w (repeat x00 256) 0%Z [] false) /\
  called (fun W ops w => WriteMsgSignal ops w (bs [65]%N) 0%Z (bs [1; 2; 3]%N) false) s 1 k0 s2 e2 /\
  writes (fun W ops w => WriteMsgSignal ops w (bs [65]%N) 0%Z (bs [1; 2; 3]%N) false) (signal_frame (bs [65]%N) 0%Z (bs [1; 2; 3]%N)).
Proof.
  assert (J : rejects (fun W ops w => WriteMsgSignal ops w (repeat x00 256) 0%Z [] false)).
  { apply signal_rejects. intros (H & _). rewrite repeat_length in H. lia. }
  assert (V : writes (fun W ops w => WriteMsgSignal ops w (bs [65]%N) 0%Z (bs [1; 2; 3]%N) false) (signal_frame (bs [65]%N) 0%Z (bs [1; 2; 3]%N))).
  { apply signal_writes. split; [cbn; lia|]. split; [discriminate|discriminate]. }
  assert (exists s, mreach 4 anything s /\ at_ s 1 (TWrite k0 WOpen) /\ pending 1 (mlog s) = [] /\ can_step s 1) as (s & R & I & P & C).
  { reached freely (call 0 (EvDial 0) dials ++ call 1 (EvWrite k0) [Go]). split; [reflexivity|]. split; [reflexivity|].
    exists (ChWrite []); eexists; vm_compute; reflexivity. }
  destruct (C40_messages_run _ _ _ _ _ R I P C (or_introl J)) as (s1 & e1 & H1).
  destruct (C40_messages_run _ _ _ _ _ R I P C (or_intror (ex_intro _ _ V))) as (s2 & e2 & H2).
  exists s, s1, e1, s2, e2. repeat (split; [assumption|]). exact V.
Qed.
(* the same for any other use of the writer: Close without data *)
Theorem C41_empty_refuted : forall size s s' j k, mreach size anything s -> In (LWriter j k WrEmpty) (mlog s) -> mfrom anything s s' ->
  exists l, mlog s' = mlog s ++ l /\ (forall i, ~ In (LOpen i k) l) /\ (forall i r, ~ In (LWriter i k r) l).
Proof. exact wedged_forever. Qed.
Print Assumptions C41_empty_refuted.
Example C41_empty_case : exists s s', mreach 4 orderly s /\ In (LWriter 1 k0 WrEmpty) (mlog s) /\ connected s 0 /\
  mfrom anything s s' /\ at_ s' 2 (TWrite k0 WGet) /\ forall ch, mstep s' (EvStep 2 ch) = None.
Proof.
  assert (exists s, mreach 4 orderly s /\ exists s', In (LWriter 1 k0 WrEmpty) (mlog s) /\ connected s 0 /\
    mfrom anything s s' /\ at_ s' 2 (TWrite k0 WGet) /\ forall ch, mstep s' (EvStep 2 ch) = None) as (s & R & s' & H); [|eauto].
  reached well (call 0 (EvDial 0) dials ++ call 1 (EvWrite k0) [Go; ChClose]). eexists. split; [in_log|]. split; [reflexivity|].
  split; [eapply MF_step with (e := EvWrite k0); [apply MF_here|vm_compute; reflexivity|constructor]|]. split; [reflexivity|]. intros []; reflexivity.
Qed.
(* if no Close failed that way, and no writer is in use, GetWriter returns at once, with a usable
   writer if the socket is connected *)
Theorem C41_next_partial : forall size (ok : sys -> Prop) s i k, mreach size ok s -> n_crashed (s_net s) = false -> at_ s i (TWrite k WGet) ->
  (forall j, ~ active j k (mlog s)) -> (forall j, ~ In (LWriter j k WrEmpty) (mlog s)) ->
  exists s', mstep s (EvStep i Go) = Some s' /\
    if n_on (s_net s) (fst k) then mlog s' = mlog s ++ [LOpen i k] /\ at_ s' i (TWrite k WOpen) /\ can_step s' i
    else mlog s' = mlog s ++ [LWriter i k WrDisconnected] /\ at_ s' i (TWrite k (WDone WrDisconnected)).
Proof. exact next_writer. Qed.
Print Assumptions C41_next_partial.
Example C41_next_case : exists s, mreach 4 orderly s /\ n_crashed (s_net s) = false /\ at_ s 3 (TWrite k0 WGet) /\ connected s 0 /\
  (forall j, ~ active j k0 (mlog s)) /\ (forall j, ~ In (LWriter j k0 WrEmpty) (mlog s)) /\ In (LWriter 1 k0 WrRead) (mlog s).
Proof.
  reached well (call 0 (EvDial 0) dials ++ transfer 1 ++ [EvWrite k0]). do 3 (split; [reflexivity|]). split; [|split; [|in_log]].
  - intros j [A B]. cbn in A. repeat (destruct A as [A|A]; [try discriminate A|]); [|exact A]. injection A as <-. apply (B WrRead). in_log.
  - intros j A. cbn in A. repeat (destruct A as [A|A]; [discriminate A|]). exact A.
Qed.

(* ================= C42 ================= *)
(* writers exclude one another; in every run *)
Theorem C42_writers : forall size ok s, mreach size ok s -> every (writers size) (mlog s).
Proof. exact writers_all. Qed.
Print Assumptions C42_writers.
(* messages read from a channel are a prefix of those sent to it, if pairs are not dialed while they
   are in use *)
Theorem C42_prefix_partial : forall size s k g, mreach size calm s -> is_prefix (got k g (mlog s)) (sent (remote k) g (mlog s)).
Proof. exact prefix_all. Qed.
Print Assumptions C42_prefix_partial.
(* a message is read before the next one is sent, and acknowledged only after it was read *)
Theorem C42_readers_partial : forall size s, mreach size calm s -> every readers (mlog s).
Proof. exact readers_all. Qed.
Print Assumptions C42_readers_partial.
(* sending never blocks *)
Theorem C42_never_full_partial : forall size s i k, mreach size calm s -> ~ at_ s i (TWrite k WBlock).
Proof. exact never_blocks. Qed.
Print Assumptions C42_never_full_partial.
Lemma orderly_calm size s : mreach size orderly s -> mreach size calm s.
Proof. apply mreach_weaken. intros s0 H. apply H. Qed.
Example C42_case : exists s, mreach 4 calm s /\
  sent k0 1 (mlog s) = [beat; beat; bs [1]%N] /\ got k1 1 (mlog s) = [beat; beat] /\ sent k1 1 (mlog s) = [beat] /\ got k0 1 (mlog s) = [].
Proof.
  assert (exists s, mreach 4 orderly s /\ sent k0 1 (mlog s) = [beat; beat; bs [1]%N] /\ got k1 1 (mlog s) = [beat; beat] /\
    sent k1 1 (mlog s) = [beat] /\ got k0 1 (mlog s) = []) as (s & R & H); [|exists s; split; [apply orderly_calm, R|exact H]].
  reached well (call 0 (EvDial 0) dials ++ transfer 1 ++ transfer 3 ++ call 5 (EvWrite k0) (waits_for_reader [bs [1]%N]) ++
    call 6 (EvWrite k1) (waits_for_reader [beat]) ++ call 7 (EvRead k1 msg true) [Go; Go; Go]).
  repeat split; reflexivity.
Qed.
(* the reader is given the writer's buffer, not a copy: when the socket is closed and dialed again
   while a message is being read, the reader sees the next message *)
Definition redial : list ev :=
  call 0 (EvDial 0) dials ++ call 1 (EvWrite k0) (waits_for_reader [bs [1]%N]) ++ call 2 (EvRead k1 msg false) [Go; Go; Go] ++
  call 3 (EvClose k0) [Go; Go; ChWith 1; Go; Go; Go] ++ [EvStep 1 Go] ++ call 4 (EvDial 0) dials ++
  call 5 (EvWrite k0) [Go; ChWrite (bs [2]%N)] ++ [EvStep 2 Go].
Theorem C42_redial_refuted : exists s, mreach 4 anything s /\
  sent k0 1 (mlog s) = [bs [1]%N] /\ got k1 1 (mlog s) = [bs [2]%N] /\ sent k0 2 (mlog s) = [].
Proof. reached freely redial. repeat split; reflexivity. Qed.
Print Assumptions C42_redial_refuted.

(* ================= C43 ================= *)
(* Close between a writer's look at the status and its send: send on a closed channel *)
Theorem C43_send_refuted : exists s, mreach 4 calm s /\
  exists s', mstep s (EvStep 1 Go) = Some s' /\ n_crashed (s_net s') = true.
Proof.
  reached calmly (call 0 (EvDial 0) dials ++ call 1 (EvWrite k0) [Go; ChWrite beat; ChClose; Go] ++ call 2 (EvClose k0) [Go; Go]).
  eexists. split; [vm_compute; reflexivity|reflexivity].
Qed.
Print Assumptions C43_send_refuted.
(* that is the only panic, if pairs are not dialed while in use *)
Theorem C43_causes_partial : forall size (ok : sys -> Prop) s e s', (forall s, ok s -> calm s /\ fitting s) -> mreach size ok s ->
  mstep s e = Some s' -> n_crashed (s_net s') = true ->
  exists i k, e = EvStep i Go /\ at_ s i (TWrite k WSend) /\ off s (fst k).
Proof. exact crash_cause. Qed.
Print Assumptions C43_causes_partial.
(* Close racing with Dial: close of a closed channel *)
Theorem C43_redial_refuted : exists s, mreach 4 anything s /\ at_ s 1 (TClose k0 ClRemote) /\
  exists s', mstep s (EvStep 1 Go) = Some s' /\ n_crashed (s_net s') = true.
Proof.
  reached freely (call 0 (EvDial 0) dials ++ call 1 (EvClose k0) [Go] ++ call 2 (EvDial 0) dials ++ call 3 (EvClose k0) [Go; Go]).
  split; [reflexivity|]. eexists. split; [vm_compute; reflexivity|reflexivity].
Qed.
Print Assumptions C43_redial_refuted.
(* Close looks for a waiting writer when the writer has sent its message but does not wait yet: the
   writer will wait, holding the writer lock, as long as the socket stays disconnected *)
Theorem C43_writer_refuted : exists s, mreach 4 calm s /\ closed_up s 0 /\ at_ s 1 (TWrite k0 WParked) /\
  forall s', mfrom (fun s => off s 0) s s' -> at_ s' 1 (TWrite k0 WParked) /\ ~ can_step s' 1.
Proof.
  assert (exists s, mreach 4 calm s /\ closed_up s 0 /\ at_ s 1 (TWrite k0 WParked) /\
     forall j u, at_ s j u -> receiving (remote k0) u = false) as (s & R & C & I & N).
  { reached calmly (call 0 (EvDial 0) dials ++ call 1 (EvWrite k0) [Go; ChWrite beat; ChClose; Go; Go] ++ call 2 (EvClose k0) closes ++ [EvStep 1 Go]).
    split; [split; [reflexivity|]|split; [reflexivity|]].
    - intros i t k c I C Q. apply nth_error_In in I. destruct I as [<-|[<-|[<-|[]]]]; try discriminate C. injection C as <- <-. reflexivity.
    - intros i t I. apply nth_error_In in I. destruct I as [<-|[<-|[<-|[]]]]; reflexivity. }
  exists s. repeat (split; [assumption|]). exact (writer_hangs s 1 k0 C I N).
Qed.
Print Assumptions C43_writer_refuted.
(* Close releases a writer whose message is being read: the reader will wait for that writer *)
Theorem C43_reader_refuted : exists s r, mreach 4 calm s /\ closed_up s 0 /\ at_ s 2 (TRead k1 msg false (RdAck r)) /\
  forall s', mfrom (fun s => off s 0) s s' -> at_ s' 2 (TRead k1 msg false (RdAck r)) /\ ~ can_step s' 2.
Proof.
  set (r := RdOk (match ReadBytes msg beat with Some (m, _, _) => m | None => msg end)).
  assert (exists s, mreach 4 calm s /\ closed_up s 0 /\ at_ s 2 (TRead k1 msg false (RdAck r)) /\
     forall j u, at_ s j u -> waits (remote k1) u = false /\ sending (remote k1) u = false) as (s & R & C & I & N).
  { reached calmly (call 0 (EvDial 0) dials ++ call 1 (EvWrite k0) (waits_for_reader [beat]) ++ call 2 (EvRead k1 msg false) [Go; Go; Go; Go] ++
      call 3 (EvClose k0) [Go; Go; ChWith 1; Go; Go; Go]).
    split; [split; [reflexivity|]|split; [reflexivity|]].
    - intros i t k c I C Q. apply nth_error_In in I. destruct I as [<-|[<-|[<-|[<-|[]]]]]; try discriminate C. injection C as <- <-. reflexivity.
    - intros i t I. apply nth_error_In in I. destruct I as [<-|[<-|[<-|[<-|[]]]]]; split; reflexivity. }
  exists s, r. repeat (split; [assumption|]). exact (stuck_reader s 2 k1 msg false r (proj1 C) I N).
Qed.
Print Assumptions C43_reader_refuted.
(* without such coincidences: no panics, and once Close is done every reader and writer can go on *)
Theorem C43_no_panic_partial : forall size s, mreach size orderly s -> n_crashed (s_net s) = false.
Proof. exact no_panic. Qed.
Print Assumptions C43_no_panic_partial.
Theorem C43_unblocks_partial : forall size s p i t, mreach size orderly s -> closed_up s p -> at_ s i t -> inside p t = true -> can_step s i.
Proof. exact unblocked. Qed.
Print Assumptions C43_unblocks_partial.
(* Close itself never waits *)
Theorem C43_close_runs_partial : forall size s i t k c, mreach size calm s -> n_crashed (s_net s) = false -> at_ s i t ->
  closing t = Some (k, c) -> c <> ClDone -> can_step s i.
Proof. exact closing_steps. Qed.
Print Assumptions C43_close_runs_partial.
(* a writer waiting on one side and a reader on the other; Close from the server *)
Example C43_case : exists s, mreach 4 orderly s /\ closed_up s 0 /\
  at_ s 1 (TWrite k0 (WReset WrSockClosed)) /\ at_ s 2 (TRead k0 msg true (RdWait 1)) /\ at_ s 3 (TClose k0 ClDone).
Proof.
  reached well (call 0 (EvDial 0) dials ++ call 1 (EvWrite k0) (waits_for_reader [beat]) ++ call 2 (EvRead k0 msg true) [Go; Go] ++
      call 3 (EvClose k0) [Go; Go; ChWith 1; Go; Go; Go]).
  split; [split; [reflexivity|]|split; [reflexivity|split; reflexivity]].
  intros i t k c I C Q. apply nth_error_In in I. destruct I as [<-|[<-|[<-|[<-|[]]]]]; try discriminate C. injection C as <- <-. reflexivity.
Qed.

(* ================= C44 ================= *)
(* pairs are connected by calls of Dial only, and such a call does not return an error of the
   first two kinds *)
Theorem C44_connects_partial : forall size s e s1 p, mreach size anything s -> mstep s e = Some s1 -> off s p -> connected s1 p ->
  exists i, at_ s i (TDial p DlCAS) /\ at_ s1 i (TDial p DlReset1) /\
  forall s2 r, mfrom anything s1 s2 -> In (LDialed i p r) (mlog s2) -> r = DlNil \/ r = DlShutting \/ r = DlClosed.
Proof. exact dial_connects. Qed.
Print Assumptions C44_connects_partial.
Example C44_case : exists s s1, mreach 4 orderly s /\ mstep s (EvStep 1 Go) = Some s1 /\ off s 0 /\ connected s1 0 /\ In (LDialed 0 0 DlRefused) (mlog s).
Proof.
  assert (exists s, mreach 4 orderly s /\ exists s1, mstep s (EvStep 1 Go) = Some s1 /\ off s 0 /\ connected s1 0 /\ In (LDialed 0 0 DlRefused) (mlog s)) as (s & R & s1 & H); [|eauto].
  reached well (call 0 (EvDial 0) [ChAccept false] ++ call 1 (EvDial 0) [ChAccept true]).
  eexists. split; [vm_compute; reflexivity|]. do 2 (split; [reflexivity|]). in_log.
Qed.
(* Dial while the server is shutting down, or after its transport was shut down: an error, and the
   pair stays connected; the server does not know of it *)
Theorem C44_shutting_refuted : exists s, mreach 4 orderly s /\ s_ts s = [TDial 0 (DlDone DlShutting)] /\
  mlog s = [LDialed 0 0 DlShutting] /\ connected s 0 /\ n_conns (s_net s) = [].
Proof. reached well (call 0 (EvDial 0) [ChAccept true; Go; Go; Go; ChShutting true]). repeat split; reflexivity. Qed.
Print Assumptions C44_shutting_refuted.
Theorem C44_closed_refuted : exists s, mreach 4 orderly s /\ s_ts s = [TDown ShDone; TDial 0 (DlDone DlClosed)] /\
  mlog s = [LDown 0; LDialed 1 0 DlClosed] /\ connected s 0 /\ n_conns (s_net s) = [].
Proof.
  reached well (call 0 EvDown [Go; ChOrder []; Go] ++ call 1 (EvDial 0) [ChAccept true; Go; Go; Go; ChShutting false; Go]). repeat split; reflexivity.
Qed.
Print Assumptions C44_closed_refuted.

(* ================= C45 ================= *)
(* when Shutdown returns, all pairs are disconnected - if no call of Dial is under way meanwhile, and
   none has failed leaving its pair connected *)
Theorem C45_closes_partial : forall size s i s', mreach size calm s -> at_ s i (TDown ShList) -> no_dial s -> (forall p, ~ leaked p (mlog s)) ->
  mfrom (fun s => calm s /\ no_dial s) s s' -> at_ s' i (TDown ShDone) -> forall p, off s' p.
Proof. exact shutdown_closes. Qed.
Print Assumptions C45_closes_partial.
(* later dials announce no connection and fail *)
Theorem C45_refused_partial : forall size s i s', mreach size anything s -> In (LDown i) (mlog s) -> (forall j p, ~ at_ s j (TDial p DlAdd)) ->
  mfrom anything s s' -> news (mlog s') = news (mlog s).
Proof. exact dials_refused. Qed.
Print Assumptions C45_refused_partial.
(* a second Shutdown does nothing *)
Theorem C45_again : forall size s i j, mreach size anything s -> In (LDown j) (mlog s) -> n_crashed (s_net s) = false -> at_ s i (TDown ShCAS) ->
  mstep s (EvStep i Go) = Some (MkSys (log (LDown i) (s_net s)) (set_nth (s_ts s) i (TDown ShDone))).
Proof. exact second_shutdown. Qed.
Print Assumptions C45_again.
Definition shut_two : list choice := [ChOrder [0; 1]; Go; Go; Go; Go; Go; Go; Go; Go; Go; Go; Go; Go; Go; Go; Go].
Example C45_case : exists s, mreach 4 calm s /\ at_ s 2 (TDown ShList) /\ no_dial s /\ (forall p, ~ leaked p (mlog s)) /\
  connected s 0 /\ connected s 1 /\ news (mlog s) = [0; 0; 1; 1] /\
  exists s', mfrom (fun s => calm s /\ no_dial s) s s' /\ at_ s' 2 (TDown ShDone) /\ In (LDown 2) (mlog s') /\
  exists s'', mfrom anything s' s'' /\ at_ s'' 3 (TDown ShDone) /\ at_ s'' 4 (TDial 2 (DlDone DlClosed)).
Proof.
  reached calmly (call 0 (EvDial 0) dials ++ call 1 (EvDial 1) dials ++ call 2 EvDown [Go]).
  split; [reflexivity|]. split; [apply no_dialb_spec; reflexivity|]. split. { intros p (i & [H|H]); cbn in H; repeat (destruct H as [H|H]; [discriminate H|]); exact H. }
  split; [reflexivity|]. split; [reflexivity|]. split; [reflexivity|].
  eexists. split.
  { eapply (checked_from (fun s => calmb s && no_dialb s) _ _ (map (EvStep 2) shut_two)); [|apply MF_here|vm_compute; reflexivity].
    intros s H. apply andb_true_iff in H as [H1 H2]. split; [apply calmb_spec, H1|apply no_dialb_spec, H2]. }
  split; [reflexivity|]. split; [in_log|].
  eexists. split.
  { eapply (checked_from (fun _ => true) anything _ (call 3 EvDown [Go] ++ call 4 (EvDial 2) [ChAccept true; Go; Go; Go; ChShutting false; Go])); [constructor|apply MF_here|vm_compute; reflexivity]. }
  split; reflexivity.
Qed.
(* a call of Dial that has passed its checks connects after Shutdown returned *)
Theorem C45_race_refuted : exists s, mreach 4 orderly s /\ s_ts s = [TDial 0 (DlDone DlNil); TDown ShDone] /\
  mlog s = [LDown 1; LNew 0; LDialed 0 0 DlNil] /\ connected s 0.
Proof.
  reached well (call 0 (EvDial 0) [ChAccept true; Go; Go; Go; ChShutting false; Go] ++ call 1 EvDown [Go; ChOrder []; Go] ++ [EvStep 0 Go]).
  repeat split; reflexivity.
Qed.
Print Assumptions C45_race_refuted.
(* a second Shutdown returns while the first one is still closing *)
Theorem C45_early_refuted : exists s, mreach 4 orderly s /\ In (LDown 2) (mlog s) /\ connected s 0 /\ no_dial s.
Proof.
  reached well (call 0 (EvDial 0) dials ++ call 1 EvDown [Go] ++ call 2 EvDown [Go]). split; [in_log|]. split; [reflexivity|].
  apply no_dialb_spec. reflexivity.
Qed.
Print Assumptions C45_early_refuted.
