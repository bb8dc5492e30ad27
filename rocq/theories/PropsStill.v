(* Property theorems C74 (what a server over the in-memory transport waits for, and when it comes to
   rest). [kreach buf conf ok s]: see PropsStack; [tidy]: pairs are not dialed while in use and closed
   politely (C43), no signal is registered after the shutdown flag was set (C25). *)
From Coq Require Import List Arith NArith ZArith Lia Bool.
From Verif Require Import BaseBytes BaseConc ModelMessage ModelWrite ModelHandle ModelStack.
From Verif Require Import SpecWire SpecMessage SpecWrite SpecHandle SpecStack SpecStill.
From Verif Require Import ProofStack ProofStack11 ProofStack12 ProofStill ProofStill2 ProofStill3 ProofStill5.
From Verif Require Import PropsCodec PropsHandle PropsStack.
From Verif Require ModelDispatch ModelMemchan SpecDispatch SpecMemchan SpecSettle ProofMemchan8.
Import ListNotations.
Open Scope nat_scope.

(* ================= C74 ================= *)
(* a goroutine of the server goes on unless it has returned, its call of the transport has not, its
   connection has no free slot, or it is Shutdown waiting for handlers *)
Theorem C74_goes : forall buf conf ok s i t, kreach buf conf ok s -> alive s -> sthread s i = Some t ->
  (goes s i \/ kept s i t) /\ ~ (goes s i /\ kept s i t).
Proof.
  intros buf conf ok s i t R A N. split; [exact (goes_or_kept _ _ _ _ R A _ _ N)|].
  intros [G K]. exact (kept_waits _ _ _ _ R A _ _ N K G).
Qed.
Print Assumptions C74_goes.
(* calls of the transport go on under the server exactly when the transport lets them (see C43, C72) *)
Theorem C74_calls : forall buf conf ok s j, kreach buf conf ok s -> alive s ->
  (SpecMemchan.can_step (k_net s) j <-> call_goes s j \/ to_close_chan s j).
Proof. intros buf conf ok s j R A. split; [exact (calls_go _ _ _ _ R A j)|exact (calls_stay _ A j)]. Qed.
Print Assumptions C74_calls.
(* without new calls everything comes to rest: the number of further steps is bounded (not counting
   what owners of writers write), however goroutines are scheduled *)
Theorem C74_ends : forall buf conf ok s, kreach buf conf ok s -> exists bound, forall es s', krun s es = Some s' ->
  forallb (fun e => negb (is_call e)) es = true -> length (filter (fun e => negb (is_write e)) es) <= bound.
Proof. exact comes_to_rest. Qed.
Print Assumptions C74_ends.
(* when nothing goes on any more, every goroutine of the server has returned, writes to a client that
   does not read, waits behind one that does, for a slot lost or in such hands, or is Shutdown waiting
   for such a handler. Full statement: in all runs; for the others see C25, C43 *)
Theorem C74_rest_partial : forall buf conf s i t, kreach buf conf tidy s -> alive s -> still s -> sthread s i = Some t -> held s i t.
Proof. intros buf conf s i t R A S. exact (still_held _ _ _ R A S i t). Qed.
Print Assumptions C74_rest_partial.
(* if clients read what they are sent and no slots are lost (C64, C65) everything has returned: all
   goroutines, ... *)
Theorem C74_done_partial : forall buf conf s i t, kreach buf conf tidy s -> alive s -> still s ->
  (forall p, ~ unread s p) -> (forall c, ~ SpecSettle.exhausted (k_srv s) c) -> sthread s i = Some t -> SpecDispatch.finished t = true.
Proof. intros buf conf s i t R A S U E. exact (still_done _ _ _ R A S U E i t). Qed.
Print Assumptions C74_done_partial.
(* ... every Shutdown, ... *)
Theorem C74_shutdown_partial : forall buf conf s i, kreach buf conf tidy s -> alive s -> still s ->
  (forall p, ~ unread s p) -> (forall c, ~ SpecSettle.exhausted (k_srv s) c) ->
  In (ModelDispatch.LShutdown i) (dlog s) -> In (ModelDispatch.LShutReturn i) (dlog s).
Proof. intros buf conf s i R A S U E. exact (still_shutdown _ _ _ R A S U E i). Qed.
Print Assumptions C74_shutdown_partial.
(* ... and Run, if Shutdown was called *)
Theorem C74_run_partial : forall buf conf s i r, kreach buf conf tidy s -> alive s -> still s ->
  (forall p, ~ unread s p) -> (forall c, ~ SpecSettle.exhausted (k_srv s) c) -> shut_called s -> run_at s i r -> r = RunNil \/ r = RunErr.
Proof. intros buf conf s i r R A S U E. exact (still_run _ _ _ R A S U E i r). Qed.
Print Assumptions C74_run_partial.
(* session requests are answered over the socket of their connection *)
Theorem C74_session : forall buf conf ok s c k m, kreach buf conf ok s -> In (ModelDispatch.LSession c k m) (dlog s) ->
  exists p g j r, k_conn s c = Some (p, g) /\ nthread s j = Some (ModelMemchan.TWrite (p, ModelMemchan.Srv) (ModelMemchan.WDone r)).
Proof. exact session_answered. Qed.
Print Assumptions C74_session.

(* ----- cases ----- *)
Ltac rest_at es := apply (resting hello es); [|vm_compute; reflexivity]; let s := fresh "s" in let E := fresh "E" in
  intros s E; vm_compute in E; injection E as <-; split; [vm_compute; reflexivity|].
(* the read loop ends after its Read (call j) has failed *)
Definition leaves (i j u : nat) : list event := net j [NG; NG] ++ srv i [ModelDispatch.ChErr; VG] ++ EUse i :: net u [NG] ++ srv i [VG; VG].
(* all over: a request was answered, Shutdown and Run have returned *)
Example C74_case : exists s, kreach 32 hello tidy s /\ alive s /\ still s /\
  (forall p, ~ unread s p) /\ (forall c, ~ SpecSettle.exhausted (k_srv s) c) /\ length (ModelDispatch.s_ts (k_srv s)) = 2 /\
  In (ModelDispatch.LShutdown 1) (dlog s) /\ shut_called s /\ run_at s 0 RunNil.
Proof.
  rest_at (talk_over ++ leaves 0 7 9). split; [apply readb_ok; vm_compute; reflexivity|]. split; [apply none_lost_ok; vm_compute; reflexivity|].
  split; [reflexivity|]. split; [in_log|]. split; [exists 1; in_log|reflexivity].
Qed.
(* a client that does not read its reply keeps Shutdown and Run waiting for ever: nothing happens any
   more, unless the client reads or closes *)
Definition unread_reply : list event :=
  starts ++ connects 0 0 0 ++ client_sends 0 0 3 sample_request ++ srv 0 [VG; VG; VG; VG; VG; ModelDispatch.ChRet told] ++
  EUse 0 :: net 5 (writing told_frame) ++ ESrv ModelDispatch.EvShutdown :: srv 1 [VG].
Theorem C74_unread_refuted : exists s, kreach 32 hello tidy s /\ alive s /\ still s /\ (forall c, ~ SpecSettle.exhausted (k_srv s) c) /\
  In (ModelDispatch.LShutdown 1) (dlog s) /\ ~ shut_returned s /\ run_at s 0 RunWait /\ unread s 0.
Proof.
  rest_at unread_reply. split; [apply none_lost_ok; vm_compute; reflexivity|]. split; [in_log|].
  split; [intros (i & H); vm_compute in H; repeat (destruct H as [H|H]; [discriminate H|]); exact H|]. split; [reflexivity|].
  left. exists 5, 1, told_frame. split; [reflexivity|]. split; [reflexivity|]. split; [vm_compute; reflexivity|].
  intros h m d st N. do 6 (destruct h as [|h]; [first [discriminate N|injection N as <- <- <-; eexists; reflexivity]|]). destruct h; discriminate N.
Qed.
Print Assumptions C74_unread_refuted.
(* two replies nobody reads, the second writer behind the first; the next request waits for a slot *)
Definition taken (i : nat) : list event := srv i [VG; VG; VG; VG; VG].
Example C74_slots_case : exists s, kreach 32 hello tidy s /\ alive s /\ still s /\
  (exists k m, sthread s 0 = Some (ModelDispatch.TRd 0 (ModelDispatch.RSlot k m))) /\ writes_to s 1 0 /\ writes_to s 2 0.
Proof.
  rest_at (dialing 0 0 ++ EAccept 0 2 :: greeting 0 0 1 ++ client_sends 0 0 3 sample_request ++ taken 0 ++ client_sends 0 0 5 sample_request ++ taken 0 ++
    client_sends 0 0 7 sample_request ++ srv 0 [VG] ++ srv 1 [VG; ModelDispatch.ChRet told] ++ EUse 1 :: net 9 (writing told_frame) ++
    srv 2 [VG; ModelDispatch.ChRet told] ++ [EUse 2]).
  split; [do 2 eexists; reflexivity|]. split.
  - do 3 eexists. split; [reflexivity|]. split; [reflexivity|auto].
  - do 3 eexists. split; [reflexivity|]. split; [reflexivity|auto].
Qed.
(* goroutines that go on after their call: replies, reads, session requests *)
Definition close_request : bytes := bs [31; 1; 2; 3; 4; 5; 6; 7; 8]%N.
Example C74_session_case : exists s, kreach 32 hello tidy s /\ alive s /\ (exists k m, In (ModelDispatch.LSession 0 k m) (dlog s)) /\
  nthread s 5 = Some (ModelMemchan.TWrite (0, ModelMemchan.Srv) (ModelMemchan.WDone ModelMemchan.WrRead)).
Proof.
  run_to tidyb_ok (starts ++ connects 0 0 0 ++ client_sends 0 0 3 close_request ++ srv 0 [VG; VG; VG; VG] ++
    EUse 0 :: net 5 (writing told_frame) ++ client_reads 0 6 5 ++ srv 0 [VG]).
  split; [split; reflexivity|]. split; [do 2 eexists; in_log|reflexivity].
Qed.
Example C74_goes_case : exists s, kreach 32 hello tidy s /\ alive s /\ goes s 0 /\ SpecMemchan.can_step (k_net s) 3 /\ call_goes s 3.
Proof.
  assert (X : exists s, kreach 32 hello tidy s /\ alive s /\ (match kstep s (ESrv (ModelDispatch.EvStep 0 VG)) with Some _ => true | None => false end) = true /\
    (match kstep s (ENet (ModelMemchan.EvStep 3 NG)) with Some _ => true | None => false end) = true).
  { run_to tidyb_ok (dialing 0 0 ++ EAccept 0 0 :: EUse 0 :: net 1 (writing hello) ++ client_reads 0 2 1 ++
      srv 0 [ModelDispatch.ChConf true] ++ [ENet (ModelMemchan.EvWrite (0, ModelMemchan.Clt))]).
    split; [split; reflexivity|]. split; vm_compute; reflexivity. }
  destruct X as (s & R & A & H1 & H2). exists s. split; [exact R|]. split; [exact A|].
  destruct (kstep s (ESrv _)) as [s1|] eqn:E1; [|discriminate H1]. destruct (kstep s (ENet _)) as [s2|] eqn:E2; [|discriminate H2].
  assert (C : call_goes s 3) by (left; exists NG, s2; exact E2).
  split; [right; exists VG, s1; exact E1|]. split; [|exact C]. apply (C74_calls _ _ _ _ 3 R A). left. exact C.
Qed.

(* from a request on its way to its handler until nothing goes on *)
Example C74_ends_case : exists s s', kreach 32 hello always s /\ krun s (srv 0 [VG; VG; VG; VG; VG; ModelDispatch.ChRet told] ++ EUse 0 :: net 5 (writing told_frame)) = Some s' /\
  forallb (fun e => negb (is_call e)) (srv 0 [VG; VG; VG; VG; VG; ModelDispatch.ChRet told] ++ EUse 0 :: net 5 (writing told_frame)) = true /\
  length (filter (fun e => negb (is_write e)) (srv 0 [VG; VG; VG; VG; VG; ModelDispatch.ChRet told] ++ EUse 0 :: net 5 (writing told_frame))) = 12 /\ alive s' /\ still s'.
Proof.
  destruct (reached 32 hello always (fun _ _ _ => true) (starts ++ connects 0 0 0 ++ client_sends 0 0 3 sample_request)
    (fun s => (match krun s (srv 0 [VG; VG; VG; VG; VG; ModelDispatch.ChRet told] ++ EUse 0 :: net 5 (writing told_frame)) with Some s' => stillb s' | None => false end) = true) freely) as (s & R & H);
    [intros s E; vm_compute in E; injection E as <-; vm_compute; reflexivity|vm_compute; reflexivity|].
  destruct (krun s _) as [s'|] eqn:K; [|discriminate H]. exists s, s'. split; [exact R|]. split; [exact K|]. split; [reflexivity|]. split; [reflexivity|].
  assert (R' : kreach 32 hello always s').
  { pose proof (run_later _ _ _ K) as L. clear -R L. induction L; [exact R|econstructor; eauto]. }
  exact (stillb_ok _ _ _ _ R' H).
Qed.
