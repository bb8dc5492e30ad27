(* Property theorems C66 - C69 (a server over the in-memory transport). [kreach buf conf ok s]: state s
   of server and transport is reachable, with buffers of size buf and the configuration message conf,
   by any interleaving of clients' calls of Dial, Read, Write and Close, calls of Run, Shutdown and
   Connection.Close, and everything the server does, through steps satisfying ok only. *)
From Coq Require Import List Arith NArith ZArith Lia Bool.
From Verif Require Import BaseBytes BaseConc ModelMessage ModelWrite ModelHandle ModelStack.
From Verif Require Import SpecWire SpecMessage SpecWrite SpecHandle SpecStack.
From Verif Require Import ProofStack ProofStack2 ProofStack4 ProofStack6 ProofStack7 ProofStack8 ProofStack9 ProofStack10 ProofStack11 ProofStack12.
From Verif Require Import PropsCodec PropsHandle.
From Verif Require ModelDispatch ModelMemchan SpecDispatch SpecMemchan.
Import ListNotations.
Open Scope nat_scope.

(* ----- sample runs ----- *)
Notation NG := ModelMemchan.Go.
Notation VG := ModelDispatch.Go.
Definition net (j : nat) (chs : list ModelMemchan.choice) : list event := map (fun c => ENet (ModelMemchan.EvStep j c)) chs.
Definition srv (i : nat) (chs : list ModelDispatch.choice) : list event := map (fun c => ESrv (ModelDispatch.EvStep i c)) chs.
Definition hello : bytes := bs [1; 2; 3]%N.
Definition starts : list event := [ERun; ERunStep 0].
(* calls of the transport that are not disturbed: a writer until it waits for the reader; Dial (call j
   of the transport) until it starts handleConnection; a client reading what writer j wrote *)
Definition writing (b : bytes) : list ModelMemchan.choice := [NG; ModelMemchan.ChWrite b; ModelMemchan.ChClose; NG; NG; NG].
Definition dialing (p j : nat) : list event :=
  ENet (ModelMemchan.EvDial p) :: net j [ModelMemchan.ChAccept true; NG; NG; NG; ModelMemchan.ChShutting false; NG].
Definition client_reads (p r j : nat) : list event :=
  ENet (ModelMemchan.EvRead (p, ModelMemchan.Clt) (NewMessage 32) false) ::
  net r [NG; NG; NG; NG; ModelMemchan.ChWith j] ++ net j [NG].
(* thread i of the server sends the configuration message by call j, and begins to read messages *)
Definition greeting (p i j : nat) : list event :=
  EUse i :: net j (writing hello) ++ client_reads p (S j) j ++ srv i [ModelDispatch.ChConf true; VG; VG].
Definition connects (p i j : nat) : list event := dialing p j ++ EAccept j 0 :: greeting p i (S j).
(* the client sends b, thread i of the server reads it (calls r and r + 1) *)
Definition client_sends (p i r : nat) (b : bytes) : list event :=
  EUse i :: net r [NG; NG] ++ ENet (ModelMemchan.EvWrite (p, ModelMemchan.Clt)) :: net (S r) (writing b) ++
  net r [NG; NG; ModelMemchan.ChWith (S r)] ++ net (S r) [NG] ++ srv i [ModelDispatch.ChFrame b].
Definition beep : bytes := bs [63; 2; 97; 98; 99; 100]%N.
Definition told : payload * goerr := ((0%Z, bs [104; 105]%N), ENil).
Definition told_frame : bytes := bs [191; 1; 2; 3; 4; 5; 6; 7; 8; 104; 105]%N.
(* Shutdown, thread i of the server and call j of the transport, until sockets are closed *)
Definition shuts (i j : nat) (l : list nat) : list event :=
  ESrv ModelDispatch.EvShutdown :: srv i [VG] ++ EUse i :: net j [NG] ++ EChan :: net j [ModelMemchan.ChOrder l].
(* one request and its reply *)
Definition talk : list event :=
  starts ++ connects 0 0 0 ++ client_sends 0 0 3 sample_request ++ srv 0 [VG; VG; VG; VG; VG; ModelDispatch.ChRet told] ++
  EUse 0 :: net 5 (writing told_frame) ++ client_reads 0 6 5 ++ srv 0 [ModelDispatch.ChWriter true; VG; VG; VG].
(* ... Shutdown while the server waits for the next message; Run returns *)
Definition talk_down : list event := talk ++ EUse 0 :: net 7 [NG; NG] ++ shuts 1 8 [0] ++ [ERunStep 0].
Definition talk_over : list event := talk_down ++ net 8 [NG; NG; NG; NG; NG; NG; NG; NG] ++ srv 1 [VG].

Definition both (a b : stack -> event -> stack -> Prop) (s : stack) (e : event) (s' : stack) : Prop := a s e s' /\ b s e s'.
Definition bothb (a b : stack -> event -> stack -> bool) (s : stack) (e : event) (s' : stack) : bool := a s e s' && b s e s'.
Lemma both_ok (a b : stack -> event -> stack -> Prop) fa fb : (forall s e s', fa s e s' = true -> a s e s') -> (forall s e s', fb s e s' = true -> b s e s') ->
  forall s e s', bothb fa fb s e s' = true -> both a b s e s'.
Proof. intros A B s e s' H. apply andb_true_iff in H as [H1 H2]. split; auto. Qed.
Lemma weaken buf conf (a b : stack -> event -> stack -> Prop) s : (forall s e s', a s e s' -> b s e s') -> kreach buf conf a s -> kreach buf conf b s.
Proof. intros H. induction 1; [constructor|econstructor; eauto]. Qed.
Lemma reached buf conf (ok : stack -> event -> stack -> Prop) chk es (P : stack -> Prop) : (forall s e s', chk s e s' = true -> ok s e s') ->
  (forall s, kchecked chk (new_stack buf conf) es = Some s -> P s) ->
  (match kchecked chk (new_stack buf conf) es with Some _ => true | None => false end) = true ->
  exists s, kreach buf conf ok s /\ P s.
Proof.
  intros S H E. destruct (kchecked chk (new_stack buf conf) es) as [s|] eqn:R; [|discriminate]. exists s.
  split; [eapply kchecked_reach; eauto|apply H; reflexivity].
Qed.
Lemma run_later s s' es : krun s es = Some s' -> klater always s s'.
Proof.
  assert (G : forall es s0, klater always s s0 -> krun s0 es = Some s' -> klater always s s').
  { induction es0 as [|e es0 IH]; intros s0 K Q; cbn in Q; [injection Q as <-; exact K|].
    destruct (kstep s0 e) as [s1|] eqn:E; [|discriminate]. eapply IH; [|exact Q]. eapply KL_step; [exact K|exact E|exact Logic.I]. }
  exact (G _ _ (KL_now _ _)).
Qed.
(* the full logs make goals large: only what a case needs is looked at *)
Ltac run_to snd es :=
  apply (reached _ _ _ _ es _ snd); [|vm_compute; reflexivity]; let s := fresh "s" in let E := fresh "E" in
  intros s E; vm_compute in E; injection E as <-.
Ltac in_log := vm_compute; repeat (first [left; reflexivity | right]).
Definition freely : forall s e s', (fun (_ : stack) (_ : event) (_ : stack) => true) s e s' = true -> always s e s' := fun _ _ _ _ => Logic.I.
Definition orderly := both settled quiet.
Definition orderly_ok := both_ok settled quiet settledb quietb settledb_ok quietb_ok.

(* ================= C66 ================= *)
(* Run returns only after Shutdown was called *)
Theorem C66_blocks : forall buf conf ok s i r, kreach buf conf ok s -> run_at s i r -> r = RunNil \/ r = RunErr -> shut_called s.
Proof. exact run_blocks. Qed.
Print Assumptions C66_blocks.
(* ... and then every handler has returned and every request given to one was answered. Full
   statement: in all runs, see C66_handler_runs_refuted *)
Theorem C66_graceful_partial : forall buf conf s i r, kreach buf conf quiet s -> run_at s i r -> r = RunNil \/ r = RunErr ->
  (forall c k m, In (ModelDispatch.LStart c k m) (dlog s) -> In (ModelDispatch.LEnd c k) (dlog s)) /\
  (forall c k m, In (ModelDispatch.LStart c k m) (dlog s) -> route_of (m_type m) = RtRequest ->
     exists x st, In (ModelDispatch.LReply c k m x st) (dlog s)).
Proof. exact run_graceful. Qed.
Print Assumptions C66_graceful_partial.
(* after Shutdown has returned, Run can return nil without anyone else doing anything (but the
   Shutdown call that closes the channel), ... *)
Theorem C66_returns : forall buf conf ok s i, kreach buf conf ok s -> shut_returned s -> alive s -> run_at s i RunWait ->
  exists s', krun s (if k_chan s then [ERunStep i] else [EChan; ERunStep i]) = Some s' /\ run_at s' i RunNil.
Proof. exact run_can_return. Qed.
Print Assumptions C66_returns.
(* ... a Run begun before Shutdown never returns an error, ... *)
Theorem C66_no_error : forall buf conf ok s s' i r, kreach buf conf ok s -> ~ shut_called s -> run_at s i r -> klater ok s s' ->
  r <> RunStart -> forall r', run_at s' i r' -> r' = RunWait \/ r' = RunNil.
Proof. exact run_begins. Qed.
Print Assumptions C66_no_error.
(* ... and a Run begun after Shutdown has returned never waits: it returns an error *)
Theorem C66_refused : forall buf conf ok s s' i r, kreach buf conf ok s -> shut_returned s -> klater ok s s' ->
  length (k_runs s) <= i -> run_at s' i r -> r = RunStart \/ r = RunErr.
Proof. exact run_refused. Qed.
Print Assumptions C66_refused.
Theorem C66_begins : forall buf conf ok s i, kreach buf conf ok s -> alive s -> run_at s i RunStart ->
  exists s', krun s [ERunStep i] = Some s' /\ (run_at s' i RunWait \/ run_at s' i RunErr) /\ (shut_returned s -> run_at s' i RunErr).
Proof. exact run_can_fail. Qed.
Print Assumptions C66_begins.
(* Run returns nil while a signal handler is running: the signal was received after Shutdown was
   called, and handled nevertheless (see C25) *)
Theorem C66_handler_runs_refuted : exists s, kreach 32 hello always s /\ alive s /\ run_at s 0 RunNil /\
  (exists m, In (ModelDispatch.LStart 0 0 m) (dlog s)) /\ ~ In (ModelDispatch.LEnd 0 0) (dlog s).
Proof.
  run_to freely (starts ++ connects 0 0 0 ++ ESrv ModelDispatch.EvShutdown :: srv 1 [VG] ++ client_sends 0 0 3 beep ++ srv 0 [VG; VG; VG; VG; VG] ++
    EUse 1 :: net 5 [NG] ++ [EChan; ERunStep 0]).
  split; [split; reflexivity|]. split; [reflexivity|]. split; [eexists; in_log|].
  vm_compute. intros H. repeat (destruct H as [H|H]; [discriminate H|]). exact H.
Qed.
Print Assumptions C66_handler_runs_refuted.
(* Run returns nil although Shutdown has not returned and a client is still connected: the program
   may end while Shutdown closes connections *)
Theorem C66_early_refuted : exists s, kreach 32 hello quiet s /\ alive s /\ run_at s 0 RunNil /\
  shut_called s /\ ~ shut_returned s /\ ModelMemchan.n_on (vnet s) 0 = true.
Proof.
  run_to quietb_ok talk_down. split; [split; reflexivity|]. split; [reflexivity|]. split; [exists 1; in_log|]. split; [|reflexivity].
  intros (i & H). vm_compute in H. repeat (destruct H as [H|H]; [discriminate H|]). exact H.
Qed.
Print Assumptions C66_early_refuted.
Example C66_case : exists s, kreach 32 hello orderly s /\ alive s /\ run_at s 0 RunNil /\ shut_returned s /\
  (exists m, In (ModelDispatch.LStart 0 0 m) (dlog s) /\ route_of (m_type m) = RtRequest).
Proof.
  run_to orderly_ok talk_over. split; [split; reflexivity|]. split; [reflexivity|]. split; [exists 1; in_log|].
  eexists. split; [in_log|reflexivity].
Qed.
(* Run waits when Shutdown returns *)
Example C66_returns_case : exists s, kreach 32 hello orderly s /\ alive s /\ run_at s 0 RunWait /\ shut_returned s /\
  exists s', klater always s s' /\ length (k_runs s) <= 1 /\ run_at s' 1 RunErr.
Proof.
  run_to orderly_ok (starts ++ shuts 0 0 [] ++ net 0 [NG] ++ srv 0 [VG]).
  split; [split; reflexivity|]. split; [reflexivity|]. split; [exists 0; in_log|].
  eexists. split; [apply (run_later _ _ [ERun; ERunStep 1]); vm_compute; reflexivity|].
  split; [cbn; lia|reflexivity].
Qed.
Example C66_no_error_case : exists s s', kreach 32 hello always s /\ ~ shut_called s /\ run_at s 0 RunWait /\ klater always s s' /\ run_at s' 0 RunWait.
Proof.
  destruct (reached 32 hello always (fun _ _ _ => true) starts (fun s => ~ shut_called s /\ run_at s 0 RunWait) freely) as (s & R & H1 & H2);
    [|vm_compute; reflexivity|exists s, s; repeat split; auto; constructor].
  intros s E. vm_compute in E. injection E as <-. split; [intros (i & [])|reflexivity].
Qed.

(* ================= C67 ================= *)
(* handleConnection is called once for every successful Dial: as often with the pair's server socket
   as dials of the pair have returned nil *)
Theorem C67_accepted : forall buf conf ok s p, kreach buf conf ok s -> accepted s p = count (new_of p) (tlog s).
Proof. exact accepted_all. Qed.
Print Assumptions C67_accepted.
Theorem C67_dialed : forall buf conf ok s p, kreach buf conf ok s ->
  count (new_of p) (tlog s) = count (fun e => match e with ModelMemchan.LDialed _ q ModelMemchan.DlNil => q =? p | _ => false end) (tlog s).
Proof. exact dial_news. Qed.
Print Assumptions C67_dialed.
(* connections exist over sockets of pairs only *)
Theorem C67_sockets : forall buf conf ok s, kreach buf conf ok s -> forall c, c < ModelDispatch.v_n (vsrv s) <-> exists o, k_conn s c = Some o.
Proof. exact conns_known. Qed.
Print Assumptions C67_sockets.
(* the client of a connection has read the configuration message, complete. Full statement: in all
   runs; for dials of pairs in use see C42 *)
Theorem C67_configured_partial : forall buf conf s c p g, kreach buf conf apart s -> k_conn s c = Some (p, g) ->
  ModelStack.k_conf s = conf /\ exists x g', In (ModelMemchan.LRead x (p, ModelMemchan.Clt) g' conf) (tlog s).
Proof. exact configured. Qed.
Print Assumptions C67_configured_partial.
(* a handshake that ends without a connection has closed the socket, after the writer of the
   configuration message had reported an error *)
Theorem C67_handshake_failed : forall buf conf ok s i p g, kreach buf conf ok s -> k_new s i = Some (p, g) ->
  sthread s i = Some ModelDispatch.TEnd ->
  (exists j, nthread s j = Some (ModelMemchan.TClose (p, ModelMemchan.Srv) ModelMemchan.ClDone)) /\
  (exists j r, nthread s j = Some (ModelMemchan.TWrite (p, ModelMemchan.Srv) (ModelMemchan.WDone r)) /\ r <> ModelMemchan.WrRead /\
     k_text s j = Some (ModelStack.k_conf s)).
Proof. exact handshake_failed. Qed.
Print Assumptions C67_handshake_failed.
Example C67_handshake_case : exists s, kreach 32 hello orderly s /\ k_new s 0 = Some (0, 1) /\ sthread s 0 = Some ModelDispatch.TEnd.
Proof.
  run_to orderly_ok (dialing 0 0 ++ EAccept 0 0 :: ENet (ModelMemchan.EvClose (0, ModelMemchan.Clt)) :: net 1 [NG; NG; NG; NG; NG; NG] ++
    EUse 0 :: net 2 [NG] ++ EUse 0 :: net 3 [NG] ++ srv 0 [ModelDispatch.ChConf false]).
  split; reflexivity.
Qed.
(* unlinking a connection closes its socket *)
Theorem C67_unlinked : forall buf conf ok s c, kreach buf conf ok s -> In (ModelDispatch.LUnlink c) (dlog s) ->
  exists p g j, k_conn s c = Some (p, g) /\ nthread s j = Some (ModelMemchan.TClose (p, ModelMemchan.Srv) ModelMemchan.ClDone).
Proof. exact unlink_closed. Qed.
Print Assumptions C67_unlinked.
(* dials that did not ask whether the server is shutting down before Shutdown was called do not succeed *)
Theorem C67_late : forall buf conf ok s s' j, kreach buf conf ok s -> shut_called s -> klater ok s s' ->
  (forall t, nthread s j = Some t -> unasked t = true) ->
  forall p, ~ In (ModelMemchan.LDialed j p ModelMemchan.DlNil) (tlog s').
Proof. exact late_dial. Qed.
Print Assumptions C67_late.
(* but OnClientConnected may be invoked for a new client after Shutdown has returned: the dial had asked before *)
Theorem C67_after_shutdown_refuted : exists s l1 l2 i, kreach 32 hello settled s /\ alive s /\
  dlog s = l1 ++ ModelDispatch.LShutReturn i :: l2 /\ In (ModelDispatch.LConnected 0) l2 /\ ModelMemchan.n_on (vnet s) 0 = true.
Proof.
  destruct (reached 32 hello settled settledb (dialing 0 0 ++ shuts 0 1 [] ++ net 1 [NG] ++ srv 0 [VG] ++ EAccept 0 0 :: greeting 0 1 2)
    (fun s => alive s /\ exists l1 l2 i, dlog s = l1 ++ ModelDispatch.LShutReturn i :: l2 /\ In (ModelDispatch.LConnected 0) l2 /\ ModelMemchan.n_on (vnet s) 0 = true)
    settledb_ok) as (s & R & A & l1 & l2 & i & H); [|vm_compute; reflexivity|exists s, l1, l2, i; tauto].
  intros s E. vm_compute in E. injection E as <-. split; [split; reflexivity|].
  exists [ModelDispatch.LShutdown 0], [ModelDispatch.LConnected 0], 0. split; [reflexivity|]. split; [left; reflexivity|reflexivity].
Qed.
Print Assumptions C67_after_shutdown_refuted.
Example C67_case : exists s, kreach 32 hello orderly s /\ accepted s 0 = 1 /\ count (new_of 0) (tlog s) = 1 /\ k_conn s 0 = Some (0, 1) /\
  shut_called s /\ exists s', klater always s s' /\ In (ModelMemchan.LDialed (length (ModelMemchan.s_ts (k_net s))) 1 ModelMemchan.DlShutting) (tlog s').
Proof.
  destruct (reached 32 hello orderly (bothb settledb quietb) talk_down (fun s => accepted s 0 = 1 /\ count (new_of 0) (tlog s) = 1 /\ k_conn s 0 = Some (0, 1) /\
    shut_called s /\ exists s', krun s (ENet (ModelMemchan.EvDial 1) :: net 9 [ModelMemchan.ChAccept true; NG; NG; NG; ModelMemchan.ChShutting true]) = Some s' /\
      In (ModelMemchan.LDialed (length (ModelMemchan.s_ts (k_net s))) 1 ModelMemchan.DlShutting) (tlog s')) orderly_ok) as (s & R & H1 & H2 & H3 & H4 & s' & L & H5);
    [|vm_compute; reflexivity|].
  - intros s E. vm_compute in E. injection E as <-. split; [reflexivity|]. split; [reflexivity|]. split; [reflexivity|]. split; [exists 1; in_log|].
    eexists. split; [vm_compute; reflexivity|in_log].
  - exists s. repeat (split; [assumption|]). exists s'. split; [exact (run_later _ _ _ L)|exact H5].
Qed.

(* ================= C68 ================= *)
(* what a connection's read loop takes from Read was read from the server socket of its pair *)
Theorem C68_own_socket : forall buf conf ok s c k b m, kreach buf conf ok s -> In (ModelDispatch.LFrame c k b m) (dlog s) ->
  exists p g0 j g, k_conn s c = Some (p, g0) /\ In (ModelMemchan.LRead j (p, ModelMemchan.Srv) g b) (tlog s).
Proof. exact frame_read. Qed.
Print Assumptions C68_own_socket.
(* a read loop ends with an error only if its Read has failed: closed, or nothing came until the deadline *)
Theorem C68_read_failed : forall buf conf ok s c, kreach buf conf ok s -> In (ModelDispatch.LReadErr c) (dlog s) ->
  exists p g j r, k_conn s c = Some (p, g) /\
    nthread s j = Some (ModelMemchan.TRead (p, ModelMemchan.Srv) (NewMessage buf) true (ModelMemchan.RdDone r)) /\
    (r = ModelMemchan.RdClosed \/ r = ModelMemchan.RdTimeout).
Proof. exact read_failed. Qed.
Print Assumptions C68_read_failed.
Example C68_read_failed_case : exists s, kreach 32 hello orderly s /\ In (ModelDispatch.LReadErr 0) (dlog s) /\ In (ModelDispatch.LUnlink 0) (dlog s).
Proof.
  run_to orderly_ok (connects 0 0 0 ++ ENet (ModelMemchan.EvClose (0, ModelMemchan.Clt)) :: net 3 [NG; NG; NG; NG; NG; NG] ++ EUse 0 :: net 4 [NG] ++
    srv 0 [ModelDispatch.ChErr; VG] ++ EUse 0 :: net 5 [NG] ++ srv 0 [VG]).
  split; in_log.
Qed.
(* the messages of a connection are exactly the first ones the client has sent since it was dialed, in
   the order they were sent. Full statement: also when a pair is dialed again while the last connection
   over it is being read, see C68_other_connection_refuted *)
Theorem C68_in_order_partial : forall buf conf s c p g, kreach buf conf settled s -> k_conn s c = Some (p, g) ->
  SpecMemchan.is_prefix (frames c (dlog s)) (SpecMemchan.sent (p, ModelMemchan.Clt) g (tlog s)).
Proof. exact frames_sent. Qed.
Print Assumptions C68_in_order_partial.
Theorem C68_number_partial : forall buf conf s c k b m p g, kreach buf conf settled s -> In (ModelDispatch.LFrame c k b m) (dlog s) ->
  k_conn s c = Some (p, g) -> nth_error (SpecMemchan.sent (p, ModelMemchan.Clt) g (tlog s)) k = Some b.
Proof. exact frame_sent. Qed.
Print Assumptions C68_number_partial.
(* a handler is invoked for messages of its own client only, unaltered *)
Theorem C68_handled_partial : forall buf conf s c k m, kreach buf conf settled s -> In (ModelDispatch.LStart c k m) (dlog s) ->
  exists p g b cont, k_conn s c = Some (p, g) /\ nth_error (SpecMemchan.sent (p, ModelMemchan.Clt) g (tlog s)) k = Some b /\
    received m b cont /\ length b <= buf /\ (app_signal (k_type cont) \/ app_request (k_type cont)).
Proof. exact handled_sent. Qed.
Print Assumptions C68_handled_partial.
(* a client dials again while a handler of its last connection runs: the message it sends over the new
   connection is handled as one of the old connection *)
Definition boop : bytes := bs [63; 1; 120; 49]%N.
Theorem C68_other_connection_refuted : exists s m, kreach 32 hello apart s /\ alive s /\
  k_conn s 0 = Some (0, 1) /\ k_conn s 1 = Some (0, 2) /\
  SpecMemchan.sent (0, ModelMemchan.Clt) 1 (tlog s) = [beep] /\ SpecMemchan.sent (0, ModelMemchan.Clt) 2 (tlog s) = [boop] /\
  In (ModelDispatch.LFrame 0 1 boop (Some m)) (dlog s) /\ In (ModelDispatch.LStart 0 1 m) (dlog s).
Proof.
  assert (X : exists s, kreach 32 hello apart s /\ exists m, alive s /\
    k_conn s 0 = Some (0, 1) /\ k_conn s 1 = Some (0, 2) /\
    SpecMemchan.sent (0, ModelMemchan.Clt) 1 (tlog s) = [beep] /\ SpecMemchan.sent (0, ModelMemchan.Clt) 2 (tlog s) = [boop] /\
    In (ModelDispatch.LFrame 0 1 boop (Some m)) (dlog s) /\ In (ModelDispatch.LStart 0 1 m) (dlog s)).
  2: { destruct X as (s & R & m & H). exists s, m. tauto. }
  run_to apartb_ok (connects 0 0 0 ++ client_sends 0 0 3 beep ++ srv 0 [VG; VG; VG; VG; VG] ++
    ENet (ModelMemchan.EvClose (0, ModelMemchan.Clt)) :: net 5 [NG; NG; NG; NG; NG; NG] ++ connects 0 1 6 ++
    srv 0 [ModelDispatch.ChRet told; VG; VG; VG] ++ client_sends 0 0 9 boop ++ srv 0 [VG; VG; VG; VG; VG]).
  eexists. split; [split; reflexivity|]. split; [reflexivity|]. split; [reflexivity|]. split; [vm_compute; reflexivity|]. split; [vm_compute; reflexivity|].
  split; in_log.
Qed.
Print Assumptions C68_other_connection_refuted.
Example C68_case : exists s, kreach 32 hello orderly s /\ k_conn s 0 = Some (0, 1) /\ frames 0 (dlog s) = [sample_request] /\
  SpecMemchan.sent (0, ModelMemchan.Clt) 1 (tlog s) = [sample_request] /\ exists m, In (ModelDispatch.LStart 0 0 m) (dlog s).
Proof.
  run_to orderly_ok talk. split; [reflexivity|]. split; [vm_compute; reflexivity|]. split; [vm_compute; reflexivity|]. eexists. in_log.
Qed.

(* ================= C69 ================= *)
(* the reply is written to a writer of the connection's own socket: the writer sends all of it, once,
   or nothing. Replies to requests given to handlers, ... *)
Theorem C69_reply : forall buf conf ok s c k m r st, kreach buf conf ok s -> In (ModelDispatch.LReply c k m r st) (dlog s) ->
  replied s (fun _ _ _ => True) c (handleRequest sink_writer (Some empty_sink) m r) st.
Proof. exact reply_goes. Qed.
Print Assumptions C69_reply.
(* ... and to requests refused during shutdown *)
Theorem C69_refusal : forall buf conf ok s c k m st, kreach buf conf ok s -> In (ModelDispatch.LShutReply c k m st) (dlog s) ->
  replied s (fun _ _ _ => True) c (failMsgShutdown sink_writer (Some empty_sink) m) st.
Proof. exact refusal_goes. Qed.
Print Assumptions C69_refusal.
(* if the writer reports no error the client has read the reply. Full statement: in all runs; for
   dials of pairs in use see C42 *)
Theorem C69_reply_read_partial : forall buf conf s c k m r st, kreach buf conf apart s -> In (ModelDispatch.LReply c k m r st) (dlog s) ->
  replied s (client_got s) c (handleRequest sink_writer (Some empty_sink) m r) st.
Proof. exact reply_read. Qed.
Print Assumptions C69_reply_read_partial.
Theorem C69_refusal_read_partial : forall buf conf s c k m st, kreach buf conf apart s -> In (ModelDispatch.LShutReply c k m st) (dlog s) ->
  replied s (client_got s) c (failMsgShutdown sink_writer (Some empty_sink) m) st.
Proof. exact refusal_read. Qed.
Print Assumptions C69_refusal_read_partial.
(* from the client's message to the reply it reads: the request was sent by the client as its k-th
   message, and what comes back, if anything, says what the handler returned, with the identifier of
   that request. Full statement: see C68_other_connection_refuted *)
Theorem C69_round_trip_partial : forall buf conf s c k m r st, kreach buf conf settled s ->
  In (ModelDispatch.LReply c k m r st) (dlog s) -> sendable r ->
  exists p g b cont rep, k_conn s c = Some (p, g) /\
    nth_error (SpecMemchan.sent (p, ModelMemchan.Clt) g (tlog s)) k = Some b /\ received m b cont /\ app_request (k_type cont) /\
    reads_as rep (reply_content (k_ident cont) r) /\ carried s p rep st (client_got s).
Proof. exact round_trip. Qed.
Print Assumptions C69_round_trip_partial.
Theorem C69_refusal_trip_partial : forall buf conf s c k m st, kreach buf conf settled s ->
  In (ModelDispatch.LShutReply c k m st) (dlog s) ->
  exists p g b cont rep, k_conn s c = Some (p, g) /\
    nth_error (SpecMemchan.sent (p, ModelMemchan.Clt) g (tlog s)) k = Some b /\ received m b cont /\ wants_reply (k_type cont) /\
    reads_as rep (special_content 1 (k_ident cont)) /\ carried s p rep st (client_got s).
Proof. exact refusal_trip. Qed.
Print Assumptions C69_refusal_trip_partial.
(* a client dials again while a handler of its last connection runs concurrently: the reply is read
   from the new connection, which has not sent any request *)
Theorem C69_other_connection_refuted : exists s, kreach 32 hello orderly s /\ alive s /\
  k_conn s 0 = Some (0, 1) /\ k_conn s 1 = Some (0, 2) /\
  SpecMemchan.sent (0, ModelMemchan.Clt) 1 (tlog s) = [sample_request] /\ SpecMemchan.sent (0, ModelMemchan.Clt) 2 (tlog s) = [] /\
  (exists m st, In (ModelDispatch.LReply 0 0 m told st) (dlog s)) /\ client_got s 0 2 told_frame.
Proof.
  run_to orderly_ok (dialing 0 0 ++ EAccept 0 (-1) :: greeting 0 0 1 ++ client_sends 0 0 3 sample_request ++ srv 0 [VG; VG; VG; VG] ++
    srv 1 [VG] ++ ENet (ModelMemchan.EvClose (0, ModelMemchan.Clt)) :: net 5 [NG; NG; NG; NG; NG; NG] ++ EUse 0 :: net 6 [NG] ++
    srv 0 [ModelDispatch.ChErr; VG; VG] ++ connects 0 2 7 ++ srv 1 [ModelDispatch.ChRet told] ++ EUse 1 :: net 10 (writing told_frame) ++
    client_reads 0 11 10 ++ srv 1 [ModelDispatch.ChWriter true]).
  split; [split; reflexivity|]. split; [reflexivity|]. split; [reflexivity|]. split; [vm_compute; reflexivity|]. split; [vm_compute; reflexivity|].
  split; [do 2 eexists; in_log|]. exists 11. in_log.
Qed.
Print Assumptions C69_other_connection_refuted.
Example C69_case : exists s, kreach 32 hello orderly s /\ sendable told /\ (exists m st, In (ModelDispatch.LReply 0 0 m told st) (dlog s)) /\
  sends_of 5 (tlog s) = [((0, ModelMemchan.Srv), 1, told_frame)] /\ client_got s 0 1 told_frame.
Proof.
  run_to orderly_ok talk. split; [vm_compute; auto|]. split; [do 2 eexists; in_log|]. split; [vm_compute; reflexivity|].
  exists 6. in_log.
Qed.
(* a request after Shutdown was called, while a handler runs *)
Example C69_refusal_case : exists s, kreach 32 hello settled s /\ (exists m st, In (ModelDispatch.LShutReply 0 0 m st) (dlog s)) /\
  sends_of 5 (tlog s) = [((0, ModelMemchan.Srv), 1, bs [1; 1; 2; 3; 4; 5; 6; 7; 8]%N)] /\
  client_got s 0 1 (bs [1; 1; 2; 3; 4; 5; 6; 7; 8]%N).
Proof.
  run_to settledb_ok (connects 0 0 0 ++ ESrv ModelDispatch.EvShutdown :: srv 1 [VG] ++ client_sends 0 0 3 sample_request ++ srv 0 [VG; VG] ++
    EUse 0 :: net 5 (writing (bs [1; 1; 2; 3; 4; 5; 6; 7; 8]%N)) ++ client_reads 0 6 5 ++ srv 0 [ModelDispatch.ChWriter true]).
  split; [do 2 eexists; in_log|]. split; [vm_compute; reflexivity|]. exists 6. in_log.
Qed.
