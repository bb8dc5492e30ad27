(* Property theorems C65: the server's own work comes to an end, what is the case then, and
   which steps crash the server. *)
From Coq Require Import List Arith NArith ZArith Lia Bool.
From Verif Require Import BaseBytes BaseConc ModelMessage ModelWrite ModelHandle ModelDispatch.
From Verif Require Import SpecWire SpecMessage SpecWrite SpecHandle SpecDispatch SpecSettle.
From Verif Require Import ProofMessage ProofHandle ProofDispatch2 ProofDispatch3 ProofDispatch4 ProofDispatch5 ProofSettle.
From Verif Require Import PropsCodec PropsHandle PropsDispatch.
Import ListNotations.
Open Scope nat_scope.

(* ================= C65 ================= *)
(* from any state, whatever the schedule and whatever hooks and sockets answer: without new
   frames and calls there are at most twelve steps for each goroutine *)
Theorem C65_work_ends : forall s es s', forallb own es = true -> drun s es = Some s' ->
  length es <= 12 * length (s_ts s).
Proof. exact work_ends. Qed.
Print Assumptions C65_work_ends.
(* ... and a state where nothing is left to do can always be reached *)
Theorem C65_finishes : forall s, exists es s', forallb own es = true /\ drun s es = Some s' /\ at_rest s'.
Proof. exact finishes. Qed.
Print Assumptions C65_finishes.
(* the goroutines of a server at rest have returned, wait in sock.Read, wait for a slot of a
   connection that has lost them all, or wait in Shutdown *)
Theorem C65_at_rest : forall buf ok s, dreach buf ok s -> v_crashed (s_srv s) = false ->
  (at_rest s <-> forall t, In t (s_ts s) -> resting s t).
Proof. exact at_rest_threads. Qed.
Print Assumptions C65_at_rest.
(* then every handler that was called has returned *)
Theorem C65_handlers_returned : forall buf ok s, dreach buf ok s -> v_crashed (s_srv s) = false -> at_rest s ->
  forall c k m, In (LStart c k m) (slog s) -> In (LEnd c k) (slog s).
Proof. exact rest_handlers. Qed.
Print Assumptions C65_handlers_returned.
(* every request that was read got its one answer (full statement: on all connections) *)
Theorem C65_requests_settled_partial : forall buf ok s, dreach buf ok s -> v_crashed (s_srv s) = false -> at_rest s ->
  forall c k b m cont, In (LFrame c k b (Some m)) (slog s) -> received m b cont -> wants_reply (k_type cont) ->
  exhausted s c \/
  count (replied c k RequiresReply) (slog s) + count (shut_replied c k RequiresReply) (slog s) +
  count (sess_replied c k RequiresReply) (slog s) + count (dropped c k RequiresReply) (slog s) = 1.
Proof. exact rest_requests. Qed.
Print Assumptions C65_requests_settled_partial.
(* every signal and request was given to its handler, refused or ignored *)
Theorem C65_messages_settled_partial : forall buf ok s, dreach buf ok s -> v_crashed (s_srv s) = false -> at_rest s ->
  forall c k b m, In (LFrame c k b (Some m)) (slog s) -> is_app m = true ->
  exhausted s c \/
  count (started c k is_app) (slog s) + count (shut_replied c k is_app) (slog s) + count (dropped c k is_app) (slog s) = 1.
Proof. exact rest_messages. Qed.
Print Assumptions C65_messages_settled_partial.
(* the hooks were invoked *)
Theorem C65_connected_hook : forall buf ok s, dreach buf ok s -> v_crashed (s_srv s) = false -> at_rest s ->
  forall c, c < v_n (s_srv s) -> In (LConnected c) (slog s).
Proof. exact rest_hook. Qed.
Print Assumptions C65_connected_hook.
Theorem C65_disconnected_hook : forall buf ok s, dreach buf ok s -> v_crashed (s_srv s) = false -> at_rest s ->
  forall c k b, In (LFrame c k b None) (slog s) \/ In (LReadErr c) (slog s) -> In (LDisconnected c) (slog s).
Proof. exact rest_disconnect. Qed.
Print Assumptions C65_disconnected_hook.
(* closed connections were unlinked (full statement: without [stays_open], see C28) *)
Theorem C65_unlinked_partial : forall buf s c, dreach buf stays_open s -> v_crashed (s_srv s) = false -> at_rest s ->
  c < v_n (s_srv s) -> c_active (v_conn (s_srv s) c) = false -> In (LUnlink c) (slog s).
Proof. exact rest_unlinked. Qed.
Print Assumptions C65_unlinked_partial.
(* Shutdown calls have returned (full statement: without [calm], see C25) *)
Theorem C65_shutdown_returned_partial : forall buf s i, dreach buf calm s -> v_crashed (s_srv s) = false -> at_rest s ->
  In (LShutdown i) (slog s) -> In (LShutReturn i) (slog s).
Proof. exact rest_shutdown. Qed.
Print Assumptions C65_shutdown_returned_partial.
(* exactly these steps crash the server *)
Theorem C65_crash_exact : forall buf ok s e s', dreach buf ok s -> dstep s e = Some s' ->
  (v_crashed (s_srv s') = true <-> fatal s e).
Proof. exact crash_exact. Qed.
Print Assumptions C65_crash_exact.
(* it does not crash if requests are refused only with a writer at hand, no handler returns a
   nil *ErrRequest, and the run is calm *)
Theorem C65_no_crash_partial : forall buf s, dreach buf smooth s -> v_crashed (s_srv s) = false.
Proof. exact smooth_runs. Qed.
Print Assumptions C65_no_crash_partial.
(* a message waiting for a slot of a connection that has lost all of them waits for ever,
   whatever happens *)
Theorem C65_starved : forall buf ok s s' i c k m, dreach buf ok s ->
  nth_error (s_ts s) i = Some (TRd c (RSlot k m)) -> exhausted s c -> later ok s s' ->
  nth_error (s_ts s') i = Some (TRd c (RSlot k m)).
Proof. exact starved. Qed.
Print Assumptions C65_starved.

(* a handler is running, a Shutdown call waits, the connection is being closed: work left *)
Definition run65 : list ev :=
  accept (-1) ++ deliver sample_request ++ [go 1; EvShutdown; go 2; EvClose 0; go 3].
Definition run65_rest : list ev :=
  [EvStep 1 (ChRet answer); EvStep 1 (ChWriter true); go 1; go 2; go 1; go 1; go 2; go 1].
Example C65_busy : exists s, drun (new_server 64) run65 = Some s /\ length (s_ts s) = 4 /\ ~ at_rest s /\
  exists s', drun s run65_rest = Some s' /\ forallb own run65_rest = true.
Proof.
  destruct (drun (new_server 64) run65) as [s|] eqn:E; [|vm_compute in E; discriminate].
  vm_compute in E. injection E as <-. eexists. split; [reflexivity|]. split; [reflexivity|]. split.
  - intros A. specialize (A (EvStep 1 (ChRet answer)) eq_refl). vm_compute in A. discriminate.
  - destruct (drun _ run65_rest) as [s'|] eqn:E; [|vm_compute in E; discriminate]. exists s'. split; reflexivity.
Qed.
Definition servedb (s : sys) (e : ev) : bool :=
  match e with
  | EvStep i (ChWriter false) => match nth_error (s_ts s) i with Some (TRd _ (RFail _ _)) => false | _ => true end
  | EvStep i (ChRet r) => match snd r with EReqPtr None => false | _ => true end
  | _ => true
  end.
Lemma servedb_ok s e : servedb s e = true -> served s e.
Proof.
  destruct e as [| | |i []]; cbn; auto.
  - intros H Q. rewrite Q in H. discriminate.
  - destruct ok; auto. intros H c k m Q. rewrite Q in H. discriminate.
Qed.
Definition orderly (s : sys) (e : ev) : Prop := calm s e /\ stays_open s e /\ served s e.
Definition orderlyb (s : sys) (e : ev) : bool := calmb s e && openb s e && servedb s e.
Lemma orderlyb_ok s e : orderlyb s e = true -> orderly s e.
Proof.
  intros H. apply andb_true_iff in H as [H H3]. apply andb_true_iff in H as [H1 H2].
  split; [apply calmb_ok, H1|]. split; [apply openb_ok, H2|apply servedb_ok, H3].
Qed.
Definition restb (s : sys) (t : thread) : bool :=
  match t with
  | TEnd | TRd _ REnd | TClR _ | TShR | TRd _ RWait => true
  | TRd c (RSlot _ _) => (c_limit (v_conn (s_srv s) c) =? Z.of_nat (count (leaked c) (slog s)))%Z
  | TShW => negb (v_rdy (s_srv s))
  | _ => false
  end.
Lemma restb_ok buf ok s : dreach buf ok s -> v_crashed (s_srv s) = false -> forallb (restb s) (s_ts s) = true -> at_rest s.
Proof.
  intros R C H. apply (at_rest_threads _ _ _ R C). rewrite forallb_forall in H. intros t I. specialize (H t I).
  destruct t as [| |? []| | | | | | | |]; cbn in H |- *; auto; try discriminate H.
  - apply Z.eqb_eq, H.
  - destruct (v_rdy (s_srv s)); [discriminate H|reflexivity].
Qed.
Example C65_rest : exists s, dreach 64 orderly s /\ v_crashed (s_srv s) = false /\ at_rest s /\
  map abbr (slog s) = [Conn 0; Frame 0 0 true; Start 0 0; Shut; End 0 0; Reply 0 0; Unlink 0; ShutRet] /\
  In (LShutdown 2) (slog s) /\ 0 < v_n (s_srv s) /\ c_active (v_conn (s_srv s) 0) = false.
Proof.
  destruct (crun orderlyb (new_server 64) (run65 ++ run65_rest)) as [s|] eqn:E; [|vm_compute in E; discriminate].
  exists s. pose proof (crun_reach _ _ _ _ _ orderlyb_ok E) as R. split; [exact R|].
  assert (Q : v_crashed (s_srv s) = false /\ forallb (restb s) (s_ts s) = true /\
    map abbr (slog s) = [Conn 0; Frame 0 0 true; Start 0 0; Shut; End 0 0; Reply 0 0; Unlink 0; ShutRet] /\
    In (LShutdown 2) (slog s) /\ 0 < v_n (s_srv s) /\ c_active (v_conn (s_srv s) 0) = false).
  { clear R. vm_compute in E. injection E as <-. split; [reflexivity|]. split; [reflexivity|]. split; [reflexivity|].
    split; [cbn; do 3 right; left; reflexivity|]. split; [cbn; lia|reflexivity]. }
  destruct Q as (C & Rs & Q). split; [exact C|]. split; [exact (restb_ok _ _ _ R C Rs)|exact Q].
Qed.
(* the run is one of each kind the theorems above speak about *)
Example C65_rest_kinds : forall s, dreach 64 orderly s -> dreach 64 calm s /\ dreach 64 stays_open s /\ dreach 64 smooth s.
Proof.
  intros s R. split; [|split]; (eapply dreach_weaken; [|exact R]); intros ? ? (? & ? & ?); auto. split; auto.
Qed.
(* two requests are refused during shutdown on a connection with two slots; a third request that
   arrives then is never answered, and whatever follows it on that connection is never read *)
Definition refuse : list ev := [EvStep 0 (ChFrame sample_request); go 0; go 0; go 0; EvStep 0 (ChWriter true)].
Definition run65_starved : list ev :=
  accept 2 ++ [EvShutdown; go 1; go 1] ++ refuse ++ refuse ++ [EvStep 0 (ChFrame sample_request); go 0].
Theorem C65_starved_refuted : exists s m, dreach 64 anything s /\ v_crashed (s_srv s) = false /\ at_rest s /\ exhausted s 0 /\
  map abbr (slog s) = [Conn 0; Shut; ShutRet; Frame 0 0 true; Refused 0 0; Frame 0 1 true; Refused 0 1; Frame 0 2 true] /\
  nth_error (s_ts s) 0 = Some (TRd 0 (RSlot 2 m)) /\ RequiresReply m = true.
Proof.
  destruct (drun (new_server 64) run65_starved) as [s|] eqn:E; [|vm_compute in E; discriminate].
  pose proof (run_reach _ _ _ E) as R. exists s.
  assert (Q : exists m, v_crashed (s_srv s) = false /\ forallb (restb s) (s_ts s) = true /\ exhausted s 0 /\
    map abbr (slog s) = [Conn 0; Shut; ShutRet; Frame 0 0 true; Refused 0 0; Frame 0 1 true; Refused 0 1; Frame 0 2 true] /\
    nth_error (s_ts s) 0 = Some (TRd 0 (RSlot 2 m)) /\ RequiresReply m = true).
  { clear R. vm_compute in E. injection E as <-. eexists. split; [reflexivity|]. split; [reflexivity|].
    split; [split; reflexivity|]. split; [reflexivity|]. split; reflexivity. }
  destruct Q as (m & C & Rs & Q). exists m. split; [exact R|]. split; [exact C|]. split; [exact (restb_ok _ _ _ R C Rs)|exact Q].
Qed.
Print Assumptions C65_starved_refuted.
(* the fatal steps do happen: C26_crash_refuted is the first kind; a nil *ErrRequest *)
Example C65_fatal_case : exists s s', drun (new_server 64) (accept (-1) ++ deliver sample_request ++
    [go 1; EvStep 1 (ChRet ((0%Z, []), EReqPtr None))]) = Some s /\
  dstep s (EvStep 1 (ChWriter true)) = Some s' /\ v_crashed (s_srv s') = true /\ fatal s (EvStep 1 (ChWriter true)).
Proof.
  destruct (drun (new_server 64) (accept (-1) ++ deliver sample_request ++ [go 1; EvStep 1 (ChRet ((0%Z, []), EReqPtr None))])) as [s|] eqn:E;
    [|vm_compute in E; discriminate].
  destruct (dstep s (EvStep 1 (ChWriter true))) as [s'|] eqn:D; [|vm_compute in E; injection E as <-; vm_compute in D; discriminate].
  exists s, s'. split; [reflexivity|]. split; [exact D|].
  assert (C : v_crashed (s_srv s') = true) by (vm_compute in E; injection E as <-; vm_compute in D; injection D as <-; reflexivity).
  split; [exact C|]. apply (crash_exact _ _ _ _ _ (run_reach _ _ _ E) D). exact C.
Qed.
