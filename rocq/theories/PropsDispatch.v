(* Property theorems C23 - C29 and the schedule part of C38. [dreach buf ok s]: the server
   state s is reachable by any interleaving of connections, read loops, handlers, Close and
   Shutdown calls whose steps all satisfy ok; [slog s] is the log of observable events. *)
From Coq Require Import List Arith NArith ZArith Lia Bool.
From Verif Require Import BaseBytes BaseConc ModelMessage ModelWrite ModelHandle ModelDispatch.
From Verif Require Import SpecWire SpecMessage SpecWrite SpecHandle SpecDispatch.
From Verif Require Import ProofMessage ProofHandle ProofDispatch2 ProofDispatch3 ProofDispatch4 ProofDispatch5.
From Verif Require Import PropsCodec PropsHandle.
Import ListNotations.
Open Scope nat_scope.

(* ----- sample runs ----- *)
Definition sample_signal : bytes := bs [63; 2; 97; 98; 99; 100]%N.
Definition go (i : nat) : ev := EvStep i Go.
(* thread 0 accepts a connection and its read loop is waiting for frames *)
Definition accept (lim : Z) : list ev := [EvConnect lim; EvStep 0 (ChConf true); go 0; go 0].
(* a frame is read and its handler called or started (limit <> 2, 3, ...) *)
Definition deliver (b : bytes) : list ev := [EvStep 0 (ChFrame b); go 0; go 0; go 0; go 0].
(* ... with a limit of two or more *)
Definition deliver2 (b : bytes) : list ev := [EvStep 0 (ChFrame b); go 0; go 0; go 0; go 0; go 0].
Definition answer : payload * goerr := ((2%Z, hi16), ENil).
(* the log of a run, without the messages *)
Inductive brief := Conn (c : nat) | Frame (c k : nat) (ok : bool) | Start (c k : nat) | End (c k : nat) | Reply (c k : nat)
  | Refused (c k : nat) | Unlink (c : nat) | Disc (c : nat) | Shut | ShutRet | Other.
Definition abbr (e : event) : brief :=
  match e with
  | LConnected c => Conn c
  | LFrame c k _ (Some _) => Frame c k true
  | LFrame c k _ None => Frame c k false
  | LStart c k _ => Start c k
  | LEnd c k => End c k
  | LReply c k _ _ _ => Reply c k
  | LShutReply c k _ _ => Refused c k
  | LUnlink c => Unlink c
  | LDisconnected c => Disc c
  | LShutdown _ => Shut
  | LShutReturn _ => ShutRet
  | _ => Other
  end.

(* ================= C23 ================= *)
Theorem C23_concurrency_limit : forall buf ok s c, dreach buf ok s ->
  (0 <= c_limit (v_conn (s_srv s) c))%Z ->
  (in_progress c (slog s) <= Z.max 1 (c_limit (v_conn (s_srv s) c)))%Z.
Proof. exact concurrency_limit. Qed.
Print Assumptions C23_concurrency_limit.
(* and the limit is used: a read loop waits for a handler slot only while all slots are taken
   by messages being handled or were lost to requests refused during shutdown *)
Theorem C23_waits_only_at_limit : forall buf ok s i c k m, dreach buf ok s ->
  v_crashed (s_srv s) = false -> nth_error (s_ts s) i = Some (TRd c (RSlot k m)) ->
  dstep s (EvStep i Go) = None ->
  c_limit (v_conn (s_srv s) c) = Z.of_nat (count (holds c) (s_ts s) + count (leaked c) (slog s)).
Proof. exact slot_wait. Qed.
Print Assumptions C23_waits_only_at_limit.
(* two handlers at the limit of two; the third request waits *)
Definition run23 : list ev :=
  accept 2 ++ deliver2 sample_request ++ [go 1] ++ deliver2 sample_request ++ [go 2; EvStep 0 (ChFrame sample_request); go 0].
Example C23_case : exists s m, drun (new_server 64) run23 = Some s /\ in_progress 0 (slog s) = 2%Z /\
  c_limit (v_conn (s_srv s) 0) = 2%Z /\ nth_error (s_ts s) 0 = Some (TRd 0 (RSlot 2 m)) /\
  v_crashed (s_srv s) = false /\ dstep s (EvStep 0 Go) = None.
Proof.
  destruct (drun (new_server 64) run23) as [s|] eqn:E; [|vm_compute in E; discriminate].
  vm_compute in E. injection E as <-. do 2 eexists. split; [reflexivity|]. repeat split.
Qed.

(* ================= C24 ================= *)
Theorem C24_in_order : forall buf ok s c, dreach buf ok s ->
  (0 <= c_limit (v_conn (s_srv s) c) <= 1)%Z -> in_turn 0 (handler_events c (slog s)).
Proof. exact handled_in_turn. Qed.
Print Assumptions C24_in_order.
(* message numbers are numbers of arrival *)
Theorem C24_numbers : forall buf ok s c, dreach buf ok s ->
  map frame_no (filter (is_frame c) (slog s)) = seq 0 (c_next (v_conn (s_srv s) c)).
Proof. exact frames_numbered. Qed.
Print Assumptions C24_numbers.
(* signals and requests are not lost on the way to the handler: each one that arrived is on its
   way, or its handler was started, or it was refused (shutdown, closed connection); exactly once *)
Theorem C24_none_lost : forall buf ok s c k, dreach buf ok s ->
  count (arrived c k is_app) (slog s) =
    count (before_start c k is_app) (s_ts s) + count (started c k is_app) (slog s) +
    count (shut_replied c k is_app) (slog s) + count (dropped c k is_app) (slog s) /\
  count (arrived c k is_app) (slog s) <= 1.
Proof. exact none_lost. Qed.
Print Assumptions C24_none_lost.
(* and none is stuck: no thread of the server waits for anything but a frame, a hook, a writer,
   a handler slot (only at the limit), or the end of the handlers (Shutdown) *)
Theorem C24_no_stuck : forall buf ok s i t, dreach buf ok s -> v_crashed (s_srv s) = false ->
  nth_error (s_ts s) i = Some t -> may_go_on s i t.
Proof. exact no_stuck. Qed.
Print Assumptions C24_no_stuck.
(* a message that was read from an open connection without handler slots is given to its handler
   by the next five steps *)
Theorem C24_prompt : forall buf ok s i c k m, dreach buf ok s -> v_crashed (s_srv s) = false ->
  nth_error (s_ts s) i = Some (TRd c (RGot k m)) -> is_app m = true ->
  c_active (v_conn (s_srv s) c) = true -> v_shutdown (s_srv s) = false -> (c_limit (v_conn (s_srv s) c) <= 1)%Z ->
  exists s', drun s (repeat (EvStep i Go) 4 ++
                     [EvStep (if async (c_limit (v_conn (s_srv s) c)) then length (s_ts s) else i) Go]) = Some s' /\
    slog s' = slog s ++ [LStart c k m].
Proof. exact prompt. Qed.
Print Assumptions C24_prompt.
Example C24_prompt_case : exists s m, drun (new_server 64) (accept (-1) ++ [EvStep 0 (ChFrame sample_signal)]) = Some s /\
  nth_error (s_ts s) 0 = Some (TRd 0 (RGot 0 m)) /\ is_app m = true /\ c_active (v_conn (s_srv s) 0) = true /\
  v_shutdown (s_srv s) = false /\ async (c_limit (v_conn (s_srv s) 0)) = true /\ v_crashed (s_srv s) = false.
Proof.
  destruct (drun (new_server 64) (accept (-1) ++ [EvStep 0 (ChFrame sample_signal)])) as [s|] eqn:E; [|vm_compute in E; discriminate].
  vm_compute in E. injection E as <-. do 2 eexists. split; [reflexivity|]. split; [reflexivity|]. repeat split.
Qed.
Definition run24 : list ev :=
  accept 1 ++ deliver sample_signal ++ [go 0; EvStep 0 (ChRet answer); go 0; go 0; go 0] ++
  deliver sample_request ++ [go 0; EvStep 0 (ChRet answer); EvStep 0 (ChWriter true); go 0; go 0; go 0].
Example C24_case : exists s, drun (new_server 64) run24 = Some s /\
  map abbr (slog s) = [Conn 0; Frame 0 0 true; Start 0 0; End 0 0; Frame 0 1 true; Start 0 1; End 0 1; Reply 0 1] /\
  c_limit (v_conn (s_srv s) 0) = 1%Z.
Proof.
  destruct (drun (new_server 64) run24) as [s|] eqn:E; [|vm_compute in E; discriminate].
  vm_compute in E. injection E as <-. eexists. split; [reflexivity|]. repeat split.
Qed.

(* ================= C25 ================= *)
(* full statement: without the restriction [calm]. It says that no message that wants no reply
   (a signal) is registered once the shutdown flag is set, and that fewer than 2^32 messages
   are handled at once. Without the former it fails, see below. *)
Theorem C25_shutdown_waits_partial : forall buf s l1 i l2, dreach buf calm s ->
  slog s = l1 ++ LShutReturn i :: l2 ->
  (forall c k m, In (LStart c k m) l1 -> In (LEnd c k) l1) /\ (forall c k m, ~ In (LStart c k m) l2).
Proof. exact shutdown_waits_for. Qed.
Print Assumptions C25_shutdown_waits_partial.
(* and it does return: when no handler is left, the next two steps of the call finish it *)
Theorem C25_shutdown_returns_partial : forall buf s i, dreach buf calm s ->
  nth_error (s_ts s) i = Some TShW -> (forall t, In t (s_ts s) -> registered t = false) ->
  v_crashed (s_srv s) = false ->
  exists s', drun s [EvStep i Go; EvStep i Go] = Some s' /\ In (LShutReturn i) (slog s').
Proof. exact shutdown_released. Qed.
Print Assumptions C25_shutdown_returns_partial.
(* a request is being handled when Shutdown is called; Shutdown waits for it *)
Definition run25 : list ev :=
  accept (-1) ++ deliver sample_request ++ [go 1; EvShutdown; go 2] ++
  [EvStep 1 (ChRet answer); EvStep 1 (ChWriter true); go 1; go 2; go 2].
Example C25_case : exists s, dreach 64 calm s /\
  map abbr (slog s) = [Conn 0; Frame 0 0 true; Start 0 0; Shut; End 0 0; Reply 0 0; ShutRet].
Proof.
  destruct (crun calmb (new_server 64) run25) as [s|] eqn:E; [|vm_compute in E; discriminate].
  exists s. split; [exact (crun_reach _ _ _ _ _ calmb_ok E)|]. vm_compute in E. injection E as <-. reflexivity.
Qed.
(* a signal that arrives while Shutdown waits makes it return too early *)
Definition run25_late : list ev :=
  accept (-1) ++ deliver sample_request ++ [go 1; EvShutdown; go 2] ++ deliver sample_signal ++
  [go 3; EvStep 3 (ChRet answer); go 3; go 2; go 2].
Theorem C25_late_signal_refuted : exists s, dreach 64 anything s /\
  map abbr (slog s) = [Conn 0; Frame 0 0 true; Start 0 0; Shut; Frame 0 1 true; Start 0 1; End 0 1; ShutRet] /\
  in_progress 0 (slog s) = 1%Z.
Proof.
  destruct (drun (new_server 64) run25_late) as [s|] eqn:E; [|vm_compute in E; discriminate].
  exists s. split; [exact (run_reach _ _ _ E)|]. vm_compute in E. injection E as <-. split; reflexivity.
Qed.
Print Assumptions C25_late_signal_refuted.

(* ================= C26 ================= *)
(* requests whose frame is read after Shutdown was called: no handler, no normal reply; exactly
   one shutdown reply, unless the connection was closed or the reply is still to be sent *)
Theorem C26_requests_refused : forall buf ok s c k b m cont, dreach buf ok s ->
  In (LFrame c k b (Some m)) (slog s) -> received m b cont -> wants_reply (k_type cont) ->
  after_shutdown c k (slog s) ->
  (forall m', ~ In (LStart c k m') (slog s)) /\ (forall m' r st, ~ In (LReply c k m' r st) (slog s)) /\
  (forall m', ~ In (LSession c k m') (slog s)) /\
  count (working_on c k RequiresReply) (s_ts s) + count (shut_replied c k RequiresReply) (slog s) +
  count (dropped c k RequiresReply) (slog s) = 1.
Proof. exact refused_in_shutdown. Qed.
Print Assumptions C26_requests_refused.
(* the shutdown reply is one frame of type 1 with the identifier of the request *)
Theorem C26_shutdown_reply : forall buf ok s c k m st, dreach buf ok s -> In (LShutReply c k m st) (slog s) ->
  exists b cont f, In (LFrame c k b (Some m)) (slog s) /\ received m b cont /\ wants_reply (k_type cont) /\
    st = Used (MkSink f 1) None /\ reads_as f (special_content 1 (k_ident cont)).
Proof. exact shut_reply_frame. Qed.
Print Assumptions C26_shutdown_reply.
Definition run26 : list ev :=
  accept (-1) ++ [EvShutdown; go 1; EvStep 0 (ChFrame sample_request); go 0; go 0; EvStep 0 (ChWriter true)].
Example C26_case : exists s m st, drun (new_server 64) run26 = Some s /\
  map abbr (slog s) = [Conn 0; Shut; Frame 0 0 true; Refused 0 0] /\
  In (LShutReply 0 0 m st) (slog s) /\ after_shutdown 0 0 (slog s).
Proof.
  destruct (drun (new_server 64) run26) as [s|] eqn:E; [|vm_compute in E; discriminate].
  vm_compute in E. injection E as <-. 
  do 3 eexists. split; [reflexivity|]. split; [reflexivity|]. split; [cbn; do 3 right; left; reflexivity|].
  eexists [_], _, [_; _], _, _. split; [reflexivity|]. left. reflexivity.
Qed.
(* signals are not dropped: one that arrives after Shutdown has returned is still handled *)
Theorem C26_signals_refuted : exists s, dreach 64 anything s /\
  map abbr (slog s) = [Conn 0; Shut; ShutRet; Frame 0 0 true; Start 0 0].
Proof.
  destruct (drun (new_server 64) (accept (-1) ++ [EvShutdown; go 1; go 1] ++ deliver sample_signal ++ [go 2])) as [s|] eqn:E;
    [|vm_compute in E; discriminate].
  exists s. split; [exact (run_reach _ _ _ E)|]. vm_compute in E. injection E as <-. reflexivity.
Qed.
Print Assumptions C26_signals_refuted.
(* and if the socket has no writer to offer, refusing a request crashes the server *)
Theorem C26_crash_refuted : exists s, dreach 64 anything s /\
  map abbr (slog s) = [Conn 0; Shut; Frame 0 0 true] /\ v_crashed (s_srv s) = true.
Proof.
  destruct (drun (new_server 64) (accept (-1) ++ [EvShutdown; go 1; EvStep 0 (ChFrame sample_request); go 0; go 0; EvStep 0 (ChWriter false)])) as [s|] eqn:E;
    [|vm_compute in E; discriminate].
  exists s. split; [exact (run_reach _ _ _ E)|]. vm_compute in E. injection E as <-. split; reflexivity.
Qed.
Print Assumptions C26_crash_refuted.
(* each refused request keeps the handler slot it had acquired (capacity of the connection
   is lost): the number of taken slots is the number of messages being handled plus the number
   of refused requests *)
Theorem C26_slot_leak : forall buf ok s c, dreach buf ok s -> (1 < c_limit (v_conn (s_srv s) c))%Z ->
  c_slots (v_conn (s_srv s) c) = Z.of_nat (count (holds c) (s_ts s) + count (leaked c) (slog s)).
Proof. exact slots_taken. Qed.
Print Assumptions C26_slot_leak.

(* ================= C27 ================= *)
Theorem C27_counter_exact : forall buf ok s, dreach buf ok s -> v_shutdown (s_srv s) = false -> few s ->
  v_ops (s_srv s) = Z.of_nat (count registered (s_ts s)) /\
  (Z.of_nat (count any_start (slog s)) - Z.of_nat (count any_end (slog s)) <= v_ops (s_srv s))%Z.
Proof. exact counter_sound. Qed.
Print Assumptions C27_counter_exact.
(* no bound on the number of messages: exact modulo 2^32 *)
Theorem C27_counter_modulo : forall buf ok s, dreach buf ok s -> v_shutdown (s_srv s) = false ->
  v_ops (s_srv s) = (Z.of_nat (count registered (s_ts s)) mod 2 ^ 32)%Z.
Proof. exact counter_mod. Qed.
Print Assumptions C27_counter_modulo.
(* no step decrements it below zero (or changes it by more than one) *)
Theorem C27_no_underrun : forall buf ok s i ch t g' t' sp, dreach buf ok s ->
  nth_error (s_ts s) i = Some t -> ok s (EvStep i ch) -> tstep (s_srv s) i t ch = Some (g', t', sp) ->
  v_shutdown (s_srv s) = false -> few s -> (v_ops (s_srv s) < 2 ^ 32 - 1)%Z ->
  (0 <= v_ops g' /\ Z.abs (v_ops g' - v_ops (s_srv s)) <= 1)%Z.
Proof. exact no_underrun. Qed.
Print Assumptions C27_no_underrun.
Example C27_case : exists s, drun (new_server 64) run23 = Some s /\ v_shutdown (s_srv s) = false /\
  v_ops (s_srv s) = 2%Z /\ few s.
Proof.
  destruct (drun (new_server 64) run23) as [s|] eqn:E; [|vm_compute in E; discriminate].
  vm_compute in E. injection E as <-. eexists. split; [reflexivity|]. repeat split.
Qed.
(* after a shutdown request with a late signal it does under-run *)
Theorem C27_only_before_shutdown : exists s, dreach 64 anything s /\ v_ops (s_srv s) = (2 ^ 32 - 1)%Z.
Proof.
  destruct (drun (new_server 64) (run25_late ++ [EvStep 1 (ChRet answer); EvStep 1 (ChWriter true); go 1])) as [s|] eqn:E;
    [|vm_compute in E; discriminate].
  exists s. split; [exact (run_reach _ _ _ E)|]. vm_compute in E. injection E as <-. reflexivity.
Qed.
Print Assumptions C27_only_before_shutdown.

(* ================= C28 ================= *)
(* full statement: without [stays_open], which says that a connection is not closed between the
   activity check and the registration of a message. Without it the statement fails, see below. *)
Theorem C28_unlink_once_partial : forall buf s l1 c l2, dreach buf stays_open s ->
  slog s = l1 ++ LUnlink c :: l2 ->
  (forall k m, In (LStart c k m) l1 -> In (LEnd c k) l1) /\ (forall k m, ~ In (LStart c k m) l2) /\
  ~ In (LUnlink c) l1 /\ ~ In (LUnlink c) l2.
Proof. exact unlink_log. Qed.
Print Assumptions C28_unlink_once_partial.
(* and it is not forgotten *)
Theorem C28_unlink_happens_partial : forall buf s c, dreach buf stays_open s -> c < v_n (s_srv s) ->
  c_active (v_conn (s_srv s) c) = false ->
  (forall t, In t (s_ts s) -> task_of c t = false /\ unlinking c t = false) -> In (LUnlink c) (slog s).
Proof. exact unlink_happens. Qed.
Print Assumptions C28_unlink_happens_partial.
(* on all schedules: whoever decides to unlink finds the connection closed and without tasks,
   and the task counter is exact *)
Theorem C28_unlink_decision : forall buf ok s i ch t g' t' sp c, dreach buf ok s -> ok s (EvStep i ch) ->
  nth_error (s_ts s) i = Some t -> tstep (s_srv s) i t ch = Some (g', t', sp) ->
  unlinking c t' = true -> c_active (v_conn g' c) = false /\ c_tasks (v_conn g' c) = 0%Z.
Proof. exact unlink_decided. Qed.
Print Assumptions C28_unlink_decision.
Theorem C28_tasks_exact : forall buf ok s c, dreach buf ok s ->
  c_tasks (v_conn (s_srv s) c) = Z.of_nat (count (task_of c) (s_ts s)).
Proof. exact ProofDispatch.tasks_exact. Qed.
Print Assumptions C28_tasks_exact.
(* Close on a closed connection: nothing happens *)
Theorem C28_second_close : forall buf ok s i c g' t' sp, dreach buf ok s -> nth_error (s_ts s) i = Some (TCl0 c) ->
  c_active (v_conn (s_srv s) c) = false -> tstep (s_srv s) i (TCl0 c) Go = Some (g', t', sp) ->
  g' = s_srv s /\ t' = TClR c /\ sp = None.
Proof. exact second_close. Qed.
Print Assumptions C28_second_close.
(* frames that arrive after the connection was closed: no handler, no reply of any kind *)
Theorem C28_closed_ignores : forall buf ok s s' c k, dreach buf ok s -> c < v_n (s_srv s) ->
  c_active (v_conn (s_srv s) c) = false -> c_next (v_conn (s_srv s) c) <= k -> later ok s s' ->
  forall e, In e (slog s') -> acted_on c k e = false.
Proof. exact closed_ignores. Qed.
Print Assumptions C28_closed_ignores.
Definition run28_closed : list ev := accept (-1) ++ [EvClose 0; go 1].
Example C28_closed_case : exists s, drun (new_server 64) run28_closed = Some s /\
  0 < v_n (s_srv s) /\ c_active (v_conn (s_srv s) 0) = false /\ c_next (v_conn (s_srv s) 0) = 0.
Proof.
  destruct (drun (new_server 64) run28_closed) as [s|] eqn:E; [|vm_compute in E; discriminate].
  vm_compute in E. injection E as <-. eexists. split; [reflexivity|]. split; [cbn; lia|]. split; reflexivity.
Qed.
Example C28_closed_case2 : exists s, drun (new_server 64) (run28_closed ++ [EvStep 0 (ChFrame sample_request); go 0]) = Some s /\
  map abbr (slog s) = [Conn 0; Frame 0 0 true; Other].
Proof.
  destruct (drun (new_server 64) (run28_closed ++ [EvStep 0 (ChFrame sample_request); go 0])) as [s|] eqn:E; [|vm_compute in E; discriminate].
  vm_compute in E. injection E as <-. eexists. split; [reflexivity|]. reflexivity.
Qed.
(* a handler is running when its connection is closed; unlinked after its end *)
Definition run28 : list ev :=
  accept (-1) ++ deliver sample_request ++ [go 1; EvClose 0; go 2; EvStep 1 (ChRet answer); EvStep 1 (ChWriter true); go 1; go 1; go 1; EvClose 0; go 3].
Example C28_case : exists s, dreach 64 stays_open s /\
  map abbr (slog s) = [Conn 0; Frame 0 0 true; Start 0 0; End 0 0; Reply 0 0; Unlink 0] /\
  c_active (v_conn (s_srv s) 0) = false /\ nth_error (s_ts s) 3 = Some (TClR 0).
Proof.
  destruct (crun openb (new_server 64) run28) as [s|] eqn:E; [|vm_compute in E; discriminate].
  exists s. split; [exact (crun_reach _ _ _ _ _ openb_ok E)|]. vm_compute in E. injection E as <-. repeat split.
Qed.
(* the read loop waits for a slot, past the activity check, while the connection is closed *)
Definition finish (i : nat) (steps : nat) : list ev :=
  [EvStep i (ChRet answer); EvStep i (ChWriter true)] ++ repeat (go i) steps.
Definition run28_bad : list ev :=
  run23 ++ [EvClose 0; go 3] ++ finish 1 3 ++ finish 2 4 ++ [go 0; go 0; go 0; go 0; go 4] ++ finish 4 3.
Theorem C28_race_refuted : exists s, dreach 64 anything s /\
  map abbr (slog s) = [Conn 0; Frame 0 0 true; Start 0 0; Frame 0 1 true; Start 0 1; Frame 0 2 true;
    End 0 0; Reply 0 0; End 0 1; Reply 0 1; Unlink 0; Start 0 2; End 0 2; Reply 0 2; Unlink 0].
Proof.
  destruct (drun (new_server 64) run28_bad) as [s|] eqn:E; [|vm_compute in E; discriminate].
  exists s. split; [exact (run_reach _ _ _ E)|]. vm_compute in E. injection E as <-. reflexivity.
Qed.
Print Assumptions C28_race_refuted.

(* ================= C29 ================= *)
Theorem C29_hooks_paired : forall buf ok s l1 e l2, dreach buf ok s -> slog s = l1 ++ e :: l2 ->
  match e with
  | LConnected c => ~ In (LConnected c) l1
  | LFrame c _ _ _ => In (LConnected c) l1 /\ ~ In (LDisconnected c) l1 /\
                      (forall k b, ~ In (LFrame c k b None) l1) /\ ~ In (LReadErr c) l1
  | LStart c _ _ | LReply c _ _ _ _ | LSession c _ _ | LShutReply c _ _ _ => In (LConnected c) l1
  | LDisconnected c => In (LConnected c) l1 /\ ~ In (LDisconnected c) l1 /\
                       ((exists k b, In (LFrame c k b None) l1) \/ In (LReadErr c) l1)
  | _ => True
  end.
Proof. exact hooks_paired. Qed.
Print Assumptions C29_hooks_paired.
(* after a failed read nothing can stop the loop from reporting the disconnection *)
Theorem C29_disconnect_follows : forall s i c st, v_crashed (s_srv s) = false ->
  nth_error (s_ts s) i = Some (TRd c st) -> st = RClose \/ st = RUnlink \/ st = RBye ->
  exists n s', n <= 3 /\ drun s (repeat (EvStep i Go) n) = Some s' /\ In (LDisconnected c) (slog s') /\
    nth_error (s_ts s') i = Some (TRd c REnd).
Proof. exact loop_ends. Qed.
Print Assumptions C29_disconnect_follows.
(* ... and that is where the loop is, whenever a read has failed *)
Theorem C29_failed_read_ends : forall buf ok s c k b, dreach buf ok s ->
  In (LFrame c k b None) (slog s) \/ In (LReadErr c) (slog s) ->
  exists i st, nth_error (s_ts s) i = Some (TRd c st) /\ (st = RClose \/ st = RUnlink \/ st = RBye \/ st = REnd) /\
    (st = REnd -> In (LDisconnected c) (slog s)).
Proof. exact failed_read_ends. Qed.
Print Assumptions C29_failed_read_ends.
(* what is accepted as a frame, and what is given to handlers *)
Theorem C29_frames : forall buf ok s c k b m, dreach buf ok s -> In (LFrame c k b m) (slog s) ->
  match m with
  | Some m => length b <= buf /\ exists cont, received m b cont
  | None => ~ (length b <= buf /\ exists cont, frame b cont)
  end.
Proof. exact frame_read. Qed.
Print Assumptions C29_frames.
Theorem C29_malformed_not_handled : forall buf ok s c k b m, dreach buf ok s ->
  In (LFrame c k b None) (slog s) -> ~ In (LStart c k m) (slog s).
Proof. exact refused_not_started. Qed.
Print Assumptions C29_malformed_not_handled.
Theorem C29_handled_once : forall buf ok s c k, dreach buf ok s -> count (start_of c k) (slog s) <= 1.
Proof. exact start_once. Qed.
Print Assumptions C29_handled_once.
Theorem C29_handled_valid : forall buf ok s l1 c k m l2, dreach buf ok s -> slog s = l1 ++ LStart c k m :: l2 ->
  exists b cont, In (LFrame c k b (Some m)) l1 /\ received m b cont /\ length b <= buf /\
    (app_signal (k_type cont) \/ app_request (k_type cont)).
Proof. exact handled_valid. Qed.
Print Assumptions C29_handled_valid.
(* a connection with a signal, then rubbish *)
Definition run29 : list ev :=
  accept 1 ++ deliver sample_signal ++ [go 0; EvStep 0 (ChRet answer); go 0; go 0; go 0; EvStep 0 (ChFrame (bs [63]%N)); go 0; go 0; go 0].
Example C29_case : exists s, drun (new_server 64) run29 = Some s /\
  map abbr (slog s) = [Conn 0; Frame 0 0 true; Start 0 0; End 0 0; Frame 0 1 false; Unlink 0; Disc 0].
Proof.
  destruct (drun (new_server 64) run29) as [s|] eqn:E; [|vm_compute in E; discriminate].
  vm_compute in E. injection E as <-. eexists. split; [reflexivity|]. reflexivity.
Qed.

(* ================= C38 ================= *)
(* each request that arrived is being worked on, or was settled in exactly one of four ways *)
Theorem C38_settled_once : forall buf ok s c k b m cont, dreach buf ok s ->
  In (LFrame c k b (Some m)) (slog s) -> received m b cont -> wants_reply (k_type cont) ->
  count (working_on c k RequiresReply) (s_ts s) + count (replied c k RequiresReply) (slog s) +
  count (shut_replied c k RequiresReply) (slog s) + count (sess_replied c k RequiresReply) (slog s) +
  count (dropped c k RequiresReply) (slog s) = 1.
Proof. exact request_accounted. Qed.
Print Assumptions C38_settled_once.
(* replies are sent for application requests only, and carry their identifier *)
Theorem C38_reply_frame : forall buf ok s c k m r st, dreach buf ok s -> In (LReply c k m r st) (slog s) ->
  exists b cont, In (LFrame c k b (Some m)) (slog s) /\ received m b cont /\ app_request (k_type cont) /\
    (sendable r -> st = NoWriter \/
       exists f, st = Used (MkSink f 1) None /\ reads_as f (reply_content (k_ident cont) r)).
Proof. exact reply_frame. Qed.
Print Assumptions C38_reply_frame.
(* requests are ignored on closed connections only *)
Theorem C38_dropped_only_if_closed : forall buf ok s c k m, dreach buf ok s -> In (LDropped c k m) (slog s) ->
  c_active (v_conn (s_srv s) c) = false.
Proof. exact dropped_closed. Qed.
Print Assumptions C38_dropped_only_if_closed.
Example C38_settled_case : exists s b m cont, drun (new_server 64) run24 = Some s /\
  In (LFrame 0 1 b (Some m)) (slog s) /\ received m b cont /\ wants_reply (k_type cont) /\
  count (replied 0 1 RequiresReply) (slog s) = 1.
Proof.
  destruct (drun (new_server 64) run24) as [s|] eqn:E; [|vm_compute in E; discriminate].
  vm_compute in E. injection E as <-.
  do 2 eexists. eexists. exists (MkContent 129 id8 abc hi16 EU16 None).
  split; [reflexivity|]. split; [cbn; do 4 right; left; reflexivity|]. split; [|split; [left; split; vm_compute; discriminate|reflexivity]].
  exists (NewMessage 64). split; [apply NewMessage_blank|]. split; [vm_compute; lia|]. split.
  - apply (F_request16 id8 abc [x00] hi16); try reflexivity; try (cbn; lia). discriminate.
  - vm_compute. reflexivity.
Qed.
