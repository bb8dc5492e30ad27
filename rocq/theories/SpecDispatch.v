(* What users of the server rely on, mostly in terms of the log of observable events. *)
From Coq Require Import List Arith ZArith Bool.
From Verif Require Import BaseBytes BaseConc ModelMessage ModelWrite ModelHandle ModelDispatch.
From Verif Require Import SpecWire SpecMessage SpecWrite SpecHandle.
Import ListNotations.
Open Scope nat_scope.

(* runs: all interleavings; [ok] restricts the steps *)
Inductive dreach (buf : nat) (ok : sys -> ev -> Prop) : sys -> Prop :=
| DR_new : dreach buf ok (new_server buf)
| DR_step s e s' : dreach buf ok s -> ok s e -> dstep s e = Some s' -> dreach buf ok s'.
Fixpoint drun (s : sys) (es : list ev) : option sys :=
  match es with [] => Some s | e :: es' => match dstep s e with Some s' => drun s' es' | None => None end end.
Definition anything (s : sys) (e : ev) : Prop := True.
(* no message that wants no reply (signal, stray message) is registered after the shutdown
   flag was set *)
Definition no_late (s : sys) (e : ev) : Prop :=
  match e with
  | EvStep i Go => match nth_error (s_ts s) i with
                   | Some (TRd c (ROps k m)) => v_shutdown (s_srv s) = true -> RequiresReply m = true
                   | _ => True
                   end
  | _ => True
  end.
(* connections are not closed between registerHandler's IsActive and registerTask *)
Definition stays_open (s : sys) (e : ev) : Prop :=
  match e with
  | EvStep i Go => match nth_error (s_ts s) i with
                   | Some (TRd c (RReg k m)) => c_active (v_conn (s_srv s) c) = true
                   | _ => True
                   end
  | _ => True
  end.

(* ----- the log ----- *)
Notation slog s := (v_log (s_srv s)).
Definition is_start (c : nat) (e : event) : bool := match e with LStart c' _ _ => c' =? c | _ => false end.
Definition is_end (c : nat) (e : event) : bool := match e with LEnd c' _ => c' =? c | _ => false end.
Definition start_of (c k : nat) (e : event) : bool :=
  match e with LStart c' k' _ => (c' =? c) && (k' =? k) | _ => false end.
Definition end_of (c k : nat) (e : event) : bool :=
  match e with LEnd c' k' => (c' =? c) && (k' =? k) | _ => false end.
(* number of OnSignal / OnRequest invocations in progress on connection c *)
Definition in_progress (c : nat) (l : list event) : Z :=
  (Z.of_nat (count (is_start c) l) - Z.of_nat (count (is_end c) l))%Z.

(* handler invocations on c: (true, k) start, (false, k) end *)
Fixpoint handler_events (c : nat) (l : list event) : list (bool * nat) :=
  match l with
  | [] => []
  | LStart c' k _ :: r => if c' =? c then (true, k) :: handler_events c r else handler_events c r
  | LEnd c' k :: r => if c' =? c then (false, k) :: handler_events c r else handler_events c r
  | _ :: r => handler_events c r
  end.
(* one at a time and in increasing order of message numbers, from number lo on *)
Fixpoint in_turn (lo : nat) (l : list (bool * nat)) : Prop :=
  match l with
  | [] => True
  | (true, k) :: [] => lo <= k
  | (true, k) :: (false, k') :: r => lo <= k /\ k' = k /\ in_turn (S k) r
  | _ => False
  end.

(* frames read from connection c *)
Definition is_frame (c : nat) (e : event) : bool := match e with LFrame c' _ _ _ => c' =? c | _ => false end.
Definition frame_no (e : event) : nat := match e with LFrame _ k _ _ => k | _ => 0 end.
Definition connected (c : nat) (e : event) : bool := match e with LConnected c' => c' =? c | _ => false end.
Definition disconnected (c : nat) (e : event) : bool := match e with LDisconnected c' => c' =? c | _ => false end.
Definition unlinked (c : nat) (e : event) : bool := match e with LUnlink c' => c' =? c | _ => false end.

(* a frame saying m was read as number k from c; the ways a request can be settled *)
Definition msg_is (c k : nat) (want : message -> bool) (c' k' : nat) (m : message) : bool :=
  (c' =? c) && (k' =? k) && want m.
Definition arrived (c k : nat) (want : message -> bool) (e : event) : bool :=
  match e with LFrame c' k' _ (Some m) => msg_is c k want c' k' m | _ => false end.
Definition replied (c k : nat) (want : message -> bool) (e : event) : bool :=
  match e with LReply c' k' m _ _ => msg_is c k want c' k' m | _ => false end.
Definition shut_replied (c k : nat) (want : message -> bool) (e : event) : bool :=
  match e with LShutReply c' k' m _ => msg_is c k want c' k' m | _ => false end.
Definition sess_replied (c k : nat) (want : message -> bool) (e : event) : bool :=
  match e with LSession c' k' m => msg_is c k want c' k' m | _ => false end.
Definition dropped (c k : nat) (want : message -> bool) (e : event) : bool :=
  match e with LDropped c' k' m => msg_is c k want c' k' m | _ => false end.

(* ----- threads ----- *)
(* the message a thread is working on, before it was answered / its handler returned *)
Definition unanswered (j : jstate) : bool :=
  match j with JStart | JRun | JRep _ | JInt => true | _ => false end.
Definition working_on (c k : nat) (want : message -> bool) (t : thread) : bool :=
  match t with
  | TRd c' (RGot k' m) | TRd c' (RSlot k' m) | TRd c' (ROps k' m) | TRd c' (RFail k' m)
  | TRd c' (RReg k' m) | TRd c' (RDisp k' m) => msg_is c k want c' k' m
  | TRd c' (RJob k' m j) | TJob c' k' m j => msg_is c k want c' k' m && unanswered j
  | _ => false
  end.
(* registered with the server (currentOps) and not yet deregistered *)
Definition before_ops (j : jstate) : bool :=
  match j with JStart | JRun | JRep _ | JInt | JOps => true | _ => false end.
Definition registered (t : thread) : bool :=
  match t with
  | TRd _ (RReg _ _) | TRd _ (RDisp _ _) => true
  | TRd _ (RJob _ _ j) | TJob _ _ _ j => before_ops j
  | _ => false
  end.
(* a task of connection c *)
Definition before_task (j : jstate) : bool := before_ops j || match j with JTask => true | _ => false end.
Definition task_of (c : nat) (t : thread) : bool :=
  match t with
  | TRd c' (RDisp _ _) => c' =? c
  | TRd c' (RJob _ _ j) | TJob c' _ _ j => (c' =? c) && before_task j
  | _ => false
  end.
(* about to unlink connection c *)
Definition unlinking (c : nat) (t : thread) : bool :=
  match t with
  | TRd c' (RJob _ _ JUnlink) | TJob c' _ _ JUnlink | TRd c' RUnlink | TClU c' => c' =? c
  | _ => false
  end.
(* the read loop of connection c *)
Definition reader_of (c : nat) (t : thread) : bool := match t with TRd c' _ => c' =? c | _ => false end.
Definition loop_ended (c : nat) (t : thread) : bool := match t with TRd c' REnd => c' =? c | _ => false end.
Definition hooked (c : nat) (t : thread) : bool :=
  match t with TRd c' RHook => false | TRd c' _ => c' =? c | _ => false end.

(* fewer than 2^32 messages are being handled at once: the uint32 counter cannot wrap around *)
Definition few (s : sys) : Prop := (Z.of_nat (count registered (s_ts s)) < 2 ^ 32)%Z.
(* both *)
Definition calm (s : sys) (e : ev) : Prop := no_late s e /\ few s.
(* the frame number k of connection c was read after Shutdown was called *)
Definition after_shutdown (c k : nat) (l : list event) : Prop :=
  exists l1 i l2 b m, l = l1 ++ LShutdown i :: l2 /\ In (LFrame c k b m) l2.
(* threads holding a slot of c *)
Definition holds (c : nat) (t : thread) : bool :=
  match t with
  | TRd c' (ROps _ _) | TRd c' (RFail _ _) | TRd c' (RReg _ _) | TRd c' (RDisp _ _) | TRd c' (RJob _ _ _)
  | TJob c' _ _ _ => c' =? c
  | _ => false
  end.
(* ... and slots lost by refusing a request during shutdown *)
Definition leaked (c : nat) (e : event) : bool :=
  match e with LShutReply c' _ _ _ => c' =? c | _ => false end.
(* handler invocations on any connection *)
Definition any_start (e : event) : bool := match e with LStart _ _ _ => true | _ => false end.
Definition any_end (e : event) : bool := match e with LEnd _ _ => true | _ => false end.
(* signals and requests on the way to their handler, and those given to it *)
Definition is_app (m : message) : bool :=
  match route_of (m_type m) with RtSignal | RtRequest => true | _ => false end.
Definition started (c k : nat) (want : message -> bool) (e : event) : bool :=
  match e with LStart c' k' m => msg_is c k want c' k' m | _ => false end.
Definition before_start (c k : nat) (want : message -> bool) (t : thread) : bool :=
  match t with
  | TRd c' (RGot k' m) | TRd c' (RSlot k' m) | TRd c' (ROps k' m) | TRd c' (RFail k' m)
  | TRd c' (RReg k' m) | TRd c' (RDisp k' m) | TRd c' (RJob k' m JStart) | TJob c' k' m JStart =>
      msg_is c k want c' k' m
  | _ => false
  end.
(* later states of a run *)
Inductive later (ok : sys -> ev -> Prop) (s : sys) : sys -> Prop :=
| L_now : later ok s s
| L_step s1 e s2 : later ok s s1 -> ok s1 e -> dstep s1 e = Some s2 -> later ok s s2.
(* message k of connection c is given to a handler, answered, or refused with a reply *)
Definition acted_on (c k : nat) (e : event) : bool :=
  match e with
  | LStart c' k' _ | LReply c' k' _ _ _ | LSession c' k' _ | LShutReply c' k' _ _ => (c' =? c) && (k' =? k)
  | _ => false
  end.
(* what thread t may do in state s, being thread number i: finished threads do nothing; the
   others can go on whatever the socket and the hooks answer, unless they wait for a handler
   slot or for the handlers to end *)
Definition can (s : sys) (i : nat) (ch : choice) : Prop := exists s', dstep s (EvStep i ch) = Some s'.
Definition finished (t : thread) : bool :=
  match t with TEnd | TRd _ REnd | TClR _ | TShR => true | _ => false end.
Definition at_hook (t : thread) : bool :=
  match t with TRd _ (RJob _ _ JRun) | TJob _ _ _ JRun => true | _ => false end.
Definition at_writer (t : thread) : bool :=
  match t with TRd _ (RFail _ _) | TRd _ (RJob _ _ (JRep _)) | TJob _ _ _ (JRep _) => true | _ => false end.
Definition may_go_on (s : sys) (i : nat) (t : thread) : Prop :=
  if finished t then forall ch, ~ can s i ch
  else if at_hook t then forall r, can s i (ChRet r)
  else if at_writer t then forall w, can s i (ChWriter w)
  else match t with
       | TNew _ => forall w, can s i (ChConf w)
       | TRd _ RWait => (forall b, can s i (ChFrame b)) /\ can s i ChErr
       | TRd c (RSlot _ _) => can s i Go \/
           c_limit (v_conn (s_srv s) c) = Z.of_nat (count (holds c) (s_ts s) + count (leaked c) (slog s))
       | TShW => can s i Go \/ v_rdy (s_srv s) = false
       | _ => can s i Go
       end.
