(* What callers of a request manager rely on, in terms of calls and their results. *)
From Coq Require Import List Arith NArith.
From Verif Require Import BaseBytes BaseConc ModelMessage ModelRequests.
Import ListNotations.
Open Scope nat_scope.

(* runs: all interleavings of any calls; [ok] restricts when an event may happen *)
Inductive rreach (ok : manager -> rev -> Prop) : manager -> Prop :=
| RR_new : rreach ok NewRequestManager
| RR_step s e s' : rreach ok s -> ok s e -> rstep s e = Some s' -> rreach ok s'.
Definition anything (s : manager) (e : rev) : Prop := True.

(* Create calls that obtained their number *)
Definition past_add (t : thread) : bool := match t with Cr1 _ | CrR _ => true | _ => false end.
Definition creations (s : manager) : nat := count past_add (threads s).

(* a Fulfill or Fail call and what it is for: identifier, value *)
Definition resolves (t : thread) : option (bytes * genericReply) :=
  match t with
  | Fu0 m | Fu1 m _ | Fu2 m _ | FuR m _ => Some (rm_id m, MkGR (Some m) None)
  | Fa0 id e | Fa1 id e _ | Fa2 id e _ | FaR id e _ => Some (id, MkGR None e)
  | _ => None
  end.
(* ... that has begun and not returned *)
Definition running (t : thread) : Prop :=
  match t with Fu1 _ _ | Fu2 _ _ | Fa1 _ _ _ | Fa2 _ _ _ => True | _ => False end.
(* ... that returned true, for request r *)
Definition succeeded (r : nat) (t : thread) : bool :=
  match t with FuR _ (Some x) | FaR _ _ (Some x) => r =? x | _ => false end.
(* an AwaitReply call on r that took a value from the channel / returned *)
Definition received (r : nat) (t : thread) : bool :=
  match t with AwR x (AwErr _) | AwR x (AwReply _) => r =? x | _ => false end.
Definition awaited (r : nat) (t : thread) : Prop :=
  match t with AwR x _ => r = x | _ => False end.

(* one caller at a time resolves a given identifier: a Fulfill/Fail call starts only when no
   other one for the same identifier is running *)
Definition serial (s : manager) (e : rev) : Prop :=
  match e with
  | EvStep i ChRun =>
      match nth_error (threads s) i with
      | Some (Fu0 m) => forall j t, nth_error (threads s) j = Some t -> running t ->
                          option_map fst (resolves t) <> Some (rm_id m)
      | Some (Fa0 id _) => forall j t, nth_error (threads s) j = Some t -> running t ->
                          option_map fst (resolves t) <> Some id
      | _ => True
      end
  | _ => True
  end.

(* no call in progress *)
Definition quiescent (s : manager) : Prop :=
  forall t, In t (threads s) ->
    match t with CrR _ | FuR _ _ | FaR _ _ _ | AwR _ _ | PnR _ | IpR _ _ => True | _ => False end.

(* request r (an index into reqs) stops being pending when a Fulfill or Fail call that found it
   has removed it, or when AwaitReply gave up on it *)
Definition closes (r : nat) (t : thread) : bool :=
  match t with
  | Fu2 _ x | FuR _ (Some x) | Fa2 _ _ x | FaR _ _ (Some x) | AwR x (AwCtx _) => r =? x
  | _ => false
  end.
(* the requests created and not closed, oldest first *)
Definition outstanding (s : manager) : list nat :=
  filter (fun r => negb (existsb (closes r) (threads s))) (seq 0 (length (reqs s))).
(* the Create call that returned request r *)
Definition created (r : nat) (t : thread) : bool := match t with CrR x => r =? x | _ => false end.
(* a Fulfill or Fail call that has found request r *)
Definition engaged (r : nat) (t : thread) : bool :=
  match t with
  | Fu1 _ x | Fu2 _ x | FuR _ (Some x) | Fa1 _ _ x | Fa2 _ _ x | FaR _ _ (Some x) => r =? x
  | _ => false
  end.

(* runs as lists of events *)
Fixpoint rrun (s : manager) (es : list rev) : option manager :=
  match es with [] => Some s | e :: es' => match rstep s e with Some s' => rrun s' es' | None => None end end.

(* the call a thread makes; the calls made in a run *)
Definition asked (t : thread) : rcall :=
  match t with
  | Cr0 | Cr1 _ | CrR _ => CallCreate
  | Fu0 m | Fu1 m _ | Fu2 m _ | FuR m _ => CallFulfill m
  | Fa0 id e | Fa1 id e _ | Fa2 id e _ | FaR id e _ => CallFail id e
  | Aw0 r | Aw1 r _ | AwR r _ => CallAwait r
  | Pn0 | PnR _ => CallPendingRequests
  | Ip0 id | IpR id _ => CallIsPending id
  end.
Definition asks (es : list rev) : list rcall := flat_map (fun e => match e with EvCall c => [c] | _ => [] end) es.
Definition finished (t : thread) : bool := match t with CrR _ | FuR _ _ | FaR _ _ _ | AwR _ _ | PnR _ | IpR _ _ => true | _ => false end.
(* steps of thread i in a run, and how many there may be *)
Definition taken (i : nat) (es : list rev) : nat :=
  length (filter (fun e => match e with EvStep j _ => j =? i | _ => false end) es).
Definition steps_for (c : rcall) : nat :=
  match c with CallCreate | CallAwait _ => 2 | CallFulfill _ | CallFail _ _ => 3 | CallPendingRequests | CallIsPending _ => 1 end.
(* waiting for a value, or to put one where there is one already *)
Definition held_up (s : manager) (t : thread) : Prop :=
  exists r q, nth_error (reqs s) r = Some q /\
  match t with
  | Aw0 x => x = r /\ r_chan q = []
  | Fu2 _ x | Fa2 _ _ x => x = r /\ r_chan q <> []
  | _ => False
  end.
