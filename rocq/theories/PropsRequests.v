(* Properties C18-C21: the request manager, for every interleaving of calls. *)
From Coq Require Import List Arith NArith Lia.
From Verif Require Import BaseBytes BaseConc ModelMessage ModelRequests SpecRequests ProofRequests ProofRequests2.
Import ListNotations.
Open Scope nat_scope.

(* C18: two Create calls never return requests with the same identifier, up to 2^64-1 creations *)
Theorem C18_unique_ids s i j r1 r2 q1 q2 :
  rreach anything s -> (N.of_nat (creations s) < 2 ^ 64)%N -> i <> j ->
  nth_error (threads s) i = Some (CrR r1) -> nth_error (threads s) j = Some (CrR r2) ->
  nth_error (reqs s) r1 = Some q1 -> nth_error (reqs s) r2 = Some q2 ->
  r_id q1 <> r_id q2.
Proof. exact (unique_ids s i j r1 r2 q1 q2). Qed.
Print Assumptions C18_unique_ids.

(* C18: ... and each such request exists and has an 8 byte identifier, the encoding of its number *)
Theorem C18_valid_id s i r : rreach anything s -> (N.of_nat (creations s) < 2 ^ 64)%N ->
  nth_error (threads s) i = Some (CrR r) ->
  exists q n, nth_error (reqs s) r = Some q /\ r_id q = le_put 8 n /\ length (r_id q) = 8 /\ (1 <= n <= N.of_nat (creations s))%N.
Proof. exact (created_valid s i r). Qed.
Print Assumptions C18_valid_id.

(* C19: AwaitReply on r returns a context error, a reply that a Fulfill call with r's identifier
   delivered, or an error that a Fail call with r's identifier delivered.
   (A Fail call with a nil error makes it return a nil reply and no error.) *)
Theorem C19_reply_belongs s i r res : rreach anything s -> (N.of_nat (creations s) < 2 ^ 64)%N ->
  nth_error (threads s) i = Some (AwR r res) ->
  (exists e, res = AwCtx e) \/
  exists q j, nth_error (reqs s) r = Some q /\
    ((exists m, rm_id m = r_id q /\ nth_error (threads s) j = Some (FuR m (Some r)) /\ res = AwReply (Some m)) \/
     (exists e, nth_error (threads s) j = Some (FaR (r_id q) (Some e) (Some r)) /\ res = AwErr e) \/
     (nth_error (threads s) j = Some (FaR (r_id q) None (Some r)) /\ res = AwReply None)).
Proof. exact (await_value s i r res). Qed.
Print Assumptions C19_reply_belongs.

(* C19: no delivered value is lost or returned twice *)
Theorem C19_conservation s r q : rreach anything s -> (N.of_nat (creations s) < 2 ^ 64)%N ->
  nth_error (reqs s) r = Some q ->
  count (succeeded r) (threads s) = length (r_chan q) + count (received r) (threads s) /\ length (r_chan q) <= 1.
Proof. exact (conservation s r q). Qed.
Print Assumptions C19_conservation.

(* C19: after a Fulfill/Fail call that returned true, AwaitReply can return immediately *)
Theorem C19_delivered s i r : rreach anything s -> (N.of_nat (creations s) < 2 ^ 64)%N ->
  nth_error (threads s) i = Some (Aw0 r) ->
  count (received r) (threads s) < count (succeeded r) (threads s) ->
  exists s' res, rstep s (EvStep i ChRun) = Some s' /\ nth_error (threads s') i = Some (AwR r res) /\
    (forall e, res <> AwCtx e).
Proof. exact (delivered s i r). Qed.
Print Assumptions C19_delivered.

(* C19: a context that ends makes AwaitReply return at any time, with the error that tells a
   deadline from a cancellation; the request is then no longer pending, all others still are *)
Theorem C19_context_seen s i r e : nth_error (threads s) i = Some (Aw0 r) ->
  exists s', rstep s (EvStep i (ChCtx e)) = Some s' /\ nth_error (threads s') i = Some (Aw1 r e) /\
    lastID s' = lastID s /\ pending s' = pending s /\ reqs s' = reqs s.
Proof. exact (context_error s i r e). Qed.
Print Assumptions C19_context_seen.
Theorem C19_context_returned s i r e : rreach anything s -> (N.of_nat (creations s) < 2 ^ 64)%N ->
  nth_error (threads s) i = Some (Aw1 r e) ->
  exists s', rstep s (EvStep i ChRun) = Some s' /\ reqs s' = reqs s /\ ~ In r (outstanding s') /\
    (forall x, x <> r -> In x (outstanding s') <-> In x (outstanding s)) /\
    nth_error (threads s') i = Some (AwR r (AwCtx (match e with
      | CtxDeadline => ErrDeadlineExceeded | CtxCanceled => ErrCanceled | CtxOther => ErrUnexpected end))).
Proof. exact (context_error_returns s i r e). Qed.
Print Assumptions C19_context_returned.

(* C20: when calls for one identifier do not overlap, at most one returns true ... *)
Theorem C20_serial_once s r : rreach serial s -> (N.of_nat (creations s) < 2 ^ 64)%N ->
  count (succeeded r) (threads s) <= 1.
Proof. exact (serial_once s r). Qed.
Print Assumptions C20_serial_once.

(* ... and none blocks, whether or not anybody waits for the reply *)
Theorem C20_serial_no_block s i t : rreach serial s -> (N.of_nat (creations s) < 2 ^ 64)%N ->
  nth_error (threads s) i = Some t -> running t -> rstep s (EvStep i ChRun) <> None.
Proof. exact (serial_no_block s i t). Qed.
Print Assumptions C20_serial_no_block.

(* C20 at full strength is false: overlapping calls can both find the request.
   Both return true if somebody takes the first reply in between ... *)
Definition m1 := MkRMsg [x01;x00;x00;x00;x00;x00;x00;x00] 7.
Definition m2 := MkRMsg [x01;x00;x00;x00;x00;x00;x00;x00] 8.
Definition overlap : list rev :=
  [EvCall CallCreate; EvStep 0 ChRun; EvStep 0 ChRun; EvCall (CallFulfill m1); EvCall (CallFulfill m2); EvCall (CallAwait 0);
   EvStep 1 ChRun; EvStep 2 ChRun; EvStep 1 ChRun; EvStep 1 ChRun].
Theorem C20_twice_refuted : exists s r, rreach anything s /\ (N.of_nat (creations s) < 2 ^ 64)%N /\
  count (succeeded r) (threads s) = 2.
Proof.
  destruct (rrun NewRequestManager (overlap ++ [EvStep 3 ChRun; EvStep 2 ChRun; EvStep 2 ChRun])) as [s|] eqn:E; [|vm_compute in E; discriminate].
  exists s, 0. split; [eapply rrun_reach; [constructor|exact E]|]. vm_compute in E. injection E as <-. split; vm_compute; reflexivity.
Qed.
Print Assumptions C20_twice_refuted.

(* ... and the second one blocks for ever if nobody takes the replies: once AwaitReply has given
   up no step of any thread can unblock it *)
Theorem C20_blocks_refuted : exists s i t, rreach anything s /\ (N.of_nat (creations s) < 2 ^ 64)%N /\
  nth_error (threads s) i = Some t /\ running t /\
  (forall j c, rstep s (EvStep j c) = None).
Proof.
  destruct (rrun NewRequestManager (overlap ++ [EvStep 3 (ChCtx CtxCanceled); EvStep 3 ChRun; EvStep 2 ChRun])) as [s|] eqn:E; [|vm_compute in E; discriminate].
  exists s, 2, (Fu2 m2 0). split; [eapply rrun_reach; [constructor|exact E]|]. vm_compute in E. injection E as <-.
  split; [vm_compute; reflexivity|]. split; [reflexivity|]. split; [exact I|].
  intros j c. do 4 (destruct j as [|j]; [destruct c; reflexivity|]). destruct j; reflexivity.
Qed.
Print Assumptions C20_blocks_refuted.

(* C21: IsPending(id) answers whether an outstanding request has identifier id *)
Theorem C21_is_pending s i id : rreach anything s -> (N.of_nat (creations s) < 2 ^ 64)%N ->
  nth_error (threads s) i = Some (Ip0 id) ->
  exists s' b, rstep s (EvStep i ChRun) = Some s' /\ nth_error (threads s') i = Some (IpR id b) /\
    pending s' = pending s /\ reqs s' = reqs s /\
    (b = true <-> exists r q, In r (outstanding s) /\ nth_error (reqs s) r = Some q /\ r_id q = id).
Proof. exact (is_pending_exact s i id). Qed.
Print Assumptions C21_is_pending.

(* C21: PendingRequests returns the number of outstanding requests *)
Theorem C21_pending_requests s i : rreach anything s -> (N.of_nat (creations s) < 2 ^ 64)%N ->
  nth_error (threads s) i = Some Pn0 ->
  exists s', rstep s (EvStep i ChRun) = Some s' /\ nth_error (threads s') i = Some (PnR (length (outstanding s))) /\
    pending s' = pending s /\ reqs s' = reqs s.
Proof. exact (pending_requests_exact s i). Qed.
Print Assumptions C21_pending_requests.

(* C21: a request is not outstanding once AwaitReply returned ... *)
Theorem C21_after_await s i r res : rreach anything s -> (N.of_nat (creations s) < 2 ^ 64)%N ->
  nth_error (threads s) i = Some (AwR r res) -> ~ In r (outstanding s).
Proof. exact (awaited_not_outstanding s i r res). Qed.
Print Assumptions C21_after_await.

(* ... or a Fulfill/Fail call returned true for it *)
Theorem C21_after_resolved s i t r : nth_error (threads s) i = Some t -> succeeded r t = true -> ~ In r (outstanding s).
Proof. exact (resolved_not_outstanding s i t r). Qed.
Print Assumptions C21_after_resolved.

(* C21: Fulfill and Fail find exactly the outstanding request with their identifier *)
Theorem C21_fulfill_finds s i m : rreach anything s -> (N.of_nat (creations s) < 2 ^ 64)%N ->
  nth_error (threads s) i = Some (Fu0 m) ->
  exists s', rstep s (EvStep i ChRun) = Some s' /\
    match nth_error (threads s') i with
    | Some (Fu1 m' r) => m' = m /\ In r (outstanding s) /\ exists q, nth_error (reqs s) r = Some q /\ r_id q = rm_id m
    | Some (FuR m' None) => m' = m /\ forall r q, In r (outstanding s) -> nth_error (reqs s) r = Some q -> r_id q <> rm_id m
    | _ => False
    end.
Proof. exact (fulfill_finds s i m). Qed.
Print Assumptions C21_fulfill_finds.
Theorem C21_fail_finds s i id e : rreach anything s -> (N.of_nat (creations s) < 2 ^ 64)%N ->
  nth_error (threads s) i = Some (Fa0 id e) ->
  exists s', rstep s (EvStep i ChRun) = Some s' /\
    match nth_error (threads s') i with
    | Some (Fa1 id' e' r) => id' = id /\ e' = e /\ In r (outstanding s) /\ exists q, nth_error (reqs s) r = Some q /\ r_id q = id
    | Some (FaR id' e' None) => id' = id /\ e' = e /\ forall r q, In r (outstanding s) -> nth_error (reqs s) r = Some q -> r_id q <> id
    | _ => False
    end.
Proof. exact (fail_finds s i id e). Qed.
Print Assumptions C21_fail_finds.

(* C21: threads are the calls made, in order; they make few steps ... *)
Theorem C21_calls es s : rrun NewRequestManager es = Some s -> map asked (threads s) = asks es.
Proof. exact (all_asked es s). Qed.
Print Assumptions C21_calls.
Theorem C21_steps s es s' i t : rrun s es = Some s' -> nth_error (threads s) i = Some t -> taken i es <= steps_for (asked t).
Proof. exact (few_taken s es s' i t). Qed.
Print Assumptions C21_steps.
(* ... and wait only in AwaitReply for a value, and in Fulfill and Fail for AwaitReply to take the last value *)
Theorem C21_waiting s i t : rreach anything s -> (N.of_nat (creations s) < 2 ^ 64)%N -> nth_error (threads s) i = Some t -> finished t = false ->
  ((forall s', rstep s (EvStep i ChRun) <> Some s') <-> held_up s t).
Proof. exact (who_is_held_up s i t). Qed.
Print Assumptions C21_waiting.

(* concrete cases: two requests; the second is fulfilled out of order, the first is failed *)
Definition two_requests : list rev :=
  [EvCall CallCreate; EvCall CallCreate; EvStep 0 ChRun; EvStep 1 ChRun; EvStep 1 ChRun; EvStep 0 ChRun;
   EvCall (CallAwait 0); EvCall (CallAwait 1); EvCall (CallFulfill m1); EvCall (CallFail [x02;x00;x00;x00;x00;x00;x00;x00] (Some 3))].
Definition m_of (es : list rev) : option manager := rrun NewRequestManager es.
Example two_requests_pending : option_map (fun s => (map r_id (reqs s), outstanding s, creations s)) (m_of two_requests)
  = Some ([[x02;x00;x00;x00;x00;x00;x00;x00]; [x01;x00;x00;x00;x00;x00;x00;x00]], [0; 1], 2).
Proof. vm_compute. reflexivity. Qed.
Example two_requests_served :
  option_map (fun s => (threads s, outstanding s)) (m_of (two_requests ++
    [EvStep 4 ChRun; EvStep 4 ChRun; EvStep 4 ChRun; EvStep 5 ChRun; EvStep 5 ChRun; EvStep 5 ChRun; EvStep 2 ChRun; EvStep 3 ChRun]))
  = Some ([CrR 1; CrR 0; AwR 0 (AwErr 3); AwR 1 (AwReply (Some m1)); FuR m1 (Some 1); FaR [x02;x00;x00;x00;x00;x00;x00;x00] (Some 3) (Some 0)], []).
Proof. vm_compute. reflexivity. Qed.
(* the run above is serial: C20 applies to it *)
Example two_requests_serial : forall s, m_of two_requests = Some s ->
  serial s (EvStep 4 ChRun) /\ exists s', rstep s (EvStep 4 ChRun) = Some s' /\ serial s' (EvStep 5 ChRun).
Proof.
  intros s H. vm_compute in H. injection H as <-. split.
  - cbn. intros j t Hj Rt. do 6 (destruct j as [|j]; [injection Hj as <-; destruct Rt|]). destruct j; discriminate.
  - eexists. split; [reflexivity|]. cbn. intros j t Hj Rt.
    do 4 (destruct j as [|j]; [injection Hj as <-; destruct Rt|]).
    destruct j as [|j]; [injection Hj as <-; discriminate|]. destruct j as [|j]; [injection Hj as <-; destruct Rt|]. destruct j; discriminate.
Qed.
(* after a cancellation nothing is pending for the first request, and a late reply finds nothing *)
Example cancelled : option_map (fun s => (nth_error (threads s) 2, outstanding s, nth_error (threads s) 5)) (m_of (two_requests ++
    [EvStep 2 (ChCtx CtxDeadline); EvStep 2 ChRun; EvStep 5 ChRun]))
  = Some (Some (AwR 0 (AwCtx ErrDeadlineExceeded)), [1], Some (FaR [x02;x00;x00;x00;x00;x00;x00;x00] (Some 3) None)).
Proof. vm_compute. reflexivity. Qed.
Example C21_calls_case : exists s, m_of (two_requests ++ [EvCall CallPendingRequests; EvStep 6 ChRun; EvCall (CallIsPending (rm_id m1)); EvStep 7 ChRun]) = Some s /\
  map asked (threads s) = [CallCreate; CallCreate; CallAwait 0; CallAwait 1; CallFulfill m1; CallFail [x02;x00;x00;x00;x00;x00;x00;x00] (Some 3); CallPendingRequests; CallIsPending (rm_id m1)] /\
  nth_error (threads s) 6 = Some (PnR 2) /\ nth_error (threads s) 7 = Some (IpR (rm_id m1) true) /\ nth_error (threads s) 2 = Some (Aw0 0) /\ held_up s (Aw0 0).
Proof. eexists. split; [vm_compute; reflexivity|]. do 4 (split; [reflexivity|]). exists 0. eexists. split; [reflexivity|]. split; reflexivity. Qed.
