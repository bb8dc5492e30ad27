(* Model of package requestManager: concurrent Create, Fulfill, Fail, AwaitReply,
   PendingRequests and IsPending calls as threads that take one atomic action per step
   (atomic operation, lock-protected section, channel operation).
   Source: /repo/requestManager/requestManager.go, request.go, /repo/translateContextError.go *)
From Coq Require Import List Arith NArith Bool.
From Verif Require Import BaseBytes BaseConc ModelMessage.
Import ListNotations.
Open Scope nat_scope.

(* *message.Message: MsgIdentifier, everything else is opaque *)
Record msg := MkRMsg { rm_id : bytes; rm_content : nat }.
(* request.go:15-18; errors are numbers, None is nil *)
Record genericReply := MkGR { g_msg : option msg; g_err : option nat }.
(* request.go:21-31; the Reply channel has capacity 1 (requestManager.go:41) *)
Record request := MkReq { r_id : bytes; r_chan : list genericReply }.
Definition chan_cap := 1.

Inductive ctx_err := CtxDeadline | CtxCanceled | CtxOther.
Inductive api_err := ErrDeadlineExceeded | ErrCanceled | ErrUnexpected.
(* translateContextError.go:9-16 *)
Definition TranslateContextError (e : ctx_err) : api_err :=
  match e with
  | CtxDeadline => ErrDeadlineExceeded
  | CtxCanceled => ErrCanceled
  | CtxOther => ErrUnexpected
  end.

(* result of AwaitReply: a context error, an error given to Fail, or a reply *)
Inductive await_res := AwCtx (e : api_err) | AwErr (e : nat) | AwReply (m : option msg).

(* a call in progress: function, program counter, local variables; ...R: returned *)
Inductive thread :=
| Cr0 | Cr1 (ident : N) | CrR (r : nat)                        (* Create *)
| Fu0 (m : msg) | Fu1 (m : msg) (r : nat) | Fu2 (m : msg) (r : nat)
| FuR (m : msg) (ret : option nat)                              (* Fulfill; Some r: true *)
| Fa0 (id : bytes) (e : option nat) | Fa1 (id : bytes) (e : option nat) (r : nat)
| Fa2 (id : bytes) (e : option nat) (r : nat)
| FaR (id : bytes) (e : option nat) (ret : option nat)          (* Fail; Some r: true *)
| Aw0 (r : nat) | Aw1 (r : nat) (e : ctx_err) | AwR (r : nat) (res : await_res)
| Pn0 | PnR (n : nat)                                           (* PendingRequests *)
| Ip0 (id : bytes) | IpR (id : bytes) (b : bool).               (* IsPending *)

(* requestManager.go:12-18; requests are identified by their index in [reqs] (address) *)
Record manager := MkMgr {
  lastID : N; pending : list (bytes * nat); reqs : list request; threads : list thread }.
(* requestManager.go:21-27 *)
Definition NewRequestManager : manager := MkMgr 0 [] [] [].

Definition set_lastID n s := MkMgr n (pending s) (reqs s) (threads s).
Definition set_pending p s := MkMgr (lastID s) p (reqs s) (threads s).
Definition set_reqs q s := MkMgr (lastID s) (pending s) q (threads s).
Definition set_thread i t s := MkMgr (lastID s) (pending s) (reqs s) (set_nth (threads s) i t).

(* requestManager.go:34 : atomic.AddUint64(&manager.lastID, 1) *)
Definition add_id (s : manager) : manager * N :=
  let n := ((lastID s + 1) mod 2 ^ 64)%N in (set_lastID n s, n).
(* requestManager.go:36-48 : the new request is invisible to others until registered *)
Definition register (s : manager) (ident : N) : manager * nat :=
  let id := le_put 8 ident in
  let r := length (reqs s) in
  (set_pending (map_set bytes_eqb (pending s) id r) (set_reqs (reqs s ++ [MkReq id []]) s), r).
(* requestManager.go:55-59 *)
Definition deregister (s : manager) (id : bytes) : manager :=
  set_pending (map_del bytes_eqb (pending s) id) s.
(* req.Reply <- v : None while the channel is full *)
Definition send (s : manager) (r : nat) (v : genericReply) : option manager :=
  let? q := nth_error (reqs s) r in
  if length (r_chan q) <? chan_cap
  then Some (set_reqs (set_nth (reqs s) r (MkReq (r_id q) (r_chan q ++ [v]))) s) else None.
(* <-req.Reply : None while the channel is empty *)
Definition recv (s : manager) (r : nat) : option (manager * genericReply) :=
  let? q := nth_error (reqs s) r in
  match r_chan q with
  | [] => None
  | v :: rest => Some (set_reqs (set_nth (reqs s) r (MkReq (r_id q) rest)) s, v)
  end.
(* request.go:45-48 *)
Definition reply_of (v : genericReply) : await_res :=
  match g_err v with Some e => AwErr e | None => AwReply (g_msg v) end.

(* choice of the select in AwaitReply: the context is done, or the channel is served *)
Inductive choice := ChCtx (e : ctx_err) | ChRun.

(* one atomic action of thread t; None: blocked, finished, or not a possible choice *)
Definition thread_step (s : manager) (t : thread) (c : choice) : option (manager * thread) :=
  match t, c with
  | Cr0, ChRun => let '(s1, n) := add_id s in Some (s1, Cr1 n)
  | Cr1 n, ChRun => let '(s1, r) := register s n in Some (s1, CrR r)
  (* requestManager.go:65-79 *)
  | Fu0 m, ChRun => match map_get bytes_eqb (pending s) (rm_id m) with
                    | None => Some (s, FuR m None)
                    | Some r => Some (s, Fu1 m r)
                    end
  | Fu1 m r, ChRun => Some (deregister s (rm_id m), Fu2 m r)
  | Fu2 m r, ChRun => let? s1 := send s r (MkGR (Some m) None) in Some (s1, FuR m (Some r))
  (* requestManager.go:84-101 *)
  | Fa0 id e, ChRun => match map_get bytes_eqb (pending s) id with
                       | None => Some (s, FaR id e None)
                       | Some r => Some (s, Fa1 id e r)
                       end
  | Fa1 id e r, ChRun => Some (deregister s id, Fa2 id e r)
  | Fa2 id e r, ChRun => let? s1 := send s r (MkGR None e) in Some (s1, FaR id e (Some r))
  (* request.go:37-50 *)
  | Aw0 r, ChCtx e => Some (s, Aw1 r e)
  | Aw0 r, ChRun => let? (s1, v) := recv s r in Some (s1, AwR r (reply_of v))
  | Aw1 r e, ChRun => let? q := nth_error (reqs s) r in
                      Some (deregister s (r_id q), AwR r (AwCtx (TranslateContextError e)))
  (* requestManager.go:104-109 *)
  | Pn0, ChRun => Some (s, PnR (length (pending s)))
  (* requestManager.go:113-118 *)
  | Ip0 id, ChRun =>
      Some (s, IpR id (match map_get bytes_eqb (pending s) id with Some _ => true | None => false end))
  | _, _ => None
  end.

(* calls a user can make *)
Inductive rcall :=
| CallCreate | CallFulfill (m : msg) | CallFail (id : bytes) (e : option nat) | CallAwait (r : nat)
| CallPendingRequests | CallIsPending (id : bytes).
Definition start (c : rcall) : thread :=
  match c with
  | CallCreate => Cr0 | CallFulfill m => Fu0 m | CallFail id e => Fa0 id e | CallAwait r => Aw0 r
  | CallPendingRequests => Pn0 | CallIsPending id => Ip0 id
  end.

(* events of a run: a new call in its own thread, or a step of a thread *)
Inductive rev := EvCall (c : rcall) | EvStep (i : nat) (c : choice).
Definition rstep (s : manager) (e : rev) : option manager :=
  match e with
  | EvCall (CallAwait r) =>
      (* AwaitReply is a method of a request that Create returned *)
      if existsb (fun t => match t with CrR r' => r =? r' | _ => false end) (threads s)
      then Some (MkMgr (lastID s) (pending s) (reqs s) (threads s ++ [Aw0 r])) else None
  | EvCall c => Some (MkMgr (lastID s) (pending s) (reqs s) (threads s ++ [start c]))
  | EvStep i c =>
      let? t := nth_error (threads s) i in
      let? (s1, t1) := thread_step s t c in
      Some (set_thread i t1 s1)
  end.
