(* Model of replies: what AwaitReply hands to its caller, over messages that live in a pool.
   Source: /repo/requestManager/reply.go, request.go:43-50.

   The manager of ModelRequests passes messages on without looking at their content; here the
   content number of such a message is the address of a message in the pool of ModelPool. *)
From Coq Require Import List Arith NArith ZArith Bool.
From Verif Require Import BaseBytes BaseConc ModelMessage ModelPayload ModelPool ModelRequests.
Import ListNotations.
Open Scope nat_scope.

(* reply.go:9-11: the message pointer; None is nil *)
Definition reply := option ModelRequests.msg.
Definition at_msg (p : pool) (rp : reply) : option message :=
  let? m := rp in nth_error (p_heap p) (rm_content m).
(* reply.go:14-16, 19-21, 24-26; None: nil pointer dereference *)
Definition reply_PayloadEncoding (p : pool) (rp : reply) : option encoding :=
  let? m := at_msg p rp in Some (m_enc m).
Definition reply_Payload (p : pool) (rp : reply) : option bytes :=
  let? m := at_msg p rp in Some (g_get (m_buf m) (m_pld m)).
(* the inner None: an error is returned *)
Definition reply_PayloadUtf8 (p : pool) (rp : reply) : option (option bytes) :=
  let? m := at_msg p rp in Some (Payload_Utf8 (m_enc m) (g_get (m_buf m) (m_pld m))).
(* reply.go:29-31 *)
Definition reply_Close (p : pool) (rp : reply) : option pool :=
  let? m := rp in pool_close p (rm_content m).

(* an endpoint that makes requests: the manager, and the pool its reader takes messages from *)
Record client := MkClient { k_mgr : manager; k_pool : pool }.
Definition new_client (bufferSize : nat) : client := MkClient NewRequestManager (NewSyncPool bufferSize).
Definition with_mgr (k : client) (s : manager) : client := MkClient s (k_pool k).
Definition with_pool (k : client) (p : pool) : client := MkClient (k_mgr k) p.

(* KReceive: the reader takes a message from the pool and reads a frame into it; a frame that is
   refused is dropped and the message closed. KGive: the reader gives the message at an address to
   Fulfill. KDrop: it closes the message instead. KMgr: any other call or step of the manager.
   KClose: the caller of the AwaitReply call of thread i closes the reply. *)
Inductive kev :=
| KReceive (pick : option nat) (b : bytes) | KGive (a : nat) | KDrop (a : nat)
| KMgr (e : rev) | KClose (i : nat).
Definition kstep (k : client) (e : kev) : option client :=
  match e with
  | KReceive pick b =>
      let '(p1, a) := Get (k_pool k) pick in
      let? (p2, ok, er) := pool_read p1 a b in
      match ok, er with
      | true, None => Some (with_pool k p2)
      | _, _ => let? p3 := pool_close p2 a in Some (with_pool k p3)
      end
  | KGive a =>
      let? m := nth_error (p_heap (k_pool k)) a in
      let? s := rstep (k_mgr k) (EvCall (CallFulfill (MkRMsg (m_ident m) a))) in
      Some (with_mgr k s)
  | KDrop a => let? p := pool_close (k_pool k) a in Some (with_pool k p)
  | KMgr (EvCall (CallFulfill _)) => None
  | KMgr e => let? s := rstep (k_mgr k) e in Some (with_mgr k s)
  | KClose i =>
      match nth_error (threads (k_mgr k)) i with
      | Some (AwR _ (AwReply rp)) => let? p := reply_Close (k_pool k) rp in Some (with_pool k p)
      | _ => None
      end
  end.
