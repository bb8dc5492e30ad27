(* Runs of a server with its clients and what the clients are entitled to. *)
From Coq Require Import List Arith NArith ZArith Bool.
From Verif Require Import BaseBytes BaseConc ModelMessage ModelWrite ModelPool ModelPayload ModelHandle
  ModelServe ModelRequests ModelLink SpecWire SpecMessage SpecWrite SpecHandle SpecServe SpecRequests.
Import ListNotations.
Open Scope nat_scope.

Inductive lreach (buf size : nat) : link -> Prop :=
| LR_new : lreach buf size (new_link buf)
| LR_step n e n' : lreach buf size n -> link_step size n e = Some n' -> lreach buf size n'.
Fixpoint lrun (size : nat) (n : link) (es : list lev) : option link :=
  match es with [] => Some n | e :: es' => match link_step size n e with Some n' => lrun size n' es' | None => None end end.

Definition log_of (n : link) : list vevent := z_log (n_srv n).
Definition calls_of (n : link) (c : nat) : list thread := threads (q_mgr (n_peer n c)).
(* the client has made fewer than 2^64 requests *)
Definition few (n : link) (c : nat) : Prop := (N.of_nat (creations (q_mgr (n_peer n c))) < 2 ^ 64)%N.
Definition has_id (n : link) (c r : nat) (id : bytes) : Prop :=
  exists q, nth_error (reqs (q_mgr (n_peer n c))) r = Some q /\ r_id q = id.

(* what a request says *)
Definition say_content (id : bytes) (x : say) : content :=
  match x with
  | SayRequest name e p => MkContent (req_tag (enc_of e)) id name p (enc_of e) None
  | SayRestore key => MkContent 32 id [] key EBin None
  | SayClosure => MkContent 31 id [] [] EBin None
  end.
(* the frames the server accepted from client c, in order *)
Definition accepted (c : nat) (log : list vevent) : list (nat * bytes) :=
  flat_map (fun e => match e with VFrame d f b => if d =? c then [(f, b)] else [] | _ => [] end) log.
(* the server answered frame f of client c, whose identifier is id, by saying k: what the handler
   returned, the answer to a session request, or that it is shutting down *)
Definition answered (log : list vevent) (c f : nat) (id : bytes) (k : content) : Prop :=
  (exists r s, In (VRet f r) log /\ In (VReply c f r true s) log /\ k = reply_content id r) \/
  (exists an s, In (VAnswer c f an true s) log /\ k = answer_content id an) \/
  (exists s, In (VShut c f s) log /\ k = special_content 1 id).
(* the i-th frame client c read answers its request r, by saying k *)
Definition reply_for (n : link) (c r i : nat) (k : content) : Prop :=
  exists id x b f w,
    has_id n c r id /\ In (Some (r, x), b) (q_sent (n_peer n c)) /\ frame b (say_content id x) /\
    In (VFrame c f b) (log_of n) /\ nth_error (q_got (n_peer n c)) i = Some (Some f, w) /\
    reads_as w k /\ k_ident k = id /\ answered (log_of n) c f id k.
Definition positive (k : content) : Prop := (191 <= k_type k <= 193)%N.
Definition negative (k : content) : Prop := (k_type k <= 5)%N.
(* the server sent the frame w as answer to frame f of client c *)
Definition answer_sent (log : list vevent) (c f : nat) (w : bytes) : Prop :=
  let s := Used (MkSink w 1) None in
  (exists r, In (VReply c f r true s) log) \/ (exists an, In (VAnswer c f an true s) log) \/ In (VShut c f s) log.
(* what a call of AwaitReply that returned res may have returned *)
Definition own_answer (n : link) (c r : nat) (res : await_res) : Prop :=
  match res with
  | AwCtx _ => True
  | AwReply (Some m) => exists k, reply_for n c r (rm_content m) k /\ positive k /\ rm_id m = k_ident k
  | AwErr i => exists k, reply_for n c r i k /\ negative k
  | AwReply None => False
  end.
(* a Fulfill or Fail call that was given the i-th frame read, with identifier id *)
Definition gave (id : bytes) (i : nat) (t : thread) : Prop :=
  resolves t = Some (id, MkGR (Some (MkRMsg id i)) None) \/ resolves t = Some (id, MkGR None (Some i)).
