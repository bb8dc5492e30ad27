(* Endpoints that keep to the rules for pooled messages: the reader gives away or drops only
   messages it holds, takes a message back when Fulfill did not want it, and every reply is closed
   at most once. *)
From Coq Require Import List Arith NArith.
From Verif Require Import BaseBytes BaseConc ModelMessage ModelPool ModelRequests ModelReply SpecMessage.
Import ListNotations.
Open Scope nat_scope.

(* beside the state: the messages the reader holds, the calls whose message was taken back or whose
   reply was closed, and the frames read into messages, newest first *)
Record desk := MkDesk {
  w_client : client; w_held : list nat; w_done : list nat; w_frames : list (nat * bytes) }.
Definition frame_of (w : desk) (a : nat) : option bytes :=
  option_map snd (find (fun x => fst x =? a) (w_frames w)).

(* thread i is an AwaitReply call on request r that returned the reply with message m, and the
   reply was not closed *)
Definition open_reply (w : desk) (i r : nat) (m : ModelRequests.msg) : Prop :=
  nth_error (threads (k_mgr (w_client w))) i = Some (AwR r (AwReply (Some m))) /\ ~ In i (w_done w).

Inductive moves : desk -> desk -> Prop :=
| Mv_receive k h d F pick b p1 a p2 k' : Get (k_pool k) pick = (p1, a) -> pool_read p1 a b = Some (p2, true, None) ->
    kstep k (KReceive pick b) = Some k' -> moves (MkDesk k h d F) (MkDesk k' (a :: h) d ((a, b) :: F))
| Mv_refuse k h d F pick b p1 a p2 ok e k' : Get (k_pool k) pick = (p1, a) -> pool_read p1 a b = Some (p2, ok, e) ->
    ok = false \/ e <> None ->
    kstep k (KReceive pick b) = Some k' -> moves (MkDesk k h d F) (MkDesk k' h d ((a, b) :: F))
| Mv_give k h d F a k' : In a h -> kstep k (KGive a) = Some k' ->
    moves (MkDesk k h d F) (MkDesk k' (remove Nat.eq_dec a h) d F)
| Mv_drop k h d F a k' : In a h -> kstep k (KDrop a) = Some k' ->
    moves (MkDesk k h d F) (MkDesk k' (remove Nat.eq_dec a h) d F)
| Mv_back k h d F i m : nth_error (threads (k_mgr k)) i = Some (FuR m None) -> ~ In i d ->
    moves (MkDesk k h d F) (MkDesk k (rm_content m :: h) (i :: d) F)
| Mv_manager k h d F e k' : kstep k (KMgr e) = Some k' -> moves (MkDesk k h d F) (MkDesk k' h d F)
| Mv_close k h d F i r m k' : open_reply (MkDesk k h d F) i r m -> kstep k (KClose i) = Some k' ->
    moves (MkDesk k h d F) (MkDesk k' h (i :: d) F).

Inductive moved : desk -> desk -> Prop :=
| Md_refl w : moved w w
| Md_step w1 w2 w3 : moved w1 w2 -> moves w2 w3 -> moved w1 w3.
Definition desks (w : desk) : Prop := exists size, moved (MkDesk (new_client size) [] [] []) w.
