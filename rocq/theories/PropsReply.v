(* Property theorems C79: a reply shows its message until it is closed. *)
From Coq Require Import List Arith NArith ZArith Lia Bool.
From Verif Require Import BaseBytes BaseConc ModelMessage ModelPayload ModelPool ModelRequests ModelReply
  SpecWire SpecMessage SpecRequests SpecReply ProofReply PropsCodec.
Import ListNotations.
Open Scope nat_scope.

(* a reply that was not closed shows the payload, the encoding and the text of the frame that was read
   last into its message, and that frame carried the identifier of the request it is a reply to *)
Theorem C79_shows : forall w i r m, desks w -> (N.of_nat (creations (k_mgr (w_client w))) < 2 ^ 64)%N -> open_reply w i r m ->
  exists b c q e, frame_of w (rm_content m) = Some b /\ frame b c /\
    nth_error (reqs (k_mgr (w_client w))) r = Some q /\ k_ident c = r_id q /\
    reply_Payload (k_pool (w_client w)) (Some m) = Some (k_payload c) /\
    reply_PayloadEncoding (k_pool (w_client w)) (Some m) = Some e /\ (k_type c <> 0%N -> e = enc_no (k_enc c)) /\
    reply_PayloadUtf8 (k_pool (w_client w)) (Some m) = Some (Payload_Utf8 e (k_payload c)).
Proof. exact reply_shows. Qed.
Print Assumptions C79_shows.

(* whatever the reader, the manager and the other callers do meanwhile, it keeps showing the same *)
Theorem C79_stays : forall w w' i r m, desks w -> open_reply w i r m -> moved w w' -> ~ In i (w_done w') ->
  open_reply w' i r m /\ frame_of w' (rm_content m) = frame_of w (rm_content m) /\
  reply_Payload (k_pool (w_client w')) (Some m) = reply_Payload (k_pool (w_client w)) (Some m) /\
  reply_PayloadEncoding (k_pool (w_client w')) (Some m) = reply_PayloadEncoding (k_pool (w_client w)) (Some m) /\
  reply_PayloadUtf8 (k_pool (w_client w')) (Some m) = reply_PayloadUtf8 (k_pool (w_client w)) (Some m).
Proof. exact reply_stays. Qed.
Print Assumptions C79_stays.

(* its message is not the reader's, not in the pool, and not that of another reply *)
Theorem C79_exclusive : forall w i r m, desks w -> open_reply w i r m ->
  ~ In (rm_content m) (w_held w) /\ ~ In (rm_content m) (p_free (k_pool (w_client w))) /\
  forall j r' m', open_reply w j r' m' -> j <> i -> rm_content m' <> rm_content m.
Proof. exact reply_exclusive. Qed.
Print Assumptions C79_exclusive.

(* closing it puts this message, emptied, into the pool and changes no other *)
Theorem C79_closes : forall w i r m, desks w -> open_reply w i r m ->
  exists k', kstep (w_client w) (KClose i) = Some k' /\ k_mgr k' = k_mgr (w_client w) /\
    p_free (k_pool k') = rm_content m :: p_free (k_pool (w_client w)) /\
    (forall a, a <> rm_content m -> nth_error (p_heap (k_pool k')) a = nth_error (p_heap (k_pool (w_client w))) a) /\
    reply_Payload (k_pool k') (Some m) = Some [] /\ reply_PayloadEncoding (k_pool k') (Some m) = Some Binary /\
    reply_PayloadUtf8 (k_pool k') (Some m) = Some (Some []).
Proof. exact reply_closes. Qed.
Print Assumptions C79_closes.

(* the reader never panics *)
Theorem C79_reader : forall w, desks w ->
  (forall pick b, kstep (w_client w) (KReceive pick b) <> None) /\
  (forall a, In a (w_held w) -> kstep (w_client w) (KGive a) <> None /\ kstep (w_client w) (KDrop a) <> None).
Proof. exact reader_no_panic. Qed.
Print Assumptions C79_reader.

(* a message the reader does not give away goes back to the pool, and so does that of a frame that is
   refused, unless the frame is empty or too long for it: then the message is left to the garbage
   collector. No other message changes *)
Theorem C79_given_back : forall w, desks w ->
  (forall a k', In a (w_held w) -> kstep (w_client w) (KDrop a) = Some k' ->
     k_mgr k' = k_mgr (w_client w) /\ p_free (k_pool k') = a :: p_free (k_pool (w_client w)) /\
     forall x, x <> a -> nth_error (p_heap (k_pool k')) x = nth_error (p_heap (k_pool (w_client w))) x) /\
  (forall pick b p1 a p2 ok e k', Get (k_pool (w_client w)) pick = (p1, a) -> pool_read p1 a b = Some (p2, ok, e) ->
     ok = false \/ e <> None -> kstep (w_client w) (KReceive pick b) = Some k' ->
     k_mgr k' = k_mgr (w_client w) /\ (forall x, x <> a -> nth_error (p_heap (k_pool k')) x = nth_error (p_heap p1) x) /\
     (1 <= length b <= p_size (k_pool (w_client w)) -> p_free (k_pool k') = a :: p_free p1) /\
     (~ 1 <= length b <= p_size (k_pool (w_client w)) -> p_free (k_pool k') = p_free p1)).
Proof. exact given_back. Qed.
Print Assumptions C79_given_back.

(* a reply without a message comes only from a Fail call without an error *)
Theorem C79_nil_from_fail : forall s i r, rreach anything s -> (N.of_nat (creations s) < 2 ^ 64)%N ->
  nth_error (threads s) i = Some (AwR r (AwReply None)) ->
  exists q j, nth_error (reqs s) r = Some q /\ nth_error (threads s) j = Some (FaR (r_id q) None (Some r)).
Proof. exact reply_nil. Qed.
Print Assumptions C79_nil_from_fail.

(* ----- a run: two requests; the reply to the first is read and closed, its message reused ----- *)
Definition id_of (n : N) : bytes := le_put 8 n.
Definition answer (n : N) (text : list N) : bytes := bs [192]%N ++ id_of n ++ bs text.
Definition steps (i n : nat) : list act := repeat (Do (KMgr (EvStep i ChRun))) n.
(* two Create calls (threads 0 and 1), the answer "abc" to the first given to Fulfill (2), AwaitReply (3) *)
Definition first_reply : list act :=
  [Do (KMgr (EvCall CallCreate)); Do (KMgr (EvCall CallCreate))] ++ steps 0 2 ++ steps 1 2 ++
  [Do (KReceive None (answer 1 [97; 98; 99]%N)); Do (KGive 0)] ++ steps 2 3 ++ [Do (KMgr (EvCall (CallAwait 0)))] ++ steps 3 1.
(* an answer nobody waits for comes back from Fulfill (4) and is dropped, a broken frame is refused *)
Definition noise : list act :=
  [Do (KReceive (Some 0) (answer 7 [120]%N)); Do (KGive 1)] ++ steps 4 1 ++ [Back 4; Do (KDrop 1); Do (KReceive (Some 0) (bs [192; 1]%N))].
(* the first reply is closed; the answer "xy" to the second request is read into the same message (5, 6) *)
Definition second_reply : list act :=
  [Do (KClose 3); Do (KReceive (Some 0) (answer 2 [120; 121]%N)); Do (KGive 0)] ++ steps 5 3 ++ [Do (KMgr (EvCall (CallAwait 1)))] ++ steps 6 1.
Definition desk0 := MkDesk (new_client 32) [] [] [].
Definition the (o : option desk) : desk := match o with Some w => w | None => desk0 end.
Definition desk1 := the (gos desk0 first_reply).
Definition desk2 := the (gos desk1 noise).
Definition desk3 := the (gos desk2 second_reply).
Lemma run1 : gos desk0 first_reply = Some desk1.
Proof. vm_compute. reflexivity. Qed.
Lemma run2 : gos desk1 noise = Some desk2.
Proof. vm_compute. reflexivity. Qed.
Lemma run3 : gos desk2 second_reply = Some desk3.
Proof. vm_compute. reflexivity. Qed.
Lemma desks1 : desks desk1.
Proof. eapply gos_desks, run1. Qed.
Lemma desks2 : desks desk2.
Proof. eapply moved_desks; [exact desks1|]. eapply gos_moved, run2. Qed.
Lemma desks3 : desks desk3.
Proof. eapply moved_desks; [exact desks2|]. eapply gos_moved, run3. Qed.

Example C79_case : let m := MkRMsg (id_of 1) 0 in
  desks desk2 /\ moved desk1 desk2 /\ open_reply desk1 3 0 m /\ ~ In 3 (w_done desk2) /\
  reply_Payload (k_pool (w_client desk2)) (Some m) = Some abc /\ reply_PayloadEncoding (k_pool (w_client desk2)) (Some m) = Some 1%Z /\
  reply_PayloadUtf8 (k_pool (w_client desk2)) (Some m) = Some (Some abc) /\
  map fst (w_frames desk2) = [1; 1; 0] /\ p_free (k_pool (w_client desk2)) = [1].
Proof.
  intros m. split; [exact desks2|]. split; [eapply gos_moved, run2|]. split; [split; [vm_compute; reflexivity|vm_compute; tauto]|].
  split; [vm_compute; intros [|[]]; discriminate|]. vm_compute. repeat split; reflexivity.
Qed.

(* a reply does not notice that it was closed: once its message serves another reply it shows that
   one's payload, and closing it a second time empties the other reply while it is in use *)
Theorem C79_closed_refuted : exists w w' i r m j r' m' k',
  desks w /\ moved w w' /\ open_reply w i r m /\ In i (w_done w') /\ open_reply w' j r' m' /\ r <> r' /\
  reply_Payload (k_pool (w_client w)) (Some m) = Some abc /\
  reply_Payload (k_pool (w_client w')) (Some m) = Some (bs [120; 121]%N) /\
  reply_Payload (k_pool (w_client w')) (Some m') = Some (bs [120; 121]%N) /\
  kstep (w_client w') (KClose i) = Some k' /\ reply_Payload (k_pool k') (Some m') = Some [].
Proof.
  exists desk2, desk3, 3, 0, (MkRMsg (id_of 1) 0), 6, 1, (MkRMsg (id_of 2) 0).
  destruct (kstep (w_client desk3) (KClose 3)) as [k'|] eqn:K; [|vm_compute in K; discriminate K].
  exists k'. split; [exact desks2|]. split; [eapply gos_moved, run3|].
  split; [split; [vm_compute; reflexivity|vm_compute; intros [|[]]; discriminate]|]. split; [vm_compute; tauto|].
  split; [split; [vm_compute; reflexivity|vm_compute; intros [|[|[]]]; discriminate]|]. split; [discriminate|].
  split; [vm_compute; reflexivity|]. split; [vm_compute; reflexivity|]. split; [vm_compute; reflexivity|]. split; [reflexivity|].
  vm_compute in K. injection K as <-. vm_compute. reflexivity.
Qed.
Print Assumptions C79_closed_refuted.

(* Fail with a nil error: AwaitReply returns a reply and no error, and every method of it panics *)
Definition failed_nil : list act :=
  [Do (KMgr (EvCall CallCreate))] ++ steps 0 2 ++ [Do (KMgr (EvCall (CallFail (id_of 1) None)))] ++ steps 1 3 ++
  [Do (KMgr (EvCall (CallAwait 0)))] ++ steps 2 1.
Theorem C79_nil_refuted : exists w i r, desks w /\
  nth_error (threads (k_mgr (w_client w))) i = Some (AwR r (AwReply None)) /\
  reply_Payload (k_pool (w_client w)) None = None /\ reply_PayloadEncoding (k_pool (w_client w)) None = None /\
  reply_PayloadUtf8 (k_pool (w_client w)) None = None /\ kstep (w_client w) (KClose i) = None.
Proof.
  destruct (gos desk0 failed_nil) as [w|] eqn:R; [|vm_compute in R; discriminate R].
  exists w, 2, 0. split; [eapply gos_desks, R|]. vm_compute in R. injection R as <-. vm_compute. repeat split; reflexivity.
Qed.
Print Assumptions C79_nil_refuted.
