(* Property theorems C59-C61: the life of messages shared by the connections of a server. *)
From Coq Require Import List Arith NArith ZArith Lia Bool.
From Verif Require Import BaseBytes BaseConc ModelMessage ModelWrite ModelPool ModelPayload ModelHandle
  ModelServe SpecWire SpecMessage SpecWrite SpecHandle SpecServe ProofServe ProofServe2 ProofServe3 ProofServe4 ProofServe5 PropsCodec.
Import ListNotations.
Open Scope nat_scope.

(* ================= C59 ================= *)
(* accessors show the frame the handler was called for, and nothing else, until the message is
   released *)
Theorem C59_accessors : forall buf z l1 f g v l2, zreach buf polite z -> z_log z = l1 ++ VSee f g v :: l2 ->
  exists c b k, In (VFrame c f b) l1 /\ frame b k /\ v = shown k g /\ ~ In (VFree f) l1.
Proof. exact sees. Qed.
Print Assumptions C59_accessors.
(* the reply to a request goes to the connection and has the identifier of the request; it is
   what the handler returned; it is the only answer *)
Theorem C59_replies : forall buf z l1 c f r ok s l2,
  zreach buf polite z -> z_log z = l1 ++ VReply c f r ok s :: l2 ->
  exists b k, In (VFrame c f b) l1 /\ frame b k /\ app_request (k_type k) /\
    (ok = true -> sendable r -> told s (reply_content (k_ident k) r)) /\
    (ok = false -> s = NoWriter) /\
    (ok = true -> ~ sendable r -> exists er, s = Used (MkSink [] 1) (Some er)) /\
    (forall e, In e l1 -> answers f e = false).
Proof. exact replies. Qed.
Print Assumptions C59_replies.
Theorem C59_reply_is_result : forall buf z l1 c f r ok s l2,
  zreach buf polite z -> z_log z = l1 ++ VReply c f r ok s :: l2 ->
  In (VRet f r) l1 /\ forall r', In (VRet f r') (z_log z) -> r' = r.
Proof. exact reply_is_result. Qed.
Print Assumptions C59_reply_is_result.
Theorem C59_replied_before_release : forall buf z f r c b k,
  zreach buf polite z -> In (VRet f r) (z_log z) -> In (VFrame c f b) (z_log z) ->
  frame b k -> app_request (k_type k) -> In (VFree f) (z_log z) ->
  exists ok s, In (VReply c f r ok s) (z_log z).
Proof. exact returned_replied. Qed.
Print Assumptions C59_replied_before_release.
(* the handler of a frame runs once *)
Theorem C59_handled_once : forall buf z l1 f r l2,
  zreach buf polite z -> z_log z = l1 ++ VRet f r :: l2 -> forall r', ~ In (VRet f r') l1.
Proof. exact returns_once. Qed.
Print Assumptions C59_handled_once.
Theorem C59_session_keys : forall buf z l1 f key l2,
  zreach buf polite z -> z_log z = l1 ++ VKey f key :: l2 ->
  exists c b k, In (VFrame c f b) l1 /\ frame b k /\ k_type k = 32%N /\ key = k_payload k.
Proof. exact session_keys. Qed.
Print Assumptions C59_session_keys.
Theorem C59_session_answers : forall buf z l1 c f an ok s l2,
  zreach buf polite z -> z_log z = l1 ++ VAnswer c f an ok s :: l2 ->
  exists b k, In (VFrame c f b) l1 /\ frame b k /\ (k_type k = 31%N \/ k_type k = 32%N) /\
    (ok = true -> answerable an -> told s (answer_content (k_ident k) an)) /\
    (ok = false -> s = NoWriter) /\
    (ok = true -> ~ answerable an -> exists er, s = Used (MkSink [] 1) (Some er)) /\
    (forall e, In e l1 -> answers f e = false).
Proof. exact session_answers. Qed.
Print Assumptions C59_session_answers.
Theorem C59_shutdown_replies : forall buf z l1 c f s l2,
  zreach buf polite z -> z_log z = l1 ++ VShut c f s :: l2 ->
  exists b k, In (VFrame c f b) l1 /\ frame b k /\ wants_reply (k_type k) /\
    told s (special_content 1 (k_ident k)) /\ (forall e, In e l1 -> answers f e = false).
Proof. exact shut_replies. Qed.
Print Assumptions C59_shutdown_replies.
Theorem C59_frames_distinct : forall buf z l1 c f b l2,
  zreach buf polite z -> z_log z = l1 ++ VFrame c f b :: l2 ->
  (exists k, frame b k) /\ forall e, In e l1 -> about e <> Some f.
Proof. exact frames_fresh. Qed.
Print Assumptions C59_frames_distinct.
(* a message is held by one goroutine, is not in the pool meanwhile, shows its frame, and every
   frame read is eventually in somebody's hands or released, once, with nothing happening to it
   afterwards *)
Theorem C59_exclusive : forall buf z, zreach buf polite z ->
  (forall i j t u a, nth_error (z_ts z) i = Some t -> nth_error (z_ts z) j = Some u ->
     holds t = Some a -> holds u = Some a -> i = j) /\
  (forall i t a, nth_error (z_ts z) i = Some t -> holds t = Some a -> ~ In a (p_free (z_pool z))) /\
  NoDup (p_free (z_pool z)).
Proof. exact exclusive. Qed.
Print Assumptions C59_exclusive.
Theorem C59_message_kept : forall buf z i t f,
  zreach buf polite z -> nth_error (z_ts z) i = Some t -> minds t = Some f ->
  exists a m c b k, holds t = Some a /\ nth_error (p_heap (z_pool z)) a = Some m /\
    In (VFrame c f b) (z_log z) /\ frame b k /\ shows (observe m) k.
Proof. exact message_kept. Qed.
Print Assumptions C59_message_kept.
Theorem C59_not_leaked : forall buf z c f b, zreach buf polite z -> In (VFrame c f b) (z_log z) ->
  In (VFree f) (z_log z) \/ exists i t, nth_error (z_ts z) i = Some t /\ minds t = Some f.
Proof. exact not_leaked. Qed.
Print Assumptions C59_not_leaked.
Theorem C59_released_once : forall buf z l1 f l2, zreach buf polite z -> z_log z = l1 ++ VFree f :: l2 ->
  (exists c b, In (VFrame c f b) l1) /\ ~ In (VFree f) l1 /\ forall e, In e l2 -> about e <> Some f.
Proof. exact free_last. Qed.
Print Assumptions C59_released_once.
(* a released message is in the pool again *)
Theorem C59_released_reusable : forall buf z e z' f, zreach buf polite z -> polite e -> serve_step z e = Some z' ->
  z_log z' = z_log z ++ [VFree f] ->
  exists i t a, e = ZStep i CGo /\ nth_error (z_ts z) i = Some t /\ minds t = Some f /\ holds t = Some a /\
    In a (p_free (z_pool z')).
Proof. exact released_free. Qed.
Print Assumptions C59_released_reusable.
(* a request given to a handler has been answered when its message is released *)
Theorem C59_answered_before_release : forall buf z e z' f, zreach buf polite z -> polite e -> serve_step z e = Some z' ->
  z_log z' = z_log z ++ [VFree f] ->
  exists i t c b, e = ZStep i CGo /\ nth_error (z_ts z) i = Some t /\ In (VFrame c f b) (z_log z) /\
    ((exists a, t = SSkip c a f b) \/
     (exists a s h, t = SJob c a f b s h) /\
     forall k, frame b k -> wants_reply (k_type k) -> exists e, In e (z_log z) /\ answers f e = true).
Proof. exact released_answered. Qed.
Print Assumptions C59_answered_before_release.
(* hooks are invoked for signals and requests only *)
Theorem C59_hook_kinds : forall buf z f r, zreach buf polite z -> In (VRet f r) (z_log z) ->
  exists c b k, In (VFrame c f b) (z_log z) /\ frame b k /\ (app_request (k_type k) \/ app_signal (k_type k)).
Proof. exact hook_kind. Qed.
Print Assumptions C59_hook_kinds.
Theorem C59_no_panic : forall buf z, zreach buf strict z -> z_crashed z = false.
Proof. exact never_panics. Qed.
Print Assumptions C59_no_panic.

(* two connections; both requests are handled at the same time; the second handler finishes
   first and its message is used again for a third frame while the first handler still reads *)
Definition idA : bytes := bs [65; 65; 65; 65; 65; 65; 65; 65]%N.
Definition idB : bytes := bs [66; 66; 66; 66; 66; 66; 66; 66]%N.
Definition frameA : bytes := bs [127; 65; 65; 65; 65; 65; 65; 65; 65; 1; 120; 10; 11]%N.
Definition frameB : bytes := bs [127; 66; 66; 66; 66; 66; 66; 66; 66; 1; 121; 20; 21; 22]%N.
Definition frameC : bytes := bs [63; 1; 122; 30]%N.
Definition two_clients : list zev :=
  [ZConnect; ZConnect;
   ZStep 0 (CPick None); ZStep 1 (CPick None); ZStep 0 (CFrame frameA); ZStep 1 (CFrame frameB);
   ZStep 0 CSpawn; ZStep 1 CSpawn;                     (* read loops: 2 (first connection), 3 *)
   ZStep 1 (CRet ((0%Z, bs [7]%N), ENil)); ZStep 1 (CWriter true); ZStep 1 CGo;
   ZStep 2 (CPick (Some 0)); ZStep 2 (CFrame frameC); ZStep 2 CInline; ZStep 2 (CSee GtPayload);
   ZStep 0 (CSee GtPayload); ZStep 0 (CSee GtIdentifier);
   ZStep 0 (CRet ((0%Z, bs [8]%N), ENil)); ZStep 0 (CWriter true); ZStep 0 CGo].
Lemma zrun_reach buf (ok : zev -> Prop) es z z' : zreach buf ok z -> (forall e, In e es -> ok e) ->
  zrun z es = Some z' -> zreach buf ok z'.
Proof.
  revert z. induction es as [|e es IH]; cbn; intros z R P H; [injection H as <-; exact R|].
  destruct (serve_step z e) as [z1|] eqn:E; [|discriminate]. apply (IH z1); auto. eapply ZR_step; eauto.
Qed.
Ltac each_event := intros e He; repeat (destruct He as [<-|He]; [vm_compute; first [exact Logic.I|discriminate|reflexivity]|]); destruct He.
Example C59_two_clients : exists z, zreach 64 strict z /\
  exists l1 l2 l3 l4,
    z_log z = l1 ++ [VReply 1 1 ((0%Z, bs [7]%N), ENil) true (Used (MkSink (bs [191]%N ++ idB ++ bs [7]%N) 1) None)] ++ l2 /\
    z_log z = l3 ++ [VSee 2 GtPayload (VBytes (bs [30]%N)); VSee 0 GtPayload (VBytes (bs [10; 11]%N));
                     VSee 0 GtIdentifier (VBytes idA)] ++ l4 /\
    In (VReply 0 0 ((0%Z, bs [8]%N), ENil) true (Used (MkSink (bs [191]%N ++ idA ++ bs [8]%N) 1) None)) (z_log z) /\
    p_free (z_pool z) = [0] /\ In (VFree 0) (z_log z) /\ In (VFree 1) (z_log z).
Proof.
  destruct (zrun (new_serve 64) two_clients) as [z|] eqn:E; [|vm_compute in E; discriminate].
  exists z. split.
  - apply (zrun_reach 64 strict two_clients (new_serve 64) z (ZR_new _ _)); [each_event|exact E].
  - vm_compute in E. injection E as <-. vm_compute.
    eexists [_; _; _], _, [_; _; _; _; _; _], _. split; [reflexivity|]. split; [reflexivity|].
    repeat split; tauto.
Qed.

(* a request to restore a session *)
Definition frameR : bytes := bs [32; 65; 65; 65; 65; 65; 65; 65; 65; 75]%N.
Definition restoring : list zev :=
  [ZConnect; ZStep 0 (CPick None); ZStep 0 (CFrame frameR); ZStep 0 CInline; ZStep 0 CGo; ZStep 0 (CAnswer (AFail ESessNotFound) true)].
Example C59_restoring : exists z z', zreach 64 polite z /\ serve_step z (ZStep 0 CGo) = Some z' /\ z_log z' = z_log z ++ [VFree 0] /\
  nth_error (z_ts z) 0 = Some (SJob 0 0 0 frameR true HDone) /\ frame frameR (MkContent 32 idA [] (bs [75]%N) EBin None).
Proof.
  destruct (zrun (new_serve 64) restoring) as [z|] eqn:E; [|vm_compute in E; discriminate].
  destruct (serve_step z (ZStep 0 CGo)) as [z'|] eqn:E'.
  - exists z, z'. split; [|split; [exact E'|split; [|split]]].
    + apply (zrun_reach 64 polite restoring (new_serve 64) z (ZR_new _ _)); [|exact E].
      intros e He i ->. cbn in He. intuition discriminate.
    + vm_compute in E. injection E as <-. vm_compute in E'. injection E' as <-. reflexivity.
    + vm_compute in E. injection E as <-. reflexivity.
    + apply (F_restore idA (bs [75]%N)); [reflexivity|discriminate].
  - exfalso. vm_compute in E. injection E as <-. vm_compute in E'. discriminate.
Qed.

(* ================= C60 ================= *)
(* The Message interface offers Close to handlers. After a handler closed the message of a
   request, the error it returns is not sent and a successful result goes out without any
   identifier *)
Theorem C60_closed_request_refuted : forall m b k m1 put, received m b k -> MsgClose m = Some (m1, put) ->
  (forall ok p e, e <> ENil -> handleRequest sink_writer (sink_of ok) m1 (p, e) = Some NotAsked) /\
  (forall p, utf16_ok (fst p) (snd p) ->
     handleRequest sink_writer (Some empty_sink) m1 (p, ENil) =
     Some (Used (MkSink (n2b (rep_tag (enc_of (fst p))) :: (if (fst p =? 2)%Z then [Byte.x00] else []) ++ snd p) 1) None)).
Proof. exact closed_request. Qed.
Print Assumptions C60_closed_request_refuted.
(* and if the pool hands the message out again meanwhile, the reply answers another client's
   request, and that request's handler loses its message: it panics *)
Definition closing_handler : list zev :=
  [ZConnect; ZConnect;
   ZStep 0 (CPick None); ZStep 0 (CFrame frameA); ZStep 0 CSpawn; ZStep 0 CUserClose;
   ZStep 1 (CPick (Some 0)); ZStep 1 (CFrame frameB); ZStep 1 CSpawn;
   ZStep 0 (CRet ((0%Z, bs [8]%N), ENil)); ZStep 0 (CWriter true); ZStep 0 CGo;
   ZStep 1 (CSee GtPayload)].
Theorem C60_wrong_reply_refuted : exists z, zreach 64 any_event z /\
  In (VFrame 0 0 frameA) (z_log z) /\ In (VFrame 1 1 frameB) (z_log z) /\
  In (VReply 0 0 ((0%Z, bs [8]%N), ENil) true (Used (MkSink (bs [191]%N ++ idB ++ bs [8]%N) 1) None)) (z_log z) /\
  ~ In (VFree 1) (z_log z) /\ z_crashed z = true.
Proof.
  destruct (zrun (new_serve 64) closing_handler) as [z|] eqn:E; [|vm_compute in E; discriminate].
  exists z. split.
  - apply (zrun_reach 64 any_event closing_handler (new_serve 64) z (ZR_new _ _)); [intros; exact Logic.I|exact E].
  - vm_compute in E. injection E as <-. vm_compute. split; [tauto|]. split; [tauto|]. split; [tauto|]. split; [|reflexivity].
    intros C. repeat (destruct C as [C|C]; [discriminate|]). exact C.
Qed.
Print Assumptions C60_wrong_reply_refuted.

(* ================= C61 ================= *)
(* slices returned by Payload() stay what they were until the hook returns, and even until the
   message is released *)
Theorem C61_until_return : forall buf z l1 f d l2,
  zreach buf polite z -> z_log z = l1 ++ VPeek f d :: l2 -> (forall r, ~ In (VRet f r) l1) ->
  exists c b k, In (VFrame c f b) l1 /\ frame b k /\ d = k_payload k.
Proof. exact slices_until_return. Qed.
Print Assumptions C61_until_return.
Theorem C61_until_release : forall buf z l1 f d l2,
  zreach buf polite z -> z_log z = l1 ++ VPeek f d :: l2 -> ~ In (VFree f) l1 ->
  exists c b k, In (VFrame c f b) l1 /\ frame b k /\ d = k_payload k.
Proof. exact kept_slices. Qed.
Print Assumptions C61_until_release.
(* first peek: while the hook runs; second one: after the buffer was used again, which is what
   interfaces.go:68-73 warns about *)
Definition keeping_handler : list zev :=
  [ZConnect; ZStep 0 (CPick None); ZStep 0 (CFrame frameA); ZStep 0 CSpawn; ZStep 0 CKeep; ZPeek 0;
   ZStep 0 (CRet ((0%Z, []), ENil)); ZStep 0 (CWriter true); ZStep 0 CGo;
   ZStep 1 (CPick (Some 0)); ZStep 1 (CFrame frameB); ZPeek 0].
Example C61_case : exists z, zreach 64 strict z /\
  exists l, z_log z = VFrame 0 0 frameA :: VPeek 0 (bs [10; 11]%N) :: l ++ [VFrame 0 1 frameB; VPeek 0 (bs [20; 21]%N)].
Proof.
  destruct (zrun (new_serve 64) keeping_handler) as [z|] eqn:E; [|vm_compute in E; discriminate].
  exists z. split.
  - apply (zrun_reach 64 strict keeping_handler (new_serve 64) z (ZR_new _ _)); [each_event|exact E].
  - vm_compute in E. injection E as <-. vm_compute. eexists [_; _; _]. reflexivity.
Qed.
