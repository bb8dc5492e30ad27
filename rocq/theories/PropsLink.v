(* Property theorems C64: requests from the client's request manager to the handler and back. *)
From Coq Require Import List Arith NArith ZArith Lia Bool.
From Verif Require Import BaseBytes BaseConc ModelMessage ModelWrite ModelPool ModelPayload ModelHandle
  ModelServe ModelRequests ModelLink SpecWire SpecMessage SpecWrite SpecHandle SpecServe SpecRequests SpecLink
  ProofRequests ProofLink ProofLink2 ProofLink3 PropsCodec.
Import ListNotations.
Open Scope nat_scope.

(* an AwaitReply call returns the answer to the request it was made for: the frame returned was
   sent by the server as answer to the frame of this very request, with this result *)
Theorem C64_own_reply : forall buf size n c i r res, lreach buf size n -> few n c ->
  nth_error (calls_of n c) i = Some (AwR r res) -> own_answer n c r res.
Proof. exact own_reply. Qed.
Print Assumptions C64_own_reply.

(* the server gets what the client sent, in the order it was sent *)
Theorem C64_in_order : forall buf size n c k f b, lreach buf size n ->
  nth_error (accepted c (log_of n)) k = Some (f, b) ->
  exists o, nth_error (q_sent (n_peer n c)) k = Some (o, b).
Proof. exact in_order. Qed.
Print Assumptions C64_in_order.

(* ... every request once *)
Theorem C64_handled_once : forall buf size n c r x b f f', lreach buf size n -> few n c ->
  In (Some (r, x), b) (q_sent (n_peer n c)) -> In (VFrame c f b) (log_of n) -> In (VFrame c f' b) (log_of n) -> f = f'.
Proof. exact handled_once. Qed.
Print Assumptions C64_handled_once.

(* handlers see what the client said *)
Theorem C64_handler_sees : forall buf size n f g v, lreach buf size n -> In (VSee f g v) (log_of n) ->
  exists c o b, In (VFrame c f b) (log_of n) /\ In (o, b) (q_sent (n_peer n c)) /\
    (few n c -> forall r x, o = Some (r, x) -> exists id, has_id n c r id /\ v = shown (say_content id x) g).
Proof. exact handler_sees. Qed.
Print Assumptions C64_handler_sees.

(* answers are neither lost nor doubled on the way *)
Theorem C64_no_loss : forall buf size n c f w, lreach buf size n -> answer_sent (log_of n) c f w ->
  In (Some f, w) (q_got (n_peer n c) ++ q_down (n_peer n c)).
Proof. exact no_loss. Qed.
Print Assumptions C64_no_loss.
Theorem C64_no_double : forall buf size n c i j f w w', lreach buf size n ->
  nth_error (q_got (n_peer n c)) i = Some (Some f, w) -> nth_error (q_got (n_peer n c)) j = Some (Some f, w') -> i = j.
Proof. exact got_once. Qed.
Print Assumptions C64_no_double.

(* what the server makes the client do meets the condition of C20_serial_once and
   C20_serial_no_block *)
Theorem C64_serial : forall buf size n c, lreach buf size n -> few n c -> rreach serial (q_mgr (n_peer n c)).
Proof. exact lreach_serial. Qed.
Print Assumptions C64_serial.
Theorem C64_never_stuck : forall buf size n c i t, lreach buf size n -> few n c ->
  nth_error (calls_of n c) i = Some t -> running t -> exists n', link_step size n (LClient c (EvStep i ChRun)) = Some n'.
Proof. exact never_stuck. Qed.
Print Assumptions C64_never_stuck.
Theorem C64_resolved_once : forall buf size n c r, lreach buf size n -> few n c -> count (succeeded r) (calls_of n c) <= 1.
Proof. exact resolved_once. Qed.
Print Assumptions C64_resolved_once.

(* when the client has read everything and its calls are done, a request that was answered has
   got its answer or has been given up *)
Theorem C64_resolved : forall buf size n c r x b f w, lreach buf size n -> few n c ->
  quiescent (q_mgr (n_peer n c)) -> q_down (n_peer n c) = [] ->
  In (Some (r, x), b) (q_sent (n_peer n c)) -> In (VFrame c f b) (log_of n) -> answer_sent (log_of n) c f w -> length w <= size ->
  exists id i, has_id n c r id /\ nth_error (q_got (n_peer n c)) i = Some (Some f, w) /\
    ((exists t, In t (calls_of n c) /\ gave id i t /\ succeeded r t = true) \/ (exists e, In (AwR r (AwCtx e)) (calls_of n c))).
Proof. exact resolved. Qed.
Print Assumptions C64_resolved.

(* ... with what the handler returned *)
Theorem C64_delivered : forall buf size n c r x b f ret, lreach buf size n -> few n c ->
  quiescent (q_mgr (n_peer n c)) -> q_down (n_peer n c) = [] ->
  In (Some (r, x), b) (q_sent (n_peer n c)) -> (exists name e p, x = SayRequest name e p) -> In (VFrame c f b) (log_of n) ->
  In (VRet f ret) (log_of n) -> In (VFree f) (log_of n) -> sendable ret ->
  (forall s, ~ In (VReply c f ret false s) (log_of n)) -> (forall w, answer_sent (log_of n) c f w -> length w <= size) ->
  exists id i w, has_id n c r id /\ nth_error (q_got (n_peer n c)) i = Some (Some f, w) /\ reads_as w (reply_content id ret) /\
    ((exists t, In t (calls_of n c) /\ gave id i t /\ succeeded r t = true) \/ (exists e, In (AwR r (AwCtx e)) (calls_of n c))).
Proof. exact delivered. Qed.
Print Assumptions C64_delivered.

(* two clients. The first makes two requests and asks for the closure of its session, the other
   makes a request with the same identifier as the first one's first. The server handles the
   requests at the same time, answers the second before the first, pushes a signal in between,
   and answers the first request of the first client with an error *)
Definition ask (p : N) : say := SayRequest (bs [120]%N) 0%Z (bs [p]).
Definition id1 : bytes := bs [1; 0; 0; 0; 0; 0; 0; 0]%N.
Definition id2 : bytes := bs [2; 0; 0; 0; 0; 0; 0; 0]%N.
Definition id3 : bytes := bs [3; 0; 0; 0; 0; 0; 0; 0]%N.
Definition fr (id : bytes) (p : N) : bytes := bs [127]%N ++ id ++ bs [1; 120; p]%N.
Definition create (c i : nat) : list lev := [LClient c (EvCall CallCreate); LClient c (EvStep i ChRun); LClient c (EvStep i ChRun)].
Definition sv (i : nat) (ch : schoice) : lev := LServe (ZStep i ch).
Definition conversation : list lev :=
  [LServe ZConnect; LServe ZConnect] ++ create 0 0 ++ create 0 1 ++ create 1 0 ++ create 0 2 ++
  [LSend 0 0 (ask 10); LSend 1 0 (ask 20); LSend 0 1 (ask 30); LSend 0 2 SayClosure; LOther 1 (bs [63; 1; 122; 40]%N);
   LClient 0 (EvCall (CallAwait 0)); LClient 0 (EvCall (CallAwait 1)); LClient 1 (EvCall (CallAwait 0));
   sv 0 (CPick None); sv 1 (CPick None); sv 0 (CFrame (fr id1 10)); sv 1 (CFrame (fr id1 20));
   sv 0 CSpawn; sv 1 CSpawn;                           (* read loops: 2 (first client), 3 *)
   sv 2 (CPick None); sv 2 (CFrame (fr id2 30)); sv 2 CSpawn;      (* read loop of the first client: 4 *)
   sv 1 (CSee GtPayload);
   sv 2 (CRet ((0%Z, bs [7]%N), ENil)); sv 2 (CWriter true); LPush 0 (bs [63; 1; 122; 50]%N);
   sv 0 (CRet ((0%Z, []), EReq (bs [69]%N) (bs [33]%N))); sv 0 (CWriter true); sv 0 CGo; sv 2 CGo;
   sv 1 (CRet ((0%Z, bs [8]%N), ENil)); sv 1 (CWriter true); sv 1 CGo;
   sv 4 (CPick None); sv 4 (CFrame (bs [31]%N ++ id3)); sv 4 CInline; sv 4 (CAnswer (AFulfill (0%Z, [])) true); sv 4 CGo;
   LRecv 0; LRecv 0; LRecv 1; LRecv 0; LRecv 0;        (* calls 5, 6 and 7 of the first client *)
   LClient 0 (EvStep 5 ChRun); LClient 0 (EvStep 6 ChRun)].
Definition conclusion : list lev :=
  [LClient 0 (EvStep 5 ChRun); LClient 0 (EvStep 6 ChRun); LClient 0 (EvStep 6 ChRun); LClient 0 (EvStep 5 ChRun);
   LClient 0 (EvStep 7 ChRun); LClient 0 (EvStep 7 ChRun); LClient 0 (EvStep 7 ChRun);
   LClient 0 (EvStep 3 ChRun); LClient 0 (EvStep 4 ChRun);
   LClient 1 (EvStep 2 ChRun); LClient 1 (EvStep 2 ChRun); LClient 1 (EvStep 2 ChRun); LClient 1 (EvStep 1 ChRun)].
Lemma lrun_reach buf size es n n' : lreach buf size n -> lrun size n es = Some n' -> lreach buf size n'.
Proof.
  revert n. induction es as [|e es IH]; cbn; intros n R H; [injection H as <-; exact R|].
  destruct (link_step size n e) as [n1|] eqn:E; [|discriminate]. apply (IH n1); auto. eapply LR_step; eauto.
Qed.
Definition rep7 : bytes := bs [191]%N ++ id2 ++ bs [7]%N.
Definition bad : payload * goerr := ((0%Z, []), EReq (bs [69]%N) (bs [33]%N)).
Ltac talk es n E := destruct (lrun 64 (new_link 64) es) as [n|] eqn:E; [|exfalso; vm_compute in E; discriminate].
Lemma in_state {B} (g : link -> B) o n v : o = Some n -> option_map g o = Some v -> g n = v.
Proof. intros -> H. injection H as H. exact H. Qed.
Ltac known E n g v :=
  let H := fresh in
  assert (H : g n = v) by (apply (in_state g _ n v E); vm_compute; reflexivity); cbv beta in H.
(* while two replies are being given to their requests ... *)
Example C64_busy : exists n, lreach 64 64 n /\ few n 0 /\
  nth_error (calls_of n 0) 5 = Some (Fu1 (MkRMsg id2 0) 1) /\ running (Fu1 (MkRMsg id2 0) 1) /\
  nth_error (calls_of n 0) 6 = Some (Fa1 id1 (Some 2) 0) /\
  nth_error (accepted 0 (log_of n)) 1 = Some (2, fr id2 30) /\
  In (VSee 1 GtPayload (VBytes (bs [20]%N))) (log_of n) /\ In (VFrame 1 1 (fr id1 20)) (log_of n) /\
  has_id n 1 0 id1 /\ shown (say_content id1 (ask 20)) GtPayload = VBytes (bs [20]%N).
Proof.
  talk conversation n E. exists n. split; [eapply lrun_reach; [constructor|exact E]|].
  known E n (fun n => creations (q_mgr (n_peer n 0))) 3.
  known E n (fun n => nth_error (calls_of n 0) 5) (Some (Fu1 (MkRMsg id2 0) 1)).
  known E n (fun n => nth_error (calls_of n 0) 6) (Some (Fa1 id1 (Some 2) 0)).
  known E n (fun n => nth_error (accepted 0 (log_of n)) 1) (Some (2, fr id2 30)).
  known E n (fun n => nth_error (log_of n) 3) (Some (VSee 1 GtPayload (VBytes (bs [20]%N)))).
  known E n (fun n => nth_error (log_of n) 1) (Some (VFrame 1 1 (fr id1 20))).
  known E n (fun n => option_map r_id (nth_error (reqs (q_mgr (n_peer n 1))) 0)) (Some id1).
  split; [unfold few; rewrite H; reflexivity|]. split; [assumption|]. split; [exact Logic.I|]. split; [assumption|]. split; [assumption|].
  split; [eapply nth_error_In; eassumption|]. split; [eapply nth_error_In; eassumption|]. split; [|reflexivity].
  unfold has_id. destruct (nth_error (reqs (q_mgr (n_peer n 1))) 0) as [q|]; [|discriminate]. exists q. split; [reflexivity|]. injection H5 as H5. exact H5.
Qed.
(* ... and at the end: every AwaitReply call returned its own answer *)
Example C64_done : exists n, lreach 64 64 n /\ few n 0 /\ few n 1 /\ quiescent (q_mgr (n_peer n 0)) /\ q_down (n_peer n 0) = [] /\
  nth_error (calls_of n 0) 3 = Some (AwR 0 (AwErr 2)) /\
  nth_error (calls_of n 0) 4 = Some (AwR 1 (AwReply (Some (MkRMsg id2 0)))) /\
  nth_error (calls_of n 1) 1 = Some (AwR 0 (AwReply (Some (MkRMsg id1 0)))) /\
  nth_error (q_got (n_peer n 0)) 0 = Some (Some 2, rep7) /\ answer_sent (log_of n) 0 2 rep7 /\
  In (Some (0, ask 10), fr id1 10) (q_sent (n_peer n 0)) /\ In (Some (1, ask 30), fr id2 30) (q_sent (n_peer n 0)) /\
  In (VFrame 0 0 (fr id1 10)) (log_of n) /\ In (VFrame 0 2 (fr id2 30)) (log_of n) /\
  In (VRet 0 bad) (log_of n) /\ In (VFree 0) (log_of n) /\ sendable bad /\
  (forall s, ~ In (VReply 0 0 bad false s) (log_of n)) /\ (forall w, answer_sent (log_of n) 0 0 w -> length w <= 64).
Proof.
  talk (conversation ++ conclusion) n E. exists n. split; [eapply lrun_reach; [constructor|exact E]|].
  known E n (fun n => creations (q_mgr (n_peer n 0))) 3. known E n (fun n => creations (q_mgr (n_peer n 1))) 1.
  known E n (fun n => calls_of n 0)
    [CrR 0; CrR 1; CrR 2; AwR 0 (AwErr 2); AwR 1 (AwReply (Some (MkRMsg id2 0))); FuR (MkRMsg id2 0) (Some 1);
     FaR id1 (Some 2) (Some 0); FuR (MkRMsg id3 3) (Some 2)].
  known E n (fun n => nth_error (calls_of n 1) 1) (Some (AwR 0 (AwReply (Some (MkRMsg id1 0))))).
  known E n (fun n => q_down (n_peer n 0)) (@nil (option nat * bytes)).
  known E n (fun n => nth_error (q_got (n_peer n 0)) 0) (Some (Some 2, rep7)).
  known E n (fun n => q_sent (n_peer n 0))
    [(Some (0, ask 10), fr id1 10); (Some (1, ask 30), fr id2 30); (Some (2, SayClosure), bs [31]%N ++ id3)].
  assert (L : exists s0 s1, log_of n =
    [VFrame 0 0 (fr id1 10); VFrame 1 1 (fr id1 20); VFrame 0 2 (fr id2 30); VSee 1 GtPayload (VBytes (bs [20]%N));
     VRet 2 ((0%Z, bs [7]%N), ENil); VReply 0 2 ((0%Z, bs [7]%N), ENil) true (Used (MkSink rep7 1) None);
     VRet 0 bad; VReply 0 0 bad true (Used (MkSink (bs [0]%N ++ id1 ++ bs [1; 69; 33]%N) 1) None); VFree 0; VFree 2;
     VRet 1 ((0%Z, bs [8]%N), ENil); VReply 1 1 ((0%Z, bs [8]%N), ENil) true s0; VFree 1;
     VFrame 0 3 (bs [31]%N ++ id3); VAnswer 0 3 (AFulfill (0%Z, [])) true s1; VFree 3]).
  { eexists (Used (MkSink (bs [191]%N ++ id1 ++ bs [8]%N) 1) None), (Used (MkSink (bs [191]%N ++ id3) 1) None).
    match goal with |- _ = ?v => known E n log_of v end. assumption. }
  destruct L as (s0 & s1 & L). unfold calls_of in *. rewrite ?L in *.
  split; [unfold few; rewrite H; reflexivity|]. split; [unfold few; rewrite H0; reflexivity|].
  split. { intros t It. rewrite H1 in It. repeat (destruct It as [<-|It]; [exact Logic.I|]). destruct It. }
  split; [assumption|]. split; [rewrite H1; reflexivity|]. split; [rewrite H1; reflexivity|]. split; [assumption|]. split; [assumption|].
  split; [left; eexists; cbn; do 5 right; left; reflexivity|].
  split; [rewrite H5; cbn; auto|]. split; [rewrite H5; cbn; auto|].
  split; [cbn; auto|]. split; [cbn; auto|]. split; [cbn; do 6 right; left; reflexivity|]. split; [cbn; do 8 right; left; reflexivity|].
  split; [intros _; split; [cbn; lia|repeat constructor; vm_compute; intuition discriminate]|].
  split.
  - intros s Hs. cbn in Hs. repeat (destruct Hs as [Hs|Hs]; [discriminate Hs|]). destruct Hs.
  - intros w [[r Hw]|[[an Hw]|Hw]]; cbn in Hw; repeat (destruct Hw as [Hw|Hw]; [first [discriminate Hw|injection Hw as <- <-; vm_compute; lia]|]); destruct Hw.
Qed.
