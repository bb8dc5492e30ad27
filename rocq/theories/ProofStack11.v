(* Round trips of requests; runs checked step by step. *)
From Coq Require Import List Arith ZArith Lia Bool.
From Verif Require Import BaseBytes BaseConc ModelMessage ModelWrite ModelHandle ModelStack SpecWire SpecMessage SpecWrite SpecHandle SpecStack.
From Verif Require Import ProofHandle ProofStack ProofStack2 ProofStack5 ProofStack6 ProofStack8 ProofStack9 ProofStack10.
From Verif Require ModelDispatch ModelMemchan SpecDispatch SpecMemchan ProofDispatch4 ProofMemchan8.
Import ListNotations.
Open Scope nat_scope.

Lemma reply_goes buf conf ok s c k m r st : kreach buf conf ok s -> In (ModelDispatch.LReply c k m r st) (dlog s) ->
  replied s (fun _ _ _ => True) c (handleRequest sink_writer (Some empty_sink) m r) st.
Proof. intros R L. eapply replied_any; [exact R|exact L|reflexivity]. Qed.
Lemma refusal_goes buf conf ok s c k m st : kreach buf conf ok s -> In (ModelDispatch.LShutReply c k m st) (dlog s) ->
  replied s (fun _ _ _ => True) c (failMsgShutdown sink_writer (Some empty_sink) m) st.
Proof. intros R L. eapply replied_any; [exact R|exact L|reflexivity]. Qed.
Lemma reply_read buf conf s c k m r st : kreach buf conf apart s -> In (ModelDispatch.LReply c k m r st) (dlog s) ->
  replied s (client_got s) c (handleRequest sink_writer (Some empty_sink) m r) st.
Proof. intros R L. eapply replied_read; [exact R|exact L|reflexivity]. Qed.
Lemma refusal_read buf conf s c k m st : kreach buf conf apart s -> In (ModelDispatch.LShutReply c k m st) (dlog s) ->
  replied s (client_got s) c (failMsgShutdown sink_writer (Some empty_sink) m) st.
Proof. intros R L. eapply replied_read; [exact R|exact L|reflexivity]. Qed.

Lemma round_trip buf conf s c k m r st : kreach buf conf settled s -> In (ModelDispatch.LReply c k m r st) (dlog s) -> sendable r ->
  exists p g b cont rep, k_conn s c = Some (p, g) /\
    nth_error (SpecMemchan.sent (p, ModelMemchan.Clt) g (tlog s)) k = Some b /\ received m b cont /\ app_request (k_type cont) /\
    reads_as rep (reply_content (k_ident cont) r) /\ carried s p rep st (client_got s).
Proof.
  intros R L Sd. destruct (ProofDispatch4.reply_frame _ _ _ _ _ _ _ _ (reach_srv_any _ _ _ _ R) L) as (b & cont & F & Rc & A & _).
  destruct (handle_request_sends m b cont r Rc A Sd) as [(f & _ & Rd & Hf) _].
  pose proof (reply_read _ _ _ _ _ _ _ _ (settled_apart _ _ _ R) L) as P. rewrite Hf in P. cbn in P.
  destruct P as (p & g & C & P). exists p, g, b, cont, f.
  split; [exact C|]. split; [exact (frame_sent _ _ _ _ _ _ _ _ _ R F C)|]. auto.
Qed.
Lemma refusal_trip buf conf s c k m st : kreach buf conf settled s -> In (ModelDispatch.LShutReply c k m st) (dlog s) ->
  exists p g b cont rep, k_conn s c = Some (p, g) /\
    nth_error (SpecMemchan.sent (p, ModelMemchan.Clt) g (tlog s)) k = Some b /\ received m b cont /\ wants_reply (k_type cont) /\
    reads_as rep (special_content 1 (k_ident cont)) /\ carried s p rep st (client_got s).
Proof.
  intros R L. destruct (ProofDispatch4.shut_reply_frame _ _ _ _ _ _ _ (reach_srv_any _ _ _ _ R) L) as (b & cont & _ & F & Rc & A & _ & _).
  destruct (failMsgShutdown_sends m b cont Rc A) as (f & _ & Rd & Hf).
  pose proof (refusal_read _ _ _ _ _ _ _ (settled_apart _ _ _ R) L) as P. rewrite Hf in P. cbn in P.
  destruct P as (p & g & C & P). exists p, g, b, cont, f.
  split; [exact C|]. split; [exact (frame_sent _ _ _ _ _ _ _ _ _ R F C)|]. auto.
Qed.

(* ---------- checked runs ---------- *)
Fixpoint kchecked (chk : stack -> event -> stack -> bool) (s : stack) (es : list event) : option stack :=
  match es with
  | [] => Some s
  | e :: es' => match kstep s e with Some s' => if chk s e s' then kchecked chk s' es' else None | None => None end
  end.
Lemma kchecked_reach buf conf (ok : stack -> event -> stack -> Prop) chk es s : (forall s e s', chk s e s' = true -> ok s e s') ->
  kchecked chk (new_stack buf conf) es = Some s -> kreach buf conf ok s.
Proof.
  intros Snd. assert (G : forall s0, kreach buf conf ok s0 -> kchecked chk s0 es = Some s -> kreach buf conf ok s).
  { induction es as [|e es IH]; cbn; intros s0 R H; [injection H as <-; exact R|].
    destruct (kstep s0 e) as [s1|] eqn:E; [|discriminate]. destruct (chk s0 e s1) eqn:C; [|discriminate].
    apply (IH s1); [|exact H]. econstructor; [exact R|exact E|apply Snd, C]. }
  apply G. constructor.
Qed.
Definition quietb (s : stack) (e : event) (s' : stack) : bool :=
  match srv_event e with Some e' => ProofDispatch4.calmb (k_srv s) e' | None => true end.
Lemma quietb_ok s e s' : quietb s e s' = true -> quiet s e s'.
Proof. unfold quietb, quiet. destruct (srv_event e); [apply ProofDispatch4.calmb_ok|trivial]. Qed.
Definition apartb (s : stack) (e : event) (s' : stack) : bool := ProofMemchan8.calmb (k_net s').
Lemma apartb_ok s e s' : apartb s e s' = true -> apart s e s'.
Proof. apply ProofMemchan8.calmb_spec. Qed.
Definition waitedb (s : stack) : bool :=
  forallb (fun i => match sthread s i, k_new s i with
    | Some t, Some (p, _) => negb (looping t) ||
        forallb (fun u => match u with ModelMemchan.TDial q st => negb ((q =? p) && dialing_on st) | _ => true end) (ModelMemchan.s_ts (k_net s))
    | _, _ => true end) (seq 0 (length (ModelDispatch.s_ts (k_srv s)))).
Lemma waitedb_ok s : waitedb s = true -> waited s.
Proof.
  unfold waitedb, waited, loop. rewrite forallb_forall. intros H i p g t j st (N & Lp & K) D.
  assert (Li : i < length (ModelDispatch.s_ts (k_srv s))) by (apply nth_error_Some; congruence).
  specialize (H i ltac:(apply in_seq; lia)). rewrite N, K, Lp in H. cbn in H. rewrite forallb_forall in H.
  apply nth_error_In in D. specialize (H _ D). cbn in H. rewrite Nat.eqb_refl in H. cbn in H. apply negb_true_iff in H. exact H.
Qed.
Definition settledb (s : stack) (e : event) (s' : stack) : bool := apartb s e s' && waitedb s'.
Lemma settledb_ok s e s' : settledb s e s' = true -> settled s e s'.
Proof. unfold settledb, settled. rewrite andb_true_iff. intros [H1 H2]. split; [apply (apartb_ok s e s'), H1|apply waitedb_ok, H2]. Qed.
