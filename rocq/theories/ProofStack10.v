(* Requests from the client's socket to the handler, and replies back. *)
From Coq Require Import List Arith ZArith Lia Bool.
From Verif Require Import BaseBytes BaseConc ModelMessage ModelWrite ModelHandle ModelStack SpecWire SpecMessage SpecWrite SpecHandle SpecStack.
From Verif Require Import ProofStack ProofStack2 ProofStack3 ProofStack4 ProofStack5 ProofStack6 ProofStack8 ProofStack9.
From Verif Require ModelDispatch ModelMemchan SpecDispatch SpecMemchan.
From Verif Require ProofDispatch ProofDispatch3 ProofDispatch4 ProofMemchan ProofMemchan2 ProofMemchan5 ProofMemchan6 ProofMemchan7 ProofMemchan8 ProofStackNet ProofStackSrv ProofStackSrv2 ProofStackRead.
Import ListNotations.
Open Scope nat_scope.

(* ---------- requests ---------- *)
Lemma prefix_nth {A} (a b : list A) k x : SpecMemchan.is_prefix a b -> nth_error a k = Some x -> nth_error b k = Some x.
Proof. intros (y & ->) N. rewrite nth_error_app1; [exact N|]. apply nth_error_Some. congruence. Qed.
Lemma frame_sent buf conf s c k b m p g : kreach buf conf settled s -> In (ModelDispatch.LFrame c k b m) (dlog s) ->
  k_conn s c = Some (p, g) -> nth_error (SpecMemchan.sent (p, ModelMemchan.Clt) g (tlog s)) k = Some b.
Proof.
  intros R L C. eapply prefix_nth; [eapply frames_sent; eauto|].
  eapply ProofStackSrv2.frame_nth; [exact (reach_srv_any _ _ _ _ R)|exact L].
Qed.
Lemma handled_sent buf conf s c k m : kreach buf conf settled s -> In (ModelDispatch.LStart c k m) (dlog s) ->
  exists p g b cont, k_conn s c = Some (p, g) /\ nth_error (SpecMemchan.sent (p, ModelMemchan.Clt) g (tlog s)) k = Some b /\
    received m b cont /\ length b <= buf /\ (app_signal (k_type cont) \/ app_request (k_type cont)).
Proof.
  intros R L. destruct (ProofDispatch4.start_valid _ _ _ _ _ _ (reach_srv_any _ _ _ _ R) L) as (b & cont & F & Rc & Le & Ty).
  destruct (frame_read _ _ _ _ _ _ _ _ R F) as (p & g & _ & _ & C & _).
  exists p, g, b, cont. split; [exact C|]. split; [exact (frame_sent _ _ _ _ _ _ _ _ _ R F C)|auto].
Qed.

(* ---------- replies ---------- *)
Definition wrote (s : stack) (c : nat) (text : option (sent sink)) (st : sent sink) : Prop :=
  match text with
  | Some (Used w _) => exists p g j res, k_conn s c = Some (p, g) /\
      nthread s j = Some (ModelMemchan.TWrite (p, ModelMemchan.Srv) (ModelMemchan.WDone res)) /\ k_text s j = Some (s_bytes w) /\
      (st = NoWriter <-> res = ModelMemchan.WrDisconnected)
  | _ => True
  end.
Lemma wdone_stays s e s' j k r : ProofMemchan.srel_ s e s' -> SpecMemchan.at_ s j (ModelMemchan.TWrite k (ModelMemchan.WDone r)) ->
  SpecMemchan.at_ s' j (ModelMemchan.TWrite k (ModelMemchan.WDone r)).
Proof.
  unfold SpecMemchan.at_. intros [e0 t B|i ch t n' t' I T|i ch t n' t' x v k0 I T Ne V J] A; cbn.
  - rewrite nth_error_app1; [exact A|]. apply nth_error_Some. congruence.
  - destruct (Nat.eq_dec i j) as [->|D]; [|rewrite set_nth_ne; auto]. rewrite A in I. injection I as <-. inversion T; subst.
    + match goal with H : ProofMemchan.wrel _ _ _ _ _ _ |- _ => inversion H end.
    + match goal with H : SpecMemchan.closing _ = _ |- _ => discriminate H end.
  - assert (x <> j) by (intros ->; congruence). rewrite set_nth_ne by auto.
    destruct (Nat.eq_dec i j) as [->|D]; [|rewrite set_nth_ne; auto]. rewrite A in I. injection I as <-. inversion T; subst.
    match goal with H : SpecMemchan.closing _ = _ |- _ => discriminate H end.
Qed.
Lemma wrote_step buf conf ok s e s' c text st : kreach buf conf ok s -> kcase s e s' -> wrote s c text st -> wrote s' c text st.
Proof.
  intros R K W. destruct text as [[| |w er]|]; try exact Logic.I. destruct W as (p & g & j & res & C & N & T & Ts).
  exists p, g, j, res. split; [rewrite (conn_keep _ _ _ K); [exact C|]; apply (conns_known _ _ _ _ R); eauto|].
  split.
  - destruct (net_cases _ _ _ K) as [E|(e' & _ & Q)]; [rewrite E; exact N|exact (wdone_stays _ _ _ _ _ _ Q N)].
  - split; [|exact Ts]. rewrite (text_keep _ _ _ K); [exact T|]. apply nth_error_Some. congruence.
Qed.
Definition reply_of (x : ModelDispatch.event) : option (nat * option (sent sink) * sent sink) :=
  match x with
  | ModelDispatch.LReply c k m r st => Some (c, handleRequest sink_writer (Some empty_sink) m r, st)
  | ModelDispatch.LShutReply c k m st => Some (c, failMsgShutdown sink_writer (Some empty_sink) m, st)
  | _ => None
  end.
(* the threads that log replies *)
Definition replies (t : ModelDispatch.thread) : option (nat * option (sent sink)) :=
  match t with
  | ModelDispatch.TRd c (ModelDispatch.RFail k m) => Some (c, failMsgShutdown sink_writer (Some empty_sink) m)
  | ModelDispatch.TRd c (ModelDispatch.RJob k m (ModelDispatch.JRep r)) | ModelDispatch.TJob c k m (ModelDispatch.JRep r) =>
      Some (c, handleRequest sink_writer (Some empty_sink) m r)
  | _ => None
  end.
Lemma without_writer m r w e : handleRequest sink_writer (Some empty_sink) m r = Some (Used w e) ->
  handleRequest sink_writer None m r = Some NoWriter.
Proof.
  unfold handleRequest, failMsg, fulfillMsg. destruct (snd r); auto; destruct (negb (RequiresReply m)); auto; discriminate.
Qed.
Lemma reply_logged g i t ch g' t' sp : ModelDispatch.tstep g i t ch = Some (g', t', sp) ->
  ModelDispatch.v_log g' = ModelDispatch.v_log g \/
  exists x, ModelDispatch.v_log g' = ModelDispatch.v_log g ++ [x] /\ forall c f st, reply_of x = Some (c, f, st) -> replies t = Some (c, f) /\
    exists ok, ch = ModelDispatch.ChWriter ok /\ forall w e, f = Some (Used w e) -> (st = NoWriter <-> ok = false).
Proof.
  intros H. ProofDispatch.inv_tstep H; cbn; auto; right; eexists; (split; [reflexivity|]); cbn; intros cc ff zz E; try discriminate E; injection E as <- <- <-; (split; [reflexivity|]);
    eexists; (split; [reflexivity|]); intros w er F.
  all: match goal with Hs : _ = Some ?z |- ?z = _ <-> ?b = false => destruct b; cbn [ModelDispatch.writer_of] in Hs end.
  1,3,5: match goal with Hs : _ = Some ?z |- _ => assert (Some z = Some (Used w er)) as Ez by (rewrite <- Hs; exact F); injection Ez as ->; split; discriminate end.
  - discriminate H.
  - rewrite (without_writer _ _ _ _ F) in H. injection H as <-. tauto.
  - rewrite (without_writer _ _ _ _ F) in H. injection H as <-. tauto.
Qed.
Lemma replies_asks s i t c f : replies t = Some (c, f) -> asks s i t = reply (pair_of s c) f.
Proof.
  destruct t as [| |c0 st|c0 k m j| | | | | | |]; try discriminate; [destruct st as [| | | | | |k m| | |k m j| | | |]; try discriminate|];
    try (destruct j; try discriminate); intros [=]; subst; reflexivity.
Qed.
Lemma replies_conn t c f : replies t = Some (c, f) -> ProofStackSrv.conn_of t = Some c.
Proof.
  destruct t as [| |c0 st|c0 k m j| | | | | | |]; try discriminate; [destruct st as [| | | | | |k m| | |k m j| | | |]; try discriminate|];
    try (destruct j; try discriminate); intros [=]; subst; reflexivity.
Qed.
Lemma wrote_all buf conf ok s : kreach buf conf ok s -> forall x c f st, In x (dlog s) -> reply_of x = Some (c, f, st) -> wrote s c f st.
Proof.
  induction 1 as [|s e s' R IH H Ok]; intros x c f st L Rx; [destruct L|].
  destruct (kstep_inv _ _ _ H) as [_ K]. pose proof (owned_all _ _ _ _ R) as O.
  assert (Old : In x (dlog s) -> wrote s' c f st) by (intros L0; eapply wrote_step; eauto).
  pose proof (kcase_srv _ _ _ K) as P. destruct (srv_event e) as [e'|] eqn:Se; [|rewrite P in L; auto].
  destruct (ProofDispatch.dstep_inv _ _ _ P) as (_ & [(u & U & E)|(i & ch & t & g' & u' & sp & -> & Nj & T & E)]); rewrite E in L; cbn in L; [auto|].
  destruct (reply_logged _ _ _ _ _ _ _ T) as [El|(y & El & F)]; rewrite El in L; [auto|].
  apply in_app_or in L as [L|[->|[]]]; [auto|]. destruct (F _ _ _ Rx) as [Rt (okw & -> & Fst)].
  pose proof (replies_asks s i _ _ _ Rt) as As0.
  assert (Cn : exists o, k_conn s c = Some o).
  { apply (conns_known _ _ _ _ R). exact (ProofStackSrv.belongs_lt _ _ _ _ _ _ (reach_srv_any _ _ _ _ R) Nj (replies_conn _ _ _ Rt)). }
  destruct Cn as ([p g] & Cn). unfold pair_of in As0. rewrite Cn in As0.
  destruct f as [[| |w er]|]; try exact Logic.I. cbn in As0.
  destruct K as [|i0 r0 r1 Nr Rs|Na Nc|e0 n Okn M|j0 lim p0 n v N0 M Dd|i0 t0 u0 n St Nu M|i0 ch t0 v St As Nt Dd|i0 lim v j0 u0 y0 St As Io Rr Dd|i0 ch t0 v j0 u0 y0 St As Io Rr Nc Dd|e v Be Dd]; cbn in Se; try discriminate Se.
  - injection Se as -> ->. rewrite Nj in St. injection St as <-. congruence.
  - injection Se as -> ->. rewrite Nj in St. injection St as <-. rewrite As0 in As. injection As as <-.
    destruct (O_io _ _ O _ _ _ Io) as (t1 & z & N1 & Ak & Nz & Tg & Tx). rewrite Nj in N1. injection N1 as <-.
    assert (u0 = UWrite p (Some (s_bytes w))) as ->.
    { destruct Ak as [Ak|(lim & ? & ? & -> & _)]; [congruence|discriminate Rt]. }
    unfold returned in Rr. rewrite Nz in Rr. destruct z as [k s0| | | |]; try discriminate Tg. injection Tg as ->. destruct s0; try discriminate Rr.
    exists p, g, j0, r. cbn. split; [exact Cn|]. split; [exact Nz|]. split; [exact Tx|]. rewrite (Fst _ _ eq_refl). destruct r, okw; try discriminate Rr; split; congruence.
  - injection Se as ->. destruct Be as [D|(? & D)]; discriminate D.
Qed.
Lemma sends_mine_of j l : sends_of j l = sends_of j (ProofMemchan2.mine j l).
Proof.
  unfold sends_of, ProofMemchan2.mine. induction l as [|x l IH]; [reflexivity|]. cbn. rewrite IH.
  destruct x; cbn; try (destruct (i =? j) eqn:E; cbn; rewrite ?E; reflexivity); reflexivity.
Qed.
Lemma replied_all buf conf ok s (P : nat -> nat -> bytes -> Prop) x c f st : kreach buf conf ok s -> In x (dlog s) -> reply_of x = Some (c, f, st) ->
  (forall j p b, k_text s j = Some b -> nthread s j = Some (ModelMemchan.TWrite (p, ModelMemchan.Srv) (ModelMemchan.WDone ModelMemchan.WrRead)) ->
     forall g, In (ModelMemchan.LSend j (p, ModelMemchan.Srv) g b) (tlog s) -> P p g b) ->
  replied s P c f st.
Proof.
  intros R L E HP. pose proof (wrote_all _ _ _ _ R _ _ _ _ L E) as W. destruct f as [[| |w er]|]; try exact Logic.I.
  destruct W as (p & g & j & res & C & N & T & Ts). exists p, g. split; [exact C|]. exists j, res. split; [exact N|]. split; [exact Ts|].
  destruct (texts_all _ _ _ _ R j _ _ T N) as [_ Q].
  destruct (ProofMemchan2.invariants _ _ _ (reach_net_any _ _ _ _ R)) as [_ Bk].
  pose proof (ProofMemchan2.K_story _ _ _ Bk _ _ N) as Sy. cbn in Sy. rewrite sends_mine_of.
  destruct res; try (rewrite Sy; reflexivity); destruct Sy as (g' & b & M); rewrite M; cbn; rewrite Nat.eqb_refl;
    (assert (Sd : In (ModelMemchan.LSend j (p, ModelMemchan.Srv) g' b) (tlog s)) by (apply sends_mine; rewrite M; cbn; auto));
    pose proof (Q _ _ _ Sd) as Eb; subst b; exists g'; (split; [reflexivity|]); try discriminate.
  intros _. exact (HP _ _ _ T N _ Sd).
Qed.
Lemma replied_any buf conf ok s x c f st : kreach buf conf ok s -> In x (dlog s) -> reply_of x = Some (c, f, st) ->
  replied s (fun _ _ _ => True) c f st.
Proof. intros R L E. eapply replied_all; eauto. Qed.
Lemma replied_read buf conf s x c f st : kreach buf conf apart s -> In x (dlog s) -> reply_of x = Some (c, f, st) ->
  replied s (client_got s) c f st.
Proof.
  intros R L E. eapply replied_all; eauto. intros j p b T N g Sd.
  destruct (delivered _ _ _ _ _ _ R T N) as (g' & i & S1 & S2). cbn in S2.
  destruct (ProofMemchan2.invariants _ _ _ (reach_net_any _ _ _ _ R)) as [_ Bk].
  pose proof (ProofMemchan2.K_story _ _ _ Bk _ _ N) as Sy. cbn in Sy. destruct Sy as (g0 & b0 & M).
  apply sends_mine in Sd. apply sends_mine in S1. rewrite M in Sd, S1.
  destruct Sd as [Sd|[Sd|[Sd|[]]]]; try discriminate Sd. destruct S1 as [S1|[S1|[S1|[]]]]; try discriminate S1.
  exists i. change (ModelMemchan.remote (p, ModelMemchan.Srv)) with (p, ModelMemchan.Clt) in S2. assert (g' = g) by congruence. subst g'. exact S2.
Qed.
