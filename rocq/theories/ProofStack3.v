(* Which call of the transport belongs to which thread of the server. *)
From Coq Require Import List Arith ZArith Lia Bool.
From Verif Require Import BaseBytes BaseConc ModelMessage ModelWrite ModelHandle ModelStack SpecWrite SpecStack ProofStack ProofStack2.
From Verif Require ModelDispatch ModelMemchan SpecDispatch SpecMemchan.
From Verif Require ProofDispatch ProofDispatch3 ProofMemchan ProofMemchan6 ProofStackNet ProofStackSrv.
Import ListNotations.
Open Scope nat_scope.

Definition tag_use (buf : nat) (u : use) : ProofStackNet.tag :=
  match u with
  | UWrite p _ => ProofStackNet.GWrite (p, ModelMemchan.Srv)
  | URead p => ProofStackNet.GRead (p, ModelMemchan.Srv) (NewMessage buf) true
  | UClose p => ProofStackNet.GClose (p, ModelMemchan.Srv)
  | UDown => ProofStackNet.GDown
  end.
Definition asked (s : stack) (i : nat) (t : ModelDispatch.thread) (u : use) : Prop :=
  asks s i t = Some u \/ (exists lim p g, t = ModelDispatch.TNew lim /\ k_new s i = Some (p, g) /\ u = UClose p).
Definition rdone (st : ModelMemchan.rdstate) : bool := match st with ModelMemchan.RdDone _ => true | _ => false end.

Record owned (buf : nat) (s : stack) : Prop := {
  O_buf : ModelDispatch.v_buf (vsrv s) = buf;
  O_io : forall i u j, k_io s i = Some (u, j) ->
    exists t x, sthread s i = Some t /\ asked s i t u /\ nthread s j = Some x /\
      ProofStackNet.tag_of x = tag_use buf u /\ k_text s j = text_of u;
  O_inj : forall i i' u u' j, k_io s i = Some (u, j) -> k_io s i' = Some (u', j) -> i = i';
  O_new : forall i lim, sthread s i = Some (ModelDispatch.TNew lim) -> exists o, k_new s i = Some o;
  O_lt : forall i o, k_new s i = Some o -> i < length (ModelDispatch.s_ts (k_srv s));
  O_conn : forall i c st, sthread s i = Some (ModelDispatch.TRd c st) -> exists o, k_new s i = Some o /\ k_conn s c = Some o;
  O_back : forall c o, k_conn s c = Some o -> exists i st, sthread s i = Some (ModelDispatch.TRd c st) /\ k_new s i = Some o;
  O_text : forall j f, k_text s j = Some f -> j < length (ModelMemchan.s_ts (k_net s));
  O_read : forall j p m d st, nthread s j = Some (ModelMemchan.TRead (p, ModelMemchan.Srv) m d st) -> rdone st = false ->
    exists i, k_io s i = Some (URead p, j) }.

Lemma asks_ext s s' i t : k_conf s' = k_conf s -> k_new s' i = k_new s i ->
  (forall c, ProofStackSrv.conn_of t = Some c -> k_conn s' c = k_conn s c) -> asks s' i t = asks s i t.
Proof.
  intros C N K. unfold asks, pair_of. destruct t as [| |c st|c k m j| | | | | | |]; cbn in K; auto.
  - rewrite C, N. reflexivity.
  - rewrite (K c eq_refl). reflexivity.
  - rewrite (K c eq_refl). reflexivity.
  - rewrite (K c eq_refl). reflexivity.
Qed.
Lemma next_asked s i t u : next_use s i t = Some u -> (forall lim, t = ModelDispatch.TNew lim -> exists o, k_new s i = Some o) ->
  (forall u j, k_io s i = Some (u, j) -> asked s i t u) -> asked s i t u.
Proof.
  unfold next_use. intros H Nw Io. destruct (k_io s i) as [[[p f| | |] j]|] eqn:K; try discriminate; [|left; exact H].
  destruct t as [lim| | | | | | | | | |]; try discriminate.
  assert (u = UClose p) as -> by (destruct (nthread s j) as [[? []| | | |]|]; try discriminate; destruct r; congruence).
  destruct (Nw lim eq_refl) as ([q g] & E). destruct (Io _ _ eq_refl) as [A|(l & p' & g' & _ & _ & A)]; [|discriminate A].
  cbn in A. rewrite E in A. injection A as -> _. right. exists lim, p, g. auto.
Qed.
(* what a step does to the books of the stack *)
Lemma put_eq {A} (f : nat -> A) i x j : put f i x j = if j =? i then x else f j.
Proof. reflexivity. Qed.
Lemma begin_call buf u : ModelMemchan.begin (call_of buf u) = Some (match u with
  | UWrite p _ => ModelMemchan.TWrite (p, ModelMemchan.Srv) ModelMemchan.WGet
  | URead p => ModelMemchan.TRead (p, ModelMemchan.Srv) (NewMessage buf) true ModelMemchan.RdStart
  | UClose p => ModelMemchan.TClose (p, ModelMemchan.Srv) ModelMemchan.ClStart
  | UDown => ModelMemchan.TDown ModelMemchan.ShCAS
  end).
Proof. destruct u; reflexivity. Qed.
Lemma call_begins s buf u n : ModelMemchan.mstep (k_net s) (call_of buf u) = Some n ->
  exists x, n = ModelMemchan.MkSys (vnet s) (ModelMemchan.s_ts (k_net s) ++ [x]) /\ ProofStackNet.tag_of x = tag_use buf u /\
    ModelMemchan.begin (call_of buf u) = Some x.
Proof.
  intros H. destruct (ProofMemchan.mstep_rel _ _ _ H) as [_ Q].
  inversion Q as [e0 t B E1 E2|i ch t n' t' A T E1 E2|i ch t n' t' j v k A T D V J E1 E2]; subst; try (destruct u; discriminate).
  exists t. split; [reflexivity|]. split; [|exact B]. destruct u; cbn in B; injection B as <-; reflexivity.
Qed.

(* reads that are over stay over, others were going on before, or are just begun *)
Lemma reading_before s e s' j k m d st : ProofMemchan.srel_ s e s' -> SpecMemchan.at_ s' j (ModelMemchan.TRead k m d st) -> rdone st = false ->
  (exists st0, SpecMemchan.at_ s j (ModelMemchan.TRead k m d st0) /\ rdone st0 = false) \/
  (j = length (ModelMemchan.s_ts s) /\ ModelMemchan.begin e = Some (ModelMemchan.TRead k m d st)).
Proof.
  intros R A D. destruct (ProofStackNet.tags_back _ _ _ _ _ R A) as [(u & U & T)|B]; [left|right; exact B].
  destruct u as [|k0 m0 d0 st0| | |]; try discriminate T. injection T as -> -> ->. exists st0. split; [exact U|].
  destruct st0; try reflexivity. exfalso. unfold SpecMemchan.at_ in *.
  destruct R as [e0 t B|i ch t n' t' I T|i ch t n' t' x v k' I T Ne V J]; cbn [ModelMemchan.s_ts] in A.
  - rewrite nth_error_app1 in A by (apply nth_error_Some; congruence). rewrite U in A. injection A as <-. discriminate D.
  - apply set_nth_lookup in A as [[-> <-]|[_ A]]; [|rewrite U in A; injection A as <-; discriminate D].
    rewrite U in I. injection I as <-. inversion T; subst.
    + match goal with H : ProofMemchan.rrel _ _ _ _ _ _ _ _ _ _ |- _ => inversion H end.
    + match goal with H : SpecMemchan.closing _ = _ |- _ => discriminate H end.
  - apply set_nth_lookup in A as [[-> A]|[_ A]]; [discriminate A|].
    apply set_nth_lookup in A as [[-> <-]|[_ A]]; [|rewrite U in A; injection A as <-; discriminate D].
    rewrite U in I. injection I as <-. inversion T; subst.
    + match goal with H : ProofMemchan.rrel _ _ _ _ _ _ _ _ _ _ |- _ => inversion H end.
    + match goal with H : SpecMemchan.closing _ = _ |- _ => discriminate H end.
Qed.

Section Keep.
Variables (s : stack) (e : event) (s' : stack).
Hypothesis K : kcase s e s'.
Lemma conf_keep : k_conf s' = k_conf s.
Proof. destruct K; reflexivity. Qed.
Lemma new_keep i : i < length (ModelDispatch.s_ts (k_srv s)) -> k_new s' i = k_new s i.
Proof. intros L. destruct K; try reflexivity. cbn. rewrite put_eq. destruct (Nat.eqb_spec i (length (ModelDispatch.s_ts (k_srv s)))); [lia|reflexivity]. Qed.
Lemma new_keep' i o : (forall i o, k_new s i = Some o -> i < length (ModelDispatch.s_ts (k_srv s))) -> k_new s i = Some o -> k_new s' i = Some o.
Proof. intros Lt N. rewrite new_keep; eauto. Qed.
Lemma conn_keep c : c < ModelDispatch.v_n (vsrv s) -> k_conn s' c = k_conn s c.
Proof. intros L. destruct K; try reflexivity. cbn. rewrite put_eq. destruct (Nat.eqb_spec c (ModelDispatch.v_n (vsrv s))); [lia|reflexivity]. Qed.
Lemma text_keep j : j < length (ModelMemchan.s_ts (k_net s)) -> k_text s' j = k_text s j.
Proof. intros L. destruct K; try reflexivity. cbn. rewrite put_eq. destruct (Nat.eqb_spec j (length (ModelMemchan.s_ts (k_net s)))); [lia|reflexivity]. Qed.
Lemma sthread_keep i t : sthread s i = Some t -> (forall ch, srv_event e <> Some (ModelDispatch.EvStep i ch)) -> sthread s' i = Some t.
Proof.
  intros N D. pose proof (kcase_srv _ _ _ K) as P. destruct (srv_event e) as [e'|]; [|rewrite P; exact N].
  eapply ProofStackSrv.others_keep; [exact P|exact N|]. intros ch ->. eapply D; reflexivity.
Qed.
Lemma nthread_keep j x : nthread s j = Some x -> exists x', nthread s' j = Some x' /\ ProofStackNet.tag_of x' = ProofStackNet.tag_of x.
Proof.
  intros N. pose proof (kcase_net _ _ _ K) as P. destruct (net_event s e) as [e'|]; [|rewrite P; eauto].
  destruct (ProofMemchan.mstep_rel _ _ _ P) as [_ Q]. exact (ProofStackNet.tags_forward _ _ _ _ _ Q N).
Qed.
Lemma buf_keep : ModelDispatch.v_buf (vsrv s') = ModelDispatch.v_buf (vsrv s).
Proof.
  pose proof (kcase_srv _ _ _ K) as P. destruct (srv_event e) as [e'|]; [|rewrite P; reflexivity].
  destruct (ProofDispatch.dstep_inv _ _ _ P) as (_ & [(u & U & E)|(j & ch & u & g' & u' & sp & E1 & Nj & T & E)]); rewrite E; [reflexivity|].
  exact (ProofDispatch.e_buf _ _ (ProofDispatch.tstep_ext _ _ _ _ _ _ _ T)).
Qed.
Lemma srv_grow : length (ModelDispatch.s_ts (k_srv s)) <= length (ModelDispatch.s_ts (k_srv s')).
Proof.
  pose proof (kcase_srv _ _ _ K) as P. destruct (srv_event e) as [e'|]; [|rewrite P; lia].
  exact (ProofStackSrv.threads_longer _ _ _ P).
Qed.
Lemma net_grow : length (ModelMemchan.s_ts (k_net s)) <= length (ModelMemchan.s_ts (k_net s')).
Proof.
  pose proof (kcase_net _ _ _ K) as P. destruct (net_event s e) as [e'|]; [|rewrite P; lia].
  destruct (ProofMemchan.mstep_rel _ _ _ P) as [_ Q]. exact (ProofStackNet.threads_grow _ _ _ Q).
Qed.
End Keep.
Lemma asked_keep buf s e s' i t u : SpecDispatch.dreach buf SpecDispatch.anything (k_srv s) -> kcase s e s' ->
  sthread s i = Some t -> asked s i t u -> asked s' i t u.
Proof.
  intros R K N A. assert (L : i < length (ModelDispatch.s_ts (k_srv s))) by (apply nth_error_Some; congruence).
  destruct A as [A|(lim & p & g & -> & Nw & ->)].
  - left. rewrite <- A. apply asks_ext; [apply (conf_keep _ _ _ K)|apply (new_keep _ _ _ K _ L)|].
    intros c C. apply (conn_keep _ _ _ K). exact (ProofStackSrv.belongs_lt _ _ _ _ _ _ R N C).
  - right. exists lim, p, g. rewrite (new_keep _ _ _ K _ L). auto.
Qed.
Lemma io_cases buf s e s' i u j : owned buf s -> kcase s e s' -> k_io s' i = Some (u, j) ->
  (k_io s i = Some (u, j) /\ (forall ch, srv_event e <> Some (ModelDispatch.EvStep i ch)) /\ (forall ch, e <> ESrv (ModelDispatch.EvStep i ch))) \/
  (e = EUse i /\ exists t, sthread s i = Some t /\ next_use s i t = Some u /\ j = length (ModelMemchan.s_ts (k_net s)) /\
     k_text s' j = text_of u /\ ModelMemchan.mstep (k_net s) (call_of (ModelDispatch.v_buf (vsrv s)) u) = Some (k_net s')).
Proof.
  intros O K E. destruct K as [|i0 r0 r1 Nr Rs|Na Nc|e0 n Ok M|j0 lim p n v N0 M Dd|i0 t u0 n St Nu M|i0 ch t v St As Nt Dd|i0 lim v j0 u0 x St As Io Rt Dd|i0 ch t v j0 u0 x St As Io Rt Nc Dd|e v Be Dd]; cbn in E |- *;
    try (left; split; [exact E|split; discriminate]).
  - rewrite put_eq in E. destruct (Nat.eqb_spec i i0) as [->|D].
    + right. injection E as <- <-. split; [reflexivity|]. exists t. rewrite put_eq, Nat.eqb_refl. auto 6.
    + left. split; [exact E|split; discriminate].
  - left. split; [exact E|].
    assert (D : i <> i0).
    { intros ->. destruct (O_io _ _ O _ _ _ E) as (t0 & x & St' & Ak & _). rewrite St in St'. injection St' as <-.
      destruct Ak as [Ak|(lim & _ & _ & -> & _)]; [congruence|eapply Nt; reflexivity]. }
    split; intros ch' Q; congruence.
  - rewrite put_eq in E. destruct (Nat.eqb_spec i i0) as [->|D]; [discriminate E|].
    left. split; [exact E|]. split; intros ch' Q; congruence.
  - rewrite put_eq in E. destruct (Nat.eqb_spec i i0) as [->|D]; [discriminate E|].
    left. split; [exact E|]. split; intros ch' Q; congruence.
  - left. split; [exact E|]. split; intros ch' Q; destruct Be as [->|(c & ->)]; discriminate Q.
Qed.
Lemma owned_step buf s e s' : SpecDispatch.dreach buf SpecDispatch.anything (k_srv s) -> kcase s e s' -> owned buf s -> owned buf s'.
Proof.
  intros R K O. assert (Lt := O_lt _ _ O).
  constructor.
  - rewrite (buf_keep _ _ _ K). apply (O_buf _ _ O).
  - intros i u j E. destruct (io_cases _ _ _ _ _ _ _ O K E) as [(E0 & Ns & _)|(-> & t & St & Nu & -> & Tx & M)].
    + destruct (O_io _ _ O _ _ _ E0) as (t & x & St & Ak & Nx & Tg & Tx).
      destruct (nthread_keep _ _ _ K _ _ Nx) as (x' & Nx' & Tg'). exists t, x'.
      split; [exact (sthread_keep _ _ _ K _ _ St Ns)|]. split; [exact (asked_keep _ _ _ _ _ _ _ R K St Ak)|].
      split; [exact Nx'|]. split; [congruence|]. rewrite (text_keep _ _ _ K); [exact Tx|]. apply nth_error_Some. congruence.
    + destruct (call_begins _ _ _ _ M) as (x & Q & Tg & _). exists t, x.
      split; [apply (sthread_keep _ _ _ K _ _ St); discriminate|].
      split.
      * apply (asked_keep _ _ _ _ _ _ _ R K St). apply next_asked; [exact Nu| |].
        -- intros lim ->. exact (O_new _ _ O _ _ St).
        -- intros u' j' E'. destruct (O_io _ _ O _ _ _ E') as (t' & x' & St' & Ak & _). congruence.
      * rewrite Q. cbn. rewrite nth_error_app2, Nat.sub_diag by lia. rewrite (O_buf _ _ O) in Tg. auto.
  - intros i i' u u' j E E'.
    destruct (io_cases _ _ _ _ _ _ _ O K E) as [(E0 & Ns & _)|(Q & t & St & Nu & J & Tx & M)];
    destruct (io_cases _ _ _ _ _ _ _ O K E') as [(E0' & Ns' & _)|(Q' & t' & St' & Nu' & J' & Tx' & M')].
    + exact (O_inj _ _ O _ _ _ _ _ E0 E0').
    + exfalso. destruct (O_io _ _ O _ _ _ E0) as (? & x & _ & _ & Nx & _). subst j.
      assert (nth_error (ModelMemchan.s_ts (k_net s)) (length (ModelMemchan.s_ts (k_net s))) = None) by (apply nth_error_None; lia). congruence.
    + exfalso. destruct (O_io _ _ O _ _ _ E0') as (? & x & _ & _ & Nx & _). subst j.
      assert (nth_error (ModelMemchan.s_ts (k_net s)) (length (ModelMemchan.s_ts (k_net s))) = None) by (apply nth_error_None; lia). congruence.
    + congruence.
  - intros i lim N. pose proof (kcase_srv _ _ _ K) as P. destruct (srv_event e) as [e'|] eqn:Se.
    2:{ rewrite P in N. destruct (O_new _ _ O _ _ N) as (o & W). exists o. apply (new_keep' _ _ _ K _ _ Lt W). }
    destruct (ProofStackSrv.threads_after _ _ _ _ _ P N) as [N0|[(ch & u & g' & sp & -> & N0 & T & _)|(L & Q)]].
    + destruct (O_new _ _ O _ _ N0) as (o & W). exists o. apply (new_keep' _ _ _ K _ _ Lt W).
    + destruct (ProofStackSrv.new_from _ _ _ _ _ _ _ T).
    + destruct Q as [(l & -> & Q)|[(c & _ & Q)|[[_ Q]|(c & k & m & Q)]]]; try discriminate Q.
      destruct K as [| | | |j0 lim0 p n v N0 M Dd| | | | |e v Be Dd]; cbn in Se; try discriminate Se.
      * cbn in N |- *. exists (p, ModelMemchan.u_gen (ModelMemchan.n_sock (vnet s) (p, ModelMemchan.Srv))). rewrite put_eq.
        cbn in P. destruct (ProofDispatch.dstep_inv _ _ _ P) as (_ & [(u & U & E)|(j & ch & u & g' & u' & sp & E1 & _)]); [|discriminate E1].
        rewrite E in N. cbn in N. apply nth_error_snoc_some in N as [N|[-> _]]; [|rewrite Nat.eqb_refl; reflexivity].
        exfalso. assert (i < length (ModelDispatch.s_ts (k_srv s))) by (apply nth_error_Some; congruence). lia.
      * destruct Be as [->|(c & ->)]; discriminate Se.
  - intros i o N. destruct K as [|i0 r0 r1 Nr Rs|Na Nc|e0 n Ok M|j0 lim p n v N0 M Dd|i0 t u0 n St Nu M|i0 ch t v St As Nt Dd|i0 lim v j0 u0 x St As Io Rt Dd|i0 ch t v j0 u0 x St As Io Rt Nc Dd|e v Be Dd]; cbn in N |- *;
      try (exact (Lt _ _ N)); try (eapply Nat.lt_le_trans; [exact (Lt _ _ N)|exact (ProofStackSrv.threads_longer _ _ _ Dd)]).
    rewrite put_eq in N. destruct (ProofDispatch.dstep_inv _ _ _ Dd) as (_ & [(u & U & E)|(j & ch & u & g' & u' & sp & E1 & _)]); [|discriminate E1].
    cbn in U. rewrite E. cbn. rewrite app_length. cbn. destruct (Nat.eqb_spec i (length (ModelDispatch.s_ts (k_srv s)))); [lia|].
    specialize (Lt _ _ N). lia.
  - intros i c st N.
    assert (Old : forall st0, sthread s i = Some (ModelDispatch.TRd c st0) -> exists o, k_new s' i = Some o /\ k_conn s' c = Some o).
    { intros st0 N0. destruct (O_conn _ _ O _ _ _ N0) as (o & A & B). exists o. split; [apply (new_keep' _ _ _ K _ _ Lt A)|].
      rewrite (conn_keep _ _ _ K); [exact B|]. eapply ProofStackSrv.belongs_lt; [exact R|exact N0|reflexivity]. }
    pose proof (kcase_srv _ _ _ K) as P. destruct (srv_event e) as [e'|] eqn:Se; [|rewrite P in N; eauto].
    destruct (ProofStackSrv.threads_after _ _ _ _ _ P N) as [N0|[(ch & u & g' & sp & -> & N0 & T & _)|(L & Q)]]; [eauto| |].
    + destruct (ProofStackSrv.reader_from _ _ _ _ _ _ _ _ T) as [(st0 & ->)|(lim & -> & -> & -> & _)]; [eauto|].
      destruct K as [| | | |j0 lim0 p n v N1 M Dd| |i0 ch t v St As Nt Dd|i0 l0 v j0 u0 x St As Io Rt Dd|i0 ch t v j0 u0 x St As Io Rt Nc Dd|e v Be Dd]; cbn in Se; try discriminate Se.
      * injection Se as -> ->. rewrite N0 in St. injection St as <-. exfalso. eapply Nt; reflexivity.
      * injection Se as ->. destruct (O_new _ _ O _ _ N0) as (o & W). exists o. cbn. rewrite put_eq, Nat.eqb_refl. auto.
      * injection Se as -> ->. rewrite N0 in St. injection St as <-. exfalso. eapply Nc; reflexivity.
      * injection Se as ->. destruct Be as [Q|(? & Q)]; discriminate Q.
    + destruct Q as [(l & _ & Q)|[(c' & _ & Q)|[[_ Q]|(c' & k & m & Q)]]]; discriminate Q.
  - intros c o N.
    assert (Old : k_conn s c = Some o -> exists i st, sthread s' i = Some (ModelDispatch.TRd c st) /\ k_new s' i = Some o).
    { intros C. destruct (O_back _ _ O _ _ C) as (i & st & A & W). exists i. pose proof (kcase_srv _ _ _ K) as P.
      destruct (srv_event e) as [e'|] eqn:Se; [|exists st; rewrite P; split; [exact A|exact (new_keep' _ _ _ K _ _ Lt W)]].
      destruct (nth_error (ModelDispatch.s_ts (k_srv s')) i) as [t'|] eqn:N'.
      2:{ exfalso. apply nth_error_None in N'. assert (i < length (ModelDispatch.s_ts (k_srv s))) by (apply nth_error_Some; congruence).
          pose proof (srv_grow _ _ _ K). lia. }
      destruct (ProofStackSrv.threads_after _ _ _ _ _ P N') as [N0|[(ch & u & g' & sp & -> & N0 & T & _)|(L & Q)]].
      - rewrite A in N0. injection N0 as <-. exists st. split; [reflexivity|exact (new_keep' _ _ _ K _ _ Lt W)].
      - rewrite A in N0. injection N0 as <-. destruct (ProofStackSrv.reader_to _ _ _ _ _ _ _ _ T) as (st' & ->).
        exists st'. split; [reflexivity|exact (new_keep' _ _ _ K _ _ Lt W)].
      - exfalso. assert (i < length (ModelDispatch.s_ts (k_srv s))) by (apply nth_error_Some; congruence). lia. }
    destruct K as [|i0 r0 r1 Nr Rs|Na Nc|e0 n Ok M|j0 lim p n v N0 M Dd|i0 t u0 n St Nu M|i0 ch t v St As Nt Dd|i0 lim v j0 u0 x St As Io Rt Dd|i0 ch t v j0 u0 x St As Io Rt Nc Dd|e v Be Dd];
      try (exact (Old N)).
    cbn in N. rewrite put_eq in N. destruct (Nat.eqb_spec c (ModelDispatch.v_n (vsrv s))) as [->|D]; [|exact (Old N)].
    exists i0. cbn. destruct (ProofDispatch.dstep_inv _ _ _ Dd) as (_ & [(u & U & E)|(j & ch & u & g' & u' & sp & E1 & Nj & T & E)]); [destruct U|].
    injection E1 as <- <-. rewrite St in Nj. injection Nj as <-. cbn in T. injection T as <- <- <-. rewrite E. cbn.
    assert (i0 < length (ModelDispatch.s_ts (k_srv s))) by (apply nth_error_Some; congruence).
    exists ModelDispatch.RHook. rewrite nth_error_app1 by (rewrite set_nth_length; assumption). rewrite (set_nth_eq _ _ _ _ St). auto.
  - intros j f T. pose proof (net_grow _ _ _ K) as G. destruct K as [|i0 r0 r1 Nr Rs|Na Nc|e0 n Ok M|j0 lim p n v N0 M Dd|i0 t u0 n St Nu M|i0 ch t v St As Nt Dd|i0 lim v j0 u0 x St As Io Rt Dd|i0 ch t v j0 u0 x St As Io Rt Nc Dd|e v Be Dd];
      try (exact (Nat.lt_le_trans _ _ _ (O_text _ _ O _ _ T) G)).
    cbn in T, G |- *. rewrite put_eq in T. destruct (call_begins _ _ _ _ M) as (x & -> & _). cbn. rewrite app_length. cbn.
    destruct (Nat.eqb_spec j (length (ModelMemchan.s_ts (k_net s)))); [lia|]. pose proof (O_text _ _ O _ _ T). lia.
  - intros j p m d st N D.
    assert (Old : forall st0, nthread s j = Some (ModelMemchan.TRead (p, ModelMemchan.Srv) m d st0) -> rdone st0 = false ->
       exists i, k_io s' i = Some (URead p, j)).
    { intros st0 N0 D0. destruct (O_read _ _ O _ _ _ _ _ N0 D0) as (i & E). exists i.
      destruct K as [|i0 r0 r1 Nr Rs|Na Nc|e0 n Ok M|j0 lim p0 n v N1 M Dd|i0 t u0 n St Nu M|i0 ch t v St As Nt Dd|i0 lim v j0 u0 x St As Io Rt Dd|i0 ch t v j0 u0 x St As Io Rt Nc Dd|e v Be Dd]; try exact E; cbn; rewrite put_eq.
      - destruct (Nat.eqb_spec i i0) as [->|Ne]; [|exact E]. exfalso. unfold next_use in Nu. rewrite E in Nu. discriminate Nu.
      - destruct (Nat.eqb_spec i i0) as [->|Ne]; [|exact E]. exfalso. rewrite E in Io. injection Io as <- <-.
        unfold returned in Rt. rewrite N0 in Rt. destruct st0; discriminate.
      - destruct (Nat.eqb_spec i i0) as [->|Ne]; [|exact E]. exfalso. rewrite E in Io. injection Io as <- <-.
        unfold returned in Rt. rewrite N0 in Rt. destruct st0; discriminate. }
    pose proof (kcase_net _ _ _ K) as P. destruct (net_event s e) as [e'|] eqn:Ne; [|rewrite P in N; eauto].
    destruct (ProofMemchan.mstep_rel _ _ _ P) as [_ Q].
    destruct (reading_before _ _ _ _ _ _ _ _ Q N D) as [(st0 & N0 & D0)|[-> B]]; [eauto|].
    destruct K as [|i0 r0 r1 Nr Rs|Na Nc|e0 n Ok M|j0 lim p0 n v N1 M Dd|i0 t u0 n St Nu M|i0 ch t v St As Nt Dd|i0 lim v j0 u0 x St As Io Rt Dd|i0 ch t v j0 u0 x St As Io Rt Nc Dd|e v Be Dd]; cbn in Ne; try discriminate Ne.
    + injection Ne as ->. destruct e'; try discriminate B. cbn in B. injection B as -> _ _ _. discriminate Ok.
    + injection Ne as <-. discriminate B.
    + rewrite St, Nu in Ne. injection Ne as <-. exists i0. cbn. rewrite put_eq, Nat.eqb_refl. rewrite begin_call in B.
      destruct u0; try discriminate B. injection B as -> _ _ _. reflexivity.
Qed.
Lemma owned_all buf conf ok s : kreach buf conf ok s -> owned buf s.
Proof.
  induction 1 as [|s e s' R IH H Ok].
  - constructor; cbn; try discriminate; try reflexivity; try (intros []; discriminate).
  - destruct (kstep_inv _ _ _ H) as [_ K]. exact (owned_step _ _ _ _ (reach_srv_any _ _ _ _ R) K IH).
Qed.
