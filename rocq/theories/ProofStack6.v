(* Dials, connections, and what goes over them. *)
From Coq Require Import List Arith ZArith Lia Bool.
From Verif Require Import BaseBytes BaseConc ModelMessage ModelWrite ModelHandle ModelStack SpecWrite SpecStack.
From Verif Require Import ProofStack ProofStack2 ProofStack3 ProofStack4 ProofStack5.
From Verif Require ModelDispatch ModelMemchan SpecDispatch SpecMemchan.
From Verif Require ProofDispatch ProofDispatch3 ProofMemchan ProofMemchan2 ProofMemchan5 ProofMemchan6 ProofMemchan7 ProofMemchan8 ProofStackNet ProofStackSrv.
Import ListNotations.
Open Scope nat_scope.

(* ---------- logs grow ---------- *)
Lemma tlog_step s e s' : kcase s e s' -> exists l, tlog s' = tlog s ++ l.
Proof.
  intros K. apply kcase_net in K. destruct (net_event s e) as [e'|]; [exact (ProofMemchan7.log_grows _ _ _ K)|].
  exists []. rewrite K, app_nil_r. reflexivity.
Qed.
Lemma tlog_keep s e s' x : kcase s e s' -> In x (tlog s) -> In x (tlog s').
Proof. intros K I. destruct (tlog_step _ _ _ K) as (l & ->). apply in_or_app. auto. Qed.

(* ---------- the threads of logged reads ---------- *)
Lemma trel_reads ts i n t n' t' w : ProofMemchan.trel ts i n t n' t' w ->
  ModelMemchan.n_log n' = ModelMemchan.n_log n \/
  exists x, (forall j k g b, x = ModelMemchan.LRead j k g b -> j = i /\ exists m d st, t = ModelMemchan.TRead k m d (ModelMemchan.RdParse g st)) /\
    (ModelMemchan.n_log n' = ModelMemchan.n_log n ++ [x] \/ exists p, ModelMemchan.n_log n' = (ModelMemchan.n_log n ++ [ModelMemchan.LNew p]) ++ [x]).
Proof.
  intros T. ProofMemchan2.tcases T k st n1 s1 H1 H0.
  - inversion H1; subst; ProofMemchan.netu; ProofMemchan.netc; auto;
      right; eexists; (split; [|left; reflexivity]); discriminate.
  - inversion H1; subst; ProofMemchan.netu; ProofMemchan.netc; auto;
      right; eexists; (split; [|left; reflexivity]); try discriminate; intros ? ? ? ? [=]; subst; eauto 6.
  - assert (Q : ModelMemchan.n_log n1 = ModelMemchan.n_log n) by (destruct H0; reflexivity).
    destruct t as [| ? ? ? []| | |[]]; try discriminate H1; destruct s1; cbn [ProofMemchan.end_close ProofMemchan.to_close]; ProofMemchan.netu; ProofMemchan.netc; rewrite ?Q; auto;
      right; eexists; (split; [|left; reflexivity]); discriminate.
  - inversion H1; subst; ProofMemchan.netu; ProofMemchan.netc; auto;
      right; eexists; (split; [|(left; reflexivity) || (right; eexists; reflexivity)]); discriminate.
  - inversion H1; subst; ProofMemchan.netu; ProofMemchan.netc; auto;
      right; eexists; (split; [|left; reflexivity]); discriminate.
Qed.
Lemma read_thread buf ok s : SpecMemchan.mreach buf ok s -> forall j k g b, In (ModelMemchan.LRead j k g b) (ModelMemchan.n_log (ModelMemchan.s_net s)) ->
  exists t m d, SpecMemchan.at_ s j t /\ ProofStackNet.tag_of t = ProofStackNet.GRead k m d.
Proof.
  induction 1 as [|s e s' R IH H Ok]; intros j k g b L; [destruct L|].
  destruct (ProofMemchan.mstep_rel _ _ _ H) as [_ Q].
  assert (D : In (ModelMemchan.LRead j k g b) (ModelMemchan.n_log (ModelMemchan.s_net s)) \/
    exists t m d, SpecMemchan.at_ s j t /\ ProofStackNet.tag_of t = ProofStackNet.GRead k m d).
  { assert (G : forall i t n' t' w, nth_error (ModelMemchan.s_ts s) i = Some t -> ProofMemchan.trel (ModelMemchan.s_ts s) i (ModelMemchan.s_net s) t n' t' w ->
      In (ModelMemchan.LRead j k g b) (ModelMemchan.n_log n') -> In (ModelMemchan.LRead j k g b) (ModelMemchan.n_log (ModelMemchan.s_net s)) \/
      exists t m d, SpecMemchan.at_ s j t /\ ProofStackNet.tag_of t = ProofStackNet.GRead k m d).
    { intros i t n' t' w I T In_. destruct (trel_reads _ _ _ _ _ _ _ T) as [E|(x & P & E)]; [rewrite E in In_; auto|].
      assert (In_' : In (ModelMemchan.LRead j k g b) (ModelMemchan.n_log (ModelMemchan.s_net s)) \/ x = ModelMemchan.LRead j k g b).
      { destruct E as [E|(p & E)]; rewrite E in In_; apply in_app_or in In_ as [In_|[In_|[]]]; auto.
        apply in_app_or in In_ as [In_|[In_|[]]]; [auto|discriminate In_]. }
      destruct In_' as [In_'| ->]; [auto|]. destruct (P _ _ _ _ eq_refl) as (-> & m & d & st & ->). right. eexists. exists m, d. split; [exact I|reflexivity]. }
    destruct Q as [e0 t B|i ch t n' t' I T|i ch t n' t' x v k0 I T Ne V J]; cbn [ModelMemchan.s_net] in L; [auto|exact (G _ _ _ _ _ I T L)|exact (G _ _ _ _ _ I T L)]. }
  assert (Ex : exists t m d, SpecMemchan.at_ s j t /\ ProofStackNet.tag_of t = ProofStackNet.GRead k m d) by (destruct D as [D|D]; [exact (IH _ _ _ _ D)|exact D]).
  destruct Ex as (t & m & d & A & E). destruct (ProofStackNet.tags_forward _ _ _ _ _ Q A) as (t' & A' & E').
  exists t', m, d. split; [exact A'|congruence].
Qed.
Lemma read_by_in j l b : read_by j l = Some b -> exists k g, In (ModelMemchan.LRead j k g b) l.
Proof.
  induction l as [|x l IH]; [discriminate|]. cbn. destruct x as [| | |i k g b0| | | | |]; try (intros H; destruct (IH H) as (k' & g' & I'); eauto; fail).
  destruct (Nat.eqb_spec i j) as [->|D]; [|intros H; destruct (IH H) as (k' & g' & I'); eauto].
  intros [=]. subst. eauto.
Qed.

(* ---------- a write reported as read was read by the client, complete ---------- *)
Lemma apart_net buf conf s : kreach buf conf apart s -> SpecMemchan.mreach buf SpecMemchan.calm (k_net s).
Proof. apply reach_net. intros s0 e s' Q. exact Q. Qed.
Lemma delivered_net buf s j k : SpecMemchan.mreach buf SpecMemchan.calm s ->
  SpecMemchan.at_ s j (ModelMemchan.TWrite k (ModelMemchan.WDone ModelMemchan.WrRead)) ->
  exists g b x, In (ModelMemchan.LSend j k g b) (ModelMemchan.n_log (ModelMemchan.s_net s)) /\
    In (ModelMemchan.LRead x (ModelMemchan.remote k) g b) (ModelMemchan.n_log (ModelMemchan.s_net s)).
Proof.
  intros R A. destruct (ProofMemchan2.invariants _ _ _ R) as [_ Bk].
  pose proof (ProofMemchan2.K_story _ _ _ Bk _ _ A) as Sy. cbn in Sy. destruct Sy as (g & b & M).
  assert (L : In (ModelMemchan.LWriter j k ModelMemchan.WrRead) (ModelMemchan.n_log (ModelMemchan.s_net s))).
  { assert (X : In (ModelMemchan.LWriter j k ModelMemchan.WrRead) (ProofMemchan2.mine j (ModelMemchan.n_log (ModelMemchan.s_net s)))) by (rewrite M; cbn; auto).
    unfold ProofMemchan2.mine in X. apply filter_In in X as [X _]. exact X. }
  apply in_split in L as (l1 & l2 & E). pose proof (ProofMemchan5.readers_all _ _ R _ _ _ E) as (g' & l0 & b' & S1 & _ & G1).
  exists g', b'. assert (G2 : In b' (SpecMemchan.got (ModelMemchan.remote k) g' l1)) by (rewrite G1; apply in_or_app; right; left; reflexivity).
  unfold SpecMemchan.got in G2. apply in_flat_map in G2 as (x & X1 & X2). destruct x; try (destruct X2; fail).
  destruct (ProofMemchan.sock_eqb_spec k0 (ModelMemchan.remote k)) as [->|]; [|destruct X2].
  destruct (Nat.eqb_spec g0 g') as [->|]; cbn in X2; [|destruct X2]. destruct X2 as [<-|[]].
  exists i. rewrite E. split; apply in_or_app; auto.
Qed.
Lemma delivered buf conf s j k f : kreach buf conf apart s -> k_text s j = Some f ->
  nthread s j = Some (ModelMemchan.TWrite k (ModelMemchan.WDone ModelMemchan.WrRead)) ->
  exists g x, In (ModelMemchan.LSend j k g f) (tlog s) /\ In (ModelMemchan.LRead x (ModelMemchan.remote k) g f) (tlog s).
Proof.
  intros R Tx N. destruct (delivered_net _ _ _ _ (apart_net _ _ _ R) N) as (g & b & x & S1 & S2).
  destruct (texts_all _ _ _ _ R j f _ Tx N) as [_ Q]. pose proof (Q _ _ _ S1) as E. subst b. eauto.
Qed.

(* ---------- connections ---------- *)
Lemma conns_known buf conf ok s : kreach buf conf ok s -> forall c, c < ModelDispatch.v_n (vsrv s) <-> exists o, k_conn s c = Some o.
Proof.
  induction 1 as [|s e s' R IH H Ok]; intros c; [cbn; split; [lia|intros (o & Q); discriminate Q]|].
  destruct (kstep_inv _ _ _ H) as [_ K]. pose proof (owned_all _ _ _ _ R) as O.
  assert (Same : ModelDispatch.v_n (vsrv s') = ModelDispatch.v_n (vsrv s) -> k_conn s' = k_conn s -> c < ModelDispatch.v_n (vsrv s') <-> exists o, k_conn s' c = Some o).
  { intros -> ->. apply IH. }
  assert (Dn : forall i ch v t, ModelDispatch.dstep (k_srv s) (ModelDispatch.EvStep i ch) = Some v -> sthread s i = Some t ->
    (forall lim, t = ModelDispatch.TNew lim -> ch <> ModelDispatch.ChConf true) -> ModelDispatch.v_n (ModelDispatch.s_srv v) = ModelDispatch.v_n (vsrv s)).
  { intros i ch v t Dd St Nn. destruct (ProofDispatch.dstep_inv _ _ _ Dd) as (_ & [(u & [] & _)|(j & ch' & u & g' & u' & sp & E1 & Nj & T & ->)]).
    injection E1 as <- <-. rewrite St in Nj. injection Nj as <-. cbn. ProofDispatch.inv_tstep T; try reflexivity. exfalso. eapply Nn; reflexivity. }
  destruct K as [|i0 r0 r1 Nr Rs|Na Nc|e0 n Okn M|j0 lim p n v N0 M Dd|i0 t u0 n St Nu M|i0 ch t v St As Nt Dd|i0 lim v j0 u0 x St As Io Rt Dd|i0 ch t v j0 u0 x St As Io Rt Nc Dd|e v Be Dd];
    try (apply Same; reflexivity).
  - apply Same; [|reflexivity]. cbn. destruct (ProofDispatch.dstep_inv _ _ _ Dd) as (_ & [(u & _ & ->)|(j & ch & u & g' & u' & sp & E1 & _)]); [reflexivity|discriminate E1].
  - apply Same; [|reflexivity]. cbn. eapply Dn; eauto. intros lim ->. destruct (Nt lim eq_refl).
  - cbn. destruct (ProofDispatch.dstep_inv _ _ _ Dd) as (_ & [(u & [] & _)|(j & ch & u & g' & u' & sp & E1 & Nj & T & ->)]).
    injection E1 as <- <-. rewrite St in Nj. injection Nj as <-. cbn in T. injection T as <- <- <-. cbn. rewrite put_eq.
    destruct (O_new _ _ O _ _ St) as (o & W). specialize (IH c). destruct (Nat.eqb_spec c (ModelDispatch.v_n (vsrv s))) as [->|Dc].
    + split; [intros _; eauto|lia].
    + rewrite <- IH. lia.
  - apply Same; [|reflexivity]. cbn. eapply Dn; eauto.
  - apply Same; [|reflexivity]. cbn. destruct (ProofDispatch.dstep_inv _ _ _ Dd) as (_ & [(u & _ & ->)|(j & ch & u & g' & u' & sp & E1 & _)]); [reflexivity|].
    subst e. destruct Be as [Q|(c0 & Q)]; discriminate Q.
Qed.
(* each connection belongs to a client that has read the configuration message *)
Lemma configured buf conf s c p g : kreach buf conf apart s -> k_conn s c = Some (p, g) ->
  k_conf s = conf /\ exists x g', In (ModelMemchan.LRead x (p, ModelMemchan.Clt) g' conf) (tlog s).
Proof.
  intros R. revert c p g. induction R as [|s e s' R IH H Ok]; intros c p g Q; [discriminate Q|].
  destruct (kstep_inv _ _ _ H) as [_ K]. pose proof (owned_all _ _ _ _ R) as O.
  assert (Cf : k_conf s' = conf).
  { rewrite (conf_keep _ _ _ K). clear -R. induction R as [|s e s' R IH H Ok]; [reflexivity|]. destruct (kstep_inv _ _ _ H) as [_ K]. rewrite (conf_keep _ _ _ K). exact IH. }
  split; [exact Cf|].
  assert (Old : k_conn s c = Some (p, g) -> exists x g', In (ModelMemchan.LRead x (p, ModelMemchan.Clt) g' conf) (tlog s')).
  { intros Q0. destruct (IH _ _ _ Q0) as (_ & x & g' & L). exists x, g'. exact (tlog_keep _ _ _ _ K L). }
  pose proof (conf_keep _ _ _ K) as Cf0.
  destruct K as [|i0 r0 r1 Nr Rs|Na Nc|e0 n Okn M|j0 lim p0 n v N0 M Dd|i0 t u0 n St Nu M|i0 ch t v St As Nt Dd|i0 lim v j0 u0 x St As Io Rt Dd|i0 ch t v j0 u0 x St As Io Rt Nc Dd|e v Be Dd];
    try exact (Old Q).
  cbn in Q. rewrite put_eq in Q. destruct (Nat.eqb_spec c (ModelDispatch.v_n (vsrv s))) as [->|Dc]; [|exact (Old Q)].
  destruct (O_io _ _ O _ _ _ Io) as (t & y & St' & Ak & Ny & Tg & Tx). rewrite St in St'. injection St' as <-.
  destruct Ak as [Ak|(l & p1 & g1 & _ & Nw & ->)]; [|cbn in Rt; destruct (nthread s j0) as [[]|]; try discriminate Rt; destruct s0; discriminate Rt].
  cbn in Ak. rewrite Q in Ak. injection Ak as <-.
  unfold returned in Rt. rewrite Ny in Rt. destruct y as [k st| | | |]; try discriminate Rt. destruct st as [| | | | | | | |r]; try discriminate Rt.
  destruct r; try discriminate Rt. cbn in Tg. injection Tg as ->. cbn in Tx. rewrite <- Cf0, Cf in Tx.
  destruct (delivered _ _ _ _ _ _ R Tx Ny) as (g' & x' & _ & L). exists x', g'. exact L.
Qed.
