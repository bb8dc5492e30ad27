(* Results of calls of the transport: failed reads, closed sockets, failed handshakes. *)
From Coq Require Import List Arith ZArith Lia Bool.
From Verif Require Import BaseBytes BaseConc ModelMessage ModelWrite ModelHandle ModelStack SpecWrite SpecStack.
From Verif Require Import ProofStack ProofStack2 ProofStack3 ProofStack4 ProofStack5 ProofStack6 ProofStack9.
From Verif Require ModelDispatch ModelMemchan SpecDispatch SpecMemchan.
From Verif Require ProofDispatch ProofMemchan ProofStackNet ProofStackSrv.
Import ListNotations.
Open Scope nat_scope.

(* calls that have returned *)
Definition over (x : ModelMemchan.thread) : bool :=
  match x with
  | ModelMemchan.TWrite _ (ModelMemchan.WDone _) | ModelMemchan.TRead _ _ _ (ModelMemchan.RdDone _)
  | ModelMemchan.TClose _ ModelMemchan.ClDone | ModelMemchan.TDown ModelMemchan.ShDone => true
  | _ => false
  end.
Lemma over_still ts i n x n' x' w : ProofMemchan.trel ts i n x n' x' w -> over x = false.
Proof.
  intros [k s m' s' H|k m d s m' s' v H|t k s m' s' v Cl H|p s m' s' H|s m' s' H].
  - destruct s; try reflexivity. inversion H.
  - destruct s; try reflexivity. inversion H.
  - destruct t as [|? ? ? st| k0 st| |st]; try discriminate Cl; cbn in Cl; [destruct st; try discriminate Cl; reflexivity| |destruct st; try discriminate Cl; reflexivity].
    injection Cl as <- <-. destruct st; try reflexivity. inversion H.
  - reflexivity.
  - destruct s; try reflexivity. inversion H.
Qed.
Lemma over_stays s e s' j x : ProofMemchan.srel_ s e s' -> SpecMemchan.at_ s j x -> over x = true -> SpecMemchan.at_ s' j x.
Proof.
  unfold SpecMemchan.at_. intros [e0 t B|i ch t n' t' I T|i ch t n' t' y v k0 I T Ne V J] A O; cbn.
  - rewrite nth_error_app1; [exact A|]. apply nth_error_Some. congruence.
  - destruct (Nat.eq_dec i j) as [->|D]; [|rewrite set_nth_ne; auto]. pose proof (over_still _ _ _ _ _ _ _ T). congruence.
  - assert (y <> j) by (intros ->; rewrite A in J; injection J as ->; discriminate O). rewrite set_nth_ne by auto.
    destruct (Nat.eq_dec i j) as [->|D]; [|rewrite set_nth_ne; auto]. pose proof (over_still _ _ _ _ _ _ _ T). congruence.
Qed.
Lemma over_keeps s e s' j x : kcase s e s' -> nthread s j = Some x -> over x = true -> nthread s' j = Some x.
Proof.
  intros K N O. destruct (net_cases _ _ _ K) as [E|(e' & _ & Q)]; [rewrite E; exact N|exact (over_stays _ _ _ _ _ Q N O)].
Qed.
Lemma returned_over s u j ch x : returned s u j ch = true -> nthread s j = Some x -> over x = true.
Proof.
  unfold returned. intros R N. rewrite N in R. destruct u, x as [k st|k m d st|k st|q st|st]; try discriminate R; destruct st; try discriminate R; reflexivity.
Qed.

(* a step of a server thread that has to call the transport comes after the call returned *)
Lemma called buf conf ok s i ch s' t u : kreach buf conf ok s -> kcase s (ESrv (ModelDispatch.EvStep i ch)) s' -> sthread s i = Some t ->
  asks s i t = Some u -> exists u' j x, asked s i t u' /\ nthread s j = Some x /\ ProofStackNet.tag_of x = tag_use buf u' /\ over x = true /\
    returned s u' j ch = true /\ k_io s i = Some (u', j) /\ k_net s' = k_net s.
Proof.
  intros R K N A. pose proof (owned_all _ _ _ _ R) as O.
  remember (ESrv (ModelDispatch.EvStep i ch)) as e eqn:Ee.
  destruct K as [|i0 r0 r1 Nr Rs|Na Nc|e0 n Okn M|j0 lim p0 n v N0 M Dd|i0 t0 u0 n St Nu M|i0 ch0 t0 v St As Nt Dd|i0 lim v j0 u0 y0 St As Io Rr Dd|i0 ch0 t0 v j0 u0 y0 St As Io Rr Nc Dd|e0 v Be Dd]; try discriminate Ee.
  - injection Ee as -> ->. congruence.
  - injection Ee as -> <-. destruct (O_io _ _ O _ _ _ Io) as (t1 & z & N1 & Ak & Nz & Tg & _). rewrite N in N1. injection N1 as <-.
    exists u0, j0, z. split; [exact Ak|]. split; [exact Nz|]. split; [exact Tg|]. split; [exact (returned_over _ _ _ _ _ Rr Nz)|]. auto.
  - injection Ee as -> ->. destruct (O_io _ _ O _ _ _ Io) as (t1 & z & N1 & Ak & Nz & Tg & _). rewrite N in N1. injection N1 as <-.
    exists u0, j0, z. split; [exact Ak|]. split; [exact Nz|]. split; [exact Tg|]. split; [exact (returned_over _ _ _ _ _ Rr Nz)|]. auto.
  - injection Ee as ->. destruct Be as [D|(? & D)]; discriminate D.
Qed.

(* ---------- what was logged ---------- *)
Definition has_read (buf : nat) (s : stack) (c : nat) : Prop :=
  exists p g j r, k_conn s c = Some (p, g) /\
    nthread s j = Some (ModelMemchan.TRead (p, ModelMemchan.Srv) (NewMessage buf) true (ModelMemchan.RdDone r)) /\
    (r = ModelMemchan.RdClosed \/ r = ModelMemchan.RdTimeout).
Definition has_closed (s : stack) (c : nat) : Prop :=
  exists p g j, k_conn s c = Some (p, g) /\ nthread s j = Some (ModelMemchan.TClose (p, ModelMemchan.Srv) ModelMemchan.ClDone).
Definition has_written (s : stack) (c : nat) : Prop :=
  exists p g j r, k_conn s c = Some (p, g) /\ nthread s j = Some (ModelMemchan.TWrite (p, ModelMemchan.Srv) (ModelMemchan.WDone r)).
Definition explained (buf : nat) (s : stack) (x : ModelDispatch.event) : Prop :=
  match x with
  | ModelDispatch.LReadErr c => has_read buf s c
  | ModelDispatch.LUnlink c => has_closed s c
  | ModelDispatch.LSession c _ _ => has_written s c
  | _ => True
  end.
Lemma explained_step buf conf ok s e s' x : kreach buf conf ok s -> kcase s e s' -> explained buf s x -> explained buf s' x.
Proof.
  intros R K. destruct x; try (intros; exact Logic.I).
  - intros (p & g & j & r & C & N & Q). exists p, g, j, r.
    split; [rewrite (conn_keep _ _ _ K); [exact C|]; apply (conns_known _ _ _ _ R); eauto|]. split; [exact (over_keeps _ _ _ _ _ K N eq_refl)|exact Q].
  - intros (p & g & j & r & C & N). exists p, g, j, r.
    split; [rewrite (conn_keep _ _ _ K); [exact C|]; apply (conns_known _ _ _ _ R); eauto|exact (over_keeps _ _ _ _ _ K N eq_refl)].
  - intros (p & g & j & C & N). exists p, g, j.
    split; [rewrite (conn_keep _ _ _ K); [exact C|]; apply (conns_known _ _ _ _ R); eauto|exact (over_keeps _ _ _ _ _ K N eq_refl)].
Qed.
Definition logs_read (t : ModelDispatch.thread) (c : nat) : Prop := t = ModelDispatch.TRd c ModelDispatch.RWait.
Definition unlinks (t : ModelDispatch.thread) : option nat :=
  match t with
  | ModelDispatch.TRd c ModelDispatch.RUnlink | ModelDispatch.TClU c
  | ModelDispatch.TRd c (ModelDispatch.RJob _ _ ModelDispatch.JUnlink) | ModelDispatch.TJob c _ _ ModelDispatch.JUnlink => Some c
  | _ => None
  end.
Definition answers (t : ModelDispatch.thread) : option nat :=
  match t with
  | ModelDispatch.TRd c (ModelDispatch.RJob _ _ ModelDispatch.JInt) | ModelDispatch.TJob c _ _ ModelDispatch.JInt => Some c
  | _ => None
  end.
Lemma who_logged g i t ch g' t' sp : ModelDispatch.tstep g i t ch = Some (g', t', sp) ->
  ModelDispatch.v_log g' = ModelDispatch.v_log g \/
  exists x, ModelDispatch.v_log g' = ModelDispatch.v_log g ++ [x] /\
    (forall c, x = ModelDispatch.LReadErr c -> t = ModelDispatch.TRd c ModelDispatch.RWait /\ ch = ModelDispatch.ChErr) /\
    (forall c, x = ModelDispatch.LUnlink c -> unlinks t = Some c) /\
    (forall c k m, x = ModelDispatch.LSession c k m -> answers t = Some c).
Proof.
  intros H. ProofDispatch.inv_tstep H; cbn; auto; right; eexists; (split; [reflexivity|]); (split; [|split]).
  all: try (intros cc E; try discriminate E; injection E as <-; auto; fail).
  all: intros cc kk mm E; try discriminate E; injection E as <- <- <-; auto.
Qed.
Lemma explained_all buf conf ok s : kreach buf conf ok s -> forall x, In x (dlog s) -> explained buf s x.
Proof.
  induction 1 as [|s e s' R IH H Ok]; intros x L; [destruct L|].
  destruct (kstep_inv _ _ _ H) as [_ K].
  assert (Old : In x (dlog s) -> explained buf s' x) by (intros L0; eapply explained_step; eauto).
  pose proof (kcase_srv _ _ _ K) as P. destruct (srv_event e) as [e'|] eqn:Se; [|rewrite P in L; auto].
  destruct (ProofDispatch.dstep_inv _ _ _ P) as (_ & [(u & U & E)|(i & ch & t & g' & u' & sp & -> & Nj & T & E)]); rewrite E in L; cbn in L; [auto|].
  destruct (who_logged _ _ _ _ _ _ _ T) as [El|(y & El & F1 & F2 & F3)]; rewrite El in L; [auto|].
  apply in_app_or in L as [L|[->|[]]]; [auto|].
  assert (e = ESrv (ModelDispatch.EvStep i ch)) as -> by (destruct e as [| | | | | |[]]; cbn in Se; try discriminate Se; congruence).
  assert (Cn : forall c, ProofStackSrv.conn_of t = Some c -> exists o, k_conn s c = Some o).
  { intros c Q. apply (conns_known _ _ _ _ R). exact (ProofStackSrv.belongs_lt _ _ _ _ _ _ (reach_srv_any _ _ _ _ R) Nj Q). }
  assert (Ck : forall c o, k_conn s c = Some o -> k_conn s' c = Some o).
  { intros c o Q. rewrite (conn_keep _ _ _ K); [exact Q|]. apply (conns_known _ _ _ _ R). eauto. }
  destruct x; try exact Logic.I; cbn.
  - destruct (F1 _ eq_refl) as [-> ->]. destruct (Cn c eq_refl) as ([p g] & C).
    destruct (called _ _ _ _ _ _ _ _ _ R K Nj eq_refl) as (u1 & j & z & Ak & Nz & Tg & Ov & Rt & _ & En).
    assert (u1 = URead p) as ->.
    { destruct Ak as [Ak|(lim & ? & ? & D & _)]; [|discriminate D]. cbn in Ak. unfold pair_of in Ak. rewrite C in Ak. congruence. }
    destruct z as [|k m d st| | |]; try discriminate Tg. injection Tg as -> -> ->. destruct st; try discriminate Ov.
    exists p, g, j, r. split; [exact (Ck _ _ C)|]. split; [rewrite En; exact Nz|]. unfold returned in Rt. rewrite Nz in Rt. destruct r; try discriminate Rt; auto.
  - pose proof (F3 _ _ _ eq_refl) as Un.
    assert (Co : ProofStackSrv.conn_of t = Some c).
    { clear -Un. destruct t as [| |c0 st|c0 k0 m0 j| | | | | | |]; try discriminate Un; [destruct st as [| | | | | |k0 m0| | |k0 m0 j| | | |]; try discriminate Un|];
        destruct j; try discriminate Un; exact Un. }
    destruct (Cn c Co) as ([p g] & C).
    assert (As : asks s i t = Some (UWrite p None)).
    { assert (pair_of s c = p) as <- by (unfold pair_of; rewrite C; reflexivity).
      clear -Un. destruct t as [| |c0 st|c0 k0 m0 j| | | | | | |]; try discriminate Un; [destruct st as [| | | | | |k0 m0| | |k0 m0 j| | | |]; try discriminate Un|];
        destruct j; try discriminate Un; injection Un as ->; reflexivity. }
    destruct (called _ _ _ _ _ _ _ _ _ R K Nj As) as (u1 & j & z & Ak & Nz & Tg & Ov & Rt & _ & En).
    assert (u1 = UWrite p None) as ->.
    { destruct Ak as [Ak|(lim & ? & ? & D & _)]; [congruence|]. subst t. discriminate Un. }
    destruct z as [k0 st| | | |]; try discriminate Tg. injection Tg as ->. destruct st; try discriminate Ov.
    exists p, g, j, r. split; [exact (Ck _ _ C)|]. rewrite En. exact Nz.
  - pose proof (F2 _ eq_refl) as Un.
    assert (Co : ProofStackSrv.conn_of t = Some c).
    { clear -Un. destruct t as [| |c0 st|c0 k m j| | | | | | |]; try discriminate Un; [destruct st as [| | | | | |k m| | |k m j| | | |]; try discriminate Un| |];
        try (destruct j; try discriminate Un); exact Un. }
    destruct (Cn c Co) as ([p g] & C).
    assert (As : asks s i t = Some (UClose p)).
    { assert (pair_of s c = p) as <- by (unfold pair_of; rewrite C; reflexivity).
      clear -Un. destruct t as [| |c0 st|c0 k m j| | | | | | |]; try discriminate Un; [destruct st as [| | | | | |k m| | |k m j| | | |]; try discriminate Un| |];
        try (destruct j; try discriminate Un); injection Un as ->; reflexivity. }
    destruct (called _ _ _ _ _ _ _ _ _ R K Nj As) as (u1 & j & z & Ak & Nz & Tg & Ov & Rt & _ & En).
    assert (u1 = UClose p) as ->.
    { destruct Ak as [Ak|(lim & ? & ? & D & _)]; [congruence|]. subst t. discriminate Un. }
    destruct z as [| |k st| |]; try discriminate Tg. injection Tg as ->. destruct st; try discriminate Ov.
    exists p, g, j. split; [exact (Ck _ _ C)|]. rewrite En. exact Nz.
Qed.
Lemma read_failed buf conf ok s c : kreach buf conf ok s -> In (ModelDispatch.LReadErr c) (dlog s) -> has_read buf s c.
Proof. intros R L. exact (explained_all _ _ _ _ R _ L). Qed.
Lemma session_answered buf conf ok s c k m : kreach buf conf ok s -> In (ModelDispatch.LSession c k m) (dlog s) -> has_written s c.
Proof. intros R L. exact (explained_all _ _ _ _ R _ L). Qed.
Lemma unlink_closed buf conf ok s c : kreach buf conf ok s -> In (ModelDispatch.LUnlink c) (dlog s) -> has_closed s c.
Proof. intros R L. exact (explained_all _ _ _ _ R _ L). Qed.

(* ---------- failed handshakes ---------- *)
Definition unsent (s : stack) (p : nat) : Prop := exists j r,
  nthread s j = Some (ModelMemchan.TWrite (p, ModelMemchan.Srv) (ModelMemchan.WDone r)) /\ r <> ModelMemchan.WrRead /\ k_text s j = Some (k_conf s).
Definition shut_sock (s : stack) (p : nat) : Prop := exists j,
  nthread s j = Some (ModelMemchan.TClose (p, ModelMemchan.Srv) ModelMemchan.ClDone).
Definition sets_up (t : ModelDispatch.thread) : bool :=
  match t with ModelDispatch.TNew _ | ModelDispatch.TRd _ _ | ModelDispatch.TEnd => true | _ => false end.
Definition hands (s : stack) : Prop := forall i p g, k_new s i = Some (p, g) ->
  exists t, sthread s i = Some t /\ sets_up t = true /\
    (t = ModelDispatch.TEnd -> shut_sock s p /\ unsent s p) /\
    (forall lim q j, t = ModelDispatch.TNew lim -> k_io s i = Some (UClose q, j) -> unsent s p).
Lemma unsent_step s e s' p : kcase s e s' -> unsent s p -> unsent s' p.
Proof.
  intros K (j & r & N & D & T). exists j, r. split; [exact (over_keeps _ _ _ _ _ K N eq_refl)|]. split; [exact D|].
  rewrite (conf_keep _ _ _ K), (text_keep _ _ _ K); [exact T|]. apply nth_error_Some. congruence.
Qed.
Lemma shut_sock_step s e s' p : kcase s e s' -> shut_sock s p -> shut_sock s' p.
Proof. intros K (j & N). exists j. exact (over_keeps _ _ _ _ _ K N eq_refl). Qed.
Lemma hands_all buf conf ok s : kreach buf conf ok s -> hands s.
Proof.
  induction 1 as [|s e s' R IH H Ok]; intros i p g Nw; [discriminate Nw|].
  destruct (kstep_inv _ _ _ H) as [_ K]. pose proof (owned_all _ _ _ _ R) as O. pose proof (owned_all _ _ _ _ (KR_step _ _ _ _ _ _ R H Ok)) as O'.
  pose proof (unsent_step _ _ _ p K) as Us. pose proof (shut_sock_step _ _ _ p K) as Ss.
  assert (Keep : k_new s i = Some (p, g) -> sthread s' i = sthread s i ->
    (forall q j, k_io s' i = Some (UClose q, j) -> (exists lim, sthread s i = Some (ModelDispatch.TNew lim)) -> k_io s i = Some (UClose q, j) \/ unsent s p) ->
    exists t, sthread s' i = Some t /\ sets_up t = true /\ (t = ModelDispatch.TEnd -> shut_sock s' p /\ unsent s' p) /\
      (forall lim q j, t = ModelDispatch.TNew lim -> k_io s' i = Some (UClose q, j) -> unsent s' p)).
  { intros N0 Es Ei. destruct (IH i p g N0) as (t & N & S & E1 & E2). exists t. rewrite Es. split; [exact N|]. split; [exact S|].
    split; [intros Q; destruct (E1 Q); auto|]. intros lim q j -> Q. destruct (Ei _ _ Q) as [Q'|Q']; eauto. }
  destruct K as [|i0 r0 r1 Nr Rs|Na Nc|e0 n Okn M|j0 lim p0 n v N0 M Dd|i0 t0 u0 n St Nu M|i0 ch0 t0 v St As Nt Dd|i0 lim v j0 u0 y0 St As Io Rr Dd|i0 ch0 t0 v j0 u0 y0 St As Io Rr Nc Dd|e0 v Be Dd].
  - apply Keep; auto.
  - apply Keep; auto.
  - apply Keep; auto.
  - apply Keep; auto.
  - cbn in Nw. unfold put in Nw. destruct (ProofDispatch.dstep_inv _ _ _ Dd) as (_ & [(t & -> & Ev)|(? & ? & ? & ? & ? & ? & D & _)]); [|discriminate D].
    destruct (i =? length (ModelDispatch.s_ts (k_srv s))) eqn:Ei.
    + apply Nat.eqb_eq in Ei. subst i. exists (ModelDispatch.TNew lim). cbn. rewrite Ev. cbn.
      rewrite nth_error_app2 by lia. rewrite Nat.sub_diag. cbn. split; [reflexivity|]. split; [reflexivity|]. split; [discriminate|].
      intros lim' q j _ Q. exfalso. destruct (O_io _ _ O _ _ _ Q) as (t & x & Q' & _). assert (length (ModelDispatch.s_ts (k_srv s)) < length (ModelDispatch.s_ts (k_srv s))) by (apply nth_error_Some; congruence). lia.
    + apply Nat.eqb_neq in Ei. apply Keep; [exact Nw| |cbn; auto]. cbn. rewrite Ev. cbn. rewrite nth_error_app1; [reflexivity|]. exact (O_lt _ _ O _ _ Nw).
  - apply Keep; [exact Nw|reflexivity|]. cbn. unfold put. intros q j Q (lim & N). destruct (i =? i0) eqn:Ei; [|auto]. apply Nat.eqb_eq in Ei. subst i0.
    rewrite N in St. injection St as <-. injection Q as -> <-. right. cbn in Nw. unfold next_use in Nu.
    destruct (k_io s i) as [[[p1 f| | |] j1]|] eqn:Io; try discriminate Nu; [|cbn in Nu; rewrite Nw in Nu; discriminate Nu].
    destruct (O_io _ _ O _ _ _ Io) as (t1 & z & N1 & Ak & Nz & Tg & Tx). rewrite N in N1. injection N1 as <-.
    assert (E : p1 = p /\ f = Some (k_conf s)).
    { destruct Ak as [Ak|(? & ? & ? & _ & _ & D)]; [|discriminate D]. cbn in Ak. rewrite Nw in Ak. injection Ak as <- <-. auto. }
    destruct E as [-> ->]. rewrite Nz in Nu. destruct z as [k st| | | |]; try discriminate Nu. injection Tg as ->. destruct st; try discriminate Nu.
    exists j1, r. split; [exact Nz|]. split; [intros ->; discriminate Nu|exact Tx].
  - destruct (Nat.eq_dec i i0) as [->|D].
    + destruct (IH i0 p g Nw) as (t & N & S & E1 & E2). rewrite N in St. injection St as <-.
      destruct (ProofDispatch.dstep_inv _ _ _ Dd) as (_ & [(u & [] & _)|(i1 & ch & t1 & g' & t' & sp & Q & N1 & T & Ev)]). injection Q as <- <-. rewrite N in N1. injection N1 as <-.
      exists t'. cbn. rewrite Ev. cbn. rewrite nth_error_app1 by (rewrite set_nth_length; apply nth_error_Some; congruence). rewrite (set_nth_eq _ _ _ _ N). split; [reflexivity|].
      destruct t as [lim| |c st| | | | | | | |]; try discriminate S; [destruct (Nt _ eq_refl)|discriminate T|].
      cbn in T. destruct (ModelDispatch.rd_step (vsrv s) c st ch0) as [[[? ?] ?]|]; [|discriminate T]. injection T as _ <- _. repeat split; discriminate.
    + destruct (ProofDispatch.dstep_inv _ _ _ Dd) as (_ & [(u & [] & _)|(i1 & ch & t1 & g' & t' & sp & Q & N1 & T & Ev)]). injection Q as <- <-.
      apply Keep; [exact Nw| |cbn; auto]. cbn. rewrite Ev. cbn. rewrite nth_error_app1 by (rewrite set_nth_length; exact (O_lt _ _ O _ _ Nw)). apply set_nth_ne; auto.
  - destruct (Nat.eq_dec i i0) as [->|D].
    + destruct (ProofDispatch.dstep_inv _ _ _ Dd) as (_ & [(u & [] & _)|(i1 & ch & t1 & g' & t' & sp & Q & N1 & T & Ev)]). injection Q as <- <-. rewrite St in N1. injection N1 as <-.
      cbn in T. injection T as <- <- <-. eexists. cbn. rewrite Ev. cbn. rewrite nth_error_app1 by (rewrite set_nth_length; apply nth_error_Some; congruence). rewrite (set_nth_eq _ _ _ _ St). split; [reflexivity|].
      repeat split; discriminate.
    + destruct (ProofDispatch.dstep_inv _ _ _ Dd) as (_ & [(u & [] & _)|(i1 & ch & t1 & g' & t' & sp & Q & N1 & T & Ev)]). injection Q as <- <-.
      apply Keep; [exact Nw| |cbn; unfold put; destruct (i =? i0) eqn:Ei; [apply Nat.eqb_eq in Ei; congruence|auto]]. cbn. rewrite Ev. cbn. rewrite nth_error_app1 by (rewrite set_nth_length; exact (O_lt _ _ O _ _ Nw)). apply set_nth_ne; auto.
  - destruct (Nat.eq_dec i i0) as [->|D].
    + destruct (IH i0 p g Nw) as (t & N & S & E1 & E2). rewrite N in St. injection St as <-.
      destruct (ProofDispatch.dstep_inv _ _ _ Dd) as (_ & [(u & [] & _)|(i1 & ch & t1 & g' & t' & sp & Q & N1 & T & Ev)]). injection Q as <- <-. rewrite N in N1. injection N1 as <-.
      exists t'. cbn. rewrite Ev. cbn. rewrite nth_error_app1 by (rewrite set_nth_length; apply nth_error_Some; congruence). rewrite (set_nth_eq _ _ _ _ N). split; [reflexivity|].
      destruct t as [lim| |c st| | | | | | | |]; try discriminate S; [|discriminate T|].
      * destruct ch0 as [|[|]| | | |]; try discriminate T; [destruct (Nc _ eq_refl eq_refl)|]. cbn in T. injection T as <- <- <-.
        split; [reflexivity|]. split; [intros _|discriminate].
        destruct (O_io _ _ O _ _ _ Io) as (t1 & z & N1 & Ak & Nz & Tg & _). rewrite N in N1. injection N1 as <-.
        unfold returned in Rr. rewrite Nz in Rr. destruct u0 as [q f|q|q|]; try discriminate Rr; destruct z as [k st|k m d st|k st|q0 st|st]; try discriminate Rr; destruct st; try discriminate Rr.
        destruct Ak as [Ak|(lim0 & p0 & g0 & _ & Nw0 & Eu)]; [cbn in Ak; cbn in Nw; rewrite Nw in Ak; discriminate Ak|].
        cbn in Nw. rewrite Nw in Nw0. injection Nw0 as <- <-. injection Eu as ->. injection Tg as ->.
        split; [apply Ss; exists j0; exact Nz|apply Us; exact (E2 _ _ _ eq_refl Io)].
      * cbn in T. destruct (ModelDispatch.rd_step (vsrv s) c st ch0) as [[[? ?] ?]|]; [|discriminate T]. injection T as _ <- _. repeat split; discriminate.
    + destruct (ProofDispatch.dstep_inv _ _ _ Dd) as (_ & [(u & [] & _)|(i1 & ch & t1 & g' & t' & sp & Q & N1 & T & Ev)]). injection Q as <- <-.
      apply Keep; [exact Nw| |cbn; unfold put; destruct (i =? i0) eqn:Ei; [apply Nat.eqb_eq in Ei; congruence|auto]]. cbn. rewrite Ev. cbn. rewrite nth_error_app1 by (rewrite set_nth_length; exact (O_lt _ _ O _ _ Nw)). apply set_nth_ne; auto.
  - apply Keep; [exact Nw| |cbn; auto]. destruct (ProofDispatch.dstep_inv _ _ _ Dd) as (_ & [(u & _ & Ev)|(i1 & ch & t1 & g' & t' & sp & Q & _)]).
    + cbn. rewrite Ev. cbn. rewrite nth_error_app1; [reflexivity|]. exact (O_lt _ _ O _ _ Nw).
    + destruct Be as [->|(? & ->)]; discriminate Q.
Qed.
Lemma handshake_failed buf conf ok s i p g : kreach buf conf ok s -> k_new s i = Some (p, g) -> sthread s i = Some ModelDispatch.TEnd ->
  shut_sock s p /\ unsent s p.
Proof. intros R Nw N. destruct (hands_all _ _ _ _ R i p g Nw) as (t & Nt & _ & E & _). apply E. congruence. Qed.
