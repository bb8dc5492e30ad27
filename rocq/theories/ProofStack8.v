(* What a connection reads is what its client sent over it. *)
From Coq Require Import List Arith ZArith Lia Bool.
From Verif Require Import BaseBytes BaseConc ModelMessage ModelWrite ModelHandle ModelStack SpecWrite SpecStack.
From Verif Require Import ProofStack ProofStack2 ProofStack3 ProofStack4 ProofStack5 ProofStack6.
From Verif Require ModelDispatch ModelMemchan SpecDispatch SpecMemchan.
From Verif Require ProofDispatch ProofDispatch3 ProofMemchan ProofMemchan2 ProofMemchan5 ProofMemchan6 ProofMemchan7 ProofMemchan8 ProofStackNet ProofStackSrv ProofStackSrv2 ProofStackRead.
Import ListNotations.
Open Scope nat_scope.
Notation gen s p := (ModelMemchan.u_gen (ModelMemchan.n_sock (vnet s) (p, ModelMemchan.Srv))).
Notation got := SpecMemchan.got.

(* ---------- any run ---------- *)
Lemma frame_of_read buf s e s' c k b m : owned buf s -> kcase s e s' ->
  In (ModelDispatch.LFrame c k b m) (dlog s') -> ~ In (ModelDispatch.LFrame c k b m) (dlog s) ->
  exists i j u, e = ESrv (ModelDispatch.EvStep i (ModelDispatch.ChFrame b)) /\ sthread s i = Some (ModelDispatch.TRd c ModelDispatch.RWait) /\
    k_io s i = Some (URead u, j) /\ u = pair_of s c /\ read_by j (tlog s) = Some b.
Proof.
  intros O K L NL. pose proof (kcase_srv _ _ _ K) as P. destruct (srv_event e) as [e'|] eqn:Se; [|rewrite P in L; contradiction].
  destruct (ProofDispatch.dstep_inv _ _ _ P) as (_ & [(u & U & E)|(j & ch & u & g' & u' & sp & -> & Nj & T & E)]); rewrite E in L; cbn in L; [contradiction|].
  destruct (ProofDispatch3.log_step _ _ _ _ _ _ _ T) as [El|(x & El & F)]; rewrite El in L; [contradiction|].
  apply in_app_or in L as [L|[->|[]]]; [contradiction|]. destruct (F _ _ _ _ eq_refl) as [Ek ->].
  assert (ch = ModelDispatch.ChFrame b) as ->.
  { cbn in T. destruct ch as [| |b0| | |]; try discriminate T.
    - destruct (ReadBytes _ b0) as [[[m0 [|]] [|]]|]; injection T as <- _ _; cbn in El;
        try (apply app_inv_head in El; assert (Eb : b0 = b) by congruence; congruence).
      exfalso. apply (f_equal (@length _)) in El. rewrite app_length in El. cbn in El. lia.
    - injection T as <- _ _. cbn in El. apply app_inv_head in El. discriminate El. }
  exists j. destruct K as [|i0 r0 r1 Nr Rs|Na Nc|e0 n Ok M|j0 lim p n v N0 M Dd|i0 t u0 n St Nu M|i0 ch t v St As Nt Dd|i0 lim v j0 u0 x St As Io Rt Dd|i0 ch t v j0 u0 x St As Io Rt Nc Dd|e v Be Dd]; cbn in Se; try discriminate Se.
  - injection Se as -> ->. rewrite Nj in St. injection St as <-. discriminate As.
  - injection Se as -> ->. rewrite Nj in St. injection St as <-. exists j0. destruct u0 as [| |p|]; cbn in Rt; try (destruct (nthread s j0) as [[? []| ? ? ? []| ? []| |[]]|]; discriminate Rt).
    exists p. split; [reflexivity|]. split; [exact Nj|]. split; [exact Io|].
    destruct (O_io _ _ O _ _ _ Io) as (t & y & St & Ak & _). rewrite Nj in St. injection St as <-.
    destruct Ak as [Ak|(lim & ? & ? & D & _)]; [|discriminate D]. cbn in Ak. injection Ak as Ak. split; [auto|].
    destruct (nthread s j0) as [[? []| ? ? ? []| ? []| |[]]|]; try discriminate Rt.
    destruct (read_by j0 (tlog s)) as [b'|]; [|destruct r; discriminate Rt].
    destruct r; try discriminate Rt; destruct (bytes_eqb_spec b b') as [->|]; congruence.
  - injection Se as ->. destruct Be as [D|(? & D)]; discriminate D.
Qed.
Lemma tlog_mono s e s' j b : kcase s e s' -> read_by j (tlog s) = Some b -> read_by j (tlog s') = Some b.
Proof.
  intros K H. destruct (tlog_step _ _ _ K) as (l & ->). clear K. revert H. induction (tlog s) as [|x l' IH]; [discriminate|]. cbn.
  destruct x; try exact IH. destruct (i =? j); auto.
Qed.
(* every frame was read on the server socket of the connection's pair *)
Lemma frame_read buf conf ok s c k b m : kreach buf conf ok s -> In (ModelDispatch.LFrame c k b m) (dlog s) ->
  exists p g0 j g, k_conn s c = Some (p, g0) /\ In (ModelMemchan.LRead j (p, ModelMemchan.Srv) g b) (tlog s).
Proof.
  intros R. induction R as [|s e s' R IH H Ok]; intros L; [destruct L|].
  destruct (kstep_inv _ _ _ H) as [_ K]. pose proof (owned_all _ _ _ _ R) as O.
  assert (Dec : In (ModelDispatch.LFrame c k b m) (dlog s) \/ ~ In (ModelDispatch.LFrame c k b m) (dlog s)).
  { pose proof (kcase_srv _ _ _ K) as P. destruct (srv_event e) as [e'|]; [|rewrite P in L; auto].
    destruct (ProofDispatch.dstep_inv _ _ _ P) as (_ & [(u & U & E)|(j & ch & u & g' & u' & sp & -> & Nj & T & E)]); rewrite E in L; cbn in L; [auto|].
    destruct (ProofDispatch3.log_step _ _ _ _ _ _ _ T) as [El|(x & El & F)]; rewrite El in L; [auto|].
    apply in_app_or in L as [L|[->|[]]]; [auto|]. destruct (F _ _ _ _ eq_refl) as [-> ->]. right. intros Q.
    pose proof (reach_srv_any _ _ _ _ R) as Rs.
    pose proof (ProofDispatch3.frame_below _ _ _ _ _ _ _ Rs Q). lia. }
  destruct Dec as [Old|New].
  - destruct (IH Old) as (p & g0 & j & g & C & I). exists p, g0, j, g. split; [|exact (tlog_keep _ _ _ _ K I)].
    rewrite (conn_keep _ _ _ K); [exact C|]. apply (conns_known _ _ _ _ R). eauto.
  - destruct (frame_of_read _ _ _ _ _ _ _ _ O K L New) as (i & j & u & -> & St & Io & -> & Rb).
    destruct (O_conn _ _ O _ _ _ St) as ([p g0] & _ & C). destruct (read_by_in _ _ _ Rb) as (k' & g & I).
    unfold pair_of in Io. rewrite C in Io.
    destruct (O_io _ _ O _ _ _ Io) as (t & x & _ & _ & Nx & Tg & _).
    destruct (read_thread _ _ _ (reach_net_any _ _ _ _ R) _ _ _ _ I) as (t' & m' & d' & A & Tg').
    unfold SpecMemchan.at_ in A. rewrite Nx in A. injection A as <-. rewrite Tg in Tg'. cbn in Tg'. injection Tg' as <- _ _.
    exists p, g0, j, g. split; [|exact (tlog_keep _ _ _ _ K I)].
    rewrite (conn_keep _ _ _ K); [exact C|]. apply (conns_known _ _ _ _ R). eauto.
Qed.
