(* Progress of a server over the in-memory transport. *)
From Coq Require Import List Arith ZArith Lia Bool.
From Verif Require Import BaseBytes BaseConc ModelMessage ModelWrite ModelHandle ModelStack SpecWrite SpecStack SpecStill.
From Verif Require Import ProofStack ProofStack2 ProofStack3 ProofStack4 ProofStack5 ProofStack6 ProofStack9 ProofStack12.
From Verif Require ModelDispatch ModelMemchan SpecDispatch SpecMemchan SpecSettle SpecWaits.
From Verif Require ProofDispatch ProofDispatch2 ProofDispatch3 ProofDispatch4 ProofDispatch5 ProofMemchan ProofMemchan6 ProofMemchan7 ProofStackNet ProofStackSrv ProofStackRead ProofWaits ProofWaits2.
Import ListNotations.
Open Scope nat_scope.

(* ---------- what readers have read ---------- *)
Definition read_well (l : list ModelMemchan.event) (j : nat) (st : ModelMemchan.rdstate) : Prop :=
  match st with
  | ModelMemchan.RdAck (ModelMemchan.RdOk _ | ModelMemchan.RdBad) => exists b, read_by j l = Some b
  | ModelMemchan.RdAck _ => False
  | ModelMemchan.RdDone (ModelMemchan.RdOk _ | ModelMemchan.RdBad) => exists b, read_by j l = Some b
  | ModelMemchan.RdFail (ModelMemchan.RdOk _ | ModelMemchan.RdBad) _ => False
  | _ => True
  end.
Lemma read_by_app j l l' b : read_by j l = Some b -> read_by j (l ++ l') = Some b.
Proof. induction l as [|x l IH]; cbn; [discriminate|]. destruct x; auto. destruct (i =? j); auto. Qed.
Lemma read_well_app j l l' st : read_well l j st -> read_well (l ++ l') j st.
Proof.
  assert (H : (exists b, read_by j l = Some b) -> exists b, read_by j (l ++ l') = Some b) by (intros (b & E); exists b; apply read_by_app; exact E).
  destruct st; cbn; auto; destruct r; auto.
Qed.
Lemma read_by_last j k g b l : exists b', read_by j (l ++ [ModelMemchan.LRead j k g b]) = Some b'.
Proof. rewrite ProofStackRead.read_by_snoc. destruct (read_by j l); eauto. rewrite Nat.eqb_refl. eauto. Qed.

Lemma readers_well size ok s : SpecMemchan.mreach size ok s -> forall j k m d st,
  SpecMemchan.at_ s j (ModelMemchan.TRead k m d st) -> read_well (ModelMemchan.n_log (ModelMemchan.s_net s)) j st.
Proof.
  induction 1 as [|s e s' R IH H Ok]; intros j k m d st A; [destruct j; discriminate A|].
  destruct (ProofMemchan7.log_grows _ _ _ H) as (l & El). destruct (ProofMemchan.mstep_rel _ _ _ H) as [_ Q].
  assert (Old : forall j k m d st, SpecMemchan.at_ s j (ModelMemchan.TRead k m d st) -> read_well (ModelMemchan.n_log (ModelMemchan.s_net s')) j st).
  { intros. rewrite El. apply read_well_app. eauto. }
  assert (New : forall i t n' k m d st w, nth_error (ModelMemchan.s_ts s) i = Some t ->
    ProofMemchan.trel (ModelMemchan.s_ts s) i (ModelMemchan.s_net s) t n' (ModelMemchan.TRead k m d st) w ->
    (forall k g b, n' = ModelMemchan.log (ModelMemchan.LRead i k g b) (ModelMemchan.s_net s) -> ModelMemchan.n_log (ModelMemchan.s_net s') = ModelMemchan.n_log n') ->
    read_well (ModelMemchan.n_log (ModelMemchan.s_net s')) i st).
  { clear A. intros i t n' k1 m1 d1 st1 w N T E. remember (ModelMemchan.TRead k1 m1 d1 st1) as t' eqn:Et.
    destruct T as [? ? ? ? T|k2 m2 d2 s2 n2 s2' w2 T|t k2 s2 n2 s2' w2 Cl T|? ? ? ? T|? ? ? T]; try discriminate Et.
    - injection Et as -> -> -> ->. pose proof (Old _ _ _ _ _ N) as O.
      destruct T as [| | | | | |g l0 b r Eb (m' & ok' & e' & _ & ->)| |r j0 J]; cbn; auto; [|cbn in O; destruct r; auto].
      rewrite (E _ _ _ eq_refl). cbn. destruct (read_by_last i k1 g b (ModelMemchan.n_log (ModelMemchan.s_net s))) as (b' & Q').
      destruct e'; [|destruct ok']; eauto.
    - destruct t as [|? ? ? r0| | |r0]; try discriminate Cl; [destruct r0; try discriminate Cl| |destruct r0; try discriminate Cl]; cbn in Cl, Et;
        [| discriminate Et | destruct s2'; discriminate Et].
      pose proof (Old _ _ _ _ _ N) as O. cbn in O.
      destruct s2'; injection Et as <- <- <- <-; cbn; exact O || (destruct r; exact O || exact Logic.I || destruct O). }
  destruct Q as [e0 t B|i ch t n' t' I T|i ch t n' t' x v k0 I T Ne V J]; unfold SpecMemchan.at_ in A; cbn [ModelMemchan.s_ts] in A.
  - apply nth_error_snoc_some in A as [A|[-> <-]]; [eauto|]. destruct e0; try discriminate B. injection B as _ _ _ <-. exact Logic.I.
  - apply set_nth_lookup in A as [[-> <-]|[_ A]]; [|eauto]. eapply New; eauto.
  - apply set_nth_lookup in A as [[-> A]|[_ A]]; [discriminate A|].
    apply set_nth_lookup in A as [[-> <-]|[_ A]]; [|eauto]. eapply New; eauto.
Qed.

(* Shutdown has set the flag before it lists the connections *)
Lemma listing_inactive size ok s : SpecMemchan.mreach size ok s -> forall j st, SpecMemchan.at_ s j (ModelMemchan.TDown st) ->
  st <> ModelMemchan.ShCAS -> ModelMemchan.n_active (ModelMemchan.s_net s) = false.
Proof.
  induction 1 as [|s e s' R IH H Ok]; intros j st A D; [destruct j; discriminate A|].
  destruct (ProofMemchan.mstep_rel _ _ _ H) as [_ Q]. pose proof (ProofMemchan6.inactive_stays _ _ _ Q) as St.
  assert (New : forall i t n' st w, nth_error (ModelMemchan.s_ts s) i = Some t ->
    ProofMemchan.trel (ModelMemchan.s_ts s) i (ModelMemchan.s_net s) t n' (ModelMemchan.TDown st) w -> st <> ModelMemchan.ShCAS ->
    (ModelMemchan.n_active n' = false -> ModelMemchan.n_active (ModelMemchan.s_net s') = false) -> ModelMemchan.n_active (ModelMemchan.s_net s') = false).
  { clear A D. intros i t n' st1 w N T D E. remember (ModelMemchan.TDown st1) as t' eqn:Et.
    destruct T as [? ? ? ? T|? ? ? ? ? ? ? T|t k2 s2 n2 s2' w2 Cl T|? ? ? ? T|s2 n2 s2' T]; try discriminate Et.
    - destruct t as [|? ? ? r0| | |r0]; try discriminate Cl; [destruct r0; try discriminate Cl| |destruct r0; try discriminate Cl]; cbn in Cl, Et;
        [destruct s2'; discriminate Et| discriminate Et |]. apply St. eapply IH; [exact N|discriminate].
    - injection Et as ->. destruct T as [Ac|Ac|l Sm| |p todo]; [apply E; reflexivity|apply St; exact Ac| | |]; apply St; apply (IH _ _ N); discriminate. }
  destruct Q as [e0 t B|i ch t n' t' I T|i ch t n' t' x v k0 I T Ne V J]; unfold SpecMemchan.at_ in A; cbn [ModelMemchan.s_ts] in A.
  - apply nth_error_snoc_some in A as [A|[-> <-]]; [apply St; eauto|]. destruct e0; try discriminate B. injection B as <-. congruence.
  - apply set_nth_lookup in A as [[-> <-]|[_ A]]; [|apply St; eauto]. apply (New _ _ _ _ _ I T D). intros Z; exact Z.
  - apply set_nth_lookup in A as [[-> A]|[_ A]]; [discriminate A|].
    apply set_nth_lookup in A as [[-> <-]|[_ A]]; [|apply St; eauto]. apply (New _ _ _ _ _ I T D). intros Z; exact Z.
Qed.
Lemma same_refl l : ModelMemchan.same_elements l l = true.
Proof.
  unfold ModelMemchan.same_elements. rewrite Nat.eqb_refl. cbn.
  assert (H : forallb (fun x => existsb (Nat.eqb x) l) l = true); [|rewrite H; reflexivity].
  apply forallb_forall. intros x I. apply existsb_exists. exists x. split; [exact I|apply Nat.eqb_refl].
Qed.

(* ---------- goroutines of the server ---------- *)
Section Go.
Variables (buf : nat) (conf : bytes) (ok : stack -> event -> stack -> Prop) (s : stack).
Hypotheses (R : kreach buf conf ok s) (Al : alive s).
Let O := owned_all _ _ _ _ R.
Let Rs := reach_srv_any _ _ _ _ R.

Lemma not_crashed {A} (x y : A) : (if ModelDispatch.v_crashed (vsrv s) || ModelMemchan.n_crashed (vnet s) then x else y) = y.
Proof. destruct Al as [-> ->]. reflexivity. Qed.
Lemma own_goes i t ch : sthread s i = Some t -> asks s i t = None -> (forall lim, t <> ModelDispatch.TNew lim) -> SpecDispatch.can (k_srv s) i ch -> goes s i.
Proof.
  intros N A Nt (v & D). right. exists ch. unfold kstep. rewrite not_crashed, N, A, D. destruct t; eauto. destruct (Nt lim eq_refl).
Qed.
Lemma ret_goes i t ch x u j : sthread s i = Some t -> asks s i t = Some x -> k_io s i = Some (u, j) -> returned s u j ch = true ->
  SpecDispatch.can (k_srv s) i ch -> goes s i.
Proof.
  intros N A Io Rt (v & D). right. exists ch. unfold kstep. rewrite not_crashed, N, A, Io, Rt, D. eauto.
Qed.
Lemma use_goes i t u : sthread s i = Some t -> next_use s i t = Some u -> goes s i.
Proof.
  intros N U. left. unfold kstep. rewrite not_crashed, N, U. unfold ModelMemchan.mstep. destruct Al as [_ ->].
  destruct u; cbn; eauto.
Qed.
(* a call of the server that is over tells its result *)
Lemma result u j x : nthread s j = Some x -> ProofStackNet.tag_of x = tag_use buf u -> SpecMemchan.finished x = true ->
  match u with
  | UWrite _ _ => exists r, x = ModelMemchan.TWrite (match u with UWrite p _ | URead p | UClose p => p | UDown => 0 end, ModelMemchan.Srv) (ModelMemchan.WDone r)
  | URead _ => (exists b, returned s u j (ModelDispatch.ChFrame b) = true) \/ returned s u j ModelDispatch.ChErr = true
  | UClose _ => returned s u j ModelDispatch.Go = true /\ returned s u j (ModelDispatch.ChConf false) = true
  | UDown => returned s u j ModelDispatch.Go = true
  end.
Proof.
  intros N Tg F. destruct u as [p f|p|p|]; destruct x as [k st|k m d st|k st|q st|st]; try discriminate Tg; destruct st; try discriminate F; cbn in Tg.
  - injection Tg as ->. eauto.
  - pose proof (readers_well _ _ _ (reach_net_any _ _ _ _ R) _ _ _ _ _ N) as W. cbn in W. unfold returned. rewrite N.
    destruct r; auto; destruct W as (b & ->); left; exists b; destruct (bytes_eqb_spec b b); congruence.
  - unfold returned. rewrite N. auto.
  - unfold returned. rewrite N. reflexivity.
Qed.
Lemma writer_result p f j k r : nthread s j = Some (ModelMemchan.TWrite k (ModelMemchan.WDone r)) -> exists w, returned s (UWrite p f) j (ModelDispatch.ChWriter w) = true.
Proof. intros N. unfold returned. rewrite N. destruct r; eauto; exists false; reflexivity. Qed.
Lemma reply_use p r u : reply p r = Some u -> exists f, u = UWrite p f.
Proof. destruct r as [[]|]; try discriminate. intros H. injection H as <-. eauto. Qed.
Lemma goes_or_kept i t : sthread s i = Some t -> goes s i \/ kept s i t.
Proof.
  intros N. destruct Al as [Cs _]. pose proof (ProofDispatch5.no_stuck _ _ _ _ _ Rs Cs N) as M. unfold SpecDispatch.may_go_on in M.
  destruct (SpecDispatch.finished t) eqn:Fin; [right; left; exact Fin|].
  destruct (k_io s i) as [[u j]|] eqn:Io.
  - destruct (O_io _ _ O _ _ _ Io) as (t1 & x & N1 & Ak & Nx & Tg & _). rewrite N in N1. injection N1 as <-.
    destruct (SpecMemchan.finished x) eqn:Fx; [|right; right; left; exists u, j, x; auto].
    left. pose proof (result _ _ _ Nx Tg Fx) as Q.
    destruct Ak as [Ak|(lim & p & g & -> & Nw & ->)].
    + pose proof Ak as Ak0. destruct t as [lim| |c st|c k m jb| | | | | | |]; try discriminate Fin; try discriminate Ak.
      * cbn in Ak. destruct (k_new s i) as [[p g]|] eqn:Nw; [|discriminate Ak]. injection Ak as <-. destruct Q as (r & ->).
        destruct r; try (eapply use_goes; [exact N|]; unfold next_use; rewrite Io, Nx; reflexivity).
        eapply ret_goes; [exact N|cbn; rewrite Nw; reflexivity|exact Io| |exact (M true)]. unfold returned. rewrite Nx. reflexivity.
      * destruct st as [| | | | | |k m| | |k m jb| | | |]; try discriminate Fin; try discriminate Ak.
        -- injection Ak as <-. destruct Q as [(b & Q)|Q]; eapply ret_goes; eauto; apply M.
        -- destruct (reply_use _ _ _ Ak) as (f & ->). destruct Q as (r & ->). destruct (writer_result (pair_of s c) f _ _ _ Nx) as (w & W). exact (ret_goes _ _ _ _ _ _ N Ak0 Io W (M w)).
        -- destruct jb as [| |rr| | | | |]; try discriminate Ak.
           ++ destruct (reply_use _ _ _ Ak) as (f & ->). destruct Q as (r & ->). destruct (writer_result (pair_of s c) f _ _ _ Nx) as (w & W). exact (ret_goes _ _ _ _ _ _ N Ak0 Io W (M w)).
           ++ injection Ak as <-. destruct Q as (r & ->). eapply ret_goes; [exact N|reflexivity|exact Io| |exact M]. unfold returned. rewrite Nx. reflexivity.
           ++ injection Ak as <-. eapply ret_goes; [exact N|reflexivity|exact Io|exact (proj1 Q)|exact M].
        -- injection Ak as <-. eapply ret_goes; [exact N|reflexivity|exact Io|exact (proj1 Q)|exact M].
      * destruct jb as [| |rr| | | | |]; try discriminate Ak.
        -- destruct (reply_use _ _ _ Ak) as (f & ->). destruct Q as (r & ->). destruct (writer_result (pair_of s c) f _ _ _ Nx) as (w & W). exact (ret_goes _ _ _ _ _ _ N Ak0 Io W (M w)).
        -- injection Ak as <-. destruct Q as (r & ->). eapply ret_goes; [exact N|reflexivity|exact Io| |exact M]. unfold returned. rewrite Nx. reflexivity.
        -- injection Ak as <-. eapply ret_goes; [exact N|reflexivity|exact Io|exact (proj1 Q)|exact M].
      * injection Ak as <-. eapply ret_goes; [exact N|reflexivity|exact Io|exact (proj1 Q)|exact M].
      * injection Ak as <-. eapply ret_goes; [exact N|reflexivity|exact Io|exact Q|exact M].
    + eapply ret_goes; [exact N|cbn; rewrite Nw; reflexivity|exact Io|exact (proj2 Q)|exact (M false)].
  - destruct (asks s i t) as [u|] eqn:As.
    + left. eapply use_goes; [exact N|]. unfold next_use. rewrite Io. exact As.
    + assert (Nt : forall lim, t <> ModelDispatch.TNew lim).
      { intros lim ->. destruct (O_new _ _ O _ _ N) as ([p g] & Nw). cbn in As. rewrite Nw in As. discriminate As. }
      pose proof (fun ch => own_goes i t ch N As Nt) as G.
      destruct t as [lim| |c st|c k m jb| | | | | | |]; try discriminate Fin; try discriminate As; try (left; exact (G _ M)).
      * destruct (Nt lim eq_refl).
      * destruct st as [| | | | | |k m| | |k m jb| | | |]; try discriminate Fin; try discriminate As; cbn in M; try (left; exact (G _ M)).
        -- destruct M as [M|M]; [left; exact (G _ M)|]. right. right. right. left. exists c, k, m. auto.
        -- destruct jb; cbn in M; left; first [exact (G _ M)|exact (G _ (M true))|exact (G _ (M ((0%Z, []), ENil)))].
      * cbn in M. destruct jb; cbn in M; left; first [exact (G _ M)|exact (G _ (M true))|exact (G _ (M ((0%Z, []), ENil)))].
      * cbn in M. destruct M as [M|M]; [left; exact (G _ M)|]. right. right. right. right. auto.
Qed.
Lemma io_asks i u j t : k_io s i = Some (u, j) -> sthread s i = Some t -> asks s i t <> None.
Proof.
  intros Io N. destruct (O_io _ _ O _ _ _ Io) as (t1 & x & N1 & Ak & _). rewrite N in N1. injection N1 as <-.
  destruct Ak as [Ak|(lim & p & g & -> & Nw & _)]; [congruence|]. cbn. rewrite Nw. discriminate.
Qed.
Lemma quiet_asks i t : sthread s i = Some t -> asks s i t = None -> (forall lim, t <> ModelDispatch.TNew lim) -> (forall ch, ~ SpecDispatch.can (k_srv s) i ch) -> ~ goes s i.
Proof.
  intros N A Nt C [(s' & H)|(ch & s' & H)]; unfold kstep in H; rewrite not_crashed, N in H.
  - unfold next_use in H. destruct (k_io s i) as [[u j]|] eqn:Io; [exact (io_asks _ _ _ _ Io N A)|]. rewrite A in H. discriminate H.
  - rewrite A in H. apply (C ch). unfold SpecDispatch.can. destruct (ModelDispatch.dstep (k_srv s) (ModelDispatch.EvStep i ch)); eauto. destruct t; discriminate H.
Qed.
Lemma kept_waits i t : sthread s i = Some t -> kept s i t -> ~ goes s i.
Proof.
  intros N. destruct Al as [Cs _]. pose proof (ProofDispatch5.no_stuck _ _ _ _ _ Rs Cs N) as M. unfold SpecDispatch.may_go_on in M.
  intros [F|[(u & j & x & Io & Nx & F)|[(c & k & m & -> & L)|[-> V]]]].
  - rewrite F in M. apply (quiet_asks _ _ N); [| |exact M]; destruct t as [| |? []| | | | | | | |]; try discriminate F; try reflexivity; intros; discriminate.
  - intros [(s' & H)|(ch & s' & H)]; unfold kstep in H; rewrite not_crashed, N in H.
    + unfold next_use in H. rewrite Io in H. destruct u as [p f|p|p|]; try discriminate H. destruct t; try discriminate H. rewrite Nx in H.
      destruct x as [? []| | | |]; try discriminate H; discriminate F.
    + pose proof (io_asks _ _ _ _ Io N) as A. destruct (asks s i t); [|congruence]. rewrite Io in H.
      destruct (returned s u j ch) eqn:Rt; [|discriminate H]. pose proof (returned_over _ _ _ _ _ Rt Nx) as Ov.
      destruct x as [? []|? ? ? []|? []|? []|[]]; try discriminate Ov; discriminate F.
  - apply (quiet_asks _ _ N eq_refl); [intros; discriminate|]. intros ch (s' & D). unfold ModelDispatch.dstep in D. rewrite Cs, N in D.
    destruct ch; try discriminate D. cbn in D.
    pose proof (ProofDispatch.fine_at _ _ _ _ _ Rs N) as [Sn _]. cbn in Sn.
    pose proof (ProofDispatch4.slots_taken _ _ _ c Rs) as Q. destruct (Z.ltb_spec (ModelDispatch.c_slots (ModelDispatch.v_conn (vsrv s) c)) (ModelDispatch.c_limit (ModelDispatch.v_conn (vsrv s) c))); [|discriminate D].
    rewrite Q in H by tauto. lia.
  - apply (quiet_asks _ _ N eq_refl); [intros; discriminate|]. intros ch (s' & D). unfold ModelDispatch.dstep in D. rewrite Cs, N in D.
    destruct ch; try discriminate D. cbn in D. rewrite V in D. discriminate D.
Qed.

(* ---------- calls of the transport ---------- *)
Lemma net_goes j ch : net_ok s (ModelMemchan.EvStep j ch) = true -> (exists n, ModelMemchan.mstep (k_net s) (ModelMemchan.EvStep j ch) = Some n) -> call_goes s j.
Proof. intros Ok (n & H). left. exists ch. unfold kstep. rewrite not_crashed, Ok, H. eauto. Qed.
Lemma calls_go j : SpecMemchan.can_step (k_net s) j -> call_goes s j \/ to_close_chan s j.
Proof.
  intros (ch & n & H). destruct Al as [Cs Cn].
  pose proof H as H0. unfold ModelMemchan.mstep in H0. rewrite Cn in H0. destruct (nthread s j) as [t|] eqn:N; [|discriminate H0].
  assert (W : forall k, t = ModelMemchan.TWrite k ModelMemchan.WOpen -> call_goes s j).
  { intros k ->. clear H.
    assert (Fr : ModelMemchan.free (ModelMemchan.u_blk (ModelMemchan.n_sock (vnet s) k)) = true).
    { cbn in H0. destruct (ModelMemchan.free (ModelMemchan.u_blk (ModelMemchan.n_sock (vnet s) k))); [reflexivity|]. destruct ch; discriminate H0. }
    destruct (match k_text s j with Some _ => negb (write_failed j (tlog s)) | None => true end) eqn:E.
    - apply (net_goes j (ModelMemchan.ChWrite [])); [unfold net_ok; rewrite N; exact E|]. unfold ModelMemchan.mstep. rewrite Cn, N. cbn. rewrite Fr.
      destruct (ModelMemchan.buf_write (ModelMemchan.u_buf (ModelMemchan.n_sock (vnet s) k)) []). eexists. reflexivity.
    - apply (net_goes j ModelMemchan.ChClose); [unfold net_ok; rewrite N; destruct (k_text s j); [|discriminate E]; apply negb_false_iff in E; rewrite E; reflexivity|].
      unfold ModelMemchan.mstep. rewrite Cn, N. cbn. rewrite Fr. destruct (ModelMemchan.b_len (ModelMemchan.u_buf (ModelMemchan.n_sock (vnet s) k)) <=? 0); eexists; reflexivity. }
  assert (G : net_ok s (ModelMemchan.EvStep j ch) = true -> call_goes s j) by (intros Ok; exact (net_goes j ch Ok (ex_intro _ n H))).
  unfold net_ok in G. rewrite N in G.
  destruct t as [k st|k m d st|k st|p st|st]; try (left; apply G; reflexivity); destruct st; try (left; apply G; reflexivity).
  - left. eapply W. reflexivity.
  - left. cbn in H0. destruct ch as [| | | | | |b|]; try discriminate H0.
    apply (net_goes j (ModelMemchan.ChShutting (ModelDispatch.v_shutdown (vsrv s)))); [unfold net_ok; rewrite N; apply Bool.eqb_reflx|].
    unfold ModelMemchan.mstep. rewrite Cn, N. cbn. destruct (ModelDispatch.v_shutdown (vsrv s)); cbn; eauto.
  - left. right. split; [|eauto]. intros lim. unfold kstep. rewrite not_crashed, N. unfold ModelMemchan.mstep, ModelDispatch.dstep. rewrite Cn, Cs, N. cbn. eauto.
  - destruct (k_chan s) eqn:Kc; [left; apply G; reflexivity|]. right. split; [exact N|]. unfold kstep. rewrite not_crashed, Kc.
    assert (ModelMemchan.n_active (vnet s) = false) as -> by (eapply listing_inactive; [exact (reach_net_any _ _ _ _ R)|exact N|discriminate]). cbn. eauto.
Qed.
Lemma calls_stay j : call_goes s j \/ to_close_chan s j -> SpecMemchan.can_step (k_net s) j.
Proof.
  destruct Al as [Cs Cn]. intros [[(ch & s' & H)|(H & p & N)]|(N & s' & H)].
  - unfold kstep in H. rewrite not_crashed in H. destruct (net_ok s _); [|discriminate H]. exists ch. destruct (ModelMemchan.mstep (k_net s) (ModelMemchan.EvStep j ch)); [eauto|discriminate H].
  - exists ModelMemchan.Go. unfold ModelMemchan.mstep. rewrite Cn, N. cbn. eauto.
  - exists (ModelMemchan.ChOrder (ModelMemchan.n_conns (vnet s))). unfold ModelMemchan.mstep. rewrite Cn, N. cbn.
    rewrite same_refl. cbn. eauto.
Qed.
End Go.
