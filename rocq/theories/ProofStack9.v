(* A connection reads what its client sent over it, in order, while pairs are dialed again only after
   their last connection. *)
From Coq Require Import List Arith ZArith Lia Bool.
From Verif Require Import BaseBytes BaseConc ModelMessage ModelWrite ModelHandle ModelStack SpecWrite SpecStack.
From Verif Require Import ProofStack ProofStack2 ProofStack3 ProofStack4 ProofStack5 ProofStack6 ProofStack8.
From Verif Require ModelDispatch ModelMemchan SpecDispatch SpecMemchan.
From Verif Require ProofDispatch ProofDispatch3 ProofMemchan ProofMemchan2 ProofMemchan5 ProofMemchan6 ProofMemchan7 ProofMemchan8 ProofStackNet ProofStackSrv ProofStackSrv2 ProofStackRead.
Import ListNotations.
Open Scope nat_scope.

Lemma waited_new buf conf : waited (new_stack buf conf).
Proof. intros i p g t j st [N _] _. destruct i; discriminate N. Qed.
Lemma settled_waited buf conf s : kreach buf conf settled s -> waited s.
Proof. intros []; [apply waited_new|]. destruct H1. assumption. Qed.
Lemma settled_apart buf conf s : kreach buf conf settled s -> kreach buf conf apart s.
Proof. induction 1; [constructor|econstructor; eauto; destruct H1; assumption]. Qed.

(* the loops before a step *)
Lemma loop_before buf s e s' i p g t' : owned buf s -> kcase s e s' -> loop s' i p g t' ->
  (exists t, loop s i p g t /\ (t' = t \/ exists ch, e = ESrv (ModelDispatch.EvStep i ch) /\
     ((exists c st st', t = ModelDispatch.TRd c st /\ t' = ModelDispatch.TRd c st') \/
      (exists lim, t = ModelDispatch.TNew lim /\ ch = ModelDispatch.ChConf true /\ t' = ModelDispatch.TRd (ModelDispatch.v_n (vsrv s)) ModelDispatch.RHook)))) \/
  (exists j lim, e = EAccept j lim /\ i = length (ModelDispatch.s_ts (k_srv s)) /\ t' = ModelDispatch.TNew lim /\
     nthread s j = Some (ModelMemchan.TDial p ModelMemchan.DlAdd) /\ g = gen s p).
Proof.
  intros O K (N & L & W). pose proof (kcase_srv _ _ _ K) as P.
  assert (Old : i < length (ModelDispatch.s_ts (k_srv s)) -> k_new s i = Some (p, g)) by (intros Q; rewrite <- (new_keep _ _ _ K _ Q); exact W).
  destruct (srv_event e) as [e'|] eqn:Se.
  2:{ left. exists t'. rewrite P in N. split; [|auto]. split; [exact N|split; [exact L|]]. apply Old. apply nth_error_Some. congruence. }
  destruct (ProofStackSrv.threads_after _ _ _ _ _ P N) as [N0|[(ch & u & g' & sp & -> & N0 & T & _)|(Len & Q)]].
  - left. exists t'. split; [|auto]. split; [exact N0|split; [exact L|]]. apply Old. apply nth_error_Some. congruence.
  - left. exists u. destruct (ProofStackSrv2.loop_from _ _ _ _ _ _ _ T L) as [L0 Cs].
    split; [split; [exact N0|split; [exact L0|apply Old; apply nth_error_Some; congruence]]|]. right. exists ch. split; [|exact Cs].
    destruct e; cbn in Se; try discriminate Se. congruence.
  - right. destruct Q as [(lim & -> & ->)|[(c & _ & ->)|[[_ ->]|(c & k & m & ->)]]]; try discriminate L.
    destruct K as [|i0 r0 r1 Nr Rs|Na Nc|e0 n Ok M|j0 lim0 p0 n v N0 M Dd|i0 t u0 n St Nu M|i0 ch t v St As Nt Dd|i0 lim0 v j0 u0 x St As Io Rt Dd|i0 ch t v j0 u0 x St As Io Rt Nc Dd|e v Be Dd]; cbn in Se; try discriminate Se.
    + injection Se as ->. exists j0, lim. cbn in W. rewrite put_eq in W. destruct (Nat.eqb_spec i (length (ModelDispatch.s_ts (k_srv s)))) as [->|D].
      * injection W as <- <-. auto.
      * exfalso. pose proof (O_lt _ _ O _ _ W). lia.
    + injection Se as ->. destruct Be as [D|(? & D)]; discriminate D.
Qed.

(* a reading thread is a loop *)
Lemma reply_write p q r : reply p r = Some (URead q) -> False.
Proof. destruct r as [[| |]|]; discriminate. Qed.
Lemma reading_loop buf s i p j : owned buf s -> k_io s i = Some (URead p, j) ->
  exists c g, loop s i p g (ModelDispatch.TRd c ModelDispatch.RWait) /\ k_conn s c = Some (p, g).
Proof.
  intros O Io. destruct (O_io _ _ O _ _ _ Io) as (t & x & N & Ak & _).
  destruct Ak as [Ak|(lim & p0 & g & _ & _ & D)]; [|discriminate D].
  destruct t as [lim| |c st|c k m jj|c|c|c| | | |]; cbn in Ak; try discriminate Ak.
  - destruct (k_new s i) as [[]|]; discriminate Ak.
  - destruct st; try discriminate Ak.
    + destruct (O_conn _ _ O _ _ _ N) as ([q g] & W & C). unfold pair_of in Ak. rewrite C in Ak. injection Ak as ->.
      exists c, g. split; [split; [exact N|split; [reflexivity|exact W]]|exact C].
    + exfalso. repeat match type of Ak with match ?x with _ => _ end = _ => destruct x; try discriminate Ak end. exact (reply_write _ _ _ Ak).
  - exfalso. repeat match type of Ak with match ?x with _ => _ end = _ => destruct x; try discriminate Ak end. exact (reply_write _ _ _ Ak).
Qed.

Definition inflight (s : stack) (i : nat) : list bytes :=
  match k_io s i with
  | Some (URead _, j) => match read_by j (tlog s) with Some b => [b] | None => [] end
  | _ => []
  end.
Definition past (s : stack) (t : ModelDispatch.thread) : list bytes :=
  match t with ModelDispatch.TRd c _ => frames c (dlog s) | _ => [] end.
Record ordered (s : stack) : Prop := {
  R_one : forall i j p g g' t t', loop s i p g t -> loop s j p g' t' -> i = j;
  R_gen : forall i p g t, loop s i p g t -> gen s p = g;
  R_rd : forall i p g t j m d st g', loop s i p g t -> k_io s i = Some (URead p, j) ->
    nthread s j = Some (ModelMemchan.TRead (p, ModelMemchan.Srv) m d st) -> ProofStackRead.rgen st = Some g' -> g' = g;
  R_dial : forall j p st, nthread s j = Some (ModelMemchan.TDial p st) ->
    ProofStackRead.dialed_both st = true ->
    got (p, ModelMemchan.Srv) (gen s p) (tlog s) = [];
  R_got : ModelDispatch.v_crashed (vsrv s) = false -> forall i p g t, loop s i p g t ->
    got (p, ModelMemchan.Srv) g (tlog s) = past s t ++ inflight s i;
  R_all : forall c p g, k_conn s c = Some (p, g) -> SpecMemchan.is_prefix (frames c (dlog s)) (got (p, ModelMemchan.Srv) g (tlog s)) }.

(* the transport in a step *)
Lemma net_cases s e s' : kcase s e s' ->
  (k_net s' = k_net s) \/ exists e', net_event s e = Some e' /\ ProofMemchan.srel_ (k_net s) e' (k_net s').
Proof.
  intros K. pose proof (kcase_net _ _ _ K) as P. destruct (net_event s e) as [e'|]; [right|left; exact P].
  exists e'. split; [reflexivity|]. exact (proj2 (ProofMemchan.mstep_rel _ _ _ P)).
Qed.
Lemma step_reads buf s e s' : owned buf s -> kcase s e s' ->
  ProofStackRead.silent (tlog s) (tlog s') \/
  exists j k m d g l b r, nthread s j = Some (ModelMemchan.TRead k m d (ModelMemchan.RdParse g l)) /\
    nthread s' j = Some (ModelMemchan.TRead k m d (ModelMemchan.RdAck r)) /\ tlog s' = tlog s ++ [ModelMemchan.LRead j k g b] /\ k_io s' = k_io s /\ k_srv s' = k_srv s /\ (forall j lim, e <> EAccept j lim).
Proof.
  intros O K. destruct (net_cases _ _ _ K) as [E|(e' & Ne & Q)]; [left; rewrite E; apply ProofStackRead.silent_refl|].
  destruct (ProofStackRead.read_cases _ _ _ Q) as [S|(j & ch & k & m & d & g & l & b & r & -> & A & A' & E)]; [auto|right].
  exists j, k, m, d, g, l, b, r. split; [exact A|]. split; [exact A'|]. split; [exact E|].
  destruct K; cbn in Ne; try discriminate Ne; try (repeat split; congruence).
  exfalso. rewrite H, H0 in Ne. destruct u; discriminate Ne.
Qed.
Lemma step_gen s e s' p : kcase s e s' ->
  gen s' p = gen s p \/
  (gen s' p = S (gen s p) /\ exists j, nthread s j = Some (ModelMemchan.TDial p ModelMemchan.DlReset2)).
Proof.
  intros K. destruct (net_cases _ _ _ K) as [E|(e' & Ne & Q)]; [left; rewrite E; reflexivity|].
  destruct (ProofStackRead.gen_cases _ _ _ (p, ModelMemchan.Srv) Q) as [E|(E & j & ch & _ & A & _)]; [auto|right]. split; [exact E|]. exists j. exact A.
Qed.

Lemma io_same s e s' i : kcase s e s' -> (forall ch, srv_event e <> Some (ModelDispatch.EvStep i ch)) ->
  k_io s' i = k_io s i \/ exists u, k_io s' i = Some (u, length (ModelMemchan.s_ts (k_net s))) /\ forall p j, k_io s i <> Some (URead p, j).
Proof.
  intros K D. destruct K as [|i0 r0 r1 Nr Rs|Na Nc|e0 n Ok M|j0 lim p n v N0 M Dd|i0 t u0 n St Nu M|i0 ch t v St As Nt Dd|i0 lim v j0 u0 x St As Io Rt Dd|i0 ch t v j0 u0 x St As Io Rt Nc Dd|e v Be Dd];
    try (left; reflexivity); cbn; rewrite put_eq.
  - destruct (Nat.eqb_spec i i0) as [->|]; [right|auto]. exists u0. split; [reflexivity|]. intros p j E. unfold next_use in Nu. rewrite E in Nu. discriminate Nu.
  - destruct (Nat.eqb_spec i i0) as [->|]; [destruct (D _ eq_refl)|auto].
  - destruct (Nat.eqb_spec i i0) as [->|]; [destruct (D _ eq_refl)|auto].
Qed.
Lemma own_step buf s e s' i ch t : owned buf s -> kcase s e s' -> srv_event e = Some (ModelDispatch.EvStep i ch) -> sthread s i = Some t ->
  (tlog s' = tlog s /\ k_io s' i = None /\
   inflight s i = (match ProofStackSrv2.reads t ch with Some (_, b) => [b] | None => [] end)) \/
  (exists c, t = ModelDispatch.TRd c ModelDispatch.RWait /\ ch = ModelDispatch.ChErr).
Proof.
  intros O K Se St.
  destruct K as [|i0 r0 r1 Nr Rs|Na Nc|e0 n Ok M|j0 lim p n v N0 M Dd|i0 t0 u0 n St0 Nu M|i0 ch0 t0 v St0 As Nt Dd|i0 lim v j0 u0 x St0 As Io Rt Dd|i0 ch0 t0 v j0 u0 x St0 As Io Rt Nc Dd|e v Be Dd];
    cbn in Se; try discriminate Se.
  - injection Se as -> ->. rewrite St in St0. injection St0 as <-. left. split; [reflexivity|]. cbn.
    assert (E : k_io s i = None).
    { destruct (k_io s i) as [[u j]|] eqn:Io; [exfalso|reflexivity]. destruct (O_io _ _ O _ _ _ Io) as (t1 & x & N1 & Ak & _).
      rewrite St in N1. injection N1 as <-. destruct Ak as [Ak|(lim & _ & _ & -> & _)]; [congruence|eapply Nt; reflexivity]. }
    split; [exact E|]. unfold inflight. rewrite E. destruct t; try reflexivity. destruct s0; try reflexivity. discriminate As.
  - injection Se as -> <-. rewrite St in St0. injection St0 as ->. left. split; [reflexivity|]. cbn. rewrite put_eq, Nat.eqb_refl. split; [reflexivity|].
    unfold inflight. rewrite Io. destruct (O_io _ _ O _ _ _ Io) as (t1 & y & N1 & Ak & _). rewrite St in N1. injection N1 as <-.
    destruct Ak as [Ak|(? & ? & ? & _ & _ & ->)]; [|reflexivity]. cbn in Ak. destruct (k_new s i) as [[]|]; [|discriminate Ak]. injection Ak as <-. reflexivity.
  - injection Se as -> ->. rewrite St in St0. injection St0 as <-.
    destruct (ProofStackSrv2.reads t ch) as [[c b]|] eqn:Rd.
    + left. split; [reflexivity|]. cbn. rewrite put_eq, Nat.eqb_refl. split; [reflexivity|].
      destruct t as [| |c0 st| | | | | | | |]; try discriminate Rd. destruct st; try discriminate Rd. destruct ch; try discriminate Rd. injection Rd as -> ->.
      unfold inflight. rewrite Io. unfold returned in Rt. destruct u0 as [| |p|]; try (destruct (nthread s j0) as [[? []| ? ? ? []| ? []| |[]]|]; discriminate Rt).
      destruct (nthread s j0) as [[? []| ? ? ? []| ? []| |[]]|]; try discriminate Rt.
      destruct (read_by j0 (tlog s)) as [b'|]; [|destruct r; discriminate Rt]. destruct r; try discriminate Rt; destruct (bytes_eqb_spec b b') as [->|]; congruence.
    + destruct u0 as [p f|p|p|]; try (left; split; [reflexivity|]; cbn; rewrite put_eq, Nat.eqb_refl; split; [reflexivity|]; unfold inflight; rewrite Io; reflexivity).
      right. destruct (reading_loop _ _ _ _ _ O Io) as (c & g & (N1 & _) & _). rewrite St in N1. injection N1 as ->. exists c. split; [reflexivity|].
      unfold returned in Rt. destruct (nthread s j0) as [[? []| ? ? ? []| ? []| |[]]|]; try discriminate Rt. destruct ch; try discriminate Rt; try discriminate Rd. reflexivity.
  - injection Se as ->. destruct Be as [D|(? & D)]; discriminate D.
Qed.
Lemma frames_kstep s e s' : kcase s e s' -> ModelDispatch.v_crashed (vsrv s') = false -> forall c,
  frames c (dlog s') = frames c (dlog s) ++
  match srv_event e with
  | Some (ModelDispatch.EvStep i ch) =>
      match sthread s i with
      | Some t => match ProofStackSrv2.reads t ch with Some (c0, b) => if c0 =? c then [b] else [] | None => [] end
      | None => []
      end
  | _ => []
  end.
Proof.
  intros K Cr c. pose proof (kcase_srv _ _ _ K) as P. destruct (srv_event e) as [e'|]; [|rewrite P, app_nil_r; reflexivity].
  destruct (ProofStackSrv2.frames_dstep _ _ _ P) as [[Q _]|[_ Q]]; [congruence|]. apply Q.
Qed.

Section Step.
Variables (buf : nat) (conf : bytes) (s : stack) (e : event) (s' : stack).
Hypothesis R : kreach buf conf settled s.
Hypothesis K : kcase s e s'.
Hypothesis I : ordered s.
Hypothesis Al : alive s.
Let O := owned_all _ _ _ _ R.
Let W := settled_waited _ _ _ R.
Let B := ProofStackRead.readers_behind _ _ _ (reach_net_any _ _ _ _ R).

Lemma gen_same i p g t : loop s i p g t -> gen s' p = gen s p.
Proof.
  intros L. destruct (step_gen _ _ _ p K) as [E|(E & j & N)]; [exact E|]. pose proof (W _ _ _ _ _ _ L N) as Q. discriminate Q.
Qed.
Lemma gen_accept j p : nthread s j = Some (ModelMemchan.TDial p ModelMemchan.DlAdd) -> net_event s e = Some (ModelMemchan.EvStep j ModelMemchan.Go) ->
  gen s' p = gen s p.
Proof.
  intros N Ne. destruct (net_cases _ _ _ K) as [E|(e' & Ne' & Q)]; [rewrite E; reflexivity|].
  rewrite Ne in Ne'. injection Ne' as <-.
  destruct (ProofStackRead.gen_cases _ _ _ (p, ModelMemchan.Srv) Q) as [E|(E & j' & ch & Eq & A & _)]; [auto|].
  injection Eq as <- <-. unfold SpecMemchan.at_ in A. rewrite N in A. discriminate A.
Qed.
Lemma one_step : forall i j p g g' t t', loop s' i p g t -> loop s' j p g' t' -> i = j.
Proof.
  intros i j p g g' t t' L1 L2.
  destruct (loop_before _ _ _ _ _ _ _ _ O K L1) as [(t1 & M1 & _)|(j1 & lim1 & E1 & -> & _ & N1 & _)];
  destruct (loop_before _ _ _ _ _ _ _ _ O K L2) as [(t2 & M2 & _)|(j2 & lim2 & E2 & -> & _ & N2 & _)]; auto.
  - exact (R_one _ I _ _ _ _ _ _ _ M1 M2).
  - exfalso. pose proof (W _ _ _ _ _ _ M1 N2) as Q. discriminate Q.
  - exfalso. pose proof (W _ _ _ _ _ _ M2 N1) as Q. discriminate Q.
Qed.
Lemma gen_step : forall i p g t, loop s' i p g t -> gen s' p = g.
Proof.
  intros i p g t L. destruct (loop_before _ _ _ _ _ _ _ _ O K L) as [(t1 & M & _)|(j & lim & Ee & _ & _ & N & ->)].
  - rewrite (gen_same _ _ _ _ M). exact (R_gen _ I _ _ _ _ M).
  - apply (gen_accept _ _ N). rewrite Ee. reflexivity.
Qed.
Lemma rd_step_ : forall i p g t j m d st g', loop s' i p g t -> k_io s' i = Some (URead p, j) ->
    nthread s' j = Some (ModelMemchan.TRead (p, ModelMemchan.Srv) m d st) -> ProofStackRead.rgen st = Some g' -> g' = g.
Proof.
  intros i p g t j m d st g' L Io N Rg.
  assert (Ls : loop s i p g t \/ (exists t0, loop s i p g t0)).
  { destruct (loop_before _ _ _ _ _ _ _ _ O K L) as [(t1 & M & _)|(j1 & lim & Ee & -> & _ & _ & _)]; [right; eauto|].
    exfalso. destruct (io_cases _ _ _ _ _ _ _ O K Io) as [(E0 & _)|(D & _)]; [|congruence].
    destruct (O_io _ _ O _ _ _ E0) as (t0 & x & N0 & _). assert (length (ModelDispatch.s_ts (k_srv s)) < length (ModelDispatch.s_ts (k_srv s))) by (apply nth_error_Some; congruence). lia. }
  assert (Ls' : exists t0, loop s i p g t0) by (destruct Ls; eauto). clear Ls. destruct Ls' as (t0 & Ls).
  destruct (io_cases _ _ _ _ _ _ _ O K Io) as [(E0 & Ns & _)|(Ee & t1 & St & Nu & -> & Tx & M)].
  - destruct (net_cases _ _ _ K) as [E|(e' & Ne & Q)]; [rewrite E in N; exact (R_rd _ I _ _ _ _ _ _ _ _ _ Ls E0 N Rg)|].
    destruct (ProofStackRead.reader_steps _ _ _ _ _ _ _ _ Q N) as [(-> & _)|(st0 & N0 & [->|(_ & _ & P)])].
    + exfalso. destruct (O_io _ _ O _ _ _ E0) as (t2 & x & _ & _ & Nx & _). assert (length (ModelMemchan.s_ts (k_net s)) < length (ModelMemchan.s_ts (k_net s))) by (apply nth_error_Some; congruence). lia.
    + exact (R_rd _ I _ _ _ _ _ _ _ _ _ Ls E0 N0 Rg).
    + destruct (P _ Rg) as [Rg0|[-> ->]]; [exact (R_rd _ I _ _ _ _ _ _ _ _ _ Ls E0 N0 Rg0)|exact (R_gen _ I _ _ _ _ Ls)].
  - destruct (call_begins _ _ _ _ M) as (x & Q & _ & Bg). rewrite Q in N. cbn in N. rewrite nth_error_app2, Nat.sub_diag in N by lia.
    injection N as ->. rewrite begin_call in Bg. assert (st = ModelMemchan.RdStart) by congruence. subst st. discriminate Rg.
Qed.
(* the read that a step makes on a server socket is the one of the pair's loop *)
Lemma read_owner j p m d g l : nthread s j = Some (ModelMemchan.TRead (p, ModelMemchan.Srv) m d (ModelMemchan.RdParse g l)) ->
  exists i c, k_io s i = Some (URead p, j) /\ loop s i p g (ModelDispatch.TRd c ModelDispatch.RWait) /\ k_conn s c = Some (p, g) /\ read_by j (tlog s) = None.
Proof.
  intros N. destruct (O_read _ _ O _ _ _ _ _ N eq_refl) as (i & Io). exists i.
  destruct (reading_loop _ _ _ _ _ O Io) as (c & g0 & L & C). exists c. pose proof (R_rd _ I _ _ _ _ _ _ _ _ _ L Io N eq_refl) as E. subst g0.
  split; [exact Io|]. split; [exact L|]. split; [exact C|]. destruct B as (_ & _ & B3 & _). exact (B3 _ _ _ _ _ N eq_refl).
Qed.
Lemma dial_step_ : forall j p st, nthread s' j = Some (ModelMemchan.TDial p st) -> ProofStackRead.dialed_both st = true ->
    got (p, ModelMemchan.Srv) (gen s' p) (tlog s') = [].
Proof.
  intros j p st N C.
  assert (Ex : exists st0, nthread s j = Some (ModelMemchan.TDial p st0) /\ dialing_on st0 = true /\ got (p, ModelMemchan.Srv) (gen s' p) (tlog s) = []).
  { destruct B as (_ & B2 & _).
    destruct (net_cases _ _ _ K) as [E|(e' & Ne & Q)].
    - rewrite E in N |- *. exists st. split; [exact N|]. split; [destruct st; try discriminate C; reflexivity|]. exact (R_dial _ I _ _ _ N C).
    - destruct (ProofStackRead.dialer_before _ _ _ _ _ _ Q N C) as (st0 & N0 & [C0|[-> G]]); [|exists ModelMemchan.DlReset2; split; [exact N0|split; [reflexivity|]]; apply B2; cbn; lia].
      exists st0. split; [exact N0|]. split; [destruct st0; try discriminate C0; reflexivity|].
      destruct (step_gen _ _ _ p K) as [Eg|(Eg & _)]; rewrite Eg; [exact (R_dial _ I _ _ _ N0 C0)|]. apply B2. cbn. lia. }
  destruct Ex as (st0 & N0 & D0 & G).
  destruct (step_reads _ _ _ _ O K) as [[S _]|(j0 & k & m & d & g & l & b & r & A & A' & E & _)]; [rewrite S; exact G|].
  rewrite E, ProofStackRead.got_snoc, G.
  destruct (ProofMemchan.sock_eqb_spec k (p, ModelMemchan.Srv)) as [->|]; [|reflexivity]. exfalso.
  destruct (read_owner _ _ _ _ _ _ A) as (i & c & _ & L & _). pose proof (W _ _ _ _ _ _ L N0). congruence.
Qed.
(* the books of one loop *)
Lemma inflight_silent i : ProofStackRead.silent (tlog s) (tlog s') -> k_io s' i = k_io s i -> inflight s' i = inflight s i.
Proof. intros [_ S] E. unfold inflight. rewrite E. destruct (k_io s i) as [[[]]|]; try reflexivity. rewrite S. reflexivity. Qed.
Lemma got_step : ModelDispatch.v_crashed (vsrv s') = false -> forall i p g t, loop s' i p g t ->
    got (p, ModelMemchan.Srv) g (tlog s') = past s' t ++ inflight s' i.
Proof.
  intros Cr i p g t' L. destruct (loop_before _ _ _ _ _ _ _ _ O K L) as [(t & M & Ch)|(j & lim & Ee & -> & -> & N & ->)].
  2:{ (* just accepted *)
      assert (Sl : ProofStackRead.silent (tlog s) (tlog s')).
      { destruct (step_reads _ _ _ _ O K) as [S|(j0 & k & m & d & g & l & b & r & _ & _ & _ & _ & _ & Na)]; [exact S|destruct (Na _ _ Ee)]. }
      destruct Sl as [S1 S2]. rewrite S1. cbn [past app].
      rewrite (R_dial _ I _ _ _ N eq_refl). unfold inflight. destruct (k_io s' (length (ModelDispatch.s_ts (k_srv s)))) as [[u j0]|] eqn:Io; [exfalso|reflexivity].
      destruct (io_cases _ _ _ _ _ _ _ O K Io) as [(E0 & _)|(D & _)]; [|congruence].
      destruct (O_io _ _ O _ _ _ E0) as (t0 & x & N0 & _). assert (length (ModelDispatch.s_ts (k_srv s)) < length (ModelDispatch.s_ts (k_srv s))) by (apply nth_error_Some; congruence). lia. }
  pose proof (R_got _ I (proj1 Al) _ _ _ _ M) as IH. destruct M as (Nt & Lt & Wt).
  destruct (step_reads _ _ _ _ O K) as [Sl|(j & k & m & d & g0 & l & b & r & A & A' & E & Ei & Es & _)].
  2:{ (* a reader of the transport reads *)
      assert (t' = t) as ->.
      { destruct L as (N' & _). rewrite Es in N'. congruence. }
      assert (Ep : past s' t = past s t) by (unfold past; rewrite Es; reflexivity). rewrite Ep.
      rewrite E, ProofStackRead.got_snoc, IH. unfold inflight at 2. rewrite Ei.
      destruct (ProofMemchan.sock_eqb_spec k (p, ModelMemchan.Srv)) as [->|D].
      - destruct (read_owner _ _ _ _ _ _ A) as (i0 & c & Io & L0 & C & Rn).
        pose proof (R_one _ I _ _ _ _ _ _ _ L0 (conj Nt (conj Lt Wt))) as ->.
        pose proof (R_gen _ I _ _ _ _ L0) as G0. pose proof (R_gen _ I _ _ _ _ (conj Nt (conj Lt Wt))) as G1. assert (g0 = g) as -> by congruence.
        rewrite Nat.eqb_refl, Io. cbn [andb]. unfold inflight. rewrite Io, Rn, E, ProofStackRead.read_by_snoc, Rn, Nat.eqb_refl, app_nil_r. reflexivity.
      - cbn [andb]. rewrite app_nil_r. f_equal. unfold inflight. destruct (k_io s i) as [[[| q| |] j1]|] eqn:Io; try reflexivity.
        rewrite E, ProofStackRead.read_by_snoc. destruct (Nat.eqb_spec j j1) as [<-|]; [|destruct (read_by j1 (tlog s)); reflexivity].
        exfalso. destruct (reading_loop _ _ _ _ _ O Io) as (c & g1 & (_ & _ & W1) & _). rewrite Wt in W1. injection W1 as <- <-.
        destruct (O_io _ _ O _ _ _ Io) as (t0 & x & _ & _ & Nx & Tg & _). rewrite A in Nx. injection Nx as <-. cbn in Tg. injection Tg as -> _ _. congruence. }
  rewrite (proj1 Sl), IH.
  pose proof (frames_kstep _ _ _ K Cr) as F.
  assert (Own : (exists ch, srv_event e = Some (ModelDispatch.EvStep i ch)) \/ forall ch, srv_event e <> Some (ModelDispatch.EvStep i ch)).
  { destruct (srv_event e) as [[| | |i0 ch]|]; try (right; discriminate). destruct (Nat.eq_dec i0 i) as [->|D]; [left; eauto|right; congruence]. }
  destruct Own as [(ch & Se)|Ns].
  - (* a step of the loop itself *)
    destruct (own_step _ _ _ _ _ _ _ O K Se Nt) as [(Et & Ei & Inf)|(c & -> & ->)].
    2:{ exfalso. pose proof (kcase_srv _ _ _ K) as P. rewrite Se in P.
        destruct (ProofDispatch.dstep_inv _ _ _ P) as (_ & [(u & [] & _)|(j & ch & u & g' & u' & sp & Eq & Nj & T & Es)]). injection Eq as <- <-.
        rewrite Nt in Nj. injection Nj as <-. cbn in T. injection T as <- <- <-. destruct L as (N' & L' & _). rewrite Es in N'. cbn in N'.
        rewrite app_nil_r, (set_nth_eq _ _ _ _ Nt) in N'. injection N' as <-. discriminate L'. }
    assert (Inf' : inflight s' i = []) by (unfold inflight; rewrite Ei; reflexivity). rewrite Inf', Inf, app_nil_r.
    rewrite Se, Nt in F.
    assert (Cs : (exists c st st', t = ModelDispatch.TRd c st /\ t' = ModelDispatch.TRd c st') \/
      (exists lim, t = ModelDispatch.TNew lim /\ t' = ModelDispatch.TRd (ModelDispatch.v_n (vsrv s)) ModelDispatch.RHook)).
    { destruct Ch as [->|(ch' & Ee & [Cs|(lim & -> & _ & ->)])]; [|auto|right; eauto]. 
      pose proof (kcase_srv _ _ _ K) as P. rewrite Se in P.
      destruct (ProofDispatch.dstep_inv _ _ _ P) as (_ & [(u & [] & _)|(j & ch0 & u & g' & u' & sp & Eq & Nj & T & Es)]). injection Eq as <- <-.
      rewrite Nt in Nj. injection Nj as <-. destruct L as (N' & L' & _). rewrite Es in N'. cbn in N'.
      rewrite nth_error_app1, (set_nth_eq _ _ _ _ Nt) in N' by (rewrite set_nth_length; apply nth_error_Some; congruence). injection N' as ->.
      destruct (ProofStackSrv2.loop_from _ _ _ _ _ _ _ T L') as [_ [Cs|(lim & -> & _ & D)]]; [auto|discriminate D]. }
    destruct Cs as [(c & st & st' & -> & ->)|(lim & -> & ->)]; cbn [past].
    + rewrite F. destruct (ProofStackSrv2.reads (ModelDispatch.TRd c st) ch) as [[c0 b]|] eqn:Rd; [|reflexivity].
      assert (c0 = c) as -> by (destruct st; try discriminate Rd; destruct ch; try discriminate Rd; injection Rd as -> _; reflexivity).
      rewrite Nat.eqb_refl. reflexivity.
    + rewrite F. cbn. rewrite (ProofStackSrv2.frames_fresh _ _ _ (reach_srv_any _ _ _ _ R)) by lia. reflexivity.
  - (* of another thread *)
    assert (t' = t) as ->.
    { destruct Ch as [->|(ch & Ee & _)]; [reflexivity|]. rewrite Ee in Ns. destruct (Ns _ eq_refl). }
    f_equal.
    + unfold past. destruct t as [| |c st| | | | | | | |]; try reflexivity. rewrite F.
      destruct (srv_event e) as [[| | |i0 ch]|]; try (symmetry; apply app_nil_r). destruct (sthread s i0) as [t0|] eqn:N0; [|symmetry; apply app_nil_r].
      destruct (ProofStackSrv2.reads t0 ch) as [[c0 b]|] eqn:Rd; [|symmetry; apply app_nil_r]. destruct (Nat.eqb_spec c0 c) as [->|]; [|symmetry; apply app_nil_r].
      exfalso. destruct t0 as [| |c1 st0| | | | | | | |]; try discriminate Rd. destruct st0; try discriminate Rd. destruct ch; try discriminate Rd. injection Rd as -> ->.
      pose proof (ProofStackSrv.one_reader _ _ _ _ _ _ _ _ (reach_srv_any _ _ _ _ R) N0 Nt). subst i0. eapply Ns; reflexivity.
    + destruct (io_same _ _ _ i K Ns) as [E|(u & E & Nr)]; [symmetry; apply inflight_silent; auto|].
      unfold inflight. rewrite E. destruct B as (_ & _ & _ & B4).
      rewrite (proj2 Sl), B4 by lia. destruct u; destruct (k_io s i) as [[[] j0]|] eqn:Io; try reflexivity; destruct (Nr _ _ eq_refl).
Qed.
Lemma all_step : forall c p g, k_conn s' c = Some (p, g) -> SpecMemchan.is_prefix (frames c (dlog s')) (got (p, ModelMemchan.Srv) g (tlog s')).
Proof.
  intros c p g C.
  assert (Grow : SpecMemchan.is_prefix (got (p, ModelMemchan.Srv) g (tlog s)) (got (p, ModelMemchan.Srv) g (tlog s'))).
  { destruct (step_reads _ _ _ _ O K) as [[S _]|(j & k & m & d & g0 & l & b & r & _ & _ & E & _)].
    - rewrite S. exists []. symmetry. apply app_nil_r.
    - rewrite E, ProofStackRead.got_snoc. eexists. reflexivity. }
  assert (Tr : SpecMemchan.is_prefix (frames c (dlog s)) (got (p, ModelMemchan.Srv) g (tlog s)) -> frames c (dlog s') = frames c (dlog s) ->
    SpecMemchan.is_prefix (frames c (dlog s')) (got (p, ModelMemchan.Srv) g (tlog s'))).
  { intros (x & X) Q. destruct Grow as (y & Y). rewrite Q. exists (x ++ y). rewrite Y, X, app_assoc. reflexivity. }
  assert (R' : owned buf s') by (exact (owned_step _ _ _ _ (reach_srv_any _ _ _ _ R) K O)).
  destruct (O_back _ _ R' _ _ C) as (i & st & N & W').
  destruct (ModelDispatch.v_crashed (vsrv s')) eqn:Cr.
  - (* a handler panicked: nothing was read *)
    pose proof (kcase_srv _ _ _ K) as P. destruct (srv_event e) as [e'|] eqn:Se; [|rewrite P in Cr; destruct Al; congruence].
    destruct (ProofStackSrv2.frames_dstep _ _ _ P) as [[_ Q]|[Q _]]; [|congruence].
    apply Tr; [|rewrite Q; reflexivity]. destruct (k_conn s c) as [o|] eqn:C0.
    + assert (c < ModelDispatch.v_n (vsrv s)) by (apply (conns_known _ _ _ _ R); eauto). rewrite (conn_keep _ _ _ K) in C by assumption.
      rewrite C0 in C. injection C as ->. exact (R_all _ I _ _ _ C0).
    + rewrite (ProofStackSrv2.frames_fresh _ _ _ (reach_srv_any _ _ _ _ R)); [exists (got (p, ModelMemchan.Srv) g (tlog s)); reflexivity|].
      destruct (Nat.le_gt_cases (ModelDispatch.v_n (vsrv s)) c) as [|Lc]; [assumption|exfalso].
      apply (conns_known _ _ _ _ R) in Lc as (o & Lc). congruence.
  - destruct (looping (ModelDispatch.TRd c st)) eqn:Lo.
    + rewrite (got_step Cr _ _ _ _ (conj N (conj Lo W'))). cbn [past]. eexists. reflexivity.
    + (* the loop has ended *)
      pose proof (frames_kstep _ _ _ K Cr c) as F.
      destruct (k_conn s c) as [o|] eqn:C0.
      2:{ exfalso. assert (D : sthread s' i = Some (ModelDispatch.TRd c st)) by exact N. pose proof (kcase_srv _ _ _ K) as P.
          assert (Nold : forall st0, sthread s i <> Some (ModelDispatch.TRd c st0)).
          { intros st0 N0. destruct (O_conn _ _ O _ _ _ N0) as (o & _ & Q). congruence. }
          destruct (srv_event e) as [e'|] eqn:Se; [|rewrite P in N; exact (Nold _ N)].
          destruct (ProofStackSrv.threads_after _ _ _ _ _ P N) as [N0|[(ch & u & g' & sp & -> & N0 & T & _)|(Len & Q)]].
          - exact (Nold _ N0).
          - destruct (ProofStackSrv.reader_from _ _ _ _ _ _ _ _ T) as [(st0 & ->)|(lim & -> & -> & -> & _)]; [exact (Nold _ N0)|].
            cbn in T. injection T as _ Est _. subst st. discriminate Lo.
          - destruct Q as [(l & _ & Q)|[(c' & _ & Q)|[[_ Q]|(c' & k & m & Q)]]]; discriminate Q. }
      assert (Lc : c < ModelDispatch.v_n (vsrv s)) by (apply (conns_known _ _ _ _ R); eauto). rewrite (conn_keep _ _ _ K) in C by assumption.
      rewrite C0 in C. injection C as ->. pose proof (R_all _ I _ _ _ C0) as Pre.
      destruct (srv_event e) as [[| | |i0 ch]|] eqn:Se; try (apply Tr; [exact Pre|rewrite F, app_nil_r; reflexivity]).
      destruct (sthread s i0) as [t0|] eqn:N0; [|apply Tr; [exact Pre|rewrite F, app_nil_r; reflexivity]].
      destruct (ProofStackSrv2.reads t0 ch) as [[c0 b]|] eqn:Rd; [|apply Tr; [exact Pre|rewrite F, app_nil_r; reflexivity]].
      destruct (Nat.eqb_spec c0 c) as [->|]; [|apply Tr; [exact Pre|rewrite F, app_nil_r; reflexivity]].
      (* the frame that ends the loop *)
      destruct t0 as [| |c1 st0| | | | | | | |]; try discriminate Rd. destruct st0; try discriminate Rd. destruct ch; try discriminate Rd. injection Rd as -> ->.
      destruct (own_step _ _ _ _ _ _ _ O K Se N0) as [(Et & Ei & Inf)|(c1 & _ & D)]; [|discriminate D]. cbn in Inf.
      destruct (O_conn _ _ O _ _ _ N0) as (o & W0 & C1). rewrite C0 in C1. injection C1 as <-.
      pose proof (R_got _ I (proj1 Al) _ _ _ _ (conj N0 (conj eq_refl W0))) as G. cbn [past] in G. rewrite Inf in G. rewrite F, Et, G. exists []. symmetry. apply app_nil_r.
Qed.
End Step.

Lemma ordered_all buf conf s : kreach buf conf settled s -> ordered s.
Proof.
  intros R. pose proof R as R0. induction R0 as [|s e s' R0 IH H Ok].
  - constructor; cbn; try discriminate; try (intros i; intros; match goal with L : loop _ _ _ _ _ |- _ => destruct L as (N & _); destruct i; discriminate N end); try (intros []; discriminate).
    intros _ i p g t (N & _). destruct i; discriminate N.
  - destruct (kstep_inv _ _ _ H) as [Al K]. specialize (IH R0). constructor.
    + exact (one_step _ _ _ _ _ R0 K IH).
    + exact (gen_step _ _ _ _ _ R0 K IH).
    + exact (rd_step_ _ _ _ _ _ R0 K IH).
    + exact (dial_step_ _ _ _ _ _ R0 K IH).
    + exact (got_step _ _ _ _ _ R0 K IH Al).
    + exact (all_step _ _ _ _ _ R0 K IH Al).
Qed.
(* what the server reads on a connection is, in order, what its client sent since it was dialed *)
Lemma frames_sent buf conf s c p g : kreach buf conf settled s -> k_conn s c = Some (p, g) ->
  SpecMemchan.is_prefix (frames c (dlog s)) (SpecMemchan.sent (p, ModelMemchan.Clt) g (tlog s)).
Proof.
  intros R C. destruct (R_all _ (ordered_all _ _ _ R) _ _ _ C) as (x & X).
  destruct (ProofMemchan5.prefix_all _ _ (p, ModelMemchan.Srv) g (apart_net _ _ _ (settled_apart _ _ _ R))) as (y & Y).
  exists (x ++ y). rewrite X in Y. change (p, ModelMemchan.Clt) with (ModelMemchan.remote (p, ModelMemchan.Srv)). rewrite Y, <- app_assoc. reflexivity.
Qed.
