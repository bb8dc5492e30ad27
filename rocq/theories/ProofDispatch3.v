(* Shutdown, closing of connections, hooks *)
From Coq Require Import List Arith ZArith Lia Bool.
From Verif Require Import BaseBytes BaseConc ModelMessage ModelWrite ModelHandle ModelDispatch.
From Verif Require Import SpecWire SpecMessage SpecWrite SpecHandle SpecDispatch.
From Verif Require Import ProofMessage ProofWire ProofCodec ProofHandle ProofDispatch ProofDispatch2.
Import ListNotations.
Open Scope nat_scope.
Local Arguments Nat.ltb : simpl never.
Local Arguments Nat.eqb : simpl never.
Local Arguments Nat.leb : simpl never.
Local Arguments Z.add : simpl never.
Local Arguments Z.sub : simpl never.
Local Arguments Z.opp : simpl never.
Local Arguments Z.modulo : simpl never.
Local Arguments Z.ltb : simpl never.
Local Arguments Z.of_nat : simpl never.
Local Arguments Z.pow : simpl never.

(* ---------- the operation counter ---------- *)
Notation nreg s := (Z.of_nat (count registered (s_ts s))).
Lemma reg_step s i ch t g' t' sp ok buf : tstep_of buf ok s i ch t g' t' sp ->
  (v_shutdown g' = false \/ forall s e, ok s e -> no_late s e) ->
  (v_ops g' = (v_ops (s_srv s) + (bz (registered t') + osum (fun t => bz (registered t)) sp - bz (registered t))) mod 2 ^ 32)%Z
  \/ (v_ops g' = v_ops (s_srv s) /\ bz (registered t') + osum (fun t => bz (registered t)) sp = bz (registered t))%Z.
Proof.
  intros (R & Ok & N & H) NL. assert (NL' : v_shutdown g' = false \/ no_late s (EvStep i ch)) by intuition.
  clear NL. unfold no_late in NL'.
  inv_tstep H; cbn in NL' |- *; try (right; split; [reflexivity|lia]);
    try (left; rewrite ?Z.add_0_r, ?Z.sub_0_r; reflexivity).
  destruct NL' as [NL'|NL']; [congruence|]. rewrite N in NL'. specialize (NL' H). congruence.
Qed.
Lemma ops_exact buf (ok : sys -> ev -> Prop) s : dreach buf ok s ->
  (v_shutdown (s_srv s) = false \/ forall s e, ok s e -> no_late s e) ->
  v_ops (s_srv s) = (nreg s mod 2 ^ 32)%Z.
Proof.
  intros R. induction R as [|s e s' R IH Ok H]; [reflexivity|]. intros NL.
  destruct (dstep_inv _ _ _ H) as (_ & [(t & T & ->)|(i & ch & t & g' & t' & sp & -> & N & T & ->)]).
  - cbn [s_srv s_ts] in *. rewrite (IH NL), count_snoc.
    destruct e as [lim|c| |]; try contradiction; [subst t|destruct T as [-> _]|subst t]; cbn [registered b2i]; f_equal; lia.
  - cbn [s_srv s_ts] in *. assert (X := tstep_ext _ _ _ _ _ _ _ T).
    assert (NL0 : v_shutdown (s_srv s) = false \/ forall s e, ok s e -> no_late s e).
    { destruct NL as [NL|NL]; [left|auto]. destruct (v_shutdown (s_srv s)) eqn:E; [|reflexivity].
      rewrite (e_shut _ _ X E) in NL. discriminate. }
    specialize (IH NL0).
    rewrite <- zsum_count, zsum_app. pose proof (zsum_set (fun t => bz (registered t)) _ i t' t N) as E.
    rewrite (zsum_count registered (s_ts s)) in E. pose proof (reg_step _ _ _ _ _ _ _ _ _ (conj R (conj Ok (conj N T))) NL) as D.
    set (b := fun t => bz (registered t)) in *.
    assert (Q : (zsum b (opt_list sp) = osum b sp)%Z) by (destruct sp; cbn [opt_list zsum osum]; ring). rewrite Q.
    change (zsum (fun t0 => bz (registered t0))) with (zsum b).
    destruct D as [D|[D1 D2]].
    + rewrite D, IH, Zplus_mod_idemp_l. unfold b in E |- *. f_equal. lia.
    + rewrite D1, IH. f_equal. unfold b in *. lia.
Qed.
Lemma ops_few buf (ok : sys -> ev -> Prop) s : dreach buf ok s -> few s ->
  (v_shutdown (s_srv s) = false \/ forall s e, ok s e -> no_late s e) ->
  v_ops (s_srv s) = nreg s.
Proof. intros R F NL. rewrite (ops_exact _ _ _ R NL). apply Z.mod_small. unfold few in F. lia. Qed.
Lemma registered_at s i t : nth_error (s_ts s) i = Some t -> registered t = true -> (1 <= nreg s)%Z.
Proof. intros N T. pose proof (count_pos registered _ _ _ N T). lia. Qed.
(* running handlers are registered *)
Lemma running_registered s c k : count (running_msg c k) (s_ts s) <= count registered (s_ts s).
Proof.
  apply count_le. intros [] _; cbn; try discriminate; [destruct s0 as [| | | | | | | | |k' m []| | | |]|destruct j]; try discriminate; auto.
Qed.

(* ---------- shutdown ---------- *)
Definition is_shutdown (e : event) : bool := match e with LShutdown _ => true | _ => false end.
Lemma shutdown_flag buf ok s : dreach buf ok s ->
  v_shutdown (s_srv s) = negb (count is_shutdown (slog s) =? 0).
Proof.
  revert s. apply (global buf ok (fun g => v_shutdown g = negb (count is_shutdown (v_log g) =? 0))); [reflexivity|].
  intros s i ch t g' t' sp (R & _ & N & H) IH.
  inv_tstep H; cbn; rewrite ?count_snoc; cbn; rewrite ?Nat.add_0_r; auto.
  all: destruct (Nat.eqb_spec (count is_shutdown (slog s) + 1) 0); [lia|reflexivity].
Qed.
Lemma shutdown_logged buf ok s : dreach buf ok s ->
  (v_shutdown (s_srv s) = true <-> exists i, In (LShutdown i) (slog s)).
Proof.
  intros R. rewrite (shutdown_flag _ _ _ R). destruct (Nat.eqb_spec (count is_shutdown (slog s)) 0) as [E|E]; cbn.
  - split; [discriminate|]. intros (i & I). apply (proj1 (count_zero _ _)) with (x := LShutdown i) in E; [discriminate E|exact I].
  - split; [intros _|reflexivity]. destruct (count_exists is_shutdown (slog s)) as (n & x & E1 & E2); [lia|].
    destruct x; try discriminate. exists i. eapply nth_error_In; eauto.
Qed.

(* Shutdown calls past their wait *)
Definition returning (t : thread) : bool := match t with TShT | TShR => true | _ => false end.
Definition drained (s : sys) : Prop := v_shutdown (s_srv s) = true /\ count registered (s_ts s) = 0.
Lemma calm_no_late (s : sys) (e : ev) : calm s e -> no_late s e. Proof. now intros []. Qed.

Lemma drained_step s i ch t g' t' sp buf : tstep_of buf calm s i ch t g' t' sp -> drained s ->
  drained (MkSys g' (set_nth (s_ts s) i t' ++ opt_list sp)).
Proof.
  intros (R & [NL _] & N & H) [D1 D2]. pose proof (tstep_ext _ _ _ _ _ _ _ H) as X.
  split; [apply (e_shut _ _ X D1)|]. cbn [s_srv s_ts]. rewrite count_app.
  pose proof (count_set registered _ i t' t N) as E. rewrite D2 in E.
  unfold no_late in NL. inv_tstep H; cbn in E, NL |- *; try lia; try congruence.
  rewrite N in NL. specialize (NL H). congruence.
Qed.
Lemma shutdown_drained buf s : dreach buf calm s ->
  v_rdy (s_srv s) = true \/ (exists t, In t (s_ts s) /\ returning t = true) \/ (exists i, In (LShutReturn i) (slog s)) ->
  drained s.
Proof.
  intros R. induction R as [|s e s' R IH Ok H].
  { intros [E|[(t & [] & _)|(i & [])]]. discriminate. }
  destruct (dstep_inv _ _ _ H) as (_ & [(t & T & ->)|(i & ch & t & g' & t' & sp & -> & N & T & ->)]).
  - cbn [s_srv s_ts]. intros D. assert (returning t = false /\ registered t = false) as [T1 T2].
    { destruct e as [lim|c'| |]; try contradiction; [subst t|destruct T as [-> _]|subst t]; auto. }
    destruct IH as [D1 D2].
    { destruct D as [D|[(u & U & Ru)|D]]; auto. apply in_app_or in U as [U|[<-|[]]]; [eauto|congruence]. }
    split; [exact D1|]. cbn. rewrite count_snoc, D2, T2. reflexivity.
  - cbn [s_srv s_ts]. intros D.
    assert (TS : tstep_of buf calm s i ch t g' t' sp) by (repeat split; auto; apply Ok).
    destruct Ok as [NL Fw]. pose proof (ops_few _ _ _ R Fw (or_intror calm_no_late)) as Ex.
    assert (Old : v_rdy (s_srv s) = true \/ (exists t, In t (s_ts s) /\ returning t = true) \/ (exists i, In (LShutReturn i) (slog s)) ->
      drained (MkSys g' (set_nth (s_ts s) i t' ++ opt_list sp))).
    { intros Q. eapply drained_step; eauto. }
    assert (Cs : v_rdy (s_srv s) = true \/ (exists t, In t (s_ts s) /\ returning t = true) \/ (exists i, In (LShutReturn i) (slog s)) \/
      (t = TSh0 /\ (v_ops (s_srv s) < 1)%Z) \/
      (v_shutdown (s_srv s) = true /\ ((v_ops (s_srv s) - 1) mod 2 ^ 32 < 1)%Z /\ registered t = true /\ registered t' = false /\ sp = None)).
    { assert (It := nth_error_In _ _ N).
      assert (M : forall u, In u (set_nth (s_ts s) i t' ++ opt_list sp) -> returning u = true ->
         (exists t, In t (s_ts s) /\ returning t = true) \/ returning t' = true \/ exists x, sp = Some x /\ returning x = true).
      { intros u U Ru. apply in_app_or in U as [U|U]; [apply set_nth_In in U as [->|U]; eauto|].
        destruct sp; [destruct U as [<-|[]]; eauto|destruct U]. }
      clear Old TS H.
      destruct D as [D|[(u & U & Ru)|(i0 & D)]].
      - inv_tstep T; cbn in *; auto; try congruence; do 4 right; repeat split; auto.
      - destruct (M u U Ru) as [Q|[Q|(x & Es & Q)]]; [auto| |].
        + inv_tstep T; cbn in *; auto; try discriminate Q; (do 3 right; left; split; [reflexivity|assumption]) || (right; left; eauto; fail).
        + clear U Ru M. inv_tstep T; cbn in *; try discriminate Es. injection Es as <-. discriminate Q.
      - inv_tstep T; cbn in *; eauto; apply in_app_or in D as [D|[D|[]]]; eauto; try discriminate D. }
    destruct Cs as [Cs|[Cs|[Cs|[[-> Cs]|(C1 & C2 & C3 & C4 & ->)]]]]; auto.
    + assert (Q : count registered (s_ts s) = 0) by lia. clear Old.
      cbn in T. destruct ch; try discriminate T. injection T as <- <- <-. split; [reflexivity|].
      cbn [s_ts opt_list]. rewrite app_nil_r.
      pose proof (count_set registered _ i (if (v_ops (s_srv s) <? 1)%Z then TShT else TShW) _ N) as E.
      destruct (v_ops (s_srv s) <? 1)%Z; cbn in E |- *; lia.
    + pose proof (registered_at _ _ _ N C3) as L. unfold few in Fw.
      assert (v_ops (s_srv s) = 1)%Z.
      { rewrite Z.mod_small in C2 by lia. lia. }
      split; [exact (e_shut _ _ (tstep_ext _ _ _ _ _ _ _ T) C1)|]. cbn [s_ts opt_list]. rewrite app_nil_r.
      pose proof (count_set registered _ i t' _ N) as E. rewrite C3, C4 in E. cbn in E. lia.
Qed.

(* order of events around the end of a Shutdown call *)
Definition shut_cond (l : list event) (e : event) : Prop :=
  match e with
  | LShutReturn _ => forall c k, count (start_of c k) l = count (end_of c k) l
  | LStart _ _ _ => forall i, ~ In (LShutReturn i) l
  | _ => True
  end.
Lemma shutdown_order buf s : dreach buf calm s -> ordered shut_cond (slog s).
Proof.
  apply (global buf calm (fun g => ordered shut_cond (v_log g))); [apply ordered_nil|].
  intros s0 i ch t g' t' sp (R & Ok & N & H) IH.
  assert (C1 : registered t = true -> forall i, ~ In (LShutReturn i) (slog s0)).
  { intros Rt j I. destruct (shutdown_drained _ _ R) as [_ D]; [eauto|].
    pose proof (registered_at _ _ _ N Rt). lia. }
  assert (C2 : t = TShT -> forall c k, count (start_of c k) (slog s0) = count (end_of c k) (slog s0)).
  { intros ->. destruct (shutdown_drained _ _ R) as [_ D].
    { right. left. exists TShT. split; [eapply nth_error_In; eauto|reflexivity]. }
    intros c k. rewrite (starts_ends_msg _ _ _ c k R). pose proof (running_registered s0 c k). lia. }
  inv_tstep H; cbn in *; auto; apply ordered_snoc; cbn; auto.
Qed.
(* a Shutdown call that waits is released when the last handler is deregistered *)
Lemma shutdown_waits buf s : dreach buf calm s -> In TShW (s_ts s) ->
  v_shutdown (s_srv s) = true /\ (v_rdy (s_srv s) = true \/ (1 <= nreg s)%Z).
Proof.
  intros R. induction R as [|s e s' R IH Ok H]; [intros []|].
  destruct (dstep_inv _ _ _ H) as (_ & [(t & T & ->)|(i & ch & t & g' & t' & sp & -> & N & T & ->)]).
  - cbn [s_srv s_ts]. intros U. apply in_app_or in U as [U|[U|[]]].
    + destruct (IH U) as [I1 I2]. split; [exact I1|]. destruct I2; [auto|]. rewrite count_snoc. right. lia.
    + destruct e as [lim|c'| |]; try contradiction; [congruence|destruct T; congruence|congruence].
  - cbn [s_srv s_ts]. intros U. destruct Ok as [NL Fw].
    pose proof (ops_few _ _ _ R Fw (or_intror calm_no_late)) as Ex. unfold few in Fw.
    assert (Q : In TShW (s_ts s) \/ t = TSh0 /\ (1 <= v_ops (s_srv s))%Z /\ v_shutdown g' = true).
    { apply in_app_or in U as [U|U]; [apply set_nth_In in U as [U|U]; auto|].
      - right. clear - T U. inv_tstep T; try discriminate U. auto.
      - exfalso. clear - T U. inv_tstep T; cbn in U; intuition discriminate. }
    rewrite count_app. pose proof (count_set registered _ i t' _ N) as E.
    destruct Q as [Q|(-> & Q & Sh)].
    + destruct (IH Q) as [I1 I2]. assert (X := tstep_ext _ _ _ _ _ _ _ T).
      split; [exact (e_shut _ _ X I1)|]. clear H IH U X Q.
      destruct I2 as [I2|I2].
      * left. inv_tstep T; cbn; auto.
      * inv_tstep T; cbn [s_srv s_ts v_rdy log with_ops with_conn crash opt_list count] in *; auto;
          try (right; cbn [registered b2i before_ops] in E |- *; lia).
        all: destruct H as [H|H]; [congruence|]; right; rewrite Z.mod_small in H by lia; cbn in E; lia.
    + split; [exact Sh|]. right. assert (registered t' = false).
      { clear - T. cbn in T. destruct ch; try discriminate. injection T as <- <- <-. destruct (_ <? _)%Z; reflexivity. }
      rewrite H0 in E. cbn in E. lia.
Qed.

(* ---------- requests that arrive during shutdown ---------- *)
Definition started_req (c k : nat) (t : thread) : option message :=
  match t with
  | TRd c' (RReg k' m) | TRd c' (RDisp k' m) | TRd c' (RJob k' m _) | TJob c' k' m _ =>
      if (c' =? c) && (k' =? k) then Some m else None
  | _ => None
  end.
Lemma after_shutdown_snoc c k l e : after_shutdown c k (l ++ [e]) ->
  after_shutdown c k l \/ exists b m, e = LFrame c k b m.
Proof.
  intros (l1 & i & l2 & b & m & E & I). destruct l2 as [|x l2 _] using rev_ind; [destruct I|].
  rewrite app_comm_cons, app_assoc in E. apply app_inj_tail in E as [-> ->].
  apply in_app_or in I as [I|[->|[]]]; [left; exists l1, i, l2, b, m; auto|right; eauto].
Qed.
Lemma after_shutdown_log c k l : after_shutdown c k l -> exists i, In (LShutdown i) l.
Proof. intros (l1 & i & l2 & b & m & -> & _). exists i. apply in_or_app. right. left. reflexivity. Qed.
(* the log grows by at most one event *)
Lemma log_step g i t ch g' t' sp : tstep g i t ch = Some (g', t', sp) ->
  v_log g' = v_log g \/ exists e, v_log g' = v_log g ++ [e] /\
    forall c k b m, e = LFrame c k b m -> k = c_next (v_conn g c) /\ t = TRd c RWait.
Proof.
  intros H. inv_tstep H; cbn; auto; right; eexists; (split; [reflexivity|]); intros ? ? ? ? E; try discriminate E;
    injection E as <- <- <- <-; auto.
Qed.
Lemma late_step buf ok s i ch t g' t' sp c k : tstep_of buf ok s i ch t g' t' sp ->
  k < c_next (v_conn (s_srv s) c) -> ~ after_shutdown c k (slog s) -> ~ after_shutdown c k (v_log g').
Proof.
  intros (R & _ & N & H) L NA A.
  destruct (log_step _ _ _ _ _ _ _ H) as [E|(e & E & F)]; rewrite E in A; [contradiction|].
  apply after_shutdown_snoc in A as [A|(b & m & ->)]; [contradiction|].
  destruct (F _ _ _ _ eq_refl). lia.
Qed.
Lemma frame_below buf ok s c k b m : dreach buf ok s -> In (LFrame c k b m) (slog s) -> k < c_next (v_conn (s_srv s) c).
Proof.
  intros R I. assert (J : In k (map frame_no (filter (is_frame c) (slog s)))).
  { apply in_map_iff. exists (LFrame c k b m). split; [reflexivity|]. apply filter_In. split; [exact I|]. apply Nat.eqb_refl. }
  rewrite (frames_numbered _ _ _ _ R) in J. apply in_seq in J. lia.
Qed.
Definition handled_event (e : event) : option (nat * nat * message) :=
  match e with
  | LStart c k m | LReply c k m _ _ | LSession c k m => Some (c, k, m)
  | _ => None
  end.
Definition in_time (s : sys) : Prop :=
  (forall t c k m, In t (s_ts s) -> started_req c k t = Some m -> RequiresReply m = true -> ~ after_shutdown c k (slog s)) /\
  (forall e c k m, In e (slog s) -> handled_event e = Some (c, k, m) -> RequiresReply m = true -> ~ after_shutdown c k (slog s)).
Lemma started_req_spec c k t m : started_req c k t = Some m ->
  t = TRd c (RReg k m) \/ t = TRd c (RDisp k m) \/ (exists j, t = TRd c (RJob k m j)) \/ (exists j, t = TJob c k m j).
Proof.
  destruct t; cbn; try discriminate; [destruct s; try discriminate|];
    (match goal with |- context[(?a =? ?b) && (?d =? ?e)] => destruct (Nat.eqb_spec a b), (Nat.eqb_spec d e) end); cbn;
    try discriminate; intros [= ->]; subst; eauto 6.
Qed.
Lemma started_below g c k t m : fine g t -> started_req c k t = Some m -> k < c_next (v_conn g c).
Proof.
  intros [S _] H. apply started_req_spec in H as [->|[->|[(j & ->)|(j & ->)]]]; cbn in S; tauto.
Qed.
Lemma step_started g i t ch g' t' sp c k m : tstep g i t ch = Some (g', t', sp) ->
  (started_req c k t' = Some m \/ exists x, sp = Some x /\ started_req c k x = Some m) ->
  started_req c k t = Some m \/
  (t = TRd c (ROps k m) /\ (v_shutdown g = false \/ RequiresReply m = false)).
Proof.
  intros H D.
  inv_tstep H; cbn in D |- *; auto; destruct D as [D|(x & D1 & D2)]; try discriminate; auto.
  3: { left. injection D1 as <-. exact D2. }
  all: destruct (Nat.eqb_spec c0 c) as [->|]; [|discriminate]; destruct (Nat.eqb_spec k0 k) as [->|]; [|discriminate];
    injection D as ->; auto.
Qed.
Lemma step_handled g i t ch g' t' sp e c k m : tstep g i t ch = Some (g', t', sp) ->
  In e (v_log g') -> handled_event e = Some (c, k, m) -> In e (v_log g) \/ started_req c k t = Some m.
Proof.
  intros H I E. inv_tstep H; cbn in I |- *; auto; apply in_app_or in I as [I|[<-|[]]]; auto; try discriminate E;
    cbn in E; injection E as -> -> ->; rewrite !Nat.eqb_refl; auto.
Qed.
Lemma handled_frame buf ok s e c k m : dreach buf ok s -> In e (slog s) -> handled_event e = Some (c, k, m) ->
  from_frame (s_srv s) c k m.
Proof.
  intros R I E. pose proof (starts_ok _ _ _ R) as A. destruct (replies_ok _ _ _ R) as (B & _ & C & _).
  destruct e; try discriminate E; cbn in E; injection E as -> -> ->; [apply A in I|apply B in I|apply C in I]; tauto.
Qed.
Lemma always_in_time buf ok s : dreach buf ok s -> in_time s.
Proof.
  intros R. induction R as [|s e s' R [IH1 IH2] Ok H]; [split; intros ? ? ? ? []|].
  destruct (dstep_inv _ _ _ H) as (_ & [(t & T & ->)|(i & ch & t & g' & t' & sp & -> & N & T & ->)]).
  - split; cbn [s_srv s_ts]; [|exact IH2]. intros u c k m U. apply in_app_or in U as [U|[<-|[]]]; [eauto|].
    destruct e as [lim|c'| |]; try contradiction; [subst t|destruct T as [-> _]|subst t]; discriminate.
  - assert (TS : tstep_of buf ok s i ch t g' t' sp) by (repeat split; assumption).
    pose proof (fine_at _ _ _ _ _ R N) as F. pose proof (nth_error_In _ _ N) as It.
    assert (K : forall c k m, RequiresReply m = true ->
       (started_req c k t' = Some m \/ exists x, sp = Some x /\ started_req c k x = Some m) ->
       k < c_next (v_conn (s_srv s) c) /\ ~ after_shutdown c k (slog s)).
    { intros c k m Q D. destruct (step_started _ _ _ _ _ _ _ _ _ _ T D) as [E|[-> E]].
      - split; [eapply started_below; eauto|eauto].
      - split; [destruct F as [Sn _]; cbn in Sn; tauto|].
        intros A. apply after_shutdown_log in A. apply (shutdown_logged _ _ _ R) in A. intuition congruence. }
    split; cbn [s_srv s_ts].
    + intros u c k m U Q1 Q2. assert (L : k < c_next (v_conn (s_srv s) c) /\ ~ after_shutdown c k (slog s)).
      { apply in_app_or in U as [U|U]; [apply set_nth_In in U as [->|U]|].
        * apply (K c k m); auto.
        * split; [|eauto]. eapply started_below; [|eauto]. eapply all_fine; eauto.
        * destruct sp; [destruct U as [<-|[]]|destruct U]. apply (K c k m); eauto. }
      destruct L as [L1 L2]. exact (late_step _ _ _ _ _ _ _ _ _ _ _ TS L1 L2).
    + intros e c k m I E Q. destruct (step_handled _ _ _ _ _ _ _ _ _ _ _ T I E) as [D|D].
      * destruct (handled_frame _ _ _ _ _ _ _ R D E) as (b & D1 & _).
        apply (late_step _ _ _ _ _ _ _ _ _ _ _ TS); [eapply frame_below; eauto|eauto].
      * apply (late_step _ _ _ _ _ _ _ _ _ _ _ TS); [eapply started_below; eauto|eauto].
Qed.

(* ---------- unlinking ---------- *)
Definition spent (g : srv) (c : nat) : bool :=
  (c <? v_n g) && negb (c_active (v_conn g c)) && (c_tasks (v_conn g c) =? 0)%Z.
Lemma unlink_count buf s c : dreach buf stays_open s ->
  count (unlinking c) (s_ts s) + count (unlinked c) (slog s) = b2i (spent (s_srv s) c).
Proof.
  intros R.
  cut (zcount (unlinked c) (s_srv s) - bz (spent (s_srv s) c) + zsum (fun t => bz (unlinking c t)) (s_ts s) = 0)%Z.
  { rewrite zsum_count. unfold zcount, bz, b2i. destruct (spent _ _); lia. }
  revert s R. apply (linear buf stays_open (fun g => zcount (unlinked c) g - bz (spent g c))%Z); try reflexivity.
  intros s i ch t g' t' sp (R & Ok & N & H). pose proof (fine_at _ _ _ _ _ R N) as [_ Bl].
  pose proof (tasks_exact _ _ _ c R) as TE.
  assert (TP : task_of c t = true -> (1 <= c_tasks (v_conn (s_srv s) c))%Z).
  { intros Q. pose proof (count_pos (task_of c) _ _ _ N Q). lia. }
  pose proof (fresh _ _ _ R c) as Fr.
  unfold zcount, spent. inv_tstep H; cbn in Bl, TP, Ok |- *; rewrite ?count_snoc; cbn; bsimp; unfold upd; try lia.
  1: { destruct (Nat.eqb_spec c (v_n (s_srv s))) as [->|]; bsimp.
       - rewrite andb_false_r, Nat.ltb_irrefl. cbn. lia.
       - destruct (Nat.ltb_spec c (S (v_n (s_srv s)))), (Nat.ltb_spec c (v_n (s_srv s))); try lia; reflexivity. }
  all: rewrite ?(Nat.eqb_sym c c0); destruct (Nat.eqb_spec c0 c) as [->|]; bsimp; try lia;
    try rewrite N in Ok; rewrite ?Nat.eqb_refl in TP; try specialize (TP eq_refl);
    (destruct (Nat.ltb_spec c (v_n (s_srv s))); [|lia]);
    (destruct (c_active (v_conn (s_srv s) c)) eqn:?; try congruence); bsimp; try lia;
    repeat (match goal with |- context[Z.eqb ?a ?b] => destruct (Z.eqb_spec a b) end); bsimp; try lia.
Qed.


(* order of events around unlinking *)
Definition unlink_cond (l : list event) (e : event) : Prop :=
  match e with
  | LUnlink c => count (unlinked c) l = 0 /\ forall k, count (start_of c k) l = count (end_of c k) l
  | LStart c _ _ | LReply c _ _ _ _ | LSession c _ _ => ~ In (LUnlink c) l
  | _ => True
  end.
Lemma unlink_spent buf s c : dreach buf stays_open s ->
  1 <= count (unlinking c) (s_ts s) + count (unlinked c) (slog s) ->
  count (task_of c) (s_ts s) = 0 /\ c_active (v_conn (s_srv s) c) = false.
Proof.
  intros R L. rewrite (unlink_count _ _ _ R) in L. unfold spent in L.
  destruct (c <? v_n (s_srv s)); [|cbn in L; lia].
  destruct (c_active (v_conn (s_srv s) c)) eqn:A; [cbn in L; lia|].
  destruct (Z.eqb_spec (c_tasks (v_conn (s_srv s) c)) 0) as [E|E]; [|cbn in L; lia].
  rewrite (tasks_exact _ _ _ c R) in E. split; [lia|reflexivity].
Qed.
Lemma running_task s c k : count (running_msg c k) (s_ts s) <= count (task_of c) (s_ts s).
Proof.
  apply count_le. intros [] _; cbn; try discriminate; [destruct s0 as [| | | | | | | | |k' m []| | | |]|destruct j]; try discriminate;
    intros E; apply andb_true_iff in E as [E _]; rewrite E; reflexivity.
Qed.
Lemma In_count {A} (p : A -> bool) x l : In x l -> p x = true -> 1 <= count p l.
Proof. intros I P. apply In_nth_error in I as [n I]. eapply count_pos; eauto. Qed.
Lemma unlink_order buf s : dreach buf stays_open s -> ordered unlink_cond (slog s).
Proof.
  apply (global buf stays_open (fun g => ordered unlink_cond (v_log g))); [apply ordered_nil|].
  intros s0 i ch t g' t' sp (R & Ok & N & H) IH.
  assert (C1 : forall c, task_of c t = true -> ~ In (LUnlink c) (slog s0)).
  { intros c T I. pose proof (In_count (unlinked c) _ _ I (Nat.eqb_refl c)) as L.
    destruct (unlink_spent _ _ c R) as [D _]; [lia|]. pose proof (count_pos _ _ _ _ N T). lia. }
  assert (C2 : forall c, unlinking c t = true ->
     count (unlinked c) (slog s0) = 0 /\ forall k, count (start_of c k) (slog s0) = count (end_of c k) (slog s0)).
  { intros c U. pose proof (count_pos _ _ _ _ N U) as L. split.
    - pose proof (unlink_count _ _ c R) as E. destruct (spent (s_srv s0) c); cbn in E; lia.
    - intros k. destruct (unlink_spent _ _ c R) as [D _]; [lia|].
      rewrite (starts_ends_msg _ _ _ c k R). pose proof (running_task s0 c k). lia. }
  inv_tstep H; cbn in *; auto; apply ordered_snoc; cbn; auto; try (apply C1; rewrite Nat.eqb_refl; reflexivity);
    try (apply C2; apply Nat.eqb_refl).
Qed.
(* whoever decides to unlink finds the connection closed and idle *)
Lemma unlink_decision buf ok s i ch t g' t' sp c : tstep_of buf ok s i ch t g' t' sp ->
  unlinking c t' = true -> c_active (v_conn g' c) = false /\ c_tasks (v_conn g' c) = 0%Z.
Proof.
  intros (R & Ok & N & H) U.
  pose proof (tasks_exact _ _ _ c R) as TE.
  inv_tstep H; cbn in U |- *; try discriminate; apply Nat.eqb_eq in U; subst; unfold upd; rewrite Nat.eqb_refl; bsimp.
  - pose proof (count_pos (task_of c) _ _ _ N) as P. cbn in P. rewrite Nat.eqb_refl in P. specialize (P eq_refl). split; [assumption|lia].
  - split; [reflexivity|lia].
  - pose proof (count_pos (task_of c) _ _ _ N) as P. cbn in P. rewrite Nat.eqb_refl in P. specialize (P eq_refl). split; [assumption|lia].
  - split; [reflexivity|lia].
Qed.

(* ---------- hooks ---------- *)
Definition past_hook (g : srv) (t : thread) : Prop :=
  match t with
  | TRd c RHook => True
  | TRd c _ | TJob c _ _ _ => In (LConnected c) (v_log g)
  | _ => True
  end.
Lemma all_past_hook buf ok s : dreach buf ok s -> forall t, In t (s_ts s) -> past_hook (s_srv s) t.
Proof.
  apply (local buf ok past_hook); try (intros; exact I).
  - intros g g' t X P. destruct (e_log _ _ X) as [l E]. destruct t as [| |c0 st| | | | | | | |]; cbn in *; auto; [destruct st; auto|]; rewrite E; apply in_or_app; auto.
  - intros s0 i ch t g' t' sp (R & _ & N & H) P. inv_tstep H; cbn in P |- *; auto; rewrite ?in_app_iff; cbn; auto.
Qed.
Definition hook_cond (l : list event) (e : event) : Prop :=
  match e with
  | LConnected c => count (connected c) l = 0
  | LFrame c _ _ _ => In (LConnected c) l /\ ~ In (LDisconnected c) l /\ count (read_failed c) l = 0
  | LReadErr c => In (LConnected c) l /\ ~ In (LDisconnected c) l /\ count (read_failed c) l = 0
  | LStart c _ _ | LReply c _ _ _ _ | LSession c _ _ | LShutReply c _ _ _ | LDropped c _ _ => In (LConnected c) l
  | LDisconnected c => In (LConnected c) l /\ count (disconnected c) l = 0 /\ count (read_failed c) l = 1
  | _ => True
  end.
Lemma sub_reader s c p : (forall t, p t = true -> reader_of c t = true) -> count p (s_ts s) <= count (reader_of c) (s_ts s).
Proof. intros H. apply count_le. auto. Qed.
Lemma one_reader_le buf ok s c : dreach buf ok s -> count (reader_of c) (s_ts s) <= 1.
Proof. intros R. pose proof (one_reader _ _ _ c R). destruct (c <? v_n (s_srv s)); cbn in H; lia. Qed.
(* what holds of the unique reader decides a count over the readers *)
Lemma reader_decides buf ok s i c st (p : thread -> bool) : dreach buf ok s ->
  nth_error (s_ts s) i = Some (TRd c st) -> (forall t, p t = true -> reader_of c t = true) ->
  count p (s_ts s) = b2i (p (TRd c st)).
Proof.
  intros R N H. pose proof (sub_reader s c p H). pose proof (one_reader_le _ _ _ c R).
  destruct (p (TRd c st)) eqn:E; cbn.
  - pose proof (count_pos _ _ _ _ N E). lia.
  - apply count_zero. intros t I. destruct (p t) eqn:E'; [|reflexivity]. exfalso.
    pose proof (H t E') as Rt. destruct t; try discriminate Rt. cbn in Rt. apply Nat.eqb_eq in Rt. subst c0.
    apply In_nth_error in I as [j I]. destruct (reader_unique _ _ _ _ _ _ _ _ R N I) as [-> <-]. congruence.
Qed.
Lemma hook_order buf ok s : dreach buf ok s -> ordered hook_cond (slog s).
Proof.
  apply (global buf ok (fun g => ordered hook_cond (v_log g))); [apply ordered_nil|].
  intros s0 i ch t g' t' sp (R & Ok & N & H) IH.
  pose proof (all_past_hook _ _ _ R t (nth_error_In _ _ N)) as P.
  assert (D1 : forall c st, t = TRd c st -> count (connected c) (slog s0) = b2i (hooked c t)).
  { intros c st ->. rewrite (hooks_connected _ _ _ c R). eapply reader_decides; eauto. intros [| |c0 st'| | | | | | | |]; cbn; try discriminate. destruct st'; auto; discriminate. }
  assert (D2 : forall c st, t = TRd c st -> count (disconnected c) (slog s0) = b2i (loop_ended c t)).
  { intros c st ->. rewrite (hooks_disconnected _ _ _ c R). eapply reader_decides; eauto. intros [| |c0 st'| | | | | | | |]; cbn; try discriminate. destruct st'; auto; discriminate. }
  assert (D3 : forall c st, t = TRd c st -> count (read_failed c) (slog s0) = b2i (closing c t)).
  { intros c st ->. rewrite (read_failures _ _ _ c R). eapply reader_decides; eauto. intros [| |c0 st'| | | | | | | |]; cbn; try discriminate. destruct st'; auto; discriminate. }
  assert (D4 : forall c st, t = TRd c st -> loop_ended c t = false -> ~ In (LDisconnected c) (slog s0)).
  { intros c st E1 E2 I. pose proof (In_count (disconnected c) _ _ I (Nat.eqb_refl c)). rewrite (D2 c st E1), E2 in H0. cbn in H0. lia. }
  inv_tstep H; cbn in *; auto; apply ordered_snoc; cbn; auto.
  - rewrite (D1 c _ eq_refl). reflexivity.
  - repeat split; [exact P|eapply D4; reflexivity|]. rewrite (D3 c _ eq_refl). reflexivity.
  - repeat split; [exact P|eapply D4; reflexivity|]. rewrite (D3 c _ eq_refl). reflexivity.
  - repeat split; [exact P|eapply D4; reflexivity|]. rewrite (D3 c _ eq_refl). reflexivity.
  - repeat split; [exact P| |]; [rewrite (D2 c _ eq_refl)|rewrite (D3 c _ eq_refl)]; cbn; rewrite ?Nat.eqb_refl; reflexivity.
Qed.
(* refused frames are malformed and not handled *)
Definition frame_ok (g : srv) : Prop :=
  forall c k b m, In (LFrame c k b m) (v_log g) ->
    match m with
    | Some m => ReadBytes (NewMessage (v_buf g)) b = Some (m, true, None)
    | None => exists m ok e, ReadBytes (NewMessage (v_buf g)) b = Some (m, ok, e) /\ (ok = false \/ e <> None)
    end.
Lemma frames_ok buf ok s : dreach buf ok s -> frame_ok (s_srv s) /\ v_buf (s_srv s) = buf.
Proof.
  apply (global buf ok (fun g => frame_ok g /\ v_buf g = buf)); [split; [intros c k b m []|reflexivity]|].
  intros s0 i ch t g' t' sp (R & _ & N & H) [IH Hb]. assert (X := tstep_ext _ _ _ _ _ _ _ H).
  rewrite (e_buf _ _ X). split; [|exact Hb]. intros c k b m I. rewrite (e_buf _ _ X).
  assert (D : In (LFrame c k b m) (slog s0) \/ match m with
    | Some m => ReadBytes (NewMessage (v_buf (s_srv s0))) b = Some (m, true, None)
    | None => exists m ok e, ReadBytes (NewMessage (v_buf (s_srv s0))) b = Some (m, ok, e) /\ (ok = false \/ e <> None)
    end).
  { inv_tstep H; cbn in I |- *; auto; apply in_app_or in I as [I|[I|[]]]; auto; try discriminate I;
      injection I as <- <- <- <-; right; eauto 6. }
  destruct D as [D|D]; [exact (IH _ _ _ _ D)|exact D].
Qed.
