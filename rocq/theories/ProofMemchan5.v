(* The in-memory transport: delivery, panics, Close. *)
From Coq Require Import List Arith NArith ZArith Lia Bool.
From Verif Require Import BaseBytes BaseConc ModelMessage ModelWrite ModelMemchan SpecWire SpecWrite SpecMemchan.
From Verif Require Import ProofCodec ProofMemchan ProofMemchan2 ProofMemchan3 ProofMemchan4.
Import ListNotations.
Open Scope nat_scope.

(* ----- C40 ----- *)
Lemma written_snoc i l e : written i (l ++ [e]) = written i l ++ match e with LWrite j _ p true => if j =? i then p else [] | _ => [] end.
Proof. unfold written. rewrite flat_map_app. cbn. rewrite app_nil_r. reflexivity. Qed.
Lemma failed_snoc i l e : failed i l -> failed i (l ++ [e]).
Proof. intros (k & p & H). exists k, p. apply in_or_app. auto. Qed.
(* a writer writes nothing before it was obtained *)
Lemma wrote_opened size i k p ok l : every (writers size) l -> In (LWrite i k p ok) l -> In (LOpen i k) l.
Proof.
  intros E I. apply in_split in I as (l1 & l2 & ->). destruct (E _ _ _ eq_refl) as ((I & _) & _). apply in_or_app. auto.
Qed.
Lemma written_none i l : (forall k p ok, ~ In (LWrite i k p ok) l) -> written i l = [].
Proof.
  intros N. induction l as [|e l IH]; [reflexivity|]. cbn.
  assert (N' : forall k p ok, ~ In (LWrite i k p ok) l) by (intros k p ok I; apply (N k p ok); cbn; auto).
  change (flat_map _ l) with (written i l). rewrite (IH N'), app_nil_r.
  destruct e as [| j k p [] | | | | | | |]; auto. destruct (Nat.eqb_spec j i) as [->|]; [|reflexivity].
  exfalso. apply (N k p true). cbn. auto.
Qed.
Lemma pending_written size i l : every (writers size) l -> ~ failed i l -> pending i l = written i l.
Proof.
  induction l as [|e l IH] using rev_ind; [reflexivity|]. intros E N. apply every_snoc in E as [E W].
  assert (N' : ~ failed i l) by (intros F; apply N; apply failed_snoc; exact F).
  specialize (IH E N'). rewrite pending_snoc, written_snoc.
  destruct e as [j k|j k p ok|j k g b|j k g b|j k r|j k r|j p r|p|j]; cbn; rewrite ?app_nil_r; try exact IH.
  - destruct (Nat.eqb_spec j i) as [->|_]; [|exact IH]. symmetry. apply written_none.
    intros k' p ok I. apply (wrote_opened size) in I; [|exact E]. destruct (W 0 k' WrRead) as [Q _]. contradiction.
  - destruct ok.
    + destruct (j =? i); [rewrite IH; reflexivity|rewrite app_nil_r; exact IH].
    + rewrite app_nil_r. destruct (Nat.eqb_spec j i) as [->|_]; [|exact IH]. exfalso. apply N. exists k, p. apply in_or_app. cbn. auto.
Qed.

(* ----- C42 ----- *)
Lemma prefix_all size s k g : mreach size calm s -> is_prefix (got k g (mlog s)) (sent (remote k) g (mlog s)).
Proof.
  intros R. destruct (flows size calm s (fun _ H => H) R) as [F _]. destruct (F k) as [st D].
  destruct (lt_eq_lt_dec g (u_gen (n_sock (s_net s) k))) as [[Q| ->]|Q].
  - apply (d_p _ _ _ _ D _ Q).
  - pose proof (d_s _ _ _ _ D) as S. destruct st; destruct S as (_ & S); try (match type of S with _ /\ _ => destruct S as [S _] end); rewrite S.
    + exists []. rewrite app_nil_r. reflexivity.
    + eexists; reflexivity.
    + eexists; reflexivity.
    + exists []. rewrite app_nil_r. reflexivity.
  - destruct (d_f _ _ _ _ D _ Q) as (_ & A & B). rewrite A, B. exists []. reflexivity.
Qed.
Lemma readers_step ts i n t n' t' w : (forall k, exists st, dir k n ts st) -> locks n ts -> nth_error ts i = Some t ->
  trel ts i n t n' t' w -> every readers (n_log n) -> every readers (n_log n').
Proof.
  intros F L I T E. tcases T k s n1 s1 H H0.
  - inversion H; subst; netu; netc; try assumption; apply every_snoc; (split; [assumption|]); cbn; auto.
    destruct r; auto. destruct (F (remote k)) as [st D]. pose proof (d_w _ _ _ _ D _ _ I) as X. cbn in X.
    rewrite remote_remote, sock_eqb_refl in X. destruct X as [-> (S0 & b & A & B)]. rewrite remote_remote in *.
    destruct (d_s _ _ _ _ D) as [_ Q]. rewrite remote_remote in Q. exists (u_gen (n_sock n (remote k))), S0, b. rewrite <- Q. auto.
  - inversion H; subst; netu; netc; try assumption; apply every_snoc; (split; [assumption|]); cbn; auto.
    destruct (F k) as [st D]. pose proof (d_r _ _ _ _ D _ _ I) as X. cbn in X. rewrite sock_eqb_refl in X.
    destruct X as [-> ->]. destruct (d_s _ _ _ _ D) as (_ & Q & _). exact Q.
  - assert (Q : n_log n1 = n_log n) by (destruct H0; reflexivity).
    destruct t as [| ? ? ? []| | |[]]; try discriminate H; destruct s1; cbn [end_close]; netu; netc; rewrite ?Q; try assumption.
    apply every_snoc; (split; [assumption|exact Logic.I]).
  - inversion H; subst; netu; netc; try assumption; repeat (apply every_snoc; split); try assumption; exact Logic.I.
  - inversion H; subst; netu; netc; try assumption; apply every_snoc; (split; [assumption|exact Logic.I]).
Qed.
Lemma readers_all size s : mreach size calm s -> every readers (mlog s).
Proof.
  revert s. apply (mreach_ind_ size calm (fun s => every readers (mlog s))); [apply every_nil|].
  intros s e s' R E _ H _. destruct (invariants _ _ _ R) as [L _]. destruct (flows size calm s (fun _ H => H) R) as [F _].
  destruct H as [e t B|i ch t n' t' I T|i ch t n' t' j v k I T D V J]; cbn in *; [exact E|..].
  - exact (readers_step _ _ _ _ _ _ _ F L I T E).
  - exact (readers_step _ _ _ _ _ _ _ F L I T E).
Qed.
(* a writer never finds the remote channel full *)
Lemma never_blocks size s i k : mreach size calm s -> ~ at_ s i (TWrite k WBlock).
Proof. intros R. apply no_block with (n := s_net s). apply (flows size calm s (fun _ H => H) R). Qed.

(* ----- C43: panics ----- *)
Lemma crash_step size (ok : sys -> Prop) s e s' : (forall s, ok s -> calm s /\ fitting s) -> mreach size ok s ->
  mstep s e = Some s' -> n_crashed (s_net s') = true ->
  exists i ch k, e = EvStep i ch /\ at_ s i (TWrite k WSend) /\ shut (s_net s) (remote k) = true.
Proof.
  intros Ok R E Cr. apply mstep_rel in E as [C0 H].
  assert (FL : flow (s_net s) (s_ts s)) by (apply (flows size ok); [intros; apply Ok; assumption|exact R]). destruct FL as [_ FS].
  assert (Ft : fitting s).
  { destruct R; [intros x u X; destruct x; discriminate|]. apply Ok. assumption. }
  assert (G : forall i t n' t' w, nth_error (s_ts s) i = Some t -> trel (s_ts s) i (s_net s) t n' t' w -> n_crashed n' = true ->
    exists k, t = TWrite k WSend /\ shut (s_net s) (remote k) = true).
  { intros i t n' t' w I T X. tcases T k st n1 s1 H1 H0.
    - inversion H1; subst; netu; netc; try congruence. eauto.
    - inversion H1; subst; netu; netc; try congruence.
      exfalso. specialize (Ft _ _ I). cbn in Ft. destruct (ReadBytes_total m (slice (u_buf (n_sock (s_net s) (remote k))) l) Ft) as (a & b & c & Q & _). congruence.
    - assert (Q : n_crashed n1 = true -> exists k, t = TWrite k WSend /\ shut (s_net s) (remote k) = true).
      { inversion H0; subst; netu; netc; try congruence; intros _; exfalso;
        pose proof (mid_eq _ _ _ (fst k) H1) as Mt; rewrite Nat.eqb_refl in Mt; cbn in Mt;
        destruct (s_m _ _ _ (FS (fst k)) _ _ _ _ I Mt) as [_ [P1 P2]]; unfold shut in *; congruence. }
      destruct t as [| ? ? ? []| | |[]]; try discriminate H1; destruct s1; cbn [end_close] in X; netu; netc; auto.
    - inversion H1; subst; netu; netc; congruence.
    - inversion H1; subst; netu; netc; congruence. }
  destruct H as [e t B|i ch t n' t' I T|i ch t n' t' j v k I T D V J]; cbn in *; [congruence|..].
  - destruct (G _ _ _ _ _ I T Cr) as (k & -> & S). exists i, ch, k. auto.
  - destruct (G _ _ _ _ _ I T Cr) as (k' & -> & S). exists i, ch, k'. auto.
Qed.

(* ----- C43: what Close leaves behind ----- *)
Lemma begin_cases e t : begin e = Some t -> (forall k, sending k t = false) /\ (forall k, receiving k t = false) /\ (forall k, waits k t = false) /\
  (forall k, rc k t = RcNone) /\ (forall p, mid p t = None) /\ (forall k c, closing t = Some (k, c) -> c <> ClDone).
Proof.
  destruct e; try discriminate; intros H; injection H as <-; repeat split; intros; cbn; auto; unfold mid; cbn; rewrite ?andb_false_r; auto; try discriminate.
  cbn in H. injection H as <- <-. discriminate.
Qed.
(* the threads after a step *)
Lemma step_threads s e s' x u : srel_ s e s' -> at_ s' x u ->
  at_ s x u \/ (begin e = Some u) \/
  (exists ch t n' w, e = EvStep x ch /\ at_ s x t /\ trel (s_ts s) x (s_net s) t n' u w /\ n_on (s_net s') = n_on n') \/
  (exists k v, at_ s x (TWrite k WParked) /\ u = TWrite k (WReset v)).
Proof.
  unfold at_. intros H X. destruct H as [e t B|i ch t n' t' I T|i ch t n' t' j v k I T D V J]; cbn in *.
  - apply snoc_lookup in X as [X| ->]; auto.
  - apply set_nth_lookup in X as [[<- ->]|[Dx X]]; [|auto]. right. right. left. exists ch, t, n', None. auto.
  - apply set_nth_lookup in X as [[<- ->]|[Dx X]]; [right; right; right; eauto|].
    apply set_nth_lookup in X as [[<- ->]|[Dx' X]]; [|auto]. right. right. left. exists ch, t, n', (Some (j, v)). auto.
Qed.
Lemma goes_off s e s' p : srel_ s e s' -> n_on (s_net s) p = true -> n_on (s_net s') p = false ->
  exists i t k, at_ s i t /\ closing t = Some (k, ClStart) /\ fst k = p /\ s_ts s' = set_nth (s_ts s) i (to_close t ClRemote) /\
    s_net s' = set_on p false (s_net s).
Proof.
  unfold at_. intros H On Off.
  assert (G : forall i t n' t' w, nth_error (s_ts s) i = Some t -> trel (s_ts s) i (s_net s) t n' t' w -> n_on n' p = false ->
    exists k, closing t = Some (k, ClStart) /\ fst k = p /\ t' = to_close t ClRemote /\ n' = set_on p false (s_net s) /\ w = None).
  { intros i t n' t' w I T X. tcases T k st n1 s1 H1 H0.
    - inversion H1; subst; netu; netc; congruence.
    - inversion H1; subst; netu; netc; congruence.
    - destruct (end_close_net i t s1 n1) as (E1 & _). rewrite E1 in X.
      inversion H0; subst; netu; netc; try congruence. unfold upd in X.
      destruct (Nat.eqb_spec p (fst k)) as [->|]; [|congruence]. exists k.
      destruct t as [| ? ? ? []| | |[]]; try discriminate H1; cbn; auto.
    - inversion H1; subst; netu; netc; try congruence. unfold upd in X. destruct (Nat.eqb_spec p p0); congruence.
    - inversion H1; subst; netu; netc; congruence. }
  destruct H as [e t B|i ch t n' t' I T|i ch t n' t' j v k I T D V J]; cbn in *; [congruence|..].
  - destruct (G _ _ _ _ _ I T Off) as (k & A & B & -> & -> & _). exists i, t, k. auto.
  - destruct (G _ _ _ _ _ I T Off) as (k' & A & B & -> & -> & Q). discriminate.
Qed.
Lemma trel_closing ts i n t n' t' w k c : closing t = Some (k, c) -> trel ts i n t n' t' w ->
  exists n1 c', crel ts n k c n1 c' w /\ n' = end_close i t c' n1 /\ t' = to_close t c'.
Proof.
  intros Ct T. tcases T k1 st1 n1 s1 H1 H0; try discriminate Ct.
  - destruct st1; try discriminate Ct. inversion H1.
  - rewrite Ct in H1. injection H1 as <- <-. eauto.
  - destruct st1; try discriminate Ct. inversion H1.
Qed.
Section Polite.
Variables (size : nat) (ok : sys -> Prop).
Hypothesis Ok : forall s, ok s -> calm s /\ polite s.
Let flow_of s (R : mreach size ok s) : flow (s_net s) (s_ts s).
Proof. apply (flows size ok); [intros s0 H; apply (Ok _ H)|exact R]. Qed.
Let calm_of s (R : mreach size ok s) : calm s.
Proof. apply (calm_reach size ok); [intros s0 H; apply (Ok _ H)|exact R]. Qed.
Lemma sending_on s : mreach size ok s -> forall i t k, at_ s i t -> sending k t = true -> n_on (s_net s) (fst k) = true.
Proof.
  revert s. apply (mreach_ind_ size ok (fun s => forall i t k, at_ s i t -> sending k t = true -> n_on (s_net s) (fst k) = true)).
  { intros i t k I. destruct i; discriminate. }
  intros s e s' R IH _ H O x u k X Su.
  destruct (n_on (s_net s') (fst k)) eqn:Off; [reflexivity|exfalso].
  destruct (n_on (s_net s) (fst k)) eqn:On.
  - destruct (goes_off _ _ _ _ H On Off) as (i & t & kc & I & Ct & Fk & Ts & _).
    assert (I' : at_ s' i (to_close t ClRemote)) by (unfold at_; rewrite Ts; eapply set_nth_eq; eauto).
    destruct (proj2 (Ok _ O) i x x _ u u kc I' (to_close_closing _ _ _ ClRemote Ct ltac:(discriminate)) X X) as (P1 & P2 & _).
    symmetry in Fk. apply pair_sock in Fk as [->| ->]; congruence.
  - destruct (step_threads _ _ _ _ _ H X) as [A|[A|[(ch & t & n' & w & _ & I & T & Q)|(k0 & v & _ & ->)]]].
    + pose proof (IH _ _ _ A Su). congruence.
    + apply begin_cases in A as (A & _). rewrite A in Su. discriminate.
    + destruct u as [k0 s0| | | |]; try discriminate Su.
      inversion T as [k1 s1 n1 s2 H1| |t1 k1 s1 n1 s2 w1 H1 H0| |]; subst; [|destruct t as [| ? ? ? []| | |[]]; try discriminate H1; destruct s2; discriminate].
      assert (C : sending k (TWrite k0 s1) = true \/ (s1 = WFlush /\ n_on (s_net s) (fst k) = true)).
      { inversion H1; subst; cbn in Su |- *; try discriminate; auto. destruct (sock_eqb_spec k0 k) as [->|]; [auto|discriminate]. }
      destruct C as [C|[_ C]]; [|congruence]. pose proof (IH _ _ _ I C). congruence.
    + discriminate Su.
Qed.
(* a closed pair: nobody is reading, or nothing is there to be read *)
Definition drained (k : sock) (s : sys) : Prop :=
  (forall j u, at_ s j u -> receiving k u = false) \/
  (h_data (n_chan (s_net s) k (u_gen (n_sock (s_net s) k))) = None /\
   forall j u, at_ s j u -> receiving k u = true -> rc k u = RcGet \/ rc k u = RcWait (u_gen (n_sock (s_net s) k))).
Lemma rc_receiving k u : receiving k u = true <-> rc k u <> RcNone.
Proof.
  destruct u as [|k0 m d []| | |]; cbn; try (split; congruence); destruct (sock_eqb k0 k); split; congruence.
Qed.
Lemma drained_off s : mreach size ok s -> forall k, n_on (s_net s) (fst k) = false -> drained k s.
Proof.
  revert s. apply (mreach_ind_ size ok (fun s => forall k, n_on (s_net s) (fst k) = false -> drained k s)).
  { intros k _. left. intros j u J. destruct j; discriminate. }
  intros s e s' R IH _ H O k Off. destruct (flow_of s R) as [FD FS]. pose proof (FD k) as [st D].
  destruct (n_on (s_net s) (fst k)) eqn:On.
  - destruct (goes_off _ _ _ _ H On Off) as (i & t & kc & I & Ct & Fk & Ts & Ns).
    assert (I' : at_ s' i (to_close t ClRemote)) by (unfold at_; rewrite Ts; eapply set_nth_eq; eauto).
    pose proof (to_close_closing _ _ _ ClRemote Ct ltac:(discriminate)) as Ct'.
    assert (Same : forall x u, x <> i -> at_ s x u -> at_ s' x u) by (intros x u Dx X; unfold at_; rewrite Ts, set_nth_ne; auto).
    assert (Recv : forall x u, at_ s' x u -> receiving k u = true -> x <> i /\ at_ s x u).
    { intros x u X Q. unfold at_ in X. rewrite Ts in X. apply set_nth_lookup in X as [[<- ->]|[Dx X]]; [|auto].
      destruct t as [| ? ? ? []| | |[]]; try discriminate Ct; discriminate Q. }
    destruct (match st with Idle => true | _ => false end) eqn:E.
    + destruct st; try discriminate. right. destruct (d_s _ _ _ _ D) as [Q _]. rewrite Ns. split; [exact Q|]. cbn.
      intros x u X Q1. destruct (Recv _ _ X Q1) as [_ X']. pose proof (d_r _ _ _ _ D _ _ X') as Y. apply rc_receiving in Q1.
      destruct (rc k u); auto; try congruence. all: destruct Y; congruence.
    + left. assert (N : st <> Idle) by (intros ->; discriminate).
      destruct (d_o _ _ _ _ D N) as [A|[(x & u & X & V)|(x & u & X & V)]]; [congruence|..].
      * exfalso. assert (Dx : x <> i) by (intros ->; rewrite I in X; injection X as <-; destruct t as [| ? ? ? []| | |[]]; try discriminate Ct; discriminate V).
        assert (Bz : busy (fst k) (to_close t ClRemote) = false) by (apply (proj1 (Ok _ O) x i (fst k) u); auto; apply Same; auto).
        pose proof (mid_eq _ _ _ (fst k) Ct') as Y. rewrite Fk, Nat.eqb_refl in Y. cbn in Y. apply mid_busy in Y. congruence.
      * assert (Dx : x <> i) by (intros ->; rewrite I in X; injection X as <-; destruct t as [| ? ? ? []| | |[]]; try discriminate Ct; discriminate V).
        assert (X' : at_ s' x u) by (apply Same; auto).
        intros j v J. destruct (proj2 (Ok _ O) i x j _ u v kc I' Ct' X' J) as (P1 & P2 & P3 & P4).
        destruct u as [k0 s0| | | |]; try discriminate V. apply pair_sock in Fk. 
        destruct (sock_eqb_spec k0 (remote k)) as [->|Nk]; [|exfalso; destruct s0 as [| | | | | | |[]|]; cbn in V; try discriminate V; destruct (sock_eqb_spec k0 (remote k)); congruence].
        destruct s0 as [| | | | | | |[]|]; cbn in V; try (rewrite ?sock_eqb_refl in V; discriminate V);
          destruct Fk as [->| ->]; rewrite ?remote_remote in *; cbn in P1, P2, P3, P4; rewrite ?sock_eqb_refl in *; try discriminate; auto.
  - specialize (IH k On). pose proof (sending_on s R) as SO.
    assert (Dt : h_data (n_chan (s_net s) k (u_gen (n_sock (s_net s) k))) = None -> (forall j u, at_ s j u -> receiving k u = true -> rc k u = RcGet \/ rc k u = RcWait (u_gen (n_sock (s_net s) k))) ->
       u_gen (n_sock (s_net s') k) = u_gen (n_sock (s_net s) k) /\ h_data (n_chan (s_net s') k (u_gen (n_sock (s_net s) k))) = None).
    { intros HN HR.
      assert (G : forall i t n' t' w, nth_error (s_ts s) i = Some t -> trel (s_ts s) i (s_net s) t n' t' w ->
        u_gen (n_sock n' k) = u_gen (n_sock (s_net s) k) /\ h_data (n_chan n' k (u_gen (n_sock (s_net s) k))) = None).
      { intros i t n' t' w I T. tcases T k1 st1 n1 s1 H1 H0.
        - pose proof (SO _ _ k1 I) as SO1. inversion H1; subst; cbn in SO1; rewrite ?sock_eqb_refl in SO1; netu; netc; unfold upd; caseq; netc; auto;
            specialize (SO1 eq_refl); rewrite remote_fst in On; congruence.
        - inversion H1; subst; netu; netc; unfold upd; caseq; netc; auto.
        - destruct (end_close_net i t s1 n1) as (E1 & E2 & E3). rewrite E2, E3. clear - H0 HN. destruct H0; netu; netc; unfold upd; caseq; netc; auto.
        - inversion H1; subst; netu; netc; auto; caseq; auto; exfalso.
          + pose proof (s_d _ _ _ (FS p) _ _ I) as Q. cbn in Q. rewrite Nat.eqb_refl in Q. specialize (Q eq_refl). cbn in On. congruence.
          + pose proof (s_d _ _ _ (FS p) _ _ I) as Q. cbn in Q. rewrite Nat.eqb_refl in Q. specialize (Q eq_refl). cbn in On. congruence.
        - inversion H1; subst; netu; netc; auto. }
      destruct H as [e t B|i ch t n' t' I T|i ch t n' t' j v k0 I T Dj V J]; cbn in *; auto.
      - eapply G; eauto.
      - destruct (G _ _ _ _ _ I T) as [G1 G2]. netu; netc. caseq; netc; auto. }
    assert (Rd : forall x u, at_ s' x u -> receiving k u = true ->
       at_ s x u \/ (exists t n' w ch, at_ s x t /\ trel (s_ts s) x (s_net s) t n' u w /\ receiving k t = true /\ e = EvStep x ch)).
    { intros x u X Q. destruct (step_threads _ _ _ _ _ H X) as [A|[A|[(ch & t & n' & w & Q1 & I & T & _)|(k0 & v & _ & ->)]]]; auto.
      - apply begin_cases in A as (_ & A & _). rewrite A in Q. discriminate.
      - right. exists t, n', w, ch. repeat (split; [assumption|]). split; [|exact Q1].
        destruct u as [|k0 m0 d0 s0| | |]; try discriminate Q. inversion T as [|k1 m d s1 n1 s2 w1 H1|t1 k1 s1 n1 s2 w1 H1 H0| |]; subst.
        + inversion H1; subst; cbn in Q |- *; try discriminate; auto. destruct (sock_eqb_spec k0 k) as [->|]; [congruence|discriminate].
        + exfalso. destruct t as [| ? ? ? []| | |[]]; try discriminate H1; destruct s2; try discriminate; match goal with Q' : _ = TRead _ _ _ _ |- _ => cbn in Q'; injection Q' as <- <- <- <- end; discriminate Q.
      - discriminate Q. }
    destruct IH as [IH|[IH1 IH2]].
    + left. intros x u X. destruct (receiving k u) eqn:Q; [exfalso|reflexivity].
      destruct (Rd _ _ X Q) as [A|(t & n' & w & ch & A & _ & B & _)]; apply IH in A; congruence.
    + destruct (Dt IH1 IH2) as [G1 G2]. right. rewrite G1. split; [exact G2|].
      intros x u X Q. destruct (Rd _ _ X Q) as [A|(t & n' & w & ch & A & T & B & _)]; [exact (IH2 _ _ A Q)|].
      destruct (IH2 _ _ A B) as [C|C]; destruct u as [|k0 m0 d0 s0| | |]; try discriminate Q;
        (inversion T as [|k1 m d s1 n1 s2 w1 H1|t1 k1 s1 n1 s2 w1 H1 H0| |]; subst;
         [|exfalso; destruct t as [| ? ? ? []| | |[]]; try discriminate H1; destruct s2; try discriminate; match goal with Q' : _ = TRead _ _ _ _ |- _ => cbn in Q'; injection Q' as <- <- <- <- end; discriminate Q]);
        inversion H1; subst; cbn in C, Q |- *; try discriminate; destruct (sock_eqb_spec k0 k) as [->|]; try discriminate; auto.
      injection C as ->. congruence.
Qed.
(* writers still waiting while the pair is closed will be woken by the call of Close in progress *)
Definition doomed (k : sock) (s : sys) : Prop :=
  exists i t kc c, at_ s i t /\ mid (fst k) t = Some (kc, c) /\ (c = ClRemote \/ c = ClSel1 \/ (c = ClSel2 /\ k = remote kc)).
Lemma parked_off s : mreach size ok s -> forall k j, n_on (s_net s) (fst k) = false -> at_ s j (TWrite k WParked) -> doomed k s.
Proof.
  revert s. apply (mreach_ind_ size ok (fun s => forall k j, n_on (s_net s) (fst k) = false -> at_ s j (TWrite k WParked) -> doomed k s)).
  { intros k j _ J. destruct j; discriminate. }
  intros s e s' R IH _ H O k j Off J. destruct (flow_of s R) as [FD FS]. destruct (invariants _ _ _ R) as [L K].
  destruct (n_on (s_net s) (fst k)) eqn:On.
  - destruct (goes_off _ _ _ _ H On Off) as (i & t & kc & I & Ct & Fk & Ts & Ns).
    exists i, (to_close t ClRemote), kc, ClRemote. split; [unfold at_; rewrite Ts; eapply set_nth_eq; eauto|]. split; [|auto].
    rewrite (mid_eq _ _ _ _ (to_close_closing _ _ _ ClRemote Ct ltac:(discriminate))), Fk, Nat.eqb_refl. reflexivity.
  - assert (J0 : at_ s j (TWrite k WParked)).
    { destruct (step_threads _ _ _ _ _ H J) as [A|[A|[(ch & t & n' & w & _ & I & T & Q)|(k0 & v & _ & Q)]]]; auto; [|exfalso|discriminate].
      - destruct e; discriminate.
      - inversion T as [k1 s1 n1 s2 H1| |t1 k1 s1 n1 s2 w1 H1 H0| |]; subst; [|destruct t as [| ? ? ? []| | |[]]; try discriminate H1; destruct s2; discriminate].
        inversion H1; subst. pose proof (sending_on s R _ _ k I) as SO. cbn in SO. rewrite sock_eqb_refl in SO. specialize (SO eq_refl). congruence. }
    destruct (IH k j On J0) as (i & t & kc & c & I & Mt & Cc).
    pose proof (mid_fst _ _ _ _ Mt) as Fk.
    assert (Ct : closing t = Some (kc, c)).
    { unfold mid in Mt. destruct (closing t) as [[k1 c1]|]; [|discriminate]. destruct (_ && _); [|discriminate]. congruence. }
    unfold at_ in *.
    assert (Stay : nth_error (s_ts s') i = Some t -> doomed k s') by (intros X; exists i, t, kc, c; auto).
    assert (Go_ : forall c', c' <> ClDone -> mid_close c' = true -> nth_error (s_ts s') i = Some (to_close t c') ->
      (c' = ClSel1 \/ (c' = ClSel2 /\ k = remote kc)) -> doomed k s').
    { intros c' N M X C. exists i, (to_close t c'), kc, c'. split; [exact X|]. split; [|tauto].
      rewrite (mid_eq _ _ _ _ (to_close_closing _ _ _ c' Ct N)), Fk, Nat.eqb_refl, M. reflexivity. }
    assert (Ne : forall x, nth_error (s_ts s) x = Some (TWrite k WParked) -> x = j).
    { intros x X. assert (A : u_wlk (n_sock (s_net s) k) = Some x) by (eapply (holder_w _ _ L); [exact X|cbn; apply sock_eqb_refl]).
      assert (B : u_wlk (n_sock (s_net s) k) = Some j) by (eapply (holder_w _ _ L); [exact J0|cbn; apply sock_eqb_refl]). congruence. }
    symmetry in Fk. apply pair_sock in Fk as Fk'. symmetry in Fk.
    destruct H as [e t0 B|i0 ch t0 n' t0' I0 T|i0 ch t0 n' t0' j0 v k0 I0 T D V J1]; cbn in *.
    + apply Stay. apply snoc_old. exact I.
    + destruct (Nat.eq_dec i0 i) as [->|Ni]; [|apply Stay; rewrite set_nth_ne by auto; exact I].
      rewrite I in I0. injection I0 as <-.
      destruct (trel_closing _ _ _ _ _ _ _ _ _ Ct T) as (n1 & c' & Cr & -> & ->).
      assert (X : nth_error (set_nth (s_ts s) i (to_close t c')) i = Some (to_close t c')) by (eapply set_nth_eq; eauto).
      destruct Cc as [-> |[-> |[-> Q]]]; inversion Cr; subst.
      * apply (Go_ ClSel1); auto; discriminate.
      * apply (Go_ ClSel1); auto; discriminate.
      * apply (Go_ ClSel2); auto; try discriminate. right. split; [reflexivity|]. destruct Fk' as [->|Q]; [|exact Q].
        exfalso. match goal with N : forall j, nth_error _ _ <> _ |- _ => eapply N; eauto end.
      * exfalso. match goal with N : forall j, nth_error _ _ <> _ |- _ => eapply N; eauto end.
    + destruct (Nat.eq_dec j0 i) as [->|Nj]; [rewrite I in J1; injection J1 as ->; discriminate|].
      destruct (Nat.eq_dec i0 i) as [->|Ni]; [|apply Stay; rewrite !set_nth_ne by auto; exact I].
      rewrite I in I0. injection I0 as <-.
      destruct (trel_closing _ _ _ _ _ _ _ _ _ Ct T) as (n1 & c' & Cr & -> & ->).
      assert (X : nth_error (set_nth (set_nth (s_ts s) i (to_close t c')) j0 (TWrite k0 (WReset v))) i = Some (to_close t c')) by (rewrite set_nth_ne by auto; eapply set_nth_eq; eauto).
      assert (Jn : nth_error (s_ts s) j0 <> Some (TWrite k WParked)).
      { intros Y. apply Ne in Y. subst j0. erewrite set_nth_eq in J; [injection J as _ Q; discriminate|]. rewrite set_nth_ne by auto. exact J0. }
      destruct Cc as [-> |[-> |[-> Q]]]; inversion Cr; subst.
      * apply (Go_ ClSel2); auto; try discriminate. right. split; [reflexivity|]. destruct Fk' as [->|Q]; [contradiction|exact Q].
      * contradiction.
Qed.
Lemma no_crash (fitok : forall s, ok s -> fitting s) s : mreach size ok s -> n_crashed (s_net s) = false.
Proof.
  intros R. destruct (n_crashed (s_net s)) eqn:Cr; [exfalso|reflexivity]. inversion R as [E|s0 e s1 R0 E O]; subst; [discriminate|].
  destruct (crash_step size ok s0 e s (fun s H => conj (proj1 (Ok s H)) (fitok s H)) R0 E Cr) as (i & ch & k & _ & I & Sh).
  assert (On : n_on (s_net s0) (fst k) = true) by (eapply (sending_on s0 R0); [exact I|cbn; apply sock_eqb_refl]).
  destruct (flow_of s0 R0) as [_ FS]. destruct (s_o _ _ _ (FS (fst k)) On) as [O1 O2].
  - intros x u X. destruct (dialing (fst k) u) eqn:Dl; [|reflexivity]. destruct (Nat.eq_dec x i) as [->|Nx].
    + unfold at_ in I. rewrite I in X. injection X as <-. discriminate.
    + assert (B : busy (fst k) (TWrite k WSend) = false) by (apply (calm_of s0 R0 x i (fst k) u); auto). cbn in B. rewrite Nat.eqb_refl in B. discriminate.
  - destruct k as [p []]; unfold remote in Sh; cbn in *; congruence.
Qed.
End Polite.

(* ----- C43: calls can go on ----- *)
Lemma mstep_some s i t ch r : n_crashed (s_net s) = false -> at_ s i t -> tstep (s_ts s) i (s_net s) t ch = Some r -> can_step s i.
Proof.
  intros C I T. exists ch. unfold mstep, at_ in *. rewrite C, I, T. destruct r as [[n' t'] w].
  destruct (wake w n' (set_nth (s_ts s) i t')). eauto.
Qed.
Lemma klk_free size s k : mreach size calm s -> u_klk (n_sock (s_net s) k) = None.
Proof.
  intros R. destruct (invariants _ _ _ R) as [L _]. destruct (u_klk (n_sock (s_net s) k)) as [x|] eqn:E; [exfalso|reflexivity].
  apply (L_k _ _ L k x) in E as (u & U & V). destruct u as [k0 []| | | |]; try discriminate V. eapply never_blocks; eauto.
Qed.
Lemma mreach_weaken size (ok ok' : sys -> Prop) s : (forall s, ok s -> ok' s) -> mreach size ok s -> mreach size ok' s.
Proof. intros H R. induction R; [constructor|econstructor; eauto]. Qed.
Lemma close_some s k c : (forall k, u_klk (n_sock (s_net s) k) = None) -> c <> ClDone ->
  exists ch r, close_step (s_ts s) (s_net s) k c ch = Some r.
Proof.
  intros K N.
  assert (Sel : forall k v c', exists ch r, @select_step (s_ts s) clstate (s_net s) k v c' ch = Some r).
  { intros k0 v c'. destruct (existsb (waits k0) (s_ts s)) eqn:E.
    - apply existsb_exists in E as (t & I & W). apply In_nth_error in I as [j J]. exists (ChWith j). unfold select_step. rewrite J, W. eauto.
    - exists Go. unfold select_step. rewrite E. eauto. }
  destruct c; cbn.
  - exists Go. destruct (n_on _ _); eauto.
  - exists Go. unfold close_chan. rewrite K. cbn. eauto.
  - destruct (Sel k WrSockClosed ClSel2) as (ch & r & Q). eauto.
  - destruct (Sel (remote k) WrSockClosed ClLocal) as (ch & r & Q). eauto.
  - exists Go. unfold close_chan. rewrite K. cbn. eauto.
  - exists Go. eauto.
  - congruence.
Qed.
Lemma closing_steps size s i t k c : mreach size calm s -> n_crashed (s_net s) = false -> at_ s i t ->
  closing t = Some (k, c) -> c <> ClDone -> can_step s i.
Proof.
  intros R C I Ct N. destruct (close_some s k c (fun k => klk_free size s k R) N) as (ch & r & Q).
  destruct t as [|k0 m d [| | | | |r0 cl|]|k0 c0| |[| | |p cl todo|]]; try discriminate Ct; injection Ct as <- <-; destruct r as [[n' c'] w].
  - destruct c'; eapply (mstep_some _ _ _ ch); eauto; cbn; rewrite Q; reflexivity.
  - eapply (mstep_some _ _ _ ch); eauto. cbn. rewrite Q. reflexivity.
  - destruct c'; eapply (mstep_some _ _ _ ch); eauto; cbn; rewrite Q; reflexivity.
Qed.
Lemma not_done size (ok : sys -> Prop) s : mreach size ok s -> forall i k m d r, ~ at_ s i (TRead k m d (RdFail r ClDone)).
Proof.
  revert s. apply (mreach_ind_ size ok (fun s => forall i k m d r, ~ at_ s i (TRead k m d (RdFail r ClDone)))).
  { intros i k m d r I. destruct i; discriminate. }
  intros s e s' R IH _ H _ i k m d r X.
  destruct (step_threads _ _ _ _ _ H X) as [A|[A|[(ch & t & n' & w & Q1 & I & T & _)|(k0 & v & _ & Q)]]]; try discriminate.
  - eapply IH; eauto.
  - destruct e; discriminate.
  - inversion T as [|k1 m1 d1 s1 n1 s2 w1 H1|t1 k1 s1 n1 s2 w1 H1 H0| |]; subst.
    + inversion H1.
    + destruct t as [| ? ? ? []| | |[]]; try discriminate H1; destruct s2; discriminate.
Qed.
Lemma unblocked size s p i t : mreach size orderly s -> closed_up s p -> at_ s i t -> inside p t = true -> can_step s i.
Proof.
  intros R [Off Cl] I Ins.
  assert (Ok : forall s, orderly s -> calm s /\ polite s) by (intros s0 (A & B & _); auto).
  assert (Rc : mreach size calm s) by (eapply mreach_weaken; [|exact R]; intros s0 H; apply H).
  assert (C : n_crashed (s_net s) = false) by (eapply no_crash; [exact Ok| |exact R]; intros s0 H; apply H).
  destruct (flows size calm s (fun _ H => H) Rc) as [FD FS].
  assert (Nm : forall x u, at_ s x u -> mid p u = None).
  { intros x u X. unfold mid. destruct (closing u) as [[k c]|] eqn:E; [|reflexivity].
    destruct (Nat.eqb_spec (fst k) p) as [Q|]; [|reflexivity]. rewrite (Cl _ _ _ _ X E Q). reflexivity. }
  destruct t as [k s0|k m d s0| | |]; try discriminate Ins.
  - assert (Fk : fst k = p) by (destruct s0; try discriminate Ins; apply Nat.eqb_eq in Ins; exact Ins). subst p.
    assert (NS : sending k (TWrite k s0) = false).
    { destruct (sending k (TWrite k s0)) eqn:E; [|reflexivity]. pose proof (sending_on size orderly Ok s R _ _ _ I E). congruence. }
    destruct s0; cbn in NS; rewrite ?sock_eqb_refl in NS; try discriminate.
    + eapply (mstep_some _ _ _ Go); eauto. cbn. rewrite Off. reflexivity.
    + exfalso. destruct (parked_off size orderly Ok s R k i Off I) as (x & u & kc & c & X & M & _). rewrite (Nm _ _ X) in M. discriminate.
    + eapply (mstep_some _ _ _ Go); eauto. reflexivity.
  - assert (Fk : fst k = p) by (destruct s0; try discriminate Ins; apply Nat.eqb_eq in Ins; exact Ins). subst p.
    destruct (FD k) as [st D].
    assert (Sh : shut (s_net s) k = true).
    { destruct (s_c _ _ _ (FS (fst k)) Off Nm) as [B|B].
      - apply B in I. cbn in I. rewrite Nat.eqb_refl in I. destruct s0; discriminate.
      - destruct k as [q []]; cbn in B; tauto. }
    destruct (drained_off size orderly Ok s R k Off) as [Dr|[Dr1 Dr2]].
    + specialize (Dr _ _ I). destruct s0; cbn in Dr; rewrite ?sock_eqb_refl in Dr; try discriminate.
      apply (closing_steps size s i _ k cl Rc C I eq_refl). intros ->. eapply not_done; eauto.
    + pose proof (Dr2 _ _ I) as Q. destruct s0; cbn in Q; rewrite ?sock_eqb_refl in Q; try discriminate.
      * eapply (mstep_some _ _ _ Go); eauto. cbn. rewrite (klk_free size s k Rc). reflexivity.
      * destruct (Q eq_refl) as [Q1|Q1]; [discriminate|]. injection Q1 as ->.
        eapply (mstep_some _ _ _ Go); eauto. cbn. rewrite Dr1. unfold shut in Sh. rewrite Sh. reflexivity.
      * destruct (Q eq_refl) as [Q1|Q1]; discriminate.
      * destruct (Q eq_refl) as [Q1|Q1]; discriminate.
      * apply (closing_steps size s i _ k cl Rc C I eq_refl). intros ->. eapply not_done; eauto.
Qed.

(* ----- C43: calls that hang ----- *)
Lemma mfrom_ind_ (ok : sys -> Prop) s (P : sys -> Prop) : P s -> (forall s1 e s2, P s1 -> srel_ s1 e s2 -> ok s2 -> P s2) ->
  forall s', mfrom ok s s' -> P s'.
Proof. intros A B s' H. induction H as [|s1 e s2 H IH E O]; [exact A|]. apply mstep_rel in E as [_ E]. eauto. Qed.
(* nobody is left who could wake a writer on the pair of k: no reader, no call of Close *)
Lemma stuck_writer s i k : off s (fst k) -> at_ s i (TWrite k WParked) ->
  (forall j u, at_ s j u -> receiving (remote k) u = false /\ mid (fst k) u = None) ->
  forall s', mfrom (fun s => off s (fst k)) s s' -> at_ s' i (TWrite k WParked) /\ ~ can_step s' i.
Proof.
  intros Off I N s' H.
  assert (G : off s' (fst k) /\ at_ s' i (TWrite k WParked) /\ forall j u, at_ s' j u -> receiving (remote k) u = false /\ mid (fst k) u = None).
  { revert s' H. apply (mfrom_ind_ (fun s => off s (fst k)) s (fun s' => off s' (fst k) /\ at_ s' i (TWrite k WParked) /\ forall j u, at_ s' j u -> receiving (remote k) u = false /\ mid (fst k) u = None)).
    { auto. }
    intros s1 e s2 (Off1 & I1 & N1) H Off2. split; [exact Off2|]. split.
    - unfold at_ in *. destruct H as [e t B|x ch t n' t' X T|x ch t n' t' j v k0 X T D V J]; cbn in *.
      + apply snoc_old. exact I1.
      + destruct (Nat.eq_dec x i) as [->|Nx]; [|rewrite set_nth_ne; auto]. rewrite I1 in X. injection X as <-.
        exfalso. tcases T k1 st1 n1 s3 H1 H0; [inversion H1|discriminate H1].
      + assert (Q : j <> i).
        { intros ->. rewrite I1 in J. injection J as <-. destruct (N1 _ _ X) as [N2 N3].
          tcases T k1 st1 n1 s3 H1 H0.
          - inversion H1; subst. match goal with Q : nth_error _ _ = Some (TWrite (remote k1) _) |- _ => rewrite I1 in Q; injection Q as -> end.
            cbn in N2. rewrite remote_remote, sock_eqb_refl in N2. discriminate.
          - assert (Q : fst k1 = fst k /\ mid_close st1 = true) by (inversion H0; subst; (split; [match goal with Q : nth_error _ _ = Some (TWrite ?a WParked) |- _ => rewrite I1 in Q; injection Q as -> end; reflexivity|reflexivity])).
            destruct Q as [Q1 Q2]. rewrite (mid_eq _ _ _ _ H1), Q1, Nat.eqb_refl, Q2 in N3. discriminate. }
        destruct (Nat.eq_dec x i) as [->|Nx]; [|rewrite !set_nth_ne; auto]. rewrite I1 in X. injection X as <-.
        exfalso. tcases T k1 st1 n1 s3 H1 H0; [discriminate H1].
    - intros x u X. destruct (step_threads _ _ _ _ _ H X) as [A|[A|[(ch & t & n' & w & Q1 & A & T & _)|(k0 & v & _ & ->)]]].
      + eauto.
      + apply begin_cases in A as (_ & A1 & _ & _ & A2 & _). auto.
      + destruct (N1 _ _ A) as [N2 N3]. tcases T k1 st1 n1 s3 H1 H0.
        * auto.
        * split; [|inversion H1; subst; unfold mid; cbn; rewrite ?andb_false_r; reflexivity].
          inversion H1; subst; cbn in N2 |- *; auto. destruct (sock_eqb_spec k1 (remote k)) as [->|]; [|reflexivity]. rewrite remote_fst in *. congruence.
        * split.
          { destruct t as [| ? ? ? []| | |[]]; try discriminate H1; destruct s3; reflexivity. }
          destruct (Nat.eqb_spec (fst k1) (fst k)) as [Q|Q].
          -- rewrite (mid_eq _ _ _ _ H1), Q, Nat.eqb_refl in N3. inversion H0; subst; cbn in N3; try discriminate N3; try congruence.
             eapply to_close_done; eauto.
          -- destruct s3; try (erewrite mid_eq by (eapply to_close_closing; [eassumption|discriminate]); destruct (Nat.eqb_spec (fst k1) (fst k)); [contradiction|reflexivity]).
             eapply to_close_done; eauto.
        * auto.
        * split; [reflexivity|]. inversion H1; subst; unfold mid; cbn; rewrite ?andb_false_r; reflexivity.
      + auto. }
  destruct G as (_ & G & _). split; [exact G|]. intros (ch & s2 & E). unfold mstep in E. destruct (n_crashed _); [discriminate|].
  unfold at_ in G. rewrite G in E. destruct ch; discriminate.
Qed.
(* nobody is left who could wait for the answer of a reader on k *)
Lemma stuck_reader s i k m d r : off s (fst k) -> at_ s i (TRead k m d (RdAck r)) ->
  (forall j u, at_ s j u -> waits (remote k) u = false /\ sending (remote k) u = false) ->
  forall s', mfrom (fun s => off s (fst k)) s s' -> at_ s' i (TRead k m d (RdAck r)) /\ ~ can_step s' i.
Proof.
  intros Off I N s' H.
  assert (G : off s' (fst k) /\ at_ s' i (TRead k m d (RdAck r)) /\ forall j u, at_ s' j u -> waits (remote k) u = false /\ sending (remote k) u = false).
  { revert s' H. apply (mfrom_ind_ (fun s => off s (fst k)) s (fun s' => off s' (fst k) /\ at_ s' i (TRead k m d (RdAck r)) /\ forall j u, at_ s' j u -> waits (remote k) u = false /\ sending (remote k) u = false)).
    { auto. }
    intros s1 e s2 (Off1 & I1 & N1) H Off2. split; [exact Off2|]. split.
    - unfold at_ in *. destruct H as [e t B|x ch t n' t' X T|x ch t n' t' j v k0 X T D V J]; cbn in *.
      + apply snoc_old. exact I1.
      + destruct (Nat.eq_dec x i) as [->|Nx]; [|rewrite set_nth_ne; auto]. rewrite I1 in X. injection X as <-.
        exfalso. tcases T k1 st1 n1 s3 H1 H0; [inversion H1|discriminate H1].
      + assert (Q : j <> i) by (intros ->; congruence).
        destruct (Nat.eq_dec x i) as [->|Nx]; [|rewrite !set_nth_ne; auto]. rewrite I1 in X. injection X as <-.
        exfalso. tcases T k1 st1 n1 s3 H1 H0; [inversion H1; subst|discriminate H1].
        destruct (N1 j (TWrite (remote k) WParked)) as [Q1 _]; [assumption|]. cbn in Q1. rewrite sock_eqb_refl in Q1. discriminate.
    - intros x u X. destruct (step_threads _ _ _ _ _ H X) as [A|[A|[(ch & t & n' & w & Q1 & A & T & _)|(k0 & v & _ & ->)]]].
      + eauto.
      + apply begin_cases in A as (A1 & _ & A2 & _). auto.
      + destruct (N1 _ _ A) as [N2 N3]. tcases T k1 st1 n1 s3 H1 H0; auto.
        * inversion H1; subst; cbn in N2, N3 |- *; auto. split; [reflexivity|].
          destruct (sock_eqb_spec k1 (remote k)) as [->|]; [|reflexivity]. rewrite remote_fst in *. congruence.
        * destruct t as [| ? ? ? []| | |[]]; try discriminate H1; destruct s3; auto.
      + auto. }
  destruct G as (_ & G & N'). split; [exact G|]. intros (ch & s2 & E). apply mstep_rel in E as [_ E].
  inversion E as [e t B|x ch' t n' t' X T|x ch' t n' t' j v k0 X T D V J]; subst; [discriminate| |]; unfold at_ in G; rewrite G in X; injection X as <-.
  - tcases T k1 st1 n1 s3 H1 H0; [inversion H1|discriminate H1].
  - tcases T k1 st1 n1 s3 H1 H0; [inversion H1; subst|discriminate H1].
    destruct (N' j (TWrite (remote k) WParked)) as [Q1 _]; [assumption|]. cbn in Q1. rewrite sock_eqb_refl in Q1. discriminate.
Qed.
