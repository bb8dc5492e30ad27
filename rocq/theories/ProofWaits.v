(* The in-memory transport: who waits for whom. *)
From Coq Require Import List Arith NArith ZArith Lia Bool.
From Verif Require Import BaseBytes BaseConc ModelMessage ModelWrite ModelMemchan SpecWire SpecWrite SpecMemchan SpecWaits.
From Verif Require Import ProofMemchan ProofMemchan2 ProofMemchan3 ProofMemchan4 ProofMemchan5.
Import ListNotations.
Open Scope nat_scope.

Lemma remote_twice k : remote (remote k) = k.
Proof. destruct k as [p []]; reflexivity. Qed.
Lemma fst_remote k : fst (remote k) = fst k.
Proof. reflexivity. Qed.
Lemma in_not_done size (ok : sys -> Prop) s : mreach size ok s -> forall i p l, ~ at_ s i (TDown (ShIn p ClDone l)).
Proof.
  revert s. apply (mreach_ind_ size ok (fun s => forall i p l, ~ at_ s i (TDown (ShIn p ClDone l)))).
  { intros i p l I. destruct i; discriminate. }
  intros s e s' R IH _ H _ i p l X.
  destruct (step_threads _ _ _ _ _ H X) as [A|[A|[(ch & t & n' & w & Q1 & I & T & _)|(k0 & v & _ & Q)]]]; try discriminate.
  - eapply IH; eauto.
  - destruct e; discriminate.
  - inversion T as [| |t1 k1 s1 n1 s2 w1 H1 H0| |s1 n1 s2 H1]; subst.
    + destruct t as [| ? ? ? []| | |[]]; try discriminate H1; destruct s2; discriminate.
    + inversion H1.
Qed.

Section Rest.
Variables (size : nat) (s : sys).
Hypothesis R : mreach size orderly s.
Let Ok : forall s, orderly s -> calm s /\ polite s.
Proof. intros s0 (A & B & _); auto. Qed.
Let Rc : mreach size calm s.
Proof. eapply mreach_weaken; [|exact R]. intros s0 H. apply H. Qed.
Let Cr : n_crashed (s_net s) = false.
Proof. eapply no_crash; [exact Ok| |exact R]. intros s0 H. apply H. Qed.
Let Kf k : u_klk (n_sock (s_net s) k) = None.
Proof. apply (klk_free size). exact Rc. Qed.
Let L : locks (s_net s) (s_ts s).
Proof. apply (invariants _ _ _ R). Qed.
Let K : books size (s_net s) (s_ts s).
Proof. apply (invariants _ _ _ R). Qed.
Let FD : forall k, exists st, dir k (s_net s) (s_ts s) st.
Proof. apply (flows size calm s (fun _ H => H) Rc). Qed.
Let FS : forall p, stat p (s_net s) (s_ts s).
Proof. apply (flows size calm s (fun _ H => H) Rc). Qed.
Let go i t ch r : at_ s i t -> tstep (s_ts s) i (s_net s) t ch = Some r -> can_step s i.
Proof. intros I T. eapply mstep_some; eauto. Qed.

(* calls that can always go on *)
Definition runner (t : thread) : bool :=
  match t with
  | TWrite _ (WFlush | WSend | WSent | WReset _) => true
  | TRead _ _ d (RdGet | RdParse _ _ | RdFail _ _) => true
  | TRead _ _ d (RdWait _) => d
  | TClose _ ClDone => false
  | TClose _ _ => true
  | TDial _ (DlDone _) => false
  | TDial _ _ => true
  | TDown ShDone => false
  | TDown _ => true
  | _ => false
  end.
Lemma same_refl l : same_elements l l = true.
Proof.
  unfold same_elements. rewrite Nat.eqb_refl. cbn.
  assert (F : forallb (fun x => existsb (Nat.eqb x) l) l = true).
  { apply forallb_forall. intros x I. apply existsb_exists. exists x. split; [exact I|apply Nat.eqb_refl]. }
  rewrite F. reflexivity.
Qed.
Lemma runner_steps i t : at_ s i t -> runner t = true -> can_step s i.
Proof.
  intros I Ru. destruct t as [k st|k m d st|k c|p st|st].
  - destruct st; try discriminate Ru.
    + destruct (n_on (s_net s) (fst k)) eqn:E; (eapply (go _ _ Go); [exact I|cbn; rewrite E; reflexivity]).
    + destruct (h_closed (n_chan (s_net s) (remote k) (u_gen (n_sock (s_net s) (remote k))))) eqn:E;
        [|destruct (h_data (n_chan (s_net s) (remote k) (u_gen (n_sock (s_net s) (remote k))))) eqn:E1];
        (eapply (go _ _ Go); [exact I|cbn; rewrite Kf; cbn; rewrite E, ?E1; reflexivity]).
    + eapply (go _ _ Go); [exact I|reflexivity].
    + eapply (go _ _ Go); [exact I|reflexivity].
  - destruct st as [| |g|g l|r|r cl|]; try discriminate Ru.
    + eapply (go _ _ Go); [exact I|cbn; rewrite Kf; reflexivity].
    + cbn in Ru. subst d. eapply (go _ _ ChTimeout); [exact I|reflexivity].
    + destruct (ReadBytes m (slice (u_buf (n_sock (s_net s) (remote k))) l)) as [[[m' ok] e]|] eqn:E;
        (eapply (go _ _ Go); [exact I|cbn; rewrite E; reflexivity]).
    + eapply (closing_steps size s i _ k cl Rc Cr I eq_refl). intros ->. eapply not_done; [exact R|exact I].
  - assert (N : c <> ClDone) by (intros ->; discriminate Ru). eapply (closing_steps size s i _ k c Rc Cr I eq_refl N).
  - destruct st; try discriminate Ru.
    + eapply (go _ _ (ChAccept true)); [exact I|reflexivity].
    + destruct (n_on (s_net s) p) eqn:E; (eapply (go _ _ Go); [exact I|cbn; rewrite E; reflexivity]).
    + eapply (go _ _ Go); [exact I|cbn; unfold reset_chan; rewrite Kf; reflexivity].
    + eapply (go _ _ Go); [exact I|cbn; unfold reset_chan; rewrite Kf; reflexivity].
    + eapply (go _ _ (ChShutting false)); [exact I|reflexivity].
    + destruct (n_active (s_net s)) eqn:E; (eapply (go _ _ Go); [exact I|cbn; rewrite E; reflexivity]).
    + eapply (go _ _ Go); [exact I|reflexivity].
  - destruct st as [| |todo|p c todo|]; try discriminate Ru.
    + destruct (n_active (s_net s)) eqn:E; (eapply (go _ _ Go); [exact I|cbn; rewrite E; reflexivity]).
    + eapply (go _ _ (ChOrder (n_conns (s_net s)))); [exact I|cbn; rewrite same_refl; reflexivity].
    + destruct todo; (eapply (go _ _ Go); [exact I|reflexivity]).
    + eapply (closing_steps size s i _ (p, Srv) c Rc Cr I eq_refl). intros ->. eapply in_not_done; [exact R|exact I].
Qed.
Lemma down_steps i st : at_ s i (TDown st) -> st <> ShDone -> can_step s i.
Proof. intros I N. apply (runner_steps _ _ I). destruct st; try reflexivity. congruence. Qed.

Variable p : nat.
Hypothesis Q : rests p s.
Lemma no_runner i t : at_ s i t -> on_pair p t = true -> runner t = false.
Proof.
  intros I O. destruct (runner t) eqn:E; [|reflexivity]. destruct (Q i t I O (runner_steps _ _ I E)) as [k ->]. discriminate.
Qed.
Ltac nr X F := let NR := fresh "NR" in pose proof (no_runner _ _ X) as NR; unfold on_pair in NR; rewrite ?fst_remote, F, Nat.eqb_refl in NR; specialize (NR eq_refl); cbn in NR.
Lemma stuck i t : at_ s i t -> on_pair p t = true -> (forall k, t <> TWrite k WOpen) -> ~ can_step s i.
Proof. intros I O N C. destruct (Q i t I O C) as [k E]. exact (N k E). Qed.
(* a disconnected pair at rest *)
Lemma no_mid i t : at_ s i t -> mid p t = None.
Proof.
  intros I. destruct (mid p t) as [[k c]|] eqn:M; [exfalso|reflexivity]. pose proof (mid_fst _ _ _ _ M) as F0.
  unfold mid in M. destruct (closing t) as [[k1 c1]|] eqn:Ct; [|discriminate].
  destruct (Nat.eqb_spec (fst k1) p) as [F|]; [|discriminate]. destruct (mid_close c1) eqn:Mc; [|discriminate]. injection M as -> ->.
  assert (O : on_pair p t = true).
  { destruct t as [|k0 m d []|k0 c0| |[]]; try discriminate Ct; injection Ct as <- <-; cbn in *; apply Nat.eqb_eq; exact F. }
  apply (stuck _ _ I O); [intros k2 ->; discriminate|]. apply (closing_steps size s i t k c Rc Cr I Ct). intros ->. discriminate.
Qed.
Lemma writer_holder k i : fst k = p -> u_wlk (n_sock (s_net s) k) = Some i ->
  at_ s i (TWrite k WOpen) \/ at_ s i (TWrite k WParked) \/ In (LWriter i k WrEmpty) (mlog s).
Proof.
  intros F W. apply (L_w _ _ L k i) in W as (u & U & H). destruct u as [k' st| | | |]; try discriminate H.
  assert (E : k' = k).
  { destruct (sock_eqb_spec k' k) as [|N]; [assumption|]. exfalso. cbn in H. destruct st as [| | | | | | | |[]]; try discriminate H; apply N; destruct (sock_eqb_spec k' k); congruence. }
  subst k'. nr U F.
  destruct st as [| | | | | | | |r]; try discriminate; auto.
  - exfalso. eapply (never_blocks size s i k Rc). exact U.
  - destruct r; try discriminate H. right. right. pose proof (K_story _ _ _ K _ _ U) as S. cbn in S.
    assert (X : In (LWriter i k WrEmpty) (mine i (mlog s))) by (rewrite S; cbn; auto). apply filter_In in X. apply X.
Qed.
Lemma reader_holder k i : fst k = p -> u_rlk (n_sock (s_net s) k) = Some i ->
  (exists m g, at_ s i (TRead k m false (RdWait g))) \/ exists m d r, at_ s i (TRead k m d (RdAck r)).
Proof.
  intros F W. apply (L_r _ _ L k i) in W as (u & U & H). destruct u as [|k' m d st| | |]; try discriminate H.
  assert (E : k' = k).
  { destruct (sock_eqb_spec k' k) as [|N]; [assumption|]. exfalso. cbn in H. destruct st; try discriminate H; apply N; destruct (sock_eqb_spec k' k); congruence. }
  subst k'. nr U F.
  destruct st; try discriminate; cbn in NR; subst; eauto.
Qed.
Lemma holds_r k i m d st : at_ s i (TRead k m d st) -> hr k (TRead k m d st) = true -> u_rlk (n_sock (s_net s) k) = Some i.
Proof. intros I H. apply (L_r _ _ L k i). eauto. Qed.
(* nobody is left answering *)
Lemma no_ack k i m d r : fst k = p -> ~ at_ s i (TRead k m d (RdAck r)).
Proof.
  intros F I. destruct (FD k) as [st D]. pose proof (d_r _ _ _ _ D _ _ I) as Rr. cbn in Rr. rewrite sock_eqb_refl in Rr. subst st.
  assert (St : ~ can_step s i) by (apply (stuck _ _ I); [cbn; apply Nat.eqb_eq; exact F|discriminate]).
  destruct (d_o _ _ _ _ D ltac:(discriminate)) as [Off|[(x & u & X & V)|(x & u & X & V)]].
  - destruct (drained_off size orderly Ok s R k Off) as [Dr|[_ Dr]].
    + specialize (Dr _ _ I). cbn in Dr. rewrite sock_eqb_refl in Dr. discriminate.
    + specialize (Dr _ _ I). cbn in Dr. rewrite sock_eqb_refl in Dr. destruct (Dr eq_refl); discriminate.
  - assert (B : busy (fst k) (TRead k m d (RdAck r)) = false).
    { apply (calm_reach size orderly s (fun s H => proj1 (Ok s H)) R x i (fst k) u); auto. intros ->. unfold at_ in I. rewrite I in X. injection X as <-. discriminate. }
    cbn in B. rewrite Nat.eqb_refl in B. discriminate.
  - destruct u as [k' st| | | |]; try discriminate V. assert (E : k' = remote k).
    { cbn in V. destruct st as [| | | | | | |[]|]; try discriminate V; destruct (sock_eqb_spec k' (remote k)); congruence. }
    subst k'. destruct st as [| | | | | | |[]|]; cbn in V; try rewrite sock_eqb_refl in V; try discriminate V.
    + nr X F. discriminate.
    + apply St. eapply (go _ _ (ChWith x)); [exact I|]. cbn. rewrite X. cbn. rewrite sock_eqb_refl. reflexivity.
Qed.
Lemma waiting_reader k m d g i : fst k = p -> at_ s i (TRead k m d (RdWait g)) ->
  d = false /\ connected s (fst k) /\ g = u_gen (n_sock (s_net s) k) /\ dir k (s_net s) (s_ts s) Idle.
Proof.
  intros F I. assert (O : on_pair p (TRead k m d (RdWait g)) = true) by (cbn; apply Nat.eqb_eq; exact F).
  pose proof (no_runner _ _ I O) as Dd. cbn in Dd. subst d. split; [reflexivity|].
  assert (St : ~ can_step s i) by (apply (stuck _ _ I O); discriminate).
  destruct (FD k) as [st D]. pose proof (d_r _ _ _ _ D _ _ I) as Rr. cbn in Rr. rewrite sock_eqb_refl in Rr. subst g.
  assert (Hd : h_data (n_chan (s_net s) k (u_gen (n_sock (s_net s) k))) = None).
  { destruct (h_data _) eqn:E; [exfalso|reflexivity]. apply St. eapply (go _ _ Go); [exact I|]. cbn. rewrite E. reflexivity. }
  assert (Hc : h_closed (n_chan (s_net s) k (u_gen (n_sock (s_net s) k))) = false).
  { destruct (h_closed _) eqn:E; [exfalso|reflexivity]. apply St. eapply (go _ _ Go); [exact I|]. cbn. rewrite Hd, E. reflexivity. }
  split; [|split; [reflexivity|]].
  - destruct (n_on (s_net s) (fst k)) eqn:On; [reflexivity|exfalso].
    destruct (s_c _ _ _ (FS (fst k)) On) as [B|B].
    + intros x u X. rewrite F. apply no_mid with x. exact X.
    + apply B in I. cbn in I. rewrite Nat.eqb_refl in I. discriminate.
    + assert (Sh : shut (s_net s) k = true) by (destruct k as [q []]; cbn in B; tauto). unfold shut in Sh. congruence.
  - assert (Un : forall j u, at_ s j u -> rc k u <> RcNone -> j = i).
    { intros j u J V. assert (A : u_rlk (n_sock (s_net s) k) = Some i) by (eapply holds_r; [exact I|cbn; apply sock_eqb_refl]).
      destruct u as [|k' m' d' st'| | |]; try (cbn in V; congruence).
      assert (E : k' = k). { cbn in V. destruct st'; try congruence; destruct (sock_eqb_spec k' k); congruence. }
      subst k'. assert (B : u_rlk (n_sock (s_net s) k) = Some j).
      { eapply holds_r; [exact J|]. cbn in *. destruct st'; try congruence; apply sock_eqb_refl. }
      congruence. }
    destruct st as [|l|j l|j]; [exact D|exfalso..]; pose proof (d_s _ _ _ _ D) as S; cbn in S.
    + destruct S as [S _]. congruence.
    + destruct S as (_ & _ & t & T1 & T2). assert (j = i) by (apply (Un j t T1); congruence). subst j.
      unfold at_ in I. rewrite I in T1. injection T1 as <-. cbn in T2. rewrite sock_eqb_refl in T2. discriminate.
    + destruct S as (_ & _ & t & T1 & T2). assert (j = i) by (apply (Un j t T1); congruence). subst j.
      unfold at_ in I. rewrite I in T1. injection T1 as <-. cbn in T2. rewrite sock_eqb_refl in T2. discriminate.
Qed.
Lemma parked_writer k i : fst k = p -> at_ s i (TWrite k WParked) -> waits_for s (TWrite k WParked).
Proof.
  intros F I. cbn. assert (On : connected s (fst k)).
  { destruct (n_on (s_net s) (fst k)) eqn:On; [reflexivity|exfalso].
    destruct (parked_off size orderly Ok s R k i On I) as (x & u & kc & c & X & M & _). rewrite F, (no_mid _ _ X) in M. discriminate. }
  split; [exact On|]. assert (Fr : fst (remote k) = p) by (destruct k; exact F).
  destruct (FD (remote k)) as [st D]. pose proof (d_w _ _ _ _ D _ _ I) as W. cbn in W. rewrite remote_twice, sock_eqb_refl in W. destruct W as [Ni _].
  pose proof (d_s _ _ _ _ D) as S. rewrite remote_twice in S.
  assert (Nw : forall j m d g, ~ at_ s j (TRead (remote k) m d (RdWait g))).
  { intros j m d g J. destruct (waiting_reader _ _ _ _ _ Fr J) as (_ & _ & _ & D1).
    pose proof (d_w _ _ _ _ D1 _ _ I) as W. cbn in W. rewrite remote_twice, sock_eqb_refl in W. destruct W as [W _]. congruence. }
  split.
  - destruct st as [|l|j l|j]; [congruence| |exfalso..].
    + destruct S as [_ S]. eauto.
    + destruct S as (_ & _ & t & T1 & T2). destruct t as [|k' m d st'| | |]; try discriminate T2.
      assert (E : k' = remote k) by (cbn in T2; destruct st'; try discriminate T2; destruct (sock_eqb_spec k' (remote k)); congruence). subst k'.
      destruct st'; cbn in T2; rewrite ?sock_eqb_refl in T2; try discriminate T2.
      nr T1 F. discriminate.
    + destruct S as (_ & _ & t & T1 & T2). destruct t as [|k' m d st'| | |]; try discriminate T2.
      assert (E : k' = remote k) by (cbn in T2; destruct st'; try discriminate T2; destruct (sock_eqb_spec k' (remote k)); congruence). subst k'.
      destruct st'; cbn in T2; rewrite ?sock_eqb_refl in T2; try discriminate T2. exact (no_ack _ _ _ _ _ Fr T1).
  - intros j m d st' J.
    nr J F.
    destruct st' as [| |g|g l|r|r c|r]; try discriminate NR; [exfalso..|eauto].
    + destruct (u_rlk (n_sock (s_net s) (remote k))) as [x|] eqn:Lk.
      * destruct (reader_holder _ _ Fr Lk) as [(m' & g & X)|(m' & d' & r & X)]; [exact (Nw _ _ _ _ X)|exact (no_ack _ _ _ _ _ Fr X)].
      * apply (stuck _ _ J); [cbn; apply Nat.eqb_eq; exact F|discriminate|]. eapply (go _ _ Go); [exact J|]. cbn. rewrite Lk. cbn.
        rewrite fst_remote, On. reflexivity.
    + exact (Nw _ _ _ _ J).
    + exact (no_ack _ _ _ _ _ Fr J).
Qed.
Lemma rest i t : at_ s i t -> on_pair p t = true -> finished t = false -> waits_for s t.
Proof.
  intros I O N. pose proof (no_runner _ _ I O) as NR. destruct t as [k st|k m d st|k c|q st|st].
  - assert (F : fst k = p) by (apply Nat.eqb_eq; exact O). destruct st; try discriminate; [| |exfalso|].
    + cbn. assert (St : ~ can_step s i) by (apply (stuck _ _ I O); discriminate).
      destruct (u_wlk (n_sock (s_net s) k)) as [j|] eqn:W.
      * destruct (writer_holder _ _ F W) as [A|[A|A]]; eauto.
      * exfalso. apply St. destruct (n_on (s_net s) (fst k)) eqn:E; (eapply (go _ _ Go); [exact I|cbn; rewrite W; cbn; rewrite E; reflexivity]).
    + exact Logic.I.
    + eapply (never_blocks size s i k Rc). exact I.
    + apply (parked_writer _ _ F I).
  - assert (F : fst k = p) by (apply Nat.eqb_eq; exact O). destruct st as [| |g|g l|r|r c|r]; try discriminate; [| |exfalso].
    + cbn. assert (St : ~ can_step s i) by (apply (stuck _ _ I O); discriminate).
      destruct (u_rlk (n_sock (s_net s) k)) as [j|] eqn:W.
      * destruct (reader_holder _ _ F W) as [(m' & g & X)|(m' & d' & r & X)]; [eauto|exfalso; exact (no_ack _ _ _ _ _ F X)].
      * exfalso. apply St. destruct (n_on (s_net s) (fst k)) eqn:E; (eapply (go _ _ Go); [exact I|cbn; rewrite W; cbn; rewrite E; reflexivity]).
    + destruct (waiting_reader _ _ _ _ _ F I) as (Dd & On & -> & D). cbn. split; [exact Dd|]. split; [exact On|].
      pose proof (d_s _ _ _ _ D) as S. cbn in S. split; [apply S|]. intros j st J.
      assert (Fr : on_pair p (TWrite (remote k) st) = true) by (cbn; apply Nat.eqb_eq; exact F).
      pose proof (no_runner _ _ J Fr) as NR'. pose proof (d_w _ _ _ _ D _ _ J) as W. cbn in W.
      destruct st; try discriminate NR'; rewrite ?sock_eqb_refl in W; eauto; [contradiction|destruct W; congruence].
    + exact (no_ack _ _ _ _ _ F I).
  - destruct c; discriminate.
  - destruct st; discriminate.
  - destruct st; discriminate.
Qed.
(* writers at the caller's disposal can go on *)
Lemma open_steps k i : fst k = p -> at_ s i (TWrite k WOpen) -> can_step s i.
Proof.
  intros F I. assert (Fb : u_blk (n_sock (s_net s) k) = None).
  { assert (A : u_wlk (n_sock (s_net s) k) = Some i) by (eapply (holder_w _ _ L); [exact I|cbn; apply sock_eqb_refl]).
    destruct (u_blk (n_sock (s_net s) k)) as [j|] eqn:W; [exfalso|reflexivity].
    apply (L_b _ _ L k j) in W as (u & U & H). destruct u as [k' st| | | |]; try discriminate H.
    assert (E : k' = k).
    { destruct (sock_eqb_spec k' k) as [|N]; [assumption|]. exfalso. cbn in H. destruct st as [| | | | | | | |[]]; try discriminate H; apply N; destruct (sock_eqb_spec k' k); congruence. }
    subst k'. assert (B : hw k (TWrite k st) = true).
    { nr U F.
      cbn in *. destruct st as [| | | | | | | |[]]; try discriminate; rewrite sock_eqb_refl; reflexivity. }
    assert (A' : u_wlk (n_sock (s_net s) k) = Some j) by (eapply (holder_w _ _ L); eauto).
    assert (j = i) by congruence. subst j. unfold at_ in I. rewrite I in U. injection U as <-. discriminate H. }
  destruct (buf_write (u_buf (n_sock (s_net s) k)) []) as [b ok] eqn:E.
  eapply (go _ _ (ChWrite [])); [exact I|]. cbn [tstep write_step]. rewrite Fb. cbn [free]. rewrite E. reflexivity.
Qed.
End Rest.
