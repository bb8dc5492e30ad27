(* Dialing, closing and shutting down, on the heap and on links. *)
From Coq Require Import List Arith ZArith Bool Lia.
From Verif Require Import BaseBytes BaseConc ModelMessage ModelMemchan ModelSocket SpecSocket ProofSocket.
Import ListNotations.
Open Scope nat_scope.

Lemma set_comm {A} (l : list A) i j x y : i <> j -> set_nth (set_nth l i x) j y = set_nth (set_nth l j y) i x.
Proof.
  intros N. apply nth_ext_error. intros m. rewrite !nth_set.
  destruct (Nat.eqb_spec i m) as [->|], (Nat.eqb_spec j m) as [->|]; try contradiction; try reflexivity.
Qed.
Lemma NoDup_app_snoc {A} (l : list A) x : NoDup l -> ~ In x l -> NoDup (l ++ [x]).
Proof.
  induction l as [|y l IH]; cbn; intros H N; [constructor; [auto|constructor]|]. inversion H; subst.
  constructor; [|apply IH; auto]. rewrite in_app_iff. cbn. intuition.
Qed.
Definition srv_end (cl : bool) (k : nat) : nat := if cl then peer true k else k.
Definition other_end (t size k p : nat) (cl : bool) (o : bool) (r : nat) : sock :=
  MkSock (Some t) (kind cl) (Some r) (Some p) o size.

Lemma R_turn h w h' k cl p l t x up li L ok or N : R h w ->
  nth_error (w_ends w) k = Some (cl, p) -> nth_error (w_links w) p = Some l -> l_server l = Some t ->
  nth_error (h_trans h) t = Some x ->
  (li = true -> up = true) -> (up = true -> ok = true /\ or = true) ->
  NoDup L -> (forall s, In s L <-> if s =? srv_end cl k then li = true else In s (t_conns x)) ->
  h_trans h' = set_nth (h_trans h) t (MkTransport (t_hook x) (t_ready x) (t_size x) L (t_active x)) ->
  h_cells h' = set_nth (h_cells h) p up ->
  h_new h' = N ->
  h_socks h' = set_nth (set_nth (h_socks h) k (MkSock (Some t) (kind cl) (Some (peer cl k)) (Some p) ok (l_size l)))
                 (peer cl k) (MkSock (Some t) (kind (negb cl)) (Some k) (Some p) or (l_size l)) ->
  R h' (MkWorld (w_services w) (w_ends w) (set_nth (w_links w) p (turn up li l)) N).
Proof.
  intros H E El Es Ex I1 I2 HN HL Ht Hc Hn Hs.
  destruct (peer_peer h w k cl p l t H E El Es) as [PP PN].
  pose proof (R_p _ _ H k cl p l E El) as Q. rewrite Es in Q.
  assert (Sv : nth_error (w_ends w) (srv_end cl k) = Some (false, p)).
  { unfold srv_end. destruct cl; [exact Q|exact E]. }
  assert (SX : nth_error (w_services w) t = Some (serv x)) by (rewrite (R_trans h w t H), Ex; reflexivity).
  assert (U : forall j c, nth_error (w_ends w) j = Some (c, p) -> (j = k /\ c = cl) \/ (j = peer cl k /\ c = negb cl)).
  { intros j c Ej. destruct (Bool.bool_dec c cl) as [->|Nc].
    - left. split; [eapply (R_u _ _ H); eauto|reflexivity].
    - assert (c = negb cl) as -> by (destruct c, cl; try reflexivity; exfalso; apply Nc; reflexivity). right. split; [eapply (R_u _ _ H); eauto|reflexivity]. }
  pose proof H as HR. destruct H as [R_t0 R_c0 R_n0 R_len0 R_e0 R_p0 R_u0 R_v0 R_z0 R_d0 R_o0 R_l0]. constructor; cbn [w_services w_ends w_links w_new]; rewrite ?Ht, ?Hc, ?Hn, ?Hs.
  - rewrite map_set_nth, R_t0. apply set_nth_same. exact SX.
  - rewrite R_c0, map_set_nth. reflexivity.
  - reflexivity.
  - rewrite !set_nth_length. assumption.
  - intros j c q Ej. destruct (R_e0 j c q Ej) as (m & s & E1 & E2 & E3 & E4). rewrite !nth_set.
    destruct (Nat.eqb_spec p q) as [<-|Np].
    + rewrite E1. rewrite El in E1. injection E1 as <-. exists (turn up li l).
      destruct (U _ _ Ej) as [[-> ->]|[-> ->]].
      * destruct (Nat.eqb_spec (peer cl k) k); [contradiction|]. rewrite Nat.eqb_refl, E2.
        eexists. split; [reflexivity|]. split; [reflexivity|]. cbn. unfold far. cbn. rewrite Es. split; [reflexivity|]. intros D. apply I2; assumption.
      * rewrite Nat.eqb_refl. destruct (Nat.eqb_spec k (peer cl k)); [congruence|]. rewrite E2.
        eexists. split; [reflexivity|]. split; [reflexivity|]. cbn. unfold far. cbn. rewrite Es, PP. split; [reflexivity|]. intros D. apply I2; assumption.
    + exists m, s. split; [assumption|]. split; [|auto].
      destruct (Nat.eqb_spec (peer cl k) j) as [<-|]; [congruence|]. destruct (Nat.eqb_spec k j) as [<-|]; [congruence|]. assumption.
  - intros j c q m Ej Em. rewrite nth_set in Em. destruct (Nat.eqb_spec p q) as [<-|]; [|exact (R_p0 j c q m Ej Em)].
    rewrite El in Em. injection Em as <-. cbn. specialize (R_p0 j c p l Ej El). rewrite Es in *. assumption.
  - exact R_u0.
  - intros q m u Em Eu. assert (exists m0, nth_error (w_links w) q = Some m0 /\ l_server m0 = Some u) as (m0 & E0 & F0).
    { rewrite nth_set in Em. destruct (Nat.eqb_spec p q) as [<-|]; [|eauto]. rewrite El in Em. injection Em as <-. eauto. }
    destruct (R_v0 q m0 u E0 F0) as (y & Ey & Y). rewrite nth_set. destruct (Nat.eqb_spec t u) as [<-|]; [|eauto].
    rewrite Ey. eexists. split; [reflexivity|]. cbn. congruence.
  - intros u y Ey. rewrite nth_set in Ey. destruct (Nat.eqb_spec t u) as [<-|]; [|exact (R_z0 u y Ey)].
    rewrite Ex in Ey. injection Ey as <-. cbn. exact (R_z0 t x Ex).
  - intros q m Em D. rewrite nth_set in Em. destruct (Nat.eqb_spec p q) as [<-|]; [|exact (R_d0 q m Em D)].
    rewrite El in Em. injection Em as <-. cbn in *. split; [auto|]. eauto.
  - intros u y Ey. rewrite nth_set in Ey. destruct (Nat.eqb_spec t u) as [<-|]; [|exact (R_o0 u y Ey)].
    rewrite Ex in Ey. injection Ey as <-. assumption.
  - intros u y s Ey. rewrite nth_set in Ey.
    assert (G : (exists q m, nth_error (w_ends w) s = Some (false, q) /\
       nth_error (set_nth (w_links w) p (turn up li l)) q = Some m /\ l_server m = Some u /\ l_listed m = true) <->
       if s =? srv_end cl k then u = t /\ li = true else
       exists q m, nth_error (w_ends w) s = Some (false, q) /\ nth_error (w_links w) q = Some m /\ l_server m = Some u /\ l_listed m = true).
    { destruct (Nat.eqb_spec s (srv_end cl k)) as [->|Ns].
      - rewrite Sv. split.
        + intros (q & m & [= <-] & E2 & E3 & E4). rewrite nth_set, Nat.eqb_refl, El in E2. injection E2 as <-. cbn in *. split; congruence.
        + intros [-> Li]. exists p, (turn up li l). rewrite nth_set, Nat.eqb_refl, El. cbn. auto.
      - split; intros (q & m & E1 & E2 & E3 & E4); exists q, m.
        + rewrite nth_set in E2. destruct (Nat.eqb_spec p q) as [<-|]; [|auto]. exfalso. apply Ns. eapply R_u0; eauto.
        + rewrite nth_set. destruct (Nat.eqb_spec p q) as [<-|]; [|auto]. exfalso. apply Ns. eapply R_u0; eauto. }
    rewrite G. clear G. destruct (Nat.eqb_spec t u) as [<-|Nt].
    + rewrite Ex in Ey. injection Ey as <-. cbn. rewrite HL. destruct (Nat.eqb_spec s (srv_end cl k)); [tauto|]. apply R_l0. assumption.
    + rewrite (R_l0 u y s Ey). destruct (Nat.eqb_spec s (srv_end cl k)) as [->|]; [|reflexivity]. split; [|intros [-> _]; contradiction].
      intros (q & m & E1 & E2 & E3 & _). rewrite Sv in E1. injection E1 as <-. rewrite El in E2. injection E2 as <-. congruence.
Qed.

Lemma listed_spec h w k cl p l t x : R h w ->
  nth_error (w_ends w) k = Some (cl, p) -> nth_error (w_links w) p = Some l -> l_server l = Some t ->
  nth_error (h_trans h) t = Some x -> (In (srv_end cl k) (t_conns x) <-> l_listed l = true).
Proof.
  intros H E El Es Ex. pose proof (R_p _ _ H k cl p l E El) as Q. rewrite Es in Q.
  assert (Sv : nth_error (w_ends w) (srv_end cl k) = Some (false, p)).
  { unfold srv_end. destruct cl; [exact Q|exact E]. }
  rewrite (R_l _ _ H t x _ Ex). split.
  - intros (q & m & E1 & E2 & E3 & E4). congruence.
  - intros D. exists p, l. auto.
Qed.

Lemma with_link_same w p l : nth_error (w_links w) p = Some l -> with_link w p l = w.
Proof. intros E. unfold with_link. rewrite set_nth_same by assumption. destruct w; reflexivity. Qed.
Lemma down_not_listed h w p l : R h w -> nth_error (w_links w) p = Some l -> l_up l = false -> l_listed l = false.
Proof. intros H E U. destruct (l_listed l) eqn:D; [|reflexivity]. destruct (R_d _ _ H p l E D). congruence. Qed.
Lemma turn_same l : turn (l_up l) (l_listed l) l = l.
Proof. destruct l; reflexivity. Qed.

(* both sockets of a link that is up or down *)
Lemma both_ends h w k cl p l t : R h w ->
  nth_error (w_ends w) k = Some (cl, p) -> nth_error (w_links w) p = Some l -> l_server l = Some t ->
  exists o1 o2,
    nth_error (h_socks h) k = Some (MkSock (Some t) (kind cl) (Some (peer cl k)) (Some p) o1 (l_size l)) /\
    nth_error (h_socks h) (peer cl k) = Some (MkSock (Some t) (kind (negb cl)) (Some k) (Some p) o2 (l_size l)) /\
    (l_up l = true -> o1 = true /\ o2 = true) /\ nth_error (h_cells h) p = Some (l_up l) /\
    exists x, nth_error (h_trans h) t = Some x /\ t_ready x = true /\ t_hook x <> HookNil.
Proof.
  intros H E El Es. pose proof (R_p _ _ H k cl p l E El) as Q. rewrite Es in Q.
  destruct (peer_peer h w k cl p l t H E El Es) as [PP PN].
  destruct (R_e _ _ H k cl p E) as (l1 & s1 & A1 & A2 & A3 & A4).
  destruct (R_e _ _ H _ _ p Q) as (l2 & s2 & B1 & B2 & B3 & B4).
  rewrite El in A1, B1. injection A1 as <-. injection B1 as <-.
  exists (so_open s1), (so_open s2). unfold far in A3, B3. rewrite Es in A3, B3. rewrite PP in B3.
  rewrite A2, B2, <- A3, <- B3. split; [reflexivity|]. split; [reflexivity|]. split; [auto|].
  split; [rewrite (R_cell h w p H), El; reflexivity|].
  destruct (R_v _ _ H p l t El Es) as (x & Ex & Y). exists x. split; [assumption|]. split; [assumption|].
  pose proof (R_z _ _ H t x Ex) as Z. rewrite Y in Z. assumption.
Qed.

Lemma close_R h w k cl p l : R h w -> nth_error (w_ends w) k = Some (cl, p) -> nth_error (w_links w) p = Some l ->
  exists h', Close h k = Some h' /\ R h' (with_link w p (turn false false l)).
Proof.
  intros H E El. destruct (l_up l) eqn:U.
  - destruct (l_server l) as [t|] eqn:Es.
    2: { pose proof (R_p _ _ H k cl p l E El) as Q. rewrite Es in Q. destruct Q. congruence. }
    destruct (both_ends h w k cl p l t H E El Es) as (o1 & o2 & S1 & S2 & O & C & x & Ex & Y & Hk).
    destruct (O U) as [-> ->]. clear O. destruct (peer_peer h w k cl p l t H E El Es) as [PP PN].
    unfold Close. rewrite S1. cbn [so_status so_remote so_server so_type]. rewrite C, U. cbn [negb].
    unfold closeReader at 1. cbn [set_cell h_socks]. rewrite S2. cbn [so_open].
    unfold closeReader. cbn [set_sock set_cell h_socks h_trans h_cells h_new]. rewrite set_nth_ne by congruence. rewrite S1. cbn [so_open].
    assert (G : (match kind cl with SocketClient => onDisconnect
        (set_sock (set_sock (set_cell h p false) (peer cl k) (MkSock (Some t) (kind (negb cl)) (Some k) (Some p) false (l_size l))) k
           (MkSock (Some t) (kind cl) (Some (peer cl k)) (Some p) false (l_size l))) t (peer cl k)
      | _ => onDisconnect
        (set_sock (set_sock (set_cell h p false) (peer cl k) (MkSock (Some t) (kind (negb cl)) (Some k) (Some p) false (l_size l))) k
           (MkSock (Some t) (kind cl) (Some (peer cl k)) (Some p) false (l_size l))) t k end) =
      onDisconnect
        (set_sock (set_sock (set_cell h p false) (peer cl k) (MkSock (Some t) (kind (negb cl)) (Some k) (Some p) false (l_size l))) k
           (MkSock (Some t) (kind cl) (Some (peer cl k)) (Some p) false (l_size l))) t (srv_end cl k)).
    { destruct cl; reflexivity. }
    cbn [so_server so_type so_remote so_status so_size]. unfold set_sock, set_cell in G |- *. cbn [h_trans h_socks h_cells h_new] in G |- *. rewrite G. clear G.
    unfold onDisconnect. cbn [h_trans]. rewrite Ex, Y. eexists. split; [reflexivity|].
    unfold with_link. refine (R_turn h w _ k cl p l t x false false (filter (fun j => negb (j =? srv_end cl k)) (t_conns x)) false false _ H E El Es Ex _ _ _ _ _ _ _ _); try discriminate.
    + apply NoDup_filter. exact (R_o _ _ H t x Ex).
    + intros s. rewrite filter_In, negb_true_iff. destruct (Nat.eqb_spec s (srv_end cl k)); [|tauto]. split; [intros [_ ?]; discriminate|intros D; discriminate D].
    + cbn. rewrite Y. reflexivity.
    + reflexivity.
    + cbn. apply (R_n _ _ H).
    + cbn. apply set_comm. congruence.
  - pose proof (R_end h w k H) as Q. unfold end_of in Q. rewrite E, El in Q. destruct Q as (_ & _ & o & S1 & _).
    exists h. unfold Close. rewrite S1. cbn [so_status]. rewrite (R_cell h w p H), El. cbn. rewrite U. split; [reflexivity|].
    assert (turn false false l = l) as ->.
    { rewrite <- (turn_same l) at 2. rewrite U, (down_not_listed h w p l H El U). reflexivity. }
    rewrite with_link_same by assumption. assumption.
Qed.

Lemma dial_R h w k p l o d : R h w -> nth_error (w_ends w) k = Some (true, p) -> nth_error (w_links w) p = Some l ->
  exists h', Dial h k o d = Some (h', snd (spec_dial w k p l o d)) /\ R h' (fst (spec_dial w k p l o d)).
Proof.
  intros H E El. unfold spec_dial. destruct (l_server l) as [t|] eqn:Es.
  2: { pose proof (R_end h w k H) as Q. unfold end_of in Q. rewrite E, El in Q. destruct Q as (_ & _ & ob & S1 & _).
       exists h. unfold Dial. rewrite S1. cbn. rewrite Es. auto. }
  destruct (both_ends h w k true p l t H E El Es) as (o1 & o2 & S1 & S2 & O & C & x & Ex & Y & Hk).
  destruct (peer_peer h w k true p l t H E El Es) as [PP PN]. cbn [negb] in *.
  rewrite (R_trans h w t H), Ex. cbn [option_map].
  unfold Dial. rewrite S1. cbn [so_type so_server so_status so_remote kind]. rewrite Ex.
  assert (HO : match t_hook x with HookNil => None | HookDefault => Some zero_options | HookUser => Some o end =
    Some (if v_user (serv x) then o else zero_options)).
  { unfold serv. cbn. destruct (t_hook x); [contradiction|reflexivity|reflexivity]. }
  rewrite HO. clear HO. set (oo := if v_user (serv x) then o else zero_options).
  destruct (o_refuse oo); [exists h; auto|]. rewrite C. destruct (l_up l) eqn:U; [exists h; auto|].
  unfold resetReader at 1. cbn [set_cell h_socks]. rewrite S1. cbn [so_server so_type so_remote so_status so_size].
  unfold resetReader. cbn [set_sock set_cell h_socks h_trans h_cells h_new]. rewrite set_nth_ne by congruence. rewrite S2.
  cbn [so_server so_type so_remote so_status so_size].
  assert (NL : ~ In (srv_end true k) (t_conns x)).
  { rewrite (listed_spec h w k true p l t x H E El Es Ex), (down_not_listed h w p l H El U). discriminate. }
  unfold onConnect. unfold set_sock, set_cell. cbn [h_trans h_socks h_cells h_new]. rewrite Ex.
  rewrite set_nth_ne by congruence. rewrite (set_nth_eq _ _ _ _ S1). rewrite Y. cbn [negb].
  assert (Same : set_nth (h_trans h) t (MkTransport (t_hook x) (t_ready x) (t_size x) (t_conns x) (t_active x)) = h_trans h).
  { apply set_nth_same. rewrite Ex. destruct x; reflexivity. }
  assert (Down : forall s, In s (t_conns x) <-> if s =? srv_end true k then false = true else In s (t_conns x)).
  { intros s. destruct (Nat.eqb_spec s (srv_end true k)) as [->|]; [|reflexivity]. split; [contradiction|discriminate]. }
  destruct d; [|destruct (t_active x) eqn:TA; cbn [negb v_active serv]; rewrite ?TA].
  - eexists. split; [reflexivity|]. cbn [fst]. unfold with_link.
    refine (R_turn h w _ k true p l t x true false _ true true _ H E El Es Ex _ _ (R_o _ _ H t x Ex) Down _ _ _ _); auto.
    apply (R_n _ _ H).
  - cbn [so_remote so_status negb]. eexists. split; [reflexivity|]. cbn [fst with_link w_services w_ends w_links w_new].
    refine (R_turn h w _ k true p l t x true true (t_conns x ++ [peer true k]) true true _ H E El Es Ex _ _ _ _ _ _ _ _); auto.
    + apply NoDup_app_snoc; [exact (R_o _ _ H t x Ex)|exact NL].
    + intros s. rewrite in_app_iff. unfold srv_end. destruct (Nat.eqb_spec s (peer true k)) as [->|Ns]; [split; auto; intros _; right; left; reflexivity|]. split; [intros [?|[?|[]]]; [assumption|congruence]|auto].
    + unfold set_trans. cbn [h_trans]. assert (existsb (Nat.eqb (peer true k)) (t_conns x) = false) as ->.
      { destruct (existsb _ _) eqn:X; [|reflexivity]. exfalso. apply NL. apply existsb_exists in X as (y & Hy & Ey). apply Nat.eqb_eq in Ey. subst y. exact Hy. }
      rewrite TA, Y. reflexivity.
    + cbn. rewrite (R_n _ _ H). reflexivity.
  - eexists. split; [reflexivity|]. cbn [fst negb]. unfold with_link.
    refine (R_turn h w _ k true p l t x true false _ true true _ H E El Es Ex _ _ (R_o _ _ H t x Ex) Down _ _ _ _); auto.
    + cbn [h_trans]. rewrite <- TA in *. symmetry. rewrite TA. rewrite <- TA. exact Same.
    + apply (R_n _ _ H).
Qed.

(* ---------- shutting down ---------- *)
Definition close_spec (w : world) (k : nat) : world :=
  match end_of w k with Some (_, p, l) => with_link w p (turn false false l) | None => w end.
Lemma close_all_R l : forall h w, R h w -> (forall k, In k l -> k < length (w_ends w)) ->
  exists h', close_all h l = Some h' /\ R h' (fold_left close_spec l w).
Proof.
  induction l as [|k l IH]; intros h w H HI; [exists h; auto|]. cbn [close_all fold_left].
  pose proof (R_end h w k H) as Q. unfold close_spec at 2. destruct (end_of w k) as [[[cl p] m]|] eqn:D.
  - destruct Q as (E & El & _). destruct (close_R h w k cl p m H E El) as (h1 & C & H1). rewrite C.
    apply IH; [assumption|]. intros j Hj. apply HI. cbn. auto.
  - destruct Q as [_ Q]. apply nth_error_None in Q. specialize (HI k (or_introl eq_refl)). lia.
Qed.
Definition touches (w : world) (p k : nat) : bool :=
  match nth_error (w_ends w) k with Some (_, q) => q =? p | None => false end.
Lemma closed_links l : forall w, let w' := fold_left close_spec l w in
  w_services w' = w_services w /\ w_ends w' = w_ends w /\ w_new w' = w_new w /\
  forall p, nth_error (w_links w') p = option_map (fun m => if existsb (touches w p) l then turn false false m else m) (nth_error (w_links w) p).
Proof.
  induction l as [|k l IH]; intros w; cbn [fold_left existsb].
  - cbn. repeat split. intros p. destruct (nth_error (w_links w) p); reflexivity.
  - specialize (IH (close_spec w k)). cbn zeta in *. destruct IH as (A & B & C & D).
    assert (F : w_services (close_spec w k) = w_services w /\ w_ends (close_spec w k) = w_ends w /\ w_new (close_spec w k) = w_new w).
    { unfold close_spec. destruct (end_of w k) as [[[cl q] m]|]; auto. }
    destruct F as (F1 & F2 & F3). rewrite A, B, C, F1, F2, F3. repeat split. intros p. rewrite D.
    assert (T : touches (close_spec w k) p = touches w p) by (unfold touches; rewrite F2; reflexivity). rewrite T.
    unfold close_spec, end_of, touches at 2. destruct (nth_error (w_ends w) k) as [[cl q]|] eqn:E; [|destruct (nth_error (w_links w) p); reflexivity].
    destruct (nth_error (w_links w) q) as [m|] eqn:El.
    + cbn [w_links with_link]. rewrite nth_set. destruct (Nat.eqb_spec q p) as [<-|]; [|reflexivity].
      rewrite El. cbn. destruct (existsb (touches w q) l); reflexivity.
    + destruct (Nat.eqb_spec q p) as [<-|]; [rewrite El; reflexivity|]. reflexivity.
Qed.
Lemma walk_In o l s : In s (walk o l) <-> In s l.
Proof.
  unfold walk. rewrite in_app_iff, !filter_In, nodup_In, negb_true_iff, existsb_exists.
  assert (X : existsb (Nat.eqb s) o = true <-> In s o).
  { rewrite existsb_exists. split; [intros (y & Hy & Ey); apply Nat.eqb_eq in Ey; subst y; assumption|intros; exists s; rewrite Nat.eqb_refl; auto]. }
  split.
  - intros [[_ (y & Hy & Ey)]|[? _]]; [apply Nat.eqb_eq in Ey; subst y|]; assumption.
  - intros Hs. destruct (existsb (Nat.eqb s) o) eqn:Q; [left|right; auto]. split; [apply X; reflexivity|]. exists s. rewrite Nat.eqb_refl. auto.
Qed.

Lemma shutdown_R h w t x order : R h w -> nth_error (h_trans h) t = Some x ->
  exists h', Shutdown h t order = Some h' /\ R h' (fst (spec_step w (CShutdown t order))).
Proof.
  intros H Ex. cbn [spec_step]. rewrite (R_trans h w t H), Ex. cbn [option_map].
  unfold Shutdown. rewrite Ex. destruct (t_active x) eqn:TA; cbn [v_active serv]; rewrite TA; [|exists h; auto].
  assert (Y : t_ready x = true).
  { pose proof (R_z _ _ H t x Ex) as Z. destruct (t_ready x); [reflexivity|]. destruct Z. congruence. }
  pose proof (R_inactive h w t x H Ex Y) as H1.
  destruct (close_all_R (walk order (t_conns x)) _ _ H1) as (h' & C & H2).
  { intros s Hs. apply walk_In in Hs. apply (R_l _ _ H t x s Ex) in Hs as (p & l & E & _). cbn [w_ends]. apply nth_error_Some. congruence. }
  exists h'. split; [exact C|]. cbn [fst].
  destruct (closed_links (walk order (t_conns x)) (MkWorld (set_nth (w_services w) t (MkService (v_user (serv x)) (t_ready x) (t_size x) false)) (w_ends w) (w_links w) (w_new w))) as (A & B & D & F).
  cbn zeta in *. destruct (fold_left close_spec _ _) as [a b c d] eqn:W. cbn [w_services w_ends w_links w_new] in *. subst a b d.
  cbn [v_user v_ready v_size serv] in *. match goal with |- R _ (MkWorld _ _ ?c2 _) => assert (c = c2) as <-; [|exact H2] end.
  apply nth_ext_error. intros p. rewrite F, nth_error_map. destruct (nth_error (w_links w) p) as [l|] eqn:El; [|reflexivity]. cbn [option_map].
  f_equal. match goal with |- (if ?a then _ else _) = (if ?b then _ else _) => assert (a = b) as ->; [|reflexivity] end.
  apply eq_true_iff_eq. rewrite existsb_exists, andb_true_iff, of_service_spec. unfold touches. cbn [w_ends]. split.
  - intros (s & Hs & T). apply walk_In in Hs. apply (R_l _ _ H t x s Ex) in Hs as (q & m & E1 & E2 & E3 & E4). rewrite E1 in T.
    apply Nat.eqb_eq in T. subst q. rewrite El in E2. injection E2 as <-. auto.
  - intros [Es D]. destruct (R_d _ _ H p l El D) as (_ & s & u & Eu & E1). exists s. split.
    + apply walk_In. apply (R_l _ _ H t x s Ex). exists p, l. auto.
    + rewrite E1. apply Nat.eqb_refl.
Qed.

(* ---------- every call ---------- *)
Lemma write_size n p : snd (buf_write (new_buffer n) p) = (length p <=? n).
Proof.
  unfold buf_write, new_buffer. cbn [b_data b_len]. rewrite repeat_length, Nat.sub_0_r.
  destruct (Nat.ltb_spec n (length p)); cbn; symmetry; [apply Nat.leb_gt|apply Nat.leb_le]; lia.
Qed.
Lemma step_R h w c : R h w -> snd (step h c) = snd (spec_step w c) /\ R (fst (step h c)) (fst (spec_step w c)).
Proof.
  intros H. unfold step. destruct c as [user|t size|t|[t|]|k o d|k|k|k|k p|k|t order]; cbn [exec spec_step].
  - rewrite <- (R_t _ _ H), map_length, (R_t _ _ H). split; [reflexivity|]. apply R_transport. assumption.
  - unfold Initialize. rewrite (R_trans h w t H). destruct (nth_error (h_trans h) t) as [x|] eqn:Ex; cbn [option_map].
    + split; [reflexivity|]. apply (R_initialize h w t x size H Ex).
    + auto.
  - rewrite (R_trans h w t H). destruct (nth_error (h_trans h) t) as [x|] eqn:Ex; cbn [option_map].
    + pose proof (make_pair h w t x H Ex) as M. cbn [v_size serv]. destruct (t_size x =? 0).
      * rewrite M. auto.
      * destruct M as (h' & -> & H'). rewrite Nat.add_1_r. auto.
    + unfold NewEntangledSockets. rewrite Ex. auto.
  - rewrite (R_trans h w t H). destruct (nth_error (h_trans h) t) as [x|] eqn:Ex; cbn [option_map].
    + pose proof (make_pair h w t x H Ex) as M. cbn [v_size serv NewSocket]. destruct (t_size x =? 0).
      * rewrite M. auto.
      * destruct M as (h' & -> & H'). rewrite Nat.add_1_r. auto.
    + unfold NewSocket, NewEntangledSockets. rewrite Ex. auto.
  - destruct (make_alone h w H) as (h' & E & H'). cbn [NewSocket]. rewrite E. auto.
  - pose proof (R_end h w k H) as Q. destruct (end_of w k) as [[[[] p] l]|].
    + destruct Q as (E & El & _). destruct (dial_R h w k p l o d H E El) as (h' & -> & H'). auto.
    + destruct Q as (E & El & ob & S1 & _). unfold Dial. rewrite S1. cbn. auto.
    + destruct Q as [Q _]. unfold Dial. rewrite Q. auto.
  - pose proof (R_end h w k H) as Q. destruct (end_of w k) as [[[cl p] l]|].
    + destruct Q as (E & El & _). destruct (close_R h w k cl p l H E El) as (h' & -> & H'). auto.
    + destruct Q as [Q _]. unfold Close. rewrite Q. auto.
  - pose proof (R_end h w k H) as Q. unfold IsConnected. destruct (end_of w k) as [[[cl p] l]|].
    + destruct Q as (E & El & ob & S1 & _). rewrite S1. cbn [so_status]. rewrite (R_cell h w p H), El. auto.
    + destruct Q as [Q _]. rewrite Q. auto.
  - pose proof (R_end h w k H) as Q. unfold RemoteAddr. destruct (end_of w k) as [[[cl p] l]|].
    + destruct Q as (E & El & ob & S1 & _). rewrite S1. cbn [so_type so_remote]. split; [|assumption]. destruct cl; reflexivity.
    + destruct Q as [Q _]. rewrite Q. auto.
  - pose proof (R_end h w k H) as Q. unfold write, IsConnected. destruct (end_of w k) as [[[cl q] l]|].
    + destruct Q as (E & El & ob & S1 & _). rewrite S1. cbn [so_status so_size]. rewrite (R_cell h w q H), El. cbn [option_map].
      rewrite write_size. auto.
    + destruct Q as [Q _]. rewrite Q. auto.
  - pose proof (R_end h w k H) as Q. unfold read, IsConnected. destruct (end_of w k) as [[[cl q] l]|].
    + destruct Q as (E & El & ob & S1 & _). rewrite S1. cbn [so_status so_size]. rewrite (R_cell h w q H), El. auto.
    + destruct Q as [Q _]. rewrite Q. auto.
  - destruct (nth_error (h_trans h) t) as [x|] eqn:Ex.
    + destruct (shutdown_R h w t x order H Ex) as (h' & -> & H'). split; [|exact H'].
      rewrite (R_trans h w t H), Ex. cbn. destruct (t_active x); reflexivity.
    + unfold Shutdown. rewrite (R_trans h w t H), Ex. auto.
Qed.
Lemma run_R l : forall h w, R h w -> snd (run h l) = snd (spec_run w l) /\ R (fst (run h l)) (fst (spec_run w l)).
Proof.
  induction l as [|c l IH]; intros h w H; cbn [run spec_run]; [auto|].
  destruct (step_R h w c H) as [A H1]. destruct (step h c) as [h1 a], (spec_step w c) as [w1 b]. cbn in A, H1. subst b.
  destruct (IH h1 w1 H1) as [B H2]. destruct (run h1 l) as [h2 r], (spec_run w1 l) as [w2 r']. cbn in *. subst. auto.
Qed.
