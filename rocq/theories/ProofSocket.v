(* The sockets on the heap behave like ends of links. *)
From Coq Require Import List Arith ZArith Bool Lia.
From Verif Require Import BaseBytes BaseConc ModelMessage ModelMemchan ModelSocket SpecSocket.
Import ListNotations.
Open Scope nat_scope.

Definition serv (x : transport) : service :=
  MkService (match t_hook x with HookUser => true | _ => false end) (t_ready x) (t_size x) (t_active x).
Definition kind (cl : bool) : sock_type := if cl then SocketClient else SocketServer.
Definition far (l : link) (cl : bool) (k : nat) : option nat :=
  match l_server l with Some _ => Some (peer cl k) | None => None end.

Record R (h : heap) (w : world) : Prop := {
  R_t : map serv (h_trans h) = w_services w;
  R_c : h_cells h = map l_up (w_links w);
  R_n : h_new h = w_new w;
  R_len : length (h_socks h) = length (w_ends w);
  R_e : forall k cl p, nth_error (w_ends w) k = Some (cl, p) -> exists l s,
        nth_error (w_links w) p = Some l /\ nth_error (h_socks h) k = Some s /\
        s = MkSock (l_server l) (kind cl) (far l cl k) (Some p) (so_open s) (l_size l) /\
        (l_up l = true -> so_open s = true);
  R_p : forall k cl p l, nth_error (w_ends w) k = Some (cl, p) -> nth_error (w_links w) p = Some l ->
        match l_server l with
        | None => cl = true /\ l_up l = false
        | Some _ => nth_error (w_ends w) (peer cl k) = Some (negb cl, p)
        end;
  R_u : forall k k' cl p, nth_error (w_ends w) k = Some (cl, p) -> nth_error (w_ends w) k' = Some (cl, p) -> k = k';
  R_v : forall p l t, nth_error (w_links w) p = Some l -> l_server l = Some t ->
        exists x, nth_error (h_trans h) t = Some x /\ t_ready x = true;
  R_z : forall t x, nth_error (h_trans h) t = Some x ->
        if t_ready x then t_hook x <> HookNil else t_size x = 0 /\ t_active x = false;
  R_d : forall p l, nth_error (w_links w) p = Some l -> l_listed l = true -> l_up l = true /\
        exists s t, l_server l = Some t /\ nth_error (w_ends w) s = Some (false, p);
  R_o : forall t x, nth_error (h_trans h) t = Some x -> NoDup (t_conns x);
  R_l : forall t x s, nth_error (h_trans h) t = Some x -> (In s (t_conns x) <->
        exists p l, nth_error (w_ends w) s = Some (false, p) /\ nth_error (w_links w) p = Some l /\
                    l_server l = Some t /\ l_listed l = true) }.

Lemma R_empty : R empty_heap empty_world.
Proof.
  constructor; cbn; intros; try reflexivity; try (destruct k; discriminate); try (destruct p; discriminate);
    try (destruct t; discriminate).
Qed.

Lemma R_trans h w t : R h w -> nth_error (w_services w) t = option_map serv (nth_error (h_trans h) t).
Proof. intros H. rewrite <- (R_t _ _ H). apply nth_error_map. Qed.
Lemma R_cell h w p : R h w -> nth_error (h_cells h) p = option_map l_up (nth_error (w_links w) p).
Proof. intros H. rewrite (R_c _ _ H). apply nth_error_map. Qed.
Lemma R_end h w k : R h w ->
  match end_of w k with
  | Some (cl, p, l) =>
      nth_error (w_ends w) k = Some (cl, p) /\ nth_error (w_links w) p = Some l /\
      exists o, nth_error (h_socks h) k = Some (MkSock (l_server l) (kind cl) (far l cl k) (Some p) o (l_size l)) /\
      (l_up l = true -> o = true)
  | None => nth_error (h_socks h) k = None /\ nth_error (w_ends w) k = None
  end.
Proof.
  intros H. unfold end_of. destruct (nth_error (w_ends w) k) as [[cl p]|] eqn:E.
  - destruct (R_e _ _ H k cl p E) as (l & s & E1 & E2 & E3 & E4). rewrite E1. split; [reflexivity|]. split; [assumption|].
    exists (so_open s). rewrite <- E3. auto.
  - split; [|reflexivity]. apply nth_error_None. rewrite (R_len _ _ H). apply nth_error_None. assumption.
Qed.
Lemma peer_peer h w k cl p l t : R h w -> nth_error (w_ends w) k = Some (cl, p) -> nth_error (w_links w) p = Some l ->
  l_server l = Some t -> peer (negb cl) (peer cl k) = k /\ peer cl k <> k.
Proof.
  intros H E E1 E2. pose proof (R_p _ _ H k cl p l E E1) as Q. rewrite E2 in Q. unfold peer in *. destruct cl; cbn [negb] in *.
  - destruct k; [change (0 - 1) with 0 in Q; congruence|lia].
  - lia.
Qed.

Lemma nth_ext_error {A} (l1 l2 : list A) : (forall i, nth_error l1 i = nth_error l2 i) -> l1 = l2.
Proof.
  revert l2. induction l1 as [|a l1 IH]; intros [|b l2] H; [reflexivity|specialize (H 0); discriminate|specialize (H 0); discriminate|].
  f_equal; [specialize (H 0); cbn in H; congruence|]. apply IH. intros i. apply (H (S i)).
Qed.
Lemma nth_set {A} (l : list A) i j x : nth_error (set_nth l i x) j =
  if i =? j then match nth_error l j with Some _ => Some x | None => None end else nth_error l j.
Proof.
  destruct (Nat.eqb_spec i j) as [->|N]; [|apply set_nth_ne; assumption].
  destruct (nth_error l j) as [y|] eqn:E; [eapply set_nth_eq; eauto|].
  apply nth_error_None. rewrite set_nth_length. apply nth_error_None. assumption.
Qed.
Lemma set_nth_same {A} (l : list A) i x : nth_error l i = Some x -> set_nth l i x = l.
Proof. intros E. apply nth_ext_error. intros j. rewrite nth_set. destruct (Nat.eqb_spec i j) as [->|]; [rewrite E|]; reflexivity. Qed.
Lemma set_nth_twice {A} (l : list A) i x y : set_nth (set_nth l i x) i y = set_nth l i y.
Proof.
  apply nth_ext_error. intros j. rewrite !nth_set. destruct (Nat.eqb_spec i j) as [->|]; [|reflexivity].
  destruct (nth_error l j); reflexivity.
Qed.
Lemma map_set_nth {A B} (f : A -> B) l i x : map f (set_nth l i x) = set_nth (map f l) i (f x).
Proof. revert i. induction l as [|a l IH]; intros [|i]; cbn; f_equal; auto. Qed.

(* ---------- changes of one transport ---------- *)
Lemma R_transport h w (user : bool) : R h w ->
  R (MkHeap (h_trans h ++ [MkTransport (if user then HookUser else HookNil) false 0 [] false]) (h_socks h) (h_cells h) (h_new h))
    (MkWorld (w_services w ++ [MkService user false 0 false]) (w_ends w) (w_links w) (w_new w)).
Proof.
  intros H. destruct H. constructor; cbn; auto.
  - rewrite map_app, R_t0. cbn. unfold serv. cbn. destruct user; reflexivity.
  - intros p l t E E1. destruct (R_v0 p l t E E1) as (x & Ex & D). exists x. split; [|assumption].
    rewrite nth_error_app1; [assumption|]. apply nth_error_Some. congruence.
  - intros t x E. apply nth_error_snoc_some in E as [E|[_ ->]]; [exact (R_z0 t x E)|cbn; auto].
  - intros t x E. apply nth_error_snoc_some in E as [E|[_ ->]]; [eauto|constructor].
  - intros t x s E. apply nth_error_snoc_some in E as [E|[-> ->]]; [eauto|]. cbn. split; [tauto|].
    intros (p & l & _ & E1 & E2 & _). destruct (R_v0 p l _ E1 E2) as (x & Ex & _).
    assert (length (h_trans h) < length (h_trans h)) by (apply nth_error_Some; congruence). lia.
Qed.

Definition unlist (t : nat) (l : link) : link := if of_service t l then turn (l_up l) false l else l.
Lemma unlist_fields t l : l_server (unlist t l) = l_server l /\ l_size (unlist t l) = l_size l /\ l_up (unlist t l) = l_up l.
Proof. unfold unlist. destruct (of_service t l); auto. Qed.
Lemma of_service_spec t l : of_service t l = true <-> l_server l = Some t.
Proof.
  unfold of_service. destruct (l_server l) as [u|]; [|split; discriminate]. rewrite Nat.eqb_eq. split; congruence.
Qed.
Lemma R_initialize h w t x size : R h w -> nth_error (h_trans h) t = Some x ->
  R (set_trans h t (MkTransport (match t_hook x with HookNil => HookDefault | k => k end) true size [] true))
    (MkWorld (set_nth (w_services w) t (MkService (v_user (serv x)) true size true)) (w_ends w)
       (map (unlist t) (w_links w)) (w_new w)).
Proof.
  intros H Ex. assert (L : forall p l, nth_error (map (unlist t) (w_links w)) p = Some l ->
    exists l0, nth_error (w_links w) p = Some l0 /\ l = unlist t l0).
  { intros p l E. rewrite nth_error_map in E. destruct (nth_error (w_links w) p) as [l0|]; [|discriminate].
    injection E as <-. eauto. }
  pose proof H as HR. destruct H. constructor; unfold set_trans; cbn [w_services w_ends w_links w_new h_trans h_socks h_cells h_new]; auto.
  - rewrite map_set_nth, R_t0. unfold serv at 1. cbn. destruct (t_hook x); reflexivity.
  - rewrite R_c0, map_map. apply map_ext. intros l. symmetry. apply unlist_fields.
  - intros k cl p E. destruct (R_e0 k cl p E) as (l & s & E1 & E2 & E3 & E4). exists (unlist t l), s.
    destruct (unlist_fields t l) as (F1 & F2 & F3). unfold far in *. rewrite F1, F2, F3, nth_error_map, E1. auto.
  - intros k cl p l E E1. apply L in E1 as (l0 & E1 & ->). destruct (unlist_fields t l0) as (F1 & F2 & F3).
    rewrite F1, F3. exact (R_p0 k cl p l0 E E1).
  - intros p l u E E1. apply L in E as (l0 & E & ->). destruct (unlist_fields t l0) as (F1 & F2 & F3). rewrite F1 in E1.
    destruct (R_v0 p l0 u E E1) as (y & Ey & D). rewrite nth_set. destruct (Nat.eqb_spec t u) as [->|].
    + rewrite Ey. eexists. split; [reflexivity|reflexivity].
    + eauto.
  - intros u y E. rewrite nth_set in E. destruct (Nat.eqb_spec t u) as [->|]; [|eapply R_z0; eauto].
    rewrite Ex in E. injection E as <-. cbn. destruct (t_hook x); discriminate.
  - intros p l E D. apply L in E as (l0 & E & ->). destruct (unlist_fields t l0) as (F1 & F2 & F3). rewrite F1, F3.
    apply (R_d0 p l0 E). unfold unlist in D. destruct (of_service t l0); [discriminate|assumption].
  - intros u y E. rewrite nth_set in E. destruct (Nat.eqb_spec t u) as [->|]; [|eauto].
    rewrite Ex in E. injection E as <-. constructor.
  - intros u y s E. rewrite nth_set in E. destruct (Nat.eqb_spec t u) as [->|N].
    + rewrite Ex in E. injection E as <-. cbn. split; [tauto|]. intros (p & l & _ & E1 & E2 & E3).
      apply L in E1 as (l0 & E1 & ->). rewrite (proj1 (unlist_fields _ _)) in E2. apply of_service_spec in E2.
      unfold unlist in E3. rewrite E2 in E3. discriminate.
    + rewrite (R_l0 u y s E). split; intros (p & l & E1 & E2 & E3 & E4).
      * exists p, l. rewrite nth_error_map, E2. repeat split; auto. cbn. unfold unlist.
        destruct (of_service t l) eqn:F; [apply of_service_spec in F; congruence|reflexivity].
      * apply L in E2 as (l0 & E2 & ->). exists p, l0. rewrite (proj1 (unlist_fields _ _)) in E3. repeat split; auto.
        unfold unlist in E4. destruct (of_service t l0); [discriminate|assumption].
Qed.

Lemma R_inactive h w t x : R h w -> nth_error (h_trans h) t = Some x -> t_ready x = true ->
  R (set_trans h t (MkTransport (t_hook x) (t_ready x) (t_size x) (t_conns x) false))
    (MkWorld (set_nth (w_services w) t (MkService (v_user (serv x)) (t_ready x) (t_size x) false)) (w_ends w) (w_links w) (w_new w)).
Proof.
  intros H Ex Y. destruct H. constructor; unfold set_trans; cbn [w_services w_ends w_links w_new h_trans h_socks h_cells h_new]; auto.
  - rewrite map_set_nth, R_t0. reflexivity.
  - intros p l u E E1. destruct (R_v0 p l u E E1) as (y & Ey & D). rewrite nth_set. destruct (Nat.eqb_spec t u) as [->|]; [|eauto].
    rewrite Ey. eexists. split; [reflexivity|]. cbn. congruence.
  - intros u y E. rewrite nth_set in E. destruct (Nat.eqb_spec t u) as [->|]; [|eapply R_z0; eauto].
    rewrite Ex in E. injection E as <-. cbn. specialize (R_z0 _ _ Ex). rewrite Y in R_z0 |- *. assumption.
  - intros u y E. rewrite nth_set in E. destruct (Nat.eqb_spec t u) as [->|]; [|eauto].
    rewrite Ex in E. injection E as <-. cbn. eauto.
  - intros u y s E. rewrite nth_set in E. destruct (Nat.eqb_spec t u) as [->|N]; [|eauto].
    rewrite Ex in E. injection E as <-. cbn. eauto.
Qed.

(* ---------- new sockets ---------- *)
Lemma nth_app2 {A} (l : list A) x y i : nth_error (l ++ [x; y]) i =
  if i <? length l then nth_error l i else if i =? length l then Some x else if i =? S (length l) then Some y else None.
Proof.
  destruct (Nat.ltb_spec i (length l)); [apply nth_error_app1; assumption|]. rewrite nth_error_app2 by assumption.
  destruct (Nat.eqb_spec i (length l)) as [->|]; [rewrite Nat.sub_diag; reflexivity|].
  destruct (Nat.eqb_spec i (S (length l))) as [->|].
  - replace (S (length l) - length l) with 1 by lia. reflexivity.
  - destruct (i - length l) as [|[|j]] eqn:D; try lia. destruct j; reflexivity.
Qed.
Lemma nth_app2_some {A} (l : list A) x y i z : nth_error (l ++ [x; y]) i = Some z <->
  nth_error l i = Some z \/ (i = length l /\ z = x) \/ (i = S (length l) /\ z = y).
Proof.
  rewrite nth_app2. destruct (Nat.ltb_spec i (length l)) as [L|L].
  { split; [auto|]. intros [?|[[-> _]|[-> _]]]; [assumption|lia|lia]. }
  assert (nth_error l i = None) as -> by (apply nth_error_None; lia).
  destruct (Nat.eqb_spec i (length l)) as [->|N1]; [split; [intros [= <-]; auto|]|
    destruct (Nat.eqb_spec i (S (length l))) as [->|N2]; [split; [intros [= <-]; auto|]|split; [discriminate|]]];
    intros [?|[[? ->]|[? ->]]]; try discriminate; try reflexivity; try lia.
Qed.

Lemma new_ends h w t x : R h w -> nth_error (h_trans h) t = Some x -> t_size x <> 0 ->
  let p := length (w_links w) in let n := length (w_ends w) in
  R (MkHeap (h_trans h)
      (h_socks h ++ [MkSock (Some t) SocketServer (Some (S n)) (Some p) true (t_size x);
                     MkSock (Some t) SocketClient (Some n) (Some p) true (t_size x)])
      (h_cells h ++ [false]) (h_new h))
    (with_pair w t (t_size x)).
Proof.
  intros H Ex Z. cbn zeta. pose proof (R_len _ _ H) as HL.
  assert (P : forall k cl q, nth_error (w_ends w) k = Some (cl, q) -> q < length (w_links w) /\ k < length (w_ends w)).
  { intros k cl q E. destruct (R_e _ _ H k cl q E) as (l & _ & E1 & _). split; apply nth_error_Some; congruence. }
  pose proof H as HR. destruct H. constructor; unfold with_pair; cbn [w_services w_ends w_links w_new h_trans h_socks h_cells h_new]; auto.
  - rewrite map_app, R_c0. reflexivity.
  - rewrite !app_length. cbn. lia.
  - intros k cl q E. apply nth_app2_some in E as [E|[[-> [= -> ->]]|[-> [= -> ->]]]].
    + destruct (R_e0 k cl q E) as (l & s & E1 & E2 & E3 & E4). exists l, s.
      split; [apply nth_error_snoc_some; auto|]. split; [apply nth_app2_some; auto|auto].
    + eexists. eexists. split; [apply nth_error_snoc_some; auto|]. split; [apply nth_app2_some; right; left; split; [symmetry; exact HL|reflexivity]|].
      cbn. split; [|reflexivity]. f_equal. unfold far, peer. cbn. f_equal. lia.
    + eexists. eexists. split; [apply nth_error_snoc_some; auto|]. split; [apply nth_app2_some; right; right; split; [symmetry; f_equal; exact HL|reflexivity]|].
      cbn. split; [|reflexivity]. f_equal. unfold far, peer. cbn. f_equal. lia.
  - intros k cl q l E El. apply nth_app2_some in E as [E|[[-> [= -> ->]]|[-> [= -> ->]]]].
    + apply nth_error_snoc_some in El as [El|[-> ->]]; [|destruct (P _ _ _ E); lia].
      specialize (R_p0 k cl q l E El). destruct (l_server l); [|assumption]. apply nth_app2_some. auto.
    + apply nth_error_snoc_some in El as [El|[_ ->]]; [|].
      { assert (length (w_links w) < length (w_links w)) by (apply nth_error_Some; congruence). lia. }
      cbn. apply nth_app2_some. right. right. split; [lia|reflexivity].
    + apply nth_error_snoc_some in El as [El|[_ ->]]; [|].
      { assert (length (w_links w) < length (w_links w)) by (apply nth_error_Some; congruence). lia. }
      cbn. apply nth_app2_some. right. left. split; [lia|reflexivity].
  - intros k k' cl q E E'. apply nth_app2_some in E as [E|[[-> [= -> ->]]|[-> [= -> ->]]]];
      apply nth_app2_some in E' as [E'|[[-> E']|[-> E']]]; try discriminate; eauto;
      try (injection E' as -> ->); try (destruct (P _ _ _ E); lia); try (destruct (P _ _ _ E'); lia); reflexivity.
  - intros q l u E Eu. apply nth_error_snoc_some in E as [E|[_ ->]]; [eauto|]. cbn in Eu. injection Eu as <-.
    exists x. split; [assumption|]. specialize (R_z0 _ _ Ex). destruct (t_ready x); [reflexivity|]. destruct R_z0. contradiction.
  - intros q l E D. apply nth_error_snoc_some in E as [E|[_ ->]]; [|discriminate].
    destruct (R_d0 q l E D) as (U & s & u & E1 & E2). split; [assumption|]. exists s, u. split; [assumption|]. apply nth_app2_some; auto.
  - intros u y s E. rewrite (R_l0 u y s E). split; intros (q & l & E1 & E2 & E3 & E4).
    + exists q, l. split; [apply nth_app2_some; auto|]. split; [apply nth_error_snoc_some; auto|auto].
    + apply nth_error_snoc_some in E2 as [E2|[_ ->]]; [|discriminate]. exists q, l. split; [|auto].
      apply nth_app2_some in E1 as [E1|[[_ [= ->]]|[_ [=]]]]; [assumption|].
      assert (length (w_links w) < length (w_links w)) by (apply nth_error_Some; congruence). lia.
Qed.

Lemma make_pair h w t x : R h w -> nth_error (h_trans h) t = Some x ->
  if t_size x =? 0 then NewEntangledSockets h t = None
  else exists h', NewEntangledSockets h t = Some (h', (length (w_ends w), S (length (w_ends w)))) /\ R h' (with_pair w t (t_size x)).
Proof.
  intros H Ex. unfold NewEntangledSockets. rewrite Ex. unfold newSocket, NewBuffer.
  destruct (Nat.eqb_spec (t_size x) 0) as [->|Z]; [reflexivity|].
  destruct (Nat.ltb_spec (t_size x) 1); [lia|]. cbn [new_sock h_trans h_socks h_cells h_new].
  pose proof (R_len _ _ H) as HL.
  eexists. split; [|exact (new_ends h w t x H Ex Z)].
  unfold entangleSockets. cbn [h_socks h_trans h_cells h_new]. rewrite <- app_assoc. cbn [app]. rewrite app_length. cbn [length].
  rewrite Nat.add_1_r.
  rewrite !nth_app2. rewrite !Nat.eqb_refl.
  assert (length (h_socks h) <? length (h_socks h) = false) as -> by (apply Nat.ltb_ge; lia).
  assert (S (length (h_socks h)) <? length (h_socks h) = false) as -> by (apply Nat.ltb_ge; lia).
  assert (S (length (h_socks h)) =? length (h_socks h) = false) as -> by (apply Nat.eqb_neq; lia).
  cbn [so_status so_server so_open so_size new_cell set_sock h_socks h_cells h_trans h_new]. rewrite HL.
  rewrite (R_c _ _ H), map_length. unfold set_sock. cbn [h_socks h_cells h_trans h_new]. do 3 f_equal.
  apply nth_ext_error. intros i. rewrite !nth_set, !nth_app2, HL.
  destruct (Nat.ltb_spec i (length (w_ends w))).
  - destruct (Nat.eqb_spec (S (length (w_ends w))) i); [lia|]. destruct (Nat.eqb_spec (length (w_ends w)) i); [lia|]. reflexivity.
  - destruct (Nat.eqb_spec (length (w_ends w)) i) as [<-|].
    + rewrite Nat.eqb_refl. destruct (Nat.eqb_spec (S (length (w_ends w))) (length (w_ends w))); [lia|]. reflexivity.
    + destruct (Nat.eqb_spec i (length (w_ends w))); [lia|]. destruct (Nat.eqb_spec (S (length (w_ends w))) i) as [<-|].
      * rewrite Nat.eqb_refl. reflexivity.
      * destruct (Nat.eqb_spec i (S (length (w_ends w)))); [lia|]. reflexivity.
Qed.

Lemma make_alone h w : R h w -> exists h',
  newDisconnectedSocket h = Some (h', length (w_ends w)) /\
  R h' (MkWorld (w_services w) (w_ends w ++ [(true, length (w_links w))]) (w_links w ++ [MkLink None 1 false false]) (w_new w)).
Proof.
  intros H. pose proof (R_len _ _ H) as HL. unfold newDisconnectedSocket, new_cell, NewBuffer, new_sock. cbn -[length]. change (1 <? 1) with false. cbv iota.
  rewrite HL. eexists. split; [reflexivity|].
  assert (P : forall k cl q, nth_error (w_ends w) k = Some (cl, q) -> q < length (w_links w)).
  { intros k cl q E. destruct (R_e _ _ H k cl q E) as (l & _ & E1 & _). apply nth_error_Some; congruence. }
  destruct H. constructor; cbn [w_services w_ends w_links w_new h_trans h_socks h_cells h_new]; auto.
  - rewrite map_app, R_c0. reflexivity.
  - rewrite !app_length. cbn. lia.
  - intros k cl q E. apply nth_error_snoc_some in E as [E|[-> [= -> ->]]].
    + destruct (R_e0 k cl q E) as (l & s & E1 & E2 & E3 & E4). exists l, s.
      split; [apply nth_error_snoc_some; auto|]. split; [apply nth_error_snoc_some; auto|auto].
    + eexists. eexists. split; [apply nth_error_snoc_some; auto|]. split; [apply nth_error_snoc_some; right; split; [symmetry; exact HL|reflexivity]|].
      cbn. rewrite R_c0, map_length. split; [|reflexivity]. reflexivity.
  - intros k cl q l E El. apply nth_error_snoc_some in E as [E|[-> [= -> ->]]].
    + apply nth_error_snoc_some in El as [El|[-> ->]]; [|specialize (P _ _ _ E); lia].
      specialize (R_p0 k cl q l E El). destruct (l_server l); [|assumption]. apply nth_error_snoc_some. auto.
    + apply nth_error_snoc_some in El as [El|[_ ->]]; [|cbn; auto].
      assert (length (w_links w) < length (w_links w)) by (apply nth_error_Some; congruence). lia.
  - intros k k' cl q E E'. apply nth_error_snoc_some in E as [E|[-> [= -> ->]]];
      apply nth_error_snoc_some in E' as [E'|[-> E']]; eauto;
      try (injection E' as -> ->); try (specialize (P _ _ _ E); lia); try (specialize (P _ _ _ E'); lia).
  - intros q l u E Eu. apply nth_error_snoc_some in E as [E|[_ ->]]; [eauto|discriminate].
  - intros q l E D. apply nth_error_snoc_some in E as [E|[_ ->]]; [|discriminate].
    destruct (R_d0 q l E D) as (U & s & u & E1 & E2). split; [assumption|]. exists s, u. split; [assumption|]. apply nth_error_snoc_some; auto.
  - intros u y s E. rewrite (R_l0 u y s E). split; intros (q & l & E1 & E2 & E3 & E4).
    + exists q, l. split; [apply nth_error_snoc_some; auto|]. split; [apply nth_error_snoc_some; auto|auto].
    + apply nth_error_snoc_some in E2 as [E2|[_ ->]]; [|discriminate]. exists q, l. split; [|auto].
      apply nth_error_snoc_some in E1 as [E1|[_ [= ->]]]. assumption.
Qed.
