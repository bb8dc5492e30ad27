(* The in-memory transport: connected pairs have open channels, disconnected pairs closed ones. *)
From Coq Require Import List Arith NArith ZArith Lia Bool.
From Verif Require Import BaseBytes BaseConc ModelMessage ModelWrite ModelMemchan SpecWire SpecWrite SpecMemchan.
From Verif Require Import ProofMemchan ProofMemchan2 ProofMemchan3.
Import ListNotations.
Open Scope nat_scope.

Definition mid (p : nat) (t : thread) : option (sock * clstate) :=
  match closing t with Some (k, s) => if (fst k =? p) && mid_close s then Some (k, s) else None | None => None end.
Definition shut (n : net) (k : sock) : bool := h_closed (n_chan n k (u_gen (n_sock n k))).
Definition phase (n : net) (k : sock) (s : clstate) : Prop :=
  match s with
  | ClRemote => shut n (remote k) = false /\ shut n k = false
  | ClSel1 | ClSel2 | ClLocal => shut n (remote k) = true /\ shut n k = false
  | ClDisc => shut n (remote k) = true /\ shut n k = true
  | _ => True
  end.
Record stat (p : nat) (n : net) (ts : list thread) : Prop := {
  s_u : forall i j t u, nth_error ts i = Some t -> nth_error ts j = Some u -> mid p t <> None -> mid p u <> None -> i = j;
  s_m : forall i t k s, nth_error ts i = Some t -> mid p t = Some (k, s) -> n_on n p = false /\ phase n k s;
  s_d : forall i t, nth_error ts i = Some t -> dialing p t = true -> n_on n p = true;
  s_o : n_on n p = true -> (forall i t, nth_error ts i = Some t -> dialing p t = false) -> shut n (p, Srv) = false /\ shut n (p, Clt) = false;
  s_2 : forall i, nth_error ts i = Some (TDial p DlReset2) -> shut n (p, Clt) = false;
  s_c : n_on n p = false -> (forall i t, nth_error ts i = Some t -> mid p t = None) ->
    (forall i t, nth_error ts i = Some t -> busy p t = false) \/ (shut n (p, Srv) = true /\ shut n (p, Clt) = true);
  s_f : forall k x, fst k = p -> u_gen (n_sock n k) < x -> h_closed (n_chan n k x) = false }.

Lemma mid_fst p t k s : mid p t = Some (k, s) -> fst k = p.
Proof. unfold mid. destruct (closing t) as [[k0 s0]|]; [|discriminate]. destruct (Nat.eqb_spec (fst k0) p); [|discriminate]. destruct (mid_close s0); [|discriminate]. intros H. injection H as <- _. assumption. Qed.
Lemma mid_dialing p q t k s : mid p t = Some (k, s) -> dialing q t = false.
Proof. destruct t; try reflexivity. discriminate. Qed.
Lemma mid_busy p t k s : mid p t = Some (k, s) -> busy p t = true.
Proof.
  unfold mid. destruct t as [|k0 ? ? []|k0 s0| |[| | |q s0|]]; try discriminate; cbn.
  - destruct (Nat.eqb_spec (fst k0) p); [reflexivity|discriminate].
  - destruct ((fst k0 =? p) && mid_close s0); congruence.
  - destruct ((q =? p) && mid_close s0); congruence.
Qed.
Lemma sides (P : sock -> Prop) k : P (fst k, Srv) -> P (fst k, Clt) -> P k.
Proof. destruct k as [p []]; auto. Qed.

Lemma stat_frame p n n' ts i t t' : stat p n ts -> nth_error ts i = Some t ->
  n_on n' p = n_on n p ->
  (forall k, fst k = p -> shut n' k = shut n k) ->
  (forall k x, fst k = p -> u_gen (n_sock n' k) < x -> h_closed (n_chan n' k x) = h_closed (n_chan n k x) /\ u_gen (n_sock n k) < x) ->
  (mid p t' = mid p t \/ exists k s s', mid p t = Some (k, s) /\ mid p t' = Some (k, s') /\ (phase n k s -> phase n k s')) ->
  dialing p t' = dialing p t ->
  (busy p t' = true -> busy p t = true \/ n_on n p = true) ->
  (t' = TDial p DlReset2 -> t = t') ->
  stat p n' (set_nth ts i t').
Proof.
  intros [U M D O S2 C F] I On Sh Fr Mi Di Bu R2.
  assert (Ld : forall x u, nth_error (set_nth ts i t') x = Some u -> (x = i /\ u = t') \/ (x <> i /\ nth_error ts x = Some u)).
  { intros x u X. apply set_nth_lookup in X as [[<- ->]|[E X]]; auto. }
  assert (Ph : forall k s, fst k = p -> phase n k s -> phase n' k s).
  { intros k s Q. destruct s; cbn; auto; rewrite !Sh by auto; auto. }
  assert (Mn : mid p t' <> None -> mid p t <> None) by (destruct Mi as [->|(k & s & s' & -> & _)]; [auto|discriminate]).
  constructor.
  - intros x y a b A B Ma Mb. destruct (Ld _ _ A) as [[-> ->]|[Dx A']], (Ld _ _ B) as [[-> ->]|[Dy B']]; eauto.
  - intros x a k s A Ma. rewrite On. destruct (Ld _ _ A) as [[-> ->]|[Dx A']].
    + destruct Mi as [Q|(k1 & s1 & s1' & Q1 & Q2 & Q3)].
      * rewrite Q in Ma. destruct (M _ _ _ _ I Ma). split; [assumption|]. apply Ph; [eapply mid_fst; eauto|assumption].
      * rewrite Q2 in Ma. injection Ma as <- <-. destruct (M _ _ _ _ I Q1). split; [assumption|]. apply Ph; [eapply mid_fst; eauto|auto].
    + destruct (M _ _ _ _ A' Ma). split; [assumption|]. apply Ph; [eapply mid_fst; eauto|assumption].
  - intros x a A Da. rewrite On. destruct (Ld _ _ A) as [[-> ->]|[Dx A']]; [|eauto]. rewrite Di in Da. eauto.
  - rewrite On, !Sh by reflexivity. intros N K. apply O; [exact N|]. intros x a A.
    destruct (Nat.eq_dec i x) as [<-|Dx].
    + rewrite I in A. injection A as <-. rewrite <- Di. apply (K i). eapply set_nth_eq; eauto.
    + apply (K x). rewrite set_nth_ne by auto. exact A.
  - intros x A. rewrite Sh by reflexivity. destruct (Ld _ _ A) as [[-> Q]|[Dx A']]; [|eauto]. apply (S2 i). rewrite I, R2 by auto. rewrite <- Q. reflexivity.
  - rewrite On, !Sh by reflexivity. intros N K. destruct C as [C|C]; [exact N| | |right; exact C].
    + intros x a A. destruct (Nat.eq_dec i x) as [<-|Dx].
      * rewrite I in A. injection A as <-. assert (X : mid p t' = None) by (apply (K i); eapply set_nth_eq; eauto).
        destruct Mi as [<-|(k1 & s1 & s1' & _ & Q & _)]; congruence.
      * apply (K x). rewrite set_nth_ne by auto. exact A.
    + left. intros x a A. destruct (Ld _ _ A) as [[-> ->]|[Dx A']]; [|eauto].
      destruct (busy p t') eqn:B; [|reflexivity]. destruct (Bu eq_refl) as [X|X]; [rewrite (C _ _ I) in X|]; congruence.
  - intros k x Q X. destruct (Fr k x Q X) as [-> Y]. auto.
Qed.
(* Close takes a step that closes a channel, or ends *)
Lemma stat_mid p n n' ts i t t' k s s' : stat p n ts -> nth_error ts i = Some t -> mid p t = Some (k, s) ->
  mid p t' = Some (k, s') \/ (mid p t' = None /\ shut n' (p, Srv) = true /\ shut n' (p, Clt) = true) ->
  n_on n' p = false -> phase n' k s' -> dialing p t' = false ->
  (forall k x, fst k = p -> u_gen (n_sock n' k) < x -> h_closed (n_chan n' k x) = h_closed (n_chan n k x) /\ u_gen (n_sock n k) < x) ->
  stat p n' (set_nth ts i t').
Proof.
  intros [U M D O S2 C F] I Mt Mt' On Ph Di Fr.
  assert (Ld : forall x u, nth_error (set_nth ts i t') x = Some u -> (x = i /\ u = t') \/ (x <> i /\ nth_error ts x = Some u)).
  { intros x u X. apply set_nth_lookup in X as [[<- ->]|[E X]]; auto. }
  assert (Ot : forall x a, x <> i -> nth_error ts x = Some a -> mid p a = None).
  { intros x a X A. destruct (mid p a) as [z|] eqn:E; [|reflexivity]. exfalso. apply X. eapply U; eauto; congruence. }
  destruct (M _ _ _ _ I Mt) as [Off _].
  constructor.
  - intros x y a b A B Ma Mb. destruct (Ld _ _ A) as [[-> ->]|[Dx A']], (Ld _ _ B) as [[-> ->]|[Dy B']]; auto;
      exfalso; first [apply Mb; eapply Ot; [|eassumption]; assumption|apply Ma; eapply Ot; [|eassumption]; assumption].
  - intros x a k1 s1 A Ma. split; [exact On|]. destruct (Ld _ _ A) as [[-> ->]|[Dx A']].
    + destruct Mt' as [Q|[Q _]]; rewrite Q in Ma; [|discriminate]. injection Ma as <- <-. exact Ph.
    + rewrite (Ot _ _ Dx A') in Ma. discriminate.
  - intros x a A Da. destruct (Ld _ _ A) as [[-> ->]|[Dx A']]; [congruence|]. assert (n_on n p = true) by eauto. congruence.
  - congruence.
  - intros x A. assert (X : dialing p (TDial p DlReset2) = true) by (cbn; apply Nat.eqb_refl).
    destruct (Ld _ _ A) as [[-> Q]|[Dx A']]; [rewrite Q in X; congruence|]. assert (n_on n p = true) by eauto. congruence.
  - intros _ K. destruct Mt' as [Q|[_ Q]]; [|auto]. assert (X : mid p t' = None) by (apply (K i); eapply set_nth_eq; eauto). congruence.
  - intros k1 x Q X. destruct (Fr k1 x Q X) as [-> Y]. auto.
Qed.
Lemma stat_on p n ts i t t' k : stat p n ts -> nth_error ts i = Some t -> n_on n p = true ->
  mid p t' = Some (k, ClRemote) -> dialing p t = false ->
  (forall x u, x <> i -> nth_error ts x = Some u -> dialing p u = false) ->
  stat p (set_on p false n) (set_nth ts i t').
Proof.
  intros [U M D O S2 C F] I On Mt Dt Nd.
  assert (Ld : forall x u, nth_error (set_nth ts i t') x = Some u -> (x = i /\ u = t') \/ (x <> i /\ nth_error ts x = Some u)).
  { intros x u X. apply set_nth_lookup in X as [[<- ->]|[E X]]; auto. }
  assert (Ot : forall x a, nth_error ts x = Some a -> mid p a = None).
  { intros x a A. destruct (mid p a) as [[k1 s1]|] eqn:E; [|reflexivity]. destruct (M _ _ _ _ A E). congruence. }
  assert (Di : forall x u, nth_error ts x = Some u -> dialing p u = false).
  { intros x u X. destruct (Nat.eq_dec x i) as [->|Dx]; [congruence|eauto]. }
  assert (Dn : forall x u, nth_error (set_nth ts i t') x = Some u -> dialing p u = false).
  { intros x u X. destruct (Ld _ _ X) as [[-> ->]|[Dx X']]; [eapply mid_dialing; eauto|eauto]. }
  constructor.
  - intros x y a b A B Ma Mb. destruct (Ld _ _ A) as [[-> ->]|[Dx A']], (Ld _ _ B) as [[-> ->]|[Dy B']]; auto;
      exfalso; first [apply Mb; eapply Ot; eassumption|apply Ma; eapply Ot; eassumption].
  - intros x a k1 s1 A Ma. split; [netu; netc; unfold upd; rewrite Nat.eqb_refl; reflexivity|]. destruct (Ld _ _ A) as [[-> ->]|[Dx A']].
    + rewrite Mt in Ma. injection Ma as <- <-. destruct (O On Di) as [O1 O2]. pose proof (mid_fst _ _ _ _ Mt) as Q. subst p.
      unfold shut in *. cbn. destruct k as [q []]; cbn in *; unfold remote; cbn; auto.
    + rewrite (Ot _ _ A') in Ma. discriminate.
  - intros x a A Da. rewrite (Dn _ _ A) in Da. discriminate.
  - netu; netc. unfold upd. rewrite Nat.eqb_refl. discriminate.
  - intros x A. apply Dn in A. cbn in A. rewrite Nat.eqb_refl in A. discriminate.
  - intros _ K. assert (X : mid p t' = None) by (apply (K i); eapply set_nth_eq; eauto). congruence.
  - exact F.
Qed.
(* Dial connects, and resets a reader *)
Lemma stat_dial p n n' ts i t t' : stat p n ts -> nth_error ts i = Some t ->
  n_on n' p = true -> mid p t' = None ->
  (forall x u, x <> i -> nth_error ts x = Some u -> busy p u = false) ->
  (dialing p t' = true \/ shut n' (p, Srv) = false /\ shut n' (p, Clt) = false) ->
  (t' = TDial p DlReset2 -> shut n' (p, Clt) = false) ->
  (forall k x, fst k = p -> u_gen (n_sock n' k) < x -> h_closed (n_chan n' k x) = h_closed (n_chan n k x) /\ u_gen (n_sock n k) < x) ->
  stat p n' (set_nth ts i t').
Proof.
  intros [U M D O S2 C F] I On Mt Nb Op R2 Fr.
  assert (Ld : forall x u, nth_error (set_nth ts i t') x = Some u -> (x = i /\ u = t') \/ (x <> i /\ nth_error ts x = Some u)).
  { intros x u X. apply set_nth_lookup in X as [[<- ->]|[E X]]; auto. }
  assert (Ot : forall x a, nth_error (set_nth ts i t') x = Some a -> mid p a = None).
  { intros x a A. destruct (Ld _ _ A) as [[-> ->]|[Dx A']]; [assumption|].
    destruct (mid p a) as [[k1 s1]|] eqn:E; [|reflexivity]. apply mid_busy in E. rewrite (Nb x a) in E by auto. discriminate. }
  constructor.
  - intros x y a b A B Ma Mb. rewrite (Ot _ _ A) in Ma. congruence.
  - intros x a k1 s1 A Ma. rewrite (Ot _ _ A) in Ma. congruence.
  - auto.
  - intros _ K. destruct Op as [Q|Q]; [|exact Q]. rewrite (K i t') in Q by (eapply set_nth_eq; eauto). discriminate.
  - intros x A. destruct (Ld _ _ A) as [[-> Q]|[Dx A']]; [auto|]. apply Nb in A'; [|assumption]. cbn in A'. rewrite Nat.eqb_refl in A'. discriminate.
  - congruence.
  - intros k x Q X. destruct (Fr k x Q X) as [-> Y]. auto.
Qed.
Lemma ne_fst (k : sock) p d : fst k <> p -> sock_eqb k (p, d) = false.
Proof. intros N. destruct (sock_eqb_spec k (p, d)) as [->|]; [exfalso; apply N|]; reflexivity. Qed.
Ltac sf D I := eapply (stat_frame _ _ _ _ _ _ _ D I); unfold shut in *; netu; netc; unfold upd;
  [ first [reflexivity | caseq; first [reflexivity|congruence]]
  | intros ?k0 ?Q; caseq; cbn; first [reflexivity|congruence|exfalso; cbn in *; congruence]
  | intros ?k0 ?x ?Q ?X; caseq; cbn; split; first [reflexivity|assumption|congruence|lia|exfalso; cbn in *; congruence]
  | first [left; reflexivity | left; unfold mid; cbn; rewrite ?andb_false_r; reflexivity | idtac]
  | first [reflexivity | idtac]
  | let B := fresh in cbn; intros B; first [discriminate B | left; exact B | rewrite andb_false_r in B; discriminate B | rewrite andb_true_r in B; first [left; exact B|apply Nat.eqb_eq in B; subst; auto]]
  | first [discriminate | congruence | idtac]].
Lemma mid_eq t k s p : closing t = Some (k, s) -> mid p t = if (fst k =? p) && mid_close s then Some (k, s) else None.
Proof. unfold mid. intros ->. reflexivity. Qed.
Lemma to_close_closing t k s s' : closing t = Some (k, s) -> s' <> ClDone -> closing (to_close t s') = Some (k, s').
Proof. destruct t as [| ? ? ? []| | |[]]; try discriminate; cbn; intros Q D; injection Q as <- <-; destruct s'; try reflexivity; congruence. Qed.
Lemma to_close_done t k s p : closing t = Some (k, s) -> mid p (to_close t ClDone) = None.
Proof. destruct t as [| ? ? ? []| | |[]]; try discriminate; cbn; intros Q; injection Q as <- <-; unfold mid; cbn; rewrite ?andb_false_r; reflexivity. Qed.
Lemma to_close_dialing t k s s' p : closing t = Some (k, s) -> dialing p (to_close t s') = false /\ dialing p t = false.
Proof. destruct t as [| ? ? ? []| | |[]]; try discriminate; cbn; intros Q; destruct s'; auto. Qed.
Lemma to_close_busy t k s s' p : closing t = Some (k, s) -> busy p (to_close t s') = true -> busy p t = true \/ (fst k = p /\ s' <> ClDone).
Proof.
  destruct t as [| ? ? ? []| | |[]]; try discriminate; cbn; intros Q; injection Q as <- <-; destruct s'; cbn; rewrite ?andb_false_r; try discriminate; auto;
   intros B; apply andb_prop in B as [B _]; apply Nat.eqb_eq in B; right; (split; [assumption|discriminate]).
Qed.
Lemma end_close_net i t s n : n_on (end_close i t s n) = n_on n /\ n_chan (end_close i t s n) = n_chan n /\
  forall k, u_gen (n_sock (end_close i t s n) k) = u_gen (n_sock n k).
Proof.
  destruct t as [| ? ? ? []| | |]; cbn; auto. destruct s; auto. split; [reflexivity|]. split; [reflexivity|].
  intros k1. netu; netc. caseq; reflexivity.
Qed.
Lemma stat_step p ts i n t n' t' w : stat p n ts -> (forall j k, nth_error ts j <> Some (TWrite k WBlock)) -> nth_error ts i = Some t ->
  trel ts i n t n' t' w -> calm (MkSys n ts) -> calm (MkSys n' (set_nth ts i t')) -> stat p n' (set_nth ts i t').
Proof.
  intros D NW I T C0 C.
  assert (NB : dialing p t' = true -> forall j u, j <> i -> nth_error ts j = Some u -> busy p u = false).
  { intros Dp j u J U. apply (C i j p t' u); auto; unfold at_; cbn; [eapply set_nth_eq; eauto|rewrite set_nth_ne by auto; exact U]. }
  assert (ND : busy p t' = true -> forall j u, j <> i -> nth_error ts j = Some u -> dialing p u = false).
  { intros Bp j u J U. destruct (dialing p u) eqn:E; [|reflexivity].
    assert (X : busy p t' = false); [|congruence].
    apply (C j i p u t'); auto; unfold at_; cbn; [rewrite set_nth_ne by auto; exact U|eapply set_nth_eq; eauto]. }
  tcases T k1 s n1 s1 H H0; clear T C.
  - inversion H; subst; clear H; try (exfalso; eapply NW; eassumption); sf D I.
  - inversion H; subst; clear H; sf D I.
  - destruct (end_close_net i t s1 n1) as (E1 & E2 & E3).
    destruct (to_close_dialing _ _ _ s1 p H) as [Dt' Dt].
    pose proof (to_close_busy _ _ _ s1 p H) as Bu.
    assert (Sh : forall k, shut (end_close i t s1 n1) k = shut n1 k) by (intros k; unfold shut; rewrite E2, E3; reflexivity).
    assert (Rn : to_close t s1 = TDial p DlReset2 -> t = to_close t s1) by (intros Q; rewrite Q in Dt'; cbn in Dt'; rewrite Nat.eqb_refl in Dt'; discriminate).
    assert (Fr0 : forall k x, fst k = p -> u_gen (n_sock (end_close i t s1 n1) k) < x ->
       h_closed (n_chan (end_close i t s1 n1) k x) = h_closed (n_chan n k x) /\ u_gen (n_sock n k) < x).
    { intros k x Q X. rewrite E2. rewrite E3 in X. clear - H0 X Q.
      destruct H0; netu; netc; unfold upd; caseq; cbn; (split; [|try exact X]); auto; try lia. }
    pose proof (mid_eq _ _ _ p H) as Mt.
    destruct (Nat.eqb_spec (fst k1) p) as [Qp|Np].
    + inversion H0; subst; clear H0; cbn [mid_close andb] in Mt.
      * (* C_on *) replace (end_close i t ClRemote (set_on (fst k1) false n)) with (set_on (fst k1) false n) by (destruct t as [| ? ? ? []| | |]; reflexivity).
        eapply stat_on; eauto.
        -- rewrite (mid_eq _ _ _ (fst k1) (to_close_closing _ _ _ ClRemote H ltac:(discriminate))). rewrite Nat.eqb_refl. reflexivity.
        -- apply ND. pose proof (mid_eq _ _ _ (fst k1) (to_close_closing _ _ _ ClRemote H ltac:(discriminate))) as X.
           rewrite Nat.eqb_refl in X. exact (mid_busy _ _ _ _ X).
      * (* C_off *) eapply (stat_frame _ _ _ _ _ _ _ D I); eauto; rewrite ?E1; auto.
        -- left. rewrite Mt. eapply to_close_done; eauto.
        -- intros B. destruct (Bu B) as [B'|[_ B']]; [auto|congruence].
      * (* C_remote *) pose proof (to_close_closing _ _ _ ClSel1 H ltac:(discriminate)) as Cl. pose proof (mid_eq _ _ _ (fst k1) Cl) as Mt'. rewrite Nat.eqb_refl in Mt'.
        destruct (s_m _ _ _ D _ _ _ _ I Mt) as [Off Ph]. cbn in Ph.
        eapply (stat_mid _ _ _ _ _ _ _ k1 ClRemote ClSel1 D I); eauto.
        -- rewrite E1. exact Off.
        -- cbn. rewrite !Sh. unfold shut in *. netu; netc. unfold upd. rewrite sock_eqb_refl, Nat.eqb_refl, remote_ne'. cbn. tauto.
      * (* crash *) destruct (s_m _ _ _ D _ _ _ _ I Mt) as [Off Ph]. cbn in Ph. unfold shut in Ph. destruct Ph. congruence.
      * (* sel1 *) pose proof (to_close_closing _ _ _ ClSel2 H ltac:(discriminate)) as Cl. pose proof (mid_eq _ _ _ (fst k1) Cl) as Mt'. rewrite Nat.eqb_refl in Mt'.
        destruct (s_m _ _ _ D _ _ _ _ I Mt) as [Off Ph]. cbn in Ph.
        eapply (stat_mid _ _ _ _ _ _ _ k1 ClSel1 ClSel2 D I); eauto.
        -- rewrite E1. exact Off.
        -- cbn. rewrite !Sh. exact Ph.
      * pose proof (to_close_closing _ _ _ ClSel2 H ltac:(discriminate)) as Cl. pose proof (mid_eq _ _ _ (fst k1) Cl) as Mt'. rewrite Nat.eqb_refl in Mt'.
        destruct (s_m _ _ _ D _ _ _ _ I Mt) as [Off Ph]. cbn in Ph.
        eapply (stat_mid _ _ _ _ _ _ _ k1 ClSel1 ClSel2 D I); eauto.
        -- rewrite E1. exact Off.
        -- cbn. rewrite !Sh. exact Ph.
      * pose proof (to_close_closing _ _ _ ClLocal H ltac:(discriminate)) as Cl. pose proof (mid_eq _ _ _ (fst k1) Cl) as Mt'. rewrite Nat.eqb_refl in Mt'.
        destruct (s_m _ _ _ D _ _ _ _ I Mt) as [Off Ph]. cbn in Ph.
        eapply (stat_mid _ _ _ _ _ _ _ k1 ClSel2 ClLocal D I); eauto.
        -- rewrite E1. exact Off.
        -- cbn. rewrite !Sh. exact Ph.
      * pose proof (to_close_closing _ _ _ ClLocal H ltac:(discriminate)) as Cl. pose proof (mid_eq _ _ _ (fst k1) Cl) as Mt'. rewrite Nat.eqb_refl in Mt'.
        destruct (s_m _ _ _ D _ _ _ _ I Mt) as [Off Ph]. cbn in Ph.
        eapply (stat_mid _ _ _ _ _ _ _ k1 ClSel2 ClLocal D I); eauto.
        -- rewrite E1. exact Off.
        -- cbn. rewrite !Sh. exact Ph.
      * (* C_local *) pose proof (to_close_closing _ _ _ ClDisc H ltac:(discriminate)) as Cl. pose proof (mid_eq _ _ _ (fst k1) Cl) as Mt'. rewrite Nat.eqb_refl in Mt'.
        destruct (s_m _ _ _ D _ _ _ _ I Mt) as [Off Ph]. cbn in Ph.
        eapply (stat_mid _ _ _ _ _ _ _ k1 ClLocal ClDisc D I); eauto.
        -- rewrite E1. exact Off.
        -- cbn. rewrite !Sh. unfold shut in *. netu; netc. unfold upd. rewrite sock_eqb_refl, Nat.eqb_refl, remote_ne. cbn. tauto.
      * destruct (s_m _ _ _ D _ _ _ _ I Mt) as [Off Ph]. cbn in Ph. unfold shut in Ph. destruct Ph. congruence.
      * (* C_disc *) destruct (s_m _ _ _ D _ _ _ _ I Mt) as [Off Ph]. cbn in Ph.
        eapply (stat_mid _ _ _ _ _ _ _ k1 ClDisc ClDisc D I); eauto.
        -- right. split; [eapply to_close_done; eauto|]. rewrite !Sh. unfold shut in *. netu; netc. destruct k1 as [q []]; unfold remote in *; cbn in *; tauto.
        -- rewrite E1. exact Off.
        -- cbn. rewrite !Sh. exact Ph.
    + eapply (stat_frame _ _ _ _ _ _ _ D I); eauto; rewrite ?E1.
      * clear - H0 Np. destruct H0; netu; netc; unfold upd; try reflexivity. destruct (Nat.eqb_spec p (fst k1)); congruence.
      * intros k Q. rewrite Sh. clear - H0 Np Q. unfold shut. destruct H0; netu; netc; unfold upd; caseq; cbn; auto; try (exfalso; apply Np; reflexivity).
      * left. rewrite Mt. cbn [andb]. destruct s1; try (erewrite mid_eq by (eapply to_close_closing; [eassumption|discriminate]); destruct (Nat.eqb_spec (fst k1) p); [contradiction|reflexivity]).
        eapply to_close_done; eauto.
      * intros B. destruct (Bu B) as [B'|[B' _]]; [auto|contradiction].
  - inversion H; subst; clear H; try (sf D I; fail).
    + (* D_cas *) destruct (Nat.eqb_spec p0 p) as [->|Np].
      * eapply (stat_dial _ n _ _ _ _ (TDial p DlReset1) D I); auto.
        -- netu; netc. unfold upd. rewrite Nat.eqb_refl. reflexivity.
        -- apply NB. cbn. apply Nat.eqb_refl.
        -- left. cbn. apply Nat.eqb_refl.
        -- discriminate.
      * sf D I.
        -- cbn. destruct (Nat.eqb_spec p0 p); congruence.
    + (* D_reset1 *) destruct (Nat.eqb_spec p0 p) as [->|Np].
      * eapply (stat_dial _ n _ _ _ _ (TDial p DlReset2) D I); auto.
        -- netu; netc. eapply s_d; eauto. cbn. apply Nat.eqb_refl.
        -- apply NB. cbn. apply Nat.eqb_refl.
        -- left. cbn. apply Nat.eqb_refl.
        -- intros _. unfold shut. netu; netc. rewrite sock_eqb_refl. netc. eapply s_f; eauto.
        -- intros k x _ X. netu; netc. caseq; netc; split; auto; lia.
      * sf D I.
    + (* D_reset2 *) destruct (Nat.eqb_spec p0 p) as [->|Np].
      * eapply (stat_dial _ n _ _ _ _ (TDial p DlShut) D I); auto.
        -- netu; netc. eapply s_d; eauto. cbn. apply Nat.eqb_refl.
        -- intros x u X U. apply (C0 i x p (TDial p DlReset2) u); auto. cbn. apply Nat.eqb_refl.
        -- right. unfold shut. netu; netc. rewrite sock_eqb_refl. netc. split; [eapply s_f; eauto|].
           assert (X : sock_eqb (p, Clt) (p, Srv) = false) by (destruct (sock_eqb_spec (p, Clt) (p, Srv)); congruence). rewrite X. eapply s_2; eauto.
        -- discriminate.
        -- intros k x _ X. netu; netc. caseq; netc; split; auto; lia.
      * sf D I.
        cbn. destruct (Nat.eqb_spec p0 p); congruence.
  - inversion H; subst; clear H; sf D I.
Qed.

(* ----- whole runs ----- *)
Definition idle_thread (t : thread) : Prop :=
  (forall k, rc k t = RcNone) /\ (forall k, wc k t = WcNone) /\ (forall p, dialing p t = false) /\ (forall p, mid p t = None) /\ (forall p, busy p t = false).
Lemma begin_idle e t : begin e = Some t -> idle_thread t.
Proof.
  destruct e; try discriminate; intros H; injection H as <-; repeat split; intros; cbn; rewrite ?andb_false_r; auto.
  all: unfold mid; cbn; rewrite andb_false_r; reflexivity.
Qed.
Lemma snoc_lookup {A} (l : list A) t x u : nth_error (l ++ [t]) x = Some u -> nth_error l x = Some u \/ u = t.
Proof. rewrite nth_error_snoc. destruct (x <? length l); auto. destruct (x =? length l); [|discriminate]. intros H. injection H as <-. auto. Qed.
Lemma snoc_old {A} (l : list A) t x u : nth_error l x = Some u -> nth_error (l ++ [t]) x = Some u.
Proof. intros H. rewrite nth_error_app1; [exact H|]. apply nth_error_Some. congruence. Qed.
Lemma dir_begin k n ts t st : dir k n ts st -> idle_thread t -> dir k n (ts ++ [t]) st.
Proof.
  intros [R W S O F P Dd] (Ir & Iw & Id & _ & _). constructor; auto.
  - intros j u U. apply snoc_lookup in U as [U| ->]; [apply R; exact U|rewrite Ir; exact Logic.I].
  - intros j u U. apply snoc_lookup in U as [U| ->]; [apply W; exact U|rewrite Iw; exact Logic.I].
  - destruct st; auto; destruct S as (S1 & S2 & u & S3 & S4); (split; [exact S1|]; split; [exact S2|]; exists u; split; [apply snoc_old; exact S3|exact S4]).
  - intros N. destruct (O N) as [A|[(x & u & U & V)|(x & u & U & V)]]; [auto| |].
    + right. left. exists x, u. split; [apply snoc_old; exact U|exact V].
    + right. right. exists x, u. split; [apply snoc_old; exact U|exact V].
  - intros x X. apply snoc_lookup in X as [X|X]; [eauto|]. specialize (Id (fst k)). rewrite <- X in Id. cbn in Id. rewrite Nat.eqb_refl in Id. discriminate.
Qed.
Lemma stat_begin p n ts t : stat p n ts -> idle_thread t -> stat p n (ts ++ [t]).
Proof.
  intros [U M D O S2 C F] (_ & _ & Id & Im & Ib). constructor; auto.
  - intros i j a b A B Ma Mb. apply snoc_lookup in A as [A| ->]; [|rewrite Im in Ma; congruence].
    apply snoc_lookup in B as [B| ->]; [eauto|rewrite Im in Mb; congruence].
  - intros i a k s A Ma. apply snoc_lookup in A as [A| ->]; [eauto|rewrite Im in Ma; congruence].
  - intros i a A Da. apply snoc_lookup in A as [A| ->]; [eauto|rewrite Id in Da; congruence].
  - intros On K. apply O; [exact On|]. intros i a A. apply (K i). apply snoc_old. exact A.
  - intros i A. apply snoc_lookup in A as [A|A]; [eauto|]. specialize (Id p). rewrite <- A in Id. cbn in Id. rewrite Nat.eqb_refl in Id. discriminate.
  - intros Off K. destruct C as [C|C]; [exact Off| |left|right; exact C].
    + intros i a A. apply (K i). apply snoc_old. exact A.
    + intros i a A. apply snoc_lookup in A as [A| ->]; eauto.
Qed.
(* Close wakes a writer *)
Lemma dir_wake k n ts j w st : dir k n ts st -> nth_error ts j = Some (TWrite w WParked) -> n_on n (fst w) = false ->
  dir k (set_wlk w None n) (set_nth ts j (TWrite w (WReset WrSockClosed))) st.
Proof.
  intros D J Off. destruct (sock_eqb_spec w (remote k)) as [->|N].
  - destruct D as [R W S O F P Dd].
    assert (Ld : forall x u, nth_error (set_nth ts j (TWrite (remote k) (WReset WrSockClosed))) x = Some u -> (x = j /\ u = TWrite (remote k) (WReset WrSockClosed)) \/ (x <> j /\ nth_error ts x = Some u)).
    { intros x u X. apply set_nth_lookup in X as [[<- ->]|[E X]]; auto. }
    assert (Eg : u_gen (n_sock (set_wlk (remote k) None n) k) = u_gen (n_sock n k)) by (netu; netc; caseq; reflexivity).
    assert (Eb : u_buf (n_sock (set_wlk (remote k) None n) (remote k)) = u_buf (n_sock n (remote k))) by (netu; netc; caseq; reflexivity).
    constructor; rewrite ?Eg, ?Eb.
    + intros x u X. destruct (Ld _ _ X) as [[-> ->]|[Dx X']]; [exact Logic.I|]. apply R. exact X'.
    + intros x u X. destruct (Ld _ _ X) as [[-> ->]|[Dx X']]; [exact Logic.I|]. pose proof (W _ _ X') as Y.
      unfold last_by in *. rewrite Eg. exact Y.
    + assert (X : forall h c, (exists u, nth_error ts h = Some u /\ rc k u = c) -> c <> RcNone ->
         exists u, nth_error (set_nth ts j (TWrite (remote k) (WReset WrSockClosed))) h = Some u /\ rc k u = c).
      { intros h c (u & U & V) Cn. exists u. split; [|exact V]. rewrite set_nth_ne; [exact U|]. intros <-. rewrite J in U. injection U as <-. cbn in V. congruence. }
      destruct st; try exact S; destruct S as (S1 & S2 & S3); (split; [exact S1|]; split; [exact S2|]; apply X; [exact S3|discriminate]).
    + intros _. left. exact Off.
    + exact F.
    + exact P.
    + intros x X. destruct (Ld _ _ X) as [[-> Q]|[Dx X']]; [discriminate|eauto].
  - fr D J.
Qed.
Lemma dir_ack k n ts i j r m d t' n' : locks n ts -> dir k n ts (Ack i) -> nth_error ts i = Some (TRead k m d (RdAck r)) ->
  nth_error ts j = Some (TWrite (remote k) WParked) -> t' = TRead k m d (RdDone r) ->
  n' = set_wlk (remote k) None (log (LReader i k r) (set_rlk k None n)) ->
  dir k n' (set_nth (set_nth ts i t') j (TWrite (remote k) (WReset WrRead))) Idle.
Proof.
  intros L [R W S O F P Dd] I J -> ->.
  assert (Dij : i <> j) by congruence.
  set (ts' := set_nth _ _ _).
  assert (Ld : forall x u, nth_error ts' x = Some u -> (x = j /\ u = TWrite (remote k) (WReset WrRead)) \/ (x = i /\ u = TRead k m d (RdDone r)) \/ (x <> j /\ x <> i /\ nth_error ts x = Some u)).
  { intros x u X. apply set_nth_lookup in X as [[<- ->]|[E X]]; auto. apply set_nth_lookup in X as [[<- ->]|[E' X]]; auto 6. }
  assert (Eg : u_gen (n_sock (set_wlk (remote k) None (log (LReader i k r) (set_rlk k None n))) k) = u_gen (n_sock n k)) by (netu; netc; caseq; reflexivity).
  assert (Lb : forall x, last_by k n x -> last_by k (set_wlk (remote k) None (log (LReader i k r) (set_rlk k None n))) x).
  { intros x (S0 & b & A & B). exists S0, b. rewrite Eg. netu; netc. rewrite sent_snoc, app_nil_r. split; [exact A|]. apply in_or_app. auto. }
  destruct S as (S1 & S2 & _).
  pose proof (W _ _ J) as WJ. cbn in WJ. rewrite sock_eqb_refl in WJ. destruct WJ as [_ WJ].
  constructor; rewrite ?Eg; try (netu; netc; rewrite ?sent_snoc, ?got_snoc, ?app_nil_r).
  - intros x u X. destruct (Ld _ _ X) as [[-> ->]|[[-> ->]|(Dx & Dx' & X')]]; cbn; auto.
    assert (Q : rc k u = RcNone); [|rewrite Q; exact Logic.I].
    destruct (rc k u) eqn:E; auto; exfalso;
      (assert (X1 : u_rlk (n_sock n k) = Some i) by (apply (L_r _ _ L); exists (TRead k m d (RdAck r)); split; [exact I|cbn; apply sock_eqb_refl]));
      (assert (Y : u_rlk (n_sock n k) = Some x) by (apply (L_r _ _ L); exists u; split; [exact X'|apply rc_holds; congruence])); congruence.
  - intros x u X. destruct (Ld _ _ X) as [[-> ->]|[[-> ->]|(Dx & Dx' & X')]]; cbn; auto.
    + rewrite sock_eqb_refl. split; [reflexivity|]. apply Lb. exact WJ.
    + pose proof (W _ _ X') as Y.
      assert (X1 : u_wlk (n_sock n (remote k)) = Some j) by (apply (L_w _ _ L); exists (TWrite (remote k) WParked); split; [exact J|cbn; apply sock_eqb_refl]).
      destruct (wc (remote k) u) eqn:E; auto.
      * exfalso. assert (u_wlk (n_sock n (remote k)) = Some x) by (apply (L_w _ _ L); exists u; split; [exact X'|apply fly_holds; exact E]). congruence.
      * destruct Y. discriminate.
  - auto.
  - congruence.
  - intros x X. rewrite sent_snoc, got_snoc, !app_nil_r. apply F. exact X.
  - intros x X. rewrite sent_snoc, got_snoc, !app_nil_r. apply P. exact X.
  - reflexivity.
Qed.
Definition flow (n : net) (ts : list thread) : Prop := (forall k, exists st, dir k n ts st) /\ (forall p, stat p n ts).
Lemma no_block n ts : flow n ts -> forall j k, nth_error ts j <> Some (TWrite k WBlock).
Proof.
  intros [F _] j k J. destruct (F (remote k)) as [st D]. pose proof (d_w _ _ _ _ D _ _ J) as X. cbn in X.
  rewrite remote_remote, sock_eqb_refl in X. exact X.
Qed.
Lemma flow_sys size s e s' : locks (s_net s) (s_ts s) -> books size (s_net s) (s_ts s) -> flow (s_net s) (s_ts s) ->
  calm s -> calm s' -> srel_ s e s' -> flow (s_net s') (s_ts s').
Proof.
  intros L K F C0 C H. pose proof (no_block _ _ F) as NB. destruct F as [FD FS].
  destruct s as [n ts]. destruct H as [e t B|i ch t n' t' I T|i ch t n' t' j v k I T D V J]; cbn in *.
  - apply begin_idle in B. split; intros x; [destruct (FD x) as [st X]; exists st; apply dir_begin; auto|apply stat_begin; auto].
  - split; intros x.
    + destruct (FD x) as [st X]. eapply (dir_step x); eauto. discriminate.
    + eapply (stat_step x); eauto.
  - assert (J' : nth_error (set_nth ts i t') j = Some (TWrite k WParked)) by (rewrite set_nth_ne by auto; exact J).
    assert (C1 : calm (MkSys n' (set_nth ts i t'))).
    { intros x y p a b N A B Da. unfold at_ in *. cbn in *.
      destruct (Nat.eq_dec x j) as [->|Nx]; [rewrite J' in A; injection A as <-; discriminate|].
      destruct (Nat.eq_dec y j) as [->|Ny].
      - rewrite J' in B. injection B as <-. assert (X : busy p (TWrite k (WReset v)) = false); [|exact X].
        apply (C x j p a); auto; unfold at_; cbn; [rewrite set_nth_ne by auto; exact A|eapply set_nth_eq; eauto].
      - apply (C x y p a b); auto; unfold at_; cbn; rewrite set_nth_ne by auto; assumption. }
    assert (SS : forall p, stat p n' (set_nth ts i t')) by (intros p; eapply (stat_step p); eauto).
    split; intros x.
    + destruct (FD x) as [st X]. destruct V as [-> | ->].
      * inversion T as [|k1 m d s n1 s1 w1 H|t1 k1 s n1 s1 w1 H H0| |]; subst; [|inversion H0].
        inversion H; subst. match goal with Q : nth_error ts j = Some (TWrite (remote k1) WParked) |- _ => rewrite J in Q; injection Q as -> end.
        destruct (sock_eqb_spec k1 x) as [->|Nx].
        -- pose proof (d_r _ _ _ _ X _ _ I) as Y. cbn in Y. rewrite sock_eqb_refl in Y. subst st.
           exists Idle. eapply dir_ack; eauto.
        -- exists st. assert (X1 : dir x (log (LReader i k1 r) (set_rlk k1 None n)) (set_nth ts i (TRead k1 m d (RdDone r))) st).
           { clear T H C C1 SS. fr X I. }
           assert (remote x <> remote k1) by (intros Q; apply Nx; apply remote_inj; congruence).
           clear T H C C1 SS X. fr X1 J'.
      * assert (X1 : exists st', dir x n' (set_nth ts i t') st') by (eapply dir_step; eauto; congruence).
        destruct X1 as [st' X1]. exists st'. apply dir_wake; auto.
        inversion T as [|k1 m d s n1 s1 w1 H|t1 k1 s n1 s1 w1 H H0| |]; subst; [inversion H|].
        assert (Q : fst k1 = fst k) by (inversion H0; subst; match goal with Q : nth_error ts j = Some (TWrite ?a WParked) |- _ => rewrite J in Q; injection Q as -> end; reflexivity).
        assert (s1 <> ClDone) by (inversion H0; discriminate).
        assert (mid_close s1 = true) by (inversion H0; reflexivity).
        pose proof (mid_eq _ _ _ (fst k) (to_close_closing _ _ _ s1 H ltac:(assumption))) as Mt.
        rewrite Q, Nat.eqb_refl, H2 in Mt. cbn in Mt.
        eapply (s_m _ _ _ (SS (fst k))); [eapply set_nth_eq; eauto|exact Mt].
    + pose proof (SS x) as X. clear SS T C C1 FD FS. sf X J'.
Qed.
Lemma flow_new size : flow (new_net size) [].
Proof.
  split; intros x.
  - exists Idle. constructor; cbn; auto; try (intros j; destruct j; discriminate).
    + intros y Hy. inversion Hy.
  - constructor; cbn; auto; try (intros j; destruct j; discriminate); intros; try discriminate.
    + left. intros j t; destruct j; discriminate.
Qed.
Lemma calm_reach size (ok : sys -> Prop) s : (forall s, ok s -> calm s) -> mreach size ok s -> calm s.
Proof. intros H R. destruct R; [|auto]. intros i j p t u _ A. destruct i; discriminate. Qed.
Theorem flows size (ok : sys -> Prop) s : (forall s, ok s -> calm s) -> mreach size ok s -> flow (s_net s) (s_ts s).
Proof.
  intros Hc. revert s. apply (mreach_ind_ size ok (fun s => flow (s_net s) (s_ts s))).
  - apply flow_new.
  - intros s0 e s' R F _ E O. destruct (invariants _ _ _ R) as [L K]. eapply flow_sys; eauto. eapply calm_reach; eauto.
Qed.
