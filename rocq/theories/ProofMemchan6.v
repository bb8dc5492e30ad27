(* The in-memory transport: Dial and Shutdown. *)
From Coq Require Import List Arith NArith ZArith Lia Bool.
From Verif Require Import BaseBytes BaseConc ModelMessage ModelWrite ModelMemchan SpecWire SpecWrite SpecMemchan.
From Verif Require Import ProofMemchan ProofMemchan2 ProofMemchan3 ProofMemchan4 ProofMemchan5.
Import ListNotations.
Open Scope nat_scope.

(* ----- C44 ----- *)
(* only the compare-and-swap of Dial connects a pair *)
Lemma connects s e s' p : mstep s e = Some s' -> off s p -> connected s' p ->
  exists i ch, e = EvStep i ch /\ at_ s i (TDial p DlCAS) /\ at_ s' i (TDial p DlReset1).
Proof.
  intros E Off On. apply mstep_rel in E as [_ H].
  assert (G : forall i t n' t' w, nth_error (s_ts s) i = Some t -> trel (s_ts s) i (s_net s) t n' t' w -> n_on n' p = true ->
    t = TDial p DlCAS /\ t' = TDial p DlReset1 /\ w = None).
  { intros i t n' t' w I T X. tcases T k st n1 s1 H1 H0.
    - inversion H1; subst; netu; netc; congruence.
    - inversion H1; subst; netu; netc; congruence.
    - destruct (end_close_net i t s1 n1) as (E1 & _). rewrite E1 in X.
      inversion H0; subst; netu; netc; try congruence. unfold upd in X. destruct (Nat.eqb_spec p (fst k)); congruence.
    - inversion H1; subst; netu; netc; try congruence. unfold upd in X. destruct (Nat.eqb_spec p p0) as [->|]; [auto|congruence].
    - inversion H1; subst; netu; netc; congruence. }
  unfold at_. destruct H as [e t B|i ch t n' t' I T|i ch t n' t' j v k I T D V J]; cbn in *; [congruence|..].
  - destruct (G _ _ _ _ _ I T On) as (-> & -> & _). exists i, ch. split; [reflexivity|]. split; [exact I|eapply set_nth_eq; eauto].
  - destruct (G _ _ _ _ _ I T On) as (_ & _ & Q). discriminate.
Qed.
(* a call of Dial that has connected the pair does not report that it was refused or already connected *)
Lemma past_stays s i p st s' : at_ s i (TDial p st) -> past_cas st = true \/ st = DlDone DlNil \/ st = DlDone DlShutting \/ st = DlDone DlClosed ->
  mfrom anything s s' -> exists st', at_ s' i (TDial p st') /\ (past_cas st' = true \/ st' = DlDone DlNil \/ st' = DlDone DlShutting \/ st' = DlDone DlClosed).
Proof.
  intros I P. revert s'. apply (mfrom_ind_ anything s (fun s' => exists st', at_ s' i (TDial p st') /\ (past_cas st' = true \/ st' = DlDone DlNil \/ st' = DlDone DlShutting \/ st' = DlDone DlClosed))).
  { eauto. }
  intros s1 e s2 (st' & I1 & P1) H _. unfold at_ in *. destruct H as [e t B|x ch t n' t' X T|x ch t n' t' j v k0 X T D V J]; cbn in *.
  - exists st'. split; [apply snoc_old; exact I1|exact P1].
  - destruct (Nat.eq_dec x i) as [->|Nx]; [|exists st'; rewrite set_nth_ne; auto]. rewrite I1 in X. injection X as <-.
    tcases T k1 st1 n1 s3 H1 H0; [discriminate H1|]. exists s3. split; [eapply set_nth_eq; eauto|].
    inversion H1; subst; cbn in *; auto; try (destruct P1 as [P1|[P1|[P1|P1]]]; discriminate).
  - assert (Q : j <> i) by (intros ->; congruence). destruct (Nat.eq_dec x i) as [->|Nx]; [|exists st'; rewrite !set_nth_ne; auto].
    rewrite I1 in X. injection X as <-. tcases T k1 st1 n1 s3 H1 H0; discriminate H1.
Qed.
(* the log agrees with the states of the calls of Dial *)
Lemma dialed_done size (ok : sys -> Prop) s : mreach size ok s -> forall i p r, In (LDialed i p r) (mlog s) -> at_ s i (TDial p (DlDone r)).
Proof.
  revert s. apply (mreach_ind_ size ok (fun s => forall i p r, In (LDialed i p r) (mlog s) -> at_ s i (TDial p (DlDone r)))).
  { intros i p r []. }
  intros s e s' R IH _ H _ i p r In_.
  assert (G : forall x t n' t' w, nth_error (s_ts s) x = Some t -> trel (s_ts s) x (s_net s) t n' t' w -> In (LDialed i p r) (n_log n') ->
    (i <> x /\ In (LDialed i p r) (mlog s)) \/ (i = x /\ t' = TDial p (DlDone r) /\ w = None)).
  { intros x t n' t' w I T X.
    assert (Old : In (LDialed i p r) (mlog s) -> i <> x).
    { intros Y ->. apply IH in Y. unfold at_ in Y. rewrite I in Y. injection Y as ->. tcases T k1 st1 n1 s3 H1 H0; [discriminate H1|inversion H1]. }
    tcases T k st n1 s1 H1 H0.
    - inversion H1; subst; netu; netc; try (apply in_app_or in X as [X|[X|[]]]; [|discriminate X]); left; auto.
    - inversion H1; subst; netu; netc; try (apply in_app_or in X as [X|[X|[]]]; [|discriminate X]); left; auto.
    - assert (Q : n_log n1 = n_log (s_net s)) by (destruct H0; reflexivity).
      destruct t as [| ? ? ? []| | |[]]; try discriminate H1; destruct s1; cbn [end_close] in X; netu; netc; rewrite ?Q in X;
        try (apply in_app_or in X as [X|[X|[]]]; [|discriminate X]); left; auto.
    - inversion H1; subst; netu; netc; repeat (apply in_app_or in X as [X|X]); cbn in X; try (destruct X as [X|[]]; try discriminate X; injection X as <- <- <-; right; auto; fail); left; auto.
    - inversion H1; subst; netu; netc; try (apply in_app_or in X as [X|[X|[]]]; [|discriminate X]); left; auto. }
  unfold at_ in *. destruct H as [e t B|x ch t n' t' X T|x ch t n' t' j v k0 X T D V J]; cbn in *.
  - apply snoc_old. auto.
  - destruct (G _ _ _ _ _ X T In_) as [[Nx Y]|(-> & -> & _)]; [rewrite set_nth_ne; auto|eapply set_nth_eq; eauto].
  - destruct (G _ _ _ _ _ X T In_) as [[Nx Y]|(_ & _ & Q)]; [|discriminate].
    assert (i <> j) by (intros ->; apply IH in Y; congruence). rewrite !set_nth_ne by auto. auto.
Qed.

(* ----- C45 ----- *)
Lemma inactive_stays s e s' : srel_ s e s' -> n_active (s_net s) = false -> n_active (s_net s') = false.
Proof.
  intros H A.
  assert (G : forall x t n' t' w, trel (s_ts s) x (s_net s) t n' t' w -> n_active n' = false).
  { intros x t n' t' w T. tcases T k st n1 s1 H1 H0; try (inversion H1; subst; netu; netc; auto; fail).
    assert (Q : n_active n1 = n_active (s_net s)) by (destruct H0; reflexivity).
    destruct t as [| ? ? ? []| | |[]]; try discriminate H1; destruct s1; cbn [end_close]; netu; netc; congruence. }
  destruct H as [e t B|x ch t n' t' X T|x ch t n' t' j v k0 X T D V J]; cbn in *; [auto|eauto|exact (G _ _ _ _ _ T)].
Qed.
Lemma news_app l l' : news (l ++ l') = news l ++ news l'.
Proof. unfold news. apply flat_map_app. Qed.
(* once the transport is inactive and no call of Dial is past its check, no connection is announced any more *)
Lemma no_more_news s s' : n_active (s_net s) = false -> (forall i p, ~ at_ s i (TDial p DlAdd)) -> mfrom anything s s' ->
  n_active (s_net s') = false /\ news (mlog s') = news (mlog s) /\ forall i p, ~ at_ s' i (TDial p DlAdd).
Proof.
  intros A N. revert s'. apply (mfrom_ind_ anything s (fun s' => n_active (s_net s') = false /\ news (mlog s') = news (mlog s) /\ forall i p, ~ at_ s' i (TDial p DlAdd))).
  { auto. }
  intros s1 e s2 (A1 & W1 & N1) H _. split; [eapply inactive_stays; eauto|]. split.
  - assert (G : forall x t n' t' w, nth_error (s_ts s1) x = Some t -> trel (s_ts s1) x (s_net s1) t n' t' w -> news (n_log n') = news (mlog s1)).
    { intros x t n' t' w X T. tcases T k st n1 s3 H1 H0.
      - inversion H1; subst; netu; netc; rewrite ?news_app; cbn; rewrite ?app_nil_r; auto.
      - inversion H1; subst; netu; netc; rewrite ?news_app; cbn; rewrite ?app_nil_r; auto.
      - assert (Q : n_log n1 = n_log (s_net s1)) by (destruct H0; reflexivity).
        destruct t as [| ? ? ? []| | |[]]; try discriminate H1; destruct s3; cbn [end_close]; netu; netc; rewrite ?news_app, ?Q; cbn; rewrite ?app_nil_r; auto.
      - inversion H1; subst; netu; netc; rewrite ?news_app; cbn; rewrite ?app_nil_r; auto. exfalso. eapply N1; eauto.
      - inversion H1; subst; netu; netc; rewrite ?news_app; cbn; rewrite ?app_nil_r; auto. }
    rewrite <- W1. destruct H as [e t B|x ch t n' t' X T|x ch t n' t' j v k0 X T D V J]; cbn in *; [reflexivity|eapply G; eauto|].
    exact (G _ _ _ _ _ X T).
  - intros i p X. destruct (step_threads _ _ _ _ _ H X) as [Y|[Y|[(ch & t & n' & w & Q1 & Y & T & _)|(k0 & v & _ & Q)]]]; try discriminate.
    + eapply N1; eauto.
    + destruct e; discriminate.
    + tcases T k st n1 s3 H1 H0; [destruct t as [| ? ? ? []| | |[]]; try discriminate H1; destruct s3; discriminate|].
      inversion H1; subst. congruence.
Qed.
(* connected pairs are known to the transport *)
Definition known (s : sys) : Prop := forall p, connected s p ->
  In p (n_conns (s_net s)) \/ (exists i st, at_ s i (TDial p st) /\ past_cas st = true) \/ leaked p (mlog s).
Lemma leaked_app p l l' : leaked p l -> leaked p (l ++ l').
Proof. intros (i & [H|H]); exists i; [left|right]; apply in_or_app; auto. Qed.
Lemma known_step ts i n t n' t' w : (forall p, stat p n ts) -> nth_error ts i = Some t -> trel ts i n t n' t' w ->
  known (MkSys n ts) -> known (MkSys n' (set_nth ts i t')).
Proof.
  intros FS I T K p On. cbn in *. unfold at_. cbn.
  assert (Dl : forall st, past_cas st = true -> t <> TDial p st \/ (exists st', t' = TDial p st' /\ past_cas st' = true) ->
     forall j, nth_error ts j = Some (TDial p st) -> exists j st', nth_error (set_nth ts i t') j = Some (TDial p st') /\ past_cas st' = true).
  { intros st P C j J. destruct (Nat.eq_dec j i) as [->|Nj].
    - rewrite I in J. injection J as ->. destruct C as [C|(st' & -> & C)]; [congruence|]. exists i, st'. split; [eapply set_nth_eq; eauto|exact C].
    - exists j, st. split; [rewrite set_nth_ne by auto; exact J|exact P]. }
  assert (Fr : n_on n p = true -> n_conns n' = n_conns n -> (exists l, n_log n' = n_log n ++ l) ->
     (forall st, past_cas st = true -> t <> TDial p st \/ exists st', t' = TDial p st' /\ past_cas st' = true) ->
     In p (n_conns n') \/ (exists j st, nth_error (set_nth ts i t') j = Some (TDial p st) /\ past_cas st = true) \/ leaked p (n_log n')).
  { intros On0 Ec [l El] Dc. rewrite Ec, El. destruct (K p On0) as [A|[(j & st & J & P)|A]]; [auto| |right; right; apply leaked_app; exact A].
    right. left. eapply (Dl st); eauto. }
  tcases T k st n1 s1 H1 H0.
  - inversion H1; subst; netu; netc; apply Fr; eauto; try (exists []; rewrite app_nil_r; reflexivity); intros; left; discriminate.
  - inversion H1; subst; netu; netc; apply Fr; eauto; try (exists []; rewrite app_nil_r; reflexivity); intros; left; discriminate.
  - destruct (end_close_net i t s1 n1) as (E1 & _). rewrite E1 in On.
    assert (Ec : n_conns (end_close i t s1 n1) = n_conns n1) by (destruct t as [| ? ? ? []| | |[]]; try discriminate H1; destruct s1; reflexivity).
    assert (El : exists l, n_log (end_close i t s1 n1) = n_log n ++ l).
    { assert (Q : n_log n1 = n_log n) by (destruct H0; reflexivity).
      destruct t as [| ? ? ? []| | |[]]; try discriminate H1; destruct s1; cbn [end_close]; netu; netc; rewrite ?Q; eauto; exists []; rewrite app_nil_r; reflexivity. }
    assert (Nd : forall st0, past_cas st0 = true -> t <> TDial p st0 \/ exists st', to_close t s1 = TDial p st' /\ past_cas st' = true).
    { intros st0 _. left. intros ->. discriminate H1. }
    assert (Hx : n_conns n1 = n_conns n /\ n_on n p = true \/ (st = ClDisc /\ n_on n p = true /\ n_conns n1 = filter (fun q => negb (fst k =? q)) (n_conns n))).
    { clear - H0 On. destruct H0; netu; netc; auto. unfold upd in On. destruct (p =? fst k); [discriminate|auto]. }
    destruct Hx as [[Q On0]|(-> & On0 & Q)].
    + apply Fr; auto. congruence.
    + rewrite Ec, Q. destruct El as [l El]. rewrite El. destruct (K p On0) as [A|[(j & st0 & J & P)|A]]; [|right; left; eapply (Dl st0); eauto|right; right; apply leaked_app; exact A].
      left. apply filter_In. split; [exact A|]. destruct (Nat.eqb_spec (fst k) p) as [Fk|]; [|reflexivity].
      pose proof (mid_eq _ _ _ p H1) as M. rewrite Fk, Nat.eqb_refl in M. destruct (s_m _ _ _ (FS p) _ _ _ _ I M). congruence.
  - destruct (Nat.eq_dec p0 p) as [->|Np].
    + assert (Here : past_cas s1 = true -> In p (n_conns n') \/ (exists j st0, nth_error (set_nth ts i (TDial p s1)) j = Some (TDial p st0) /\ past_cas st0 = true) \/ leaked p (n_log n')).
      { intros P. right. left. exists i, s1. split; [eapply set_nth_eq; eauto|exact P]. }
      assert (Nd : past_cas st = false -> forall st0, past_cas st0 = true -> TDial p st <> TDial p st0 \/ exists st', TDial p s1 = TDial p st' /\ past_cas st' = true) by (intros; left; congruence).
      inversion H1; subst; try (apply Here; reflexivity); netu; netc.
      * apply Fr; auto. exists []. rewrite app_nil_r. reflexivity.
      * apply Fr; eauto.
      * apply Fr; eauto.
      * right. right. exists i. left. apply in_or_app. cbn. auto.
      * right. right. exists i. right. apply in_or_app. cbn. auto.
      * left. destruct (existsb _ _) eqn:E; [|left; reflexivity]. apply existsb_exists in E as (x & X & Y). apply Nat.eqb_eq in Y. subst x. exact X.
    + assert (Nd : forall st0, past_cas st0 = true -> TDial p0 st <> TDial p st0 \/ exists st', TDial p0 s1 = TDial p st' /\ past_cas st' = true) by (intros; left; congruence).
      inversion H1; subst; netu; netc; try (apply Fr; eauto; try (exists []; rewrite app_nil_r; reflexivity); fail).
      * apply Fr; eauto; try (exists []; rewrite app_nil_r; reflexivity). unfold upd in On. destruct (Nat.eqb_spec p p0); congruence.
      * destruct (K p On) as [A|[(j & st0 & J & P)|A]]; [left|right; left; eapply (Dl st0); eauto|right; right; repeat apply leaked_app; exact A].
        destruct (existsb _ _); [exact A|right; exact A].
  - inversion H1; subst; netu; netc; apply Fr; eauto; try (exists []; rewrite app_nil_r; reflexivity); intros; left; discriminate.
Qed.
Lemma known_all size s : mreach size calm s -> known s.
Proof.
  revert s. apply (mreach_ind_ size calm known).
  { intros p On. discriminate On. }
  intros s e s' R K _ H O. destruct (flows size calm s (fun _ H => H) R) as [_ FS]. destruct s as [n ts].
  destruct H as [e t B|i ch t n' t' I T|i ch t n' t' j v k I T D V J]; cbn in *.
  - intros p On. cbn in *. destruct (K p On) as [A|[(x & st & X & P)|A]]; auto. right. left. exists x, st. split; [apply snoc_old; exact X|exact P].
  - eapply known_step; eauto.
  - pose proof (known_step _ _ _ _ _ _ _ FS I T K) as K'. intros p On. cbn in *.
    destruct (K' p On) as [A|[(x & st & X & P)|A]]; auto. right. left. exists x, st. split; [|exact P]. unfold at_ in *. cbn in *.
    rewrite set_nth_ne; [exact X|]. intros ->. rewrite set_nth_ne in X by auto. congruence.
Qed.
Definition going_down (s : sys) (t : thread) : Prop :=
  match t with
  | TDown ShList => forall p, connected s p -> In p (n_conns (s_net s))
  | TDown (ShLoop todo) => forall p, connected s p -> In p todo
  | TDown (ShIn q cl todo) => forall p, connected s p -> In p todo \/ (p = q /\ cl = ClStart)
  | TDown ShDone => forall p, off s p
  | _ => False
  end.
Lemma unleaked s e s' p : srel_ s e s' -> no_dial s -> leaked p (mlog s') -> leaked p (mlog s).
Proof.
  intros H N (i & L).
  assert (G : forall x t n' t' w r, nth_error (s_ts s) x = Some t -> trel (s_ts s) x (s_net s) t n' t' w -> r = DlShutting \/ r = DlClosed ->
     In (LDialed i p r) (n_log n') -> In (LDialed i p r) (mlog s)).
  { intros x t n' t' w r I T Hr X. tcases T k st n1 s1 H1 H0.
    - inversion H1; subst; netu; netc; try (apply in_app_or in X as [X|[X|[]]]; [|discriminate X]); auto.
    - inversion H1; subst; netu; netc; try (apply in_app_or in X as [X|[X|[]]]; [|discriminate X]); auto.
    - assert (Q : n_log n1 = n_log (s_net s)) by (destruct H0; reflexivity).
      destruct t as [| ? ? ? []| | |[]]; try discriminate H1; destruct s1; cbn [end_close] in X; netu; netc; rewrite ?Q in X;
        try (apply in_app_or in X as [X|[X|[]]]; [|discriminate X]); auto.
    - pose proof (N _ _ _ I) as Q. inversion H1; subst; try discriminate Q; netu; netc; repeat (apply in_app_or in X as [X|X]); auto; cbn in X; destruct X as [X|[]]; injection X as _ _ <-; destruct Hr; discriminate.
    - inversion H1; subst; netu; netc; try (apply in_app_or in X as [X|[X|[]]]; [|discriminate X]); auto. }
  exists i. destruct H as [e t B|x ch t n' t' X T|x ch t n' t' j v k0 X T D V J]; cbn in *; [exact L|..];
    (destruct L as [L|L]; [left; exact (G _ _ _ _ _ _ X T (or_introl eq_refl) L)|right; exact (G _ _ _ _ _ _ X T (or_intror eq_refl) L)]).
Qed.
Lemma stays_off s e s' p : srel_ s e s' -> mstep s e = Some s' -> no_dial s' -> connected s' p -> connected s p.
Proof.
  intros H E N On. destruct (n_on (s_net s) p) eqn:Q; [reflexivity|]. destruct (connects _ _ _ _ E Q On) as (i & ch & _ & _ & X).
  pose proof (N _ _ _ X). discriminate.
Qed.
Lemma shutdown_closes size s i s' : mreach size calm s -> at_ s i (TDown ShList) -> no_dial s -> (forall p, ~ leaked p (mlog s)) ->
  mfrom (fun s => calm s /\ no_dial s) s s' -> at_ s' i (TDown ShDone) -> forall p, off s' p.
Proof.
  intros R I N L H X.
  assert (G : mreach size calm s' /\ no_dial s' /\ (forall p, ~ leaked p (mlog s')) /\ exists t, at_ s' i t /\ going_down s' t).
  { clear X. induction H as [|s1 e s2 H IH E [O1 O2]].
    - repeat split; auto. exists (TDown ShList). split; [exact I|]. intros p On.
      destruct (known_all _ _ R p On) as [A|[(x & st & X & P)|A]]; [exact A|rewrite (N _ _ _ X) in P; discriminate|exfalso; eapply L; eauto].
    - destruct IH as (R1 & N1 & L1 & t & I1 & G). assert (R2 : mreach size calm s2) by (econstructor; eauto).
      pose proof (mstep_rel _ _ _ E) as [_ Hs].
      assert (L2 : forall p, ~ leaked p (mlog s2)) by (intros p Q; apply (L1 p); eapply unleaked; eauto).
      split; [exact R2|]. split; [exact O2|]. split; [exact L2|].
      assert (Off : forall p, connected s2 p -> connected s1 p) by (intros p; eapply stays_off; eauto).
      assert (Kn : forall p, connected s2 p -> In p (n_conns (s_net s2))).
      { intros p On. destruct (known_all _ _ R2 p On) as [A|[(x & st & X & P)|A]]; [exact A|rewrite (O2 _ _ _ X) in P; discriminate|exfalso; eapply L2; eauto]. }
      assert (Same : going_down s2 t).
      { destruct t as [| | | |[| |todo|q cl todo|]]; cbn in *; auto.
        intros p. destruct (n_on (s_net s2) p) eqn:Q; [|reflexivity]. apply Off in Q. rewrite G in Q. discriminate. }
      unfold at_ in *. inversion Hs as [e0 t0 B|x ch t0 n' t' X T|x ch t0 n' t' j v k0 X T D V J]; subst; cbn [s_ts s_net] in *.
      + exists t. split; [apply snoc_old; exact I1|exact Same].
      + destruct (Nat.eq_dec x i) as [->|Nx]; [|exists t; rewrite set_nth_ne; auto].
        rewrite I1 in X. injection X as <-. exists t'. split; [eapply set_nth_eq; eauto|].
        destruct t as [| | | |sh]; try contradiction.
        tcases T k1 st1 n1 s3 H1 H0.
        * destruct sh as [| | |q cl todo|]; try discriminate H1. injection H1 as <- <-.
          inversion H0; subst; cbn in *; try (intros p On; destruct (Same p On) as [A|[_ A]]; [auto|discriminate A]).
          -- intros p On. destruct (Same p On) as [A|[-> _]]; [auto|]. netu; netc. unfold upd in On. rewrite Nat.eqb_refl in On. discriminate.
          -- intros p On. destruct (Same p On) as [A|[-> _]]; [auto|congruence].
        * inversion H1; subst; cbn in *; try contradiction.
          -- intros p On. apply Same in On. match goal with Q : same_elements _ _ = true |- _ => unfold same_elements in Q; apply andb_prop in Q as [Q _]; apply andb_prop in Q as [_ Q]; rewrite forallb_forall in Q; specialize (Q _ On); apply existsb_exists in Q as (y & Y & Z); apply Nat.eqb_eq in Z; subst y; exact Y end.
          -- intros p. destruct (n_on (s_net s1) p) eqn:Q; [|reflexivity]. destruct (Same p Q).
          -- intros q0 On. destruct (Same q0 On) as [<-|A]; auto.
      + destruct (Nat.eq_dec j i) as [->|Nj]; [rewrite I1 in J; injection J as ->; contradiction|].
        destruct (Nat.eq_dec x i) as [->|Nx]; [|exists t; rewrite !set_nth_ne; auto].
        rewrite I1 in X. injection X as <-. exists t'. split; [rewrite set_nth_ne by auto; eapply set_nth_eq; eauto|].
        destruct t as [| | | |sh]; try contradiction.
        tcases T k1 st1 n1 s3 H1 H0.
        destruct sh as [| | |q cl todo|]; try discriminate H1. injection H1 as <- <-.
        inversion H0; subst; cbn in *; try (intros p On; destruct (Same p On) as [A|[_ A]]; [auto|discriminate A]). }
  destruct G as (_ & _ & _ & t & I' & G). unfold at_ in *. rewrite X in I'. injection I' as <-. exact G.
Qed.
