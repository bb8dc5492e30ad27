(* Session registry and connections agree *)
From Coq Require Import List Arith NArith ZArith Lia Bool.
From Verif Require Import BaseBytes BaseConc ModelMessage ModelWrite ModelHandle ModelSession SpecSession ProofSession.
Import ListNotations.
Open Scope nat_scope.

Local Arguments Nat.ltb : simpl never.
Local Arguments Nat.eqb : simpl never.
Local Arguments N.ltb : simpl never.
Local Arguments N.eqb : simpl never.
Local Arguments Z.leb : simpl never.
Local Arguments Z.eqb : simpl never.
Local Arguments Z.of_nat : simpl never.
Local Arguments register : simpl never.
Local Arguments deregister : simpl never.
Local Arguments map_set : simpl never.
Local Arguments map_del : simpl never.
Local Arguments map_get : simpl never.

(* splits a tcase into its cases *)
Ltac tcases H :=
  inversion H; clear H; subst;
  repeat match goal with
  | X : ccase _ _ _ _ _ _ _ _ _ |- _ => inversion X; clear X; subst
  | X : lcase _ _ _ _ _ _ _ _ |- _ => inversion X; clear X; subst
  | X : rcase _ _ _ _ _ _ _ _ _ |- _ => inversion X; clear X; subst
  | X : xcase _ _ _ _ _ _ _ _ _ |- _ => inversion X; clear X; subst
  | X : ucase _ _ _ _ _ _ _ |- _ => inversion X; clear X; subst
  | X : scase _ _ _ _ _ _ _ _ |- _ => inversion X; clear X; subst
  | X : dcase _ _ _ _ _ _ _ _ |- _ => inversion X; clear X; subst
  end.

(* ---------- the registry is well-formed: all runs ---------- *)
Lemma reg_effect f i g t ch g' t' : tcase f i g t ch g' t' ->
  g_reg g' = g_reg g \/ (exists k c, g_reg g' = fst (register (f_max f) (g_reg g) k c)) \/
  (exists k c, g_reg g' = fst (deregister (g_reg g) k c)).
Proof.
  intros H. tcases H; try (left; reflexivity);
    try (right; left; exists (x_key x), c; rewrite H1; reflexivity);
    try (right; left; exists (x_key x), c; rewrite H2; reflexivity);
    try (right; right; exists (x_key x), c; rewrite H1; reflexivity);
    try (right; right; exists (x_key x), c; rewrite H2; reflexivity);
    try (right; right; exists (x_key x), c; match goal with X : deregister _ _ _ = _ |- _ => rewrite X end; reflexivity).
Qed.
Lemma reg_wf f ok s : sreach f ok s -> wf (f_max f) (reg s).
Proof.
  intros R. revert s R. apply reach_ind.
  - apply wf_nil.
  - intros s e t _ IH _ _. exact IH.
  - intros s i ch t g' t' _ IH _ N H _. apply tstep_inv, reg_effect in H as [E|[(k & c & E)|(k & c & E)]]; cbn; rewrite E.
    + exact IH.
    + apply register_wf, IH.
    + apply deregister_wf, IH.
Qed.

(* ---------- locks: all runs ---------- *)
Definition lholds (q : lstate) : bool := match q with QDereg _ | QNil => true | _ => false end.
Definition holdsL (c : nat) (t : thread) : bool :=
  match t with
  | TCreate c' _ (CNew | CNote _ | CSet _ | CReg) => c' =? c
  | TClose c' q | TServer _ (SIn _ c' q _) => (c' =? c) && lholds q
  | _ => false
  end.
Lemma lock_effect f i g t ch g' t' : tcase f i g t ch g' t' ->
  (g_lock g' = g_lock g /\ forall c, holdsL c t' = holdsL c t) \/
  (exists c0, g_lock g c0 = None /\ g_lock g' = upd (g_lock g) c0 (Some i) /\
     (forall c, holdsL c t = false) /\ (forall c, holdsL c t' = (c0 =? c))) \/
  (exists c0, g_lock g' = upd (g_lock g) c0 None /\ (forall c, holdsL c t = (c0 =? c)) /\ (forall c, holdsL c t' = false)).
Proof.
  intros H. tcases H; cbn [qdone] in *; try discriminate;
    first [ left; split; [reflexivity|intros c1; cbn; rewrite ?andb_true_r, ?andb_false_r; reflexivity]
          | right; left; exists c; split; [assumption|]; split; [reflexivity|]; split; intros c1; cbn; rewrite ?andb_true_r, ?andb_false_r; reflexivity
          | right; right; exists c; split; [reflexivity|]; split; intros c1; cbn; rewrite ?andb_true_r, ?andb_false_r; reflexivity ].
Qed.
Definition lock_inv (s : sys) : Prop := forall c i, g_lock (s_srv s) c = Some i <->
  exists t, nth_error (s_ts s) i = Some t /\ holdsL c t = true.
Lemma begin_nolock e t c : begin e = Some t -> holdsL c t = false.
Proof. destruct e; cbn; intros [= <-]; cbn; rewrite ?andb_false_r; reflexivity. Qed.
Lemma locks f ok s : sreach f ok s -> lock_inv s.
Proof.
  intros R. revert s R. apply reach_ind.
  - intros c i. split; [discriminate|]. intros (t & E & _). destruct i; discriminate.
  - intros s e t _ IH B _ c i. cbn. rewrite (IH c i). split.
    + intros (u & N & H). exists u. split; [apply nth_error_snoc_some; auto|exact H].
    + intros (u & N & H). apply nth_error_snoc_some in N as [N|[_ ->]]; [eauto|]. rewrite (begin_nolock _ _ _ B) in H. discriminate.
  - intros s i ch t g' t' _ IH _ N H _ c j. cbn [s_srv s_ts].
    assert (P : forall j u, nth_error (set_nth (s_ts s) i t') j = Some u <-> (i = j /\ u = t') \/ (i <> j /\ nth_error (s_ts s) j = Some u))
      by (intros; apply (set_nth_some _ _ _ _ N)).
    apply tstep_inv, lock_effect in H as [[-> E]|[(c0 & F & -> & E1 & E2)|(c0 & -> & E1 & E2)]].
    + rewrite (IH c j). split.
      * intros (u & Nu & Hu). destruct (Nat.eq_dec i j) as [<-|D]; [|exists u; rewrite P; auto].
        rewrite N in Nu. injection Nu as <-. exists t'. rewrite P, E. auto.
      * intros (u & Nu & Hu). apply P in Nu as [[<- ->]|[D Nu]]; [|eauto]. rewrite E in Hu. eauto.
    + unfold upd. destruct (Nat.eqb_spec c c0) as [->|D].
      * split.
        -- intros [= <-]. exists t'. rewrite P, E2. split; [auto|apply Nat.eqb_refl].
        -- intros (u & Nu & Hu). apply P in Nu as [[<- ->]|[D Nu]]; [reflexivity|].
           assert (X : g_lock (s_srv s) c0 = Some j) by (apply IH; eauto). congruence.
      * rewrite (IH c j). split.
        -- intros (u & Nu & Hu). destruct (Nat.eq_dec i j) as [<-|D2]; [|exists u; rewrite P; auto].
           rewrite N in Nu. injection Nu as <-. rewrite E1 in Hu. discriminate.
        -- intros (u & Nu & Hu). apply P in Nu as [[<- ->]|[D2 Nu]]; [|eauto].
           rewrite E2 in Hu. apply Nat.eqb_eq in Hu. congruence.
    + unfold upd. destruct (Nat.eqb_spec c c0) as [->|D].
      * split; [discriminate|]. intros (u & Nu & Hu). exfalso. apply P in Nu as [[<- ->]|[D Nu]]; [rewrite E2 in Hu; discriminate|].
        assert (X : g_lock (s_srv s) c0 = Some j) by (apply IH; eauto).
        assert (Y : g_lock (s_srv s) c0 = Some i) by (apply IH; exists t; rewrite E1, Nat.eqb_refl; auto). congruence.
      * rewrite (IH c j). split.
        -- intros (u & Nu & Hu). destruct (Nat.eq_dec i j) as [<-|D2]; [|exists u; rewrite P; auto].
           rewrite N in Nu. injection Nu as <-. rewrite E1 in Hu. apply Nat.eqb_eq in Hu. congruence.
        -- intros (u & Nu & Hu). apply P in Nu as [[<- ->]|[D2 Nu]]; [|eauto]. rewrite E2 in Hu. discriminate.
Qed.

(* ---------- who may touch con.session ---------- *)
Definition lclear (q : lstate) : bool := match q with QDereg D2 | QNil => true | _ => false end.
Definition wants_none (c : nat) (t : thread) : bool :=
  match t with TCreate c' _ (CNew | CNote _ | CSet _) => c' =? c | _ => false end.
Definition lsome (q : lstate) : bool := match q with QDereg _ => true | _ => false end.
Definition wants_some (c : nat) (t : thread) : bool :=
  match t with
  | TCreate c' _ CReg => c' =? c
  | TClose c' q | TServer _ (SIn _ c' q _) => (c' =? c) && lsome q
  | TRestore c' _ (RReg _) => c' =? c
  | TClosure c' _ (XDereg (D1 | D2)) | TUnlink c' (UDereg (D1 | D2)) => c' =? c
  | _ => false
  end.
Definition cleared (c : nat) (t : thread) : bool :=
  match t with
  | TCreate c' _ CReg => c' =? c
  | TClose c' q | TServer _ (SIn _ c' q _) => (c' =? c) && lclear q
  | TRestore c' _ (RReg _) => c' =? c
  | TClosure c' _ (XDereg D2 | XNil) | TUnlink c' (UDereg D2 | UNil) => c' =? c
  | _ => false
  end.
Definition touch (c : nat) (t : thread) : bool := holdsL c t || (unsynced t && busy c t).
Ltac split_pc :=
  repeat match goal with
  | s : cstate |- _ => destruct s
  | s : lstate |- _ => destruct s
  | s : rstate |- _ => destruct s
  | s : xstate |- _ => destruct s
  | s : ustate |- _ => destruct s
  | s : sstate |- _ => destruct s
  | d : dstate |- _ => destruct d
  end.
Lemma pred_touch c t : wants_none c t = true \/ wants_some c t = true \/ cleared c t = true -> touch c t = true.
Proof.
  unfold touch, wants_none, wants_some, cleared, holdsL, unsynced, busy.
  destruct t as [c' info s|c' s|c' m s|c' m s|c' s|k s]; split_pc; cbn;
    try destruct (_ =? _); cbn; intuition discriminate.
Qed.
Lemma begin_preds e t c : begin e = Some t -> wants_none c t = false /\ wants_some c t = false /\ cleared c t = false.
Proof. destruct e; cbn; intros [= <-]; cbn; rewrite ?andb_false_r; auto. Qed.
Lemma holds_busy c t : holdsL c t = true -> busy c t = true.
Proof.
  unfold holdsL, busy.
  destruct t as [c' info s|c' s|c' m s|c' m s|c' s|k s]; split_pc; cbn; try destruct (_ =? _); cbn; intuition discriminate.
Qed.
Lemma touch_alone s i j t u c : lock_inv s -> separate s -> i <> j ->
  nth_error (s_ts s) i = Some t -> nth_error (s_ts s) j = Some u -> touch c t = true -> touch c u = true -> False.
Proof.
  intros L S D Ni Nj Ti Tj. unfold touch in *.
  assert (B : forall v, holdsL c v || unsynced v && busy c v = true -> busy c v = true).
  { intros v H. apply orb_true_iff in H as [H|H]; [apply holds_busy, H|]. apply andb_true_iff in H. tauto. }
  destruct (S i j t u c D Ni Nj (B _ Ti) (B _ Tj)) as [U1 U2]. rewrite U1, U2, !orb_false_r in *.
  assert (X : g_lock (s_srv s) c = Some i) by (apply L; eauto).
  assert (Y : g_lock (s_srv s) c = Some j) by (apply L; eauto). congruence.
Qed.

(* ---------- effects ---------- *)
Inductive effect (f : config) (g : srv) (t : thread) (g' : srv) (t' : thread) : Prop :=
| F_same : g_reg g' = g_reg g -> g_sess g' = g_sess g ->
    (forall c, wants_none c t' = true -> wants_none c t = true \/ g_sess g c = None) ->
    (forall c, wants_some c t' = true -> wants_some c t = true \/ g_sess g c <> None) ->
    (forall c, cleared c t' = true -> cleared c t = true \/ g_sess g c = None) ->
    (forall c, cleared c t = true -> cleared c t' = true) -> effect f g t g' t'
| F_set c0 x : g_reg g' = g_reg g -> g_sess g' = upd (g_sess g) c0 (Some x) -> touch c0 t = true ->
    (wants_none c0 t = true \/ exists m enc, t = TRestore c0 m (RSet x enc)) ->
    (forall c, wants_none c t' = false) -> (forall c, wants_some c t' = true -> c = c0) ->
    (forall c, cleared c t' = (c0 =? c)) -> (forall c, cleared c t = false) -> effect f g t g' t'
| F_reg c0 x : g_sess g c0 = Some x -> g_reg g' = fst (register (f_max f) (g_reg g) (x_key x) c0) ->
    snd (register (f_max f) (g_reg g) (x_key x) c0) = true -> g_sess g' = g_sess g -> touch c0 t = true ->
    (forall c, cleared c t = (c0 =? c)) ->
    (forall c, wants_none c t' = false /\ wants_some c t' = false /\ cleared c t' = false) -> effect f g t g' t'
| F_noreg c0 info x : t = TCreate c0 info CReg -> g_sess g c0 = Some x ->
    snd (register (f_max f) (g_reg g) (x_key x) c0) = false -> effect f g t g' t'
| F_dereg c0 x : g_sess g c0 = Some x -> g_reg g' = fst (deregister (g_reg g) (x_key x) c0) -> g_sess g' = g_sess g ->
    touch c0 t = true -> (forall c, cleared c t = false) -> (forall c, cleared c t' = (c0 =? c)) ->
    (forall c, wants_none c t' = false) -> (forall c, wants_some c t' = true -> c = c0) -> effect f g t g' t'
| F_clear c0 : g_reg g' = g_reg g -> g_sess g' = upd (g_sess g) c0 None -> touch c0 t = true ->
    (forall c, cleared c t = (c0 =? c)) ->
    (forall c, wants_none c t' = false /\ wants_some c t' = false /\ cleared c t' = false) -> effect f g t g' t'.

Ltac eqs := repeat match goal with
  | X : (_ && true) = true |- _ => rewrite andb_true_r in X
  | X : (_ && false) = true |- _ => rewrite andb_false_r in X; discriminate X
  | X : (_ =? _) = true |- _ => apply Nat.eqb_eq in X; subst
  end.
Ltac pcs := cbn; intros; unfold touch, holdsL, wants_none, wants_some, cleared, lholds, lsome, lclear, unsynced, busy in *; cbn in *;
  rewrite ?andb_true_r, ?andb_false_r, ?orb_true_r, ?orb_false_r, ?Nat.eqb_refl in *; eqs; try discriminate; auto;
  try (left; congruence); try (right; congruence); try congruence;
  rewrite ?Nat.eqb_refl, ?andb_true_r, ?andb_false_r; auto.
Lemma thread_effect f i g t ch g' t' : tcase f i g t ch g' t' -> effect f g t g' t'.
Proof.
  intros H. tcases H; cbn [qdone] in *; try discriminate;
    first
    [ apply F_same; [reflexivity|reflexivity|pcs..]; fail
    | eapply F_set; [reflexivity|reflexivity|pcs|pcs; eauto|pcs..]; fail
    | eapply F_reg; [eassumption|cbn; match goal with X : register _ _ _ _ = _ |- _ => rewrite X end; reflexivity
                    |match goal with X : register _ _ _ _ = _ |- _ => rewrite X end; reflexivity|reflexivity|pcs|pcs|pcs]; fail
    | eapply F_noreg; [reflexivity|eassumption|match goal with X : register _ _ _ _ = _ |- _ => rewrite X end; reflexivity]; fail
    | eapply F_dereg; [eassumption|cbn; match goal with X : deregister _ _ _ = _ |- _ => rewrite X end; reflexivity|reflexivity|pcs..]; fail
    | eapply F_clear; [reflexivity|reflexivity|pcs..]; fail
    | idtac ].
Qed.

Lemma register_room max r k c : max = 0%N \/ (sessionConnectionsNum r k < Z.of_N max)%Z <-> snd (register max r k c) = true.
Proof.
  unfold register, sessionConnectionsNum. destruct (lookup r k) as [l|]; [|split; [reflexivity|intros _; lia]].
  destruct (N.ltb_spec 0 max); cbn [andb]; [|split; [reflexivity|intros _; lia]].
  destruct (N.ltb_spec max (N.of_nat (length l + 1))); cbn [snd]; (split; [intros; (discriminate || reflexivity || lia)|intros; (discriminate || lia)]).
Qed.
Lemma orderly_new f : orderly f new_server.
Proof.
  split; [|split].
  - intros i j t u c _ N. destruct i; discriminate.
  - intros i c m x enc N. destruct i; discriminate.
  - intros i c info x N. destruct i; discriminate.
Qed.
Lemma sreach_ok f (ok : sys -> Prop) s : ok new_server -> sreach f ok s -> ok s.
Proof. intros O R. destruct R; assumption. Qed.

Record agree (s : sys) : Prop := MkAgree {
  ag_none : forall i t c, nth_error (s_ts s) i = Some t -> wants_none c t = true -> g_sess (s_srv s) c = None;
  ag_some : forall i t c, nth_error (s_ts s) i = Some t -> wants_some c t = true -> g_sess (s_srv s) c <> None;
  ag_clear : forall i t c, nth_error (s_ts s) i = Some t -> cleared c t = true -> forall k, ~ inreg (reg s) c k;
  ag_sound : forall c k, inreg (reg s) c k -> exists x, g_sess (s_srv s) c = Some x /\ x_key x = k;
  ag_listed : forall c x, g_sess (s_srv s) c = Some x -> inreg (reg s) c (x_key x) \/
    exists i t, nth_error (s_ts s) i = Some t /\ cleared c t = true }.

Section Step.
Variables (f : config) (s : sys) (i : nat) (t : thread) (g' : srv) (t' : thread).
Hypothesis W : wf (f_max f) (reg s).
Hypothesis L : lock_inv s.
Hypothesis O : orderly f s.
Hypothesis A : agree s.
Hypothesis N : nth_error (s_ts s) i = Some t.
Hypothesis E : effect f (s_srv s) t g' t'.
Let P : forall j u, nth_error (set_nth (s_ts s) i t') j = Some u <-> (i = j /\ u = t') \/ (i <> j /\ nth_error (s_ts s) j = Some u).
Proof. intros. apply (set_nth_some _ _ _ _ N). Qed.
Let alone c j u : touch c t = true -> i <> j -> nth_error (s_ts s) j = Some u -> touch c u = true -> False.
Proof. intros T D Nj U. eapply (touch_alone s i j t u c); eauto. apply O. Qed.

Lemma agree_step : agree (MkSys g' (set_nth (s_ts s) i t')).
Proof.
  destruct O as (Sep & Fresh & Join). destruct A as [AN AS AC AA AB].
  destruct E as [Er Es Wn Ws Cl Cl'|c0 x Er Es T Pre Wn Ws Cl' Cl|c0 x Sx Er Ok Es T Cl Q|c0 info x Et Sx Bad
    |c0 x Sx Er Es T Cl Cl' Wn Ws|c0 Er Es T Cl Q].
  - split; cbn [s_srv s_ts]; rewrite ?Er, ?Es.
    + intros j u c Nj H. apply P in Nj as [[<- ->]|[D Nj]]; [|eauto]. apply Wn in H as [H|H]; eauto.
    + intros j u c Nj H. apply P in Nj as [[<- ->]|[D Nj]]; [|eauto]. apply Ws in H as [H|H]; eauto.
    + intros j u c Nj H. apply P in Nj as [[<- ->]|[D Nj]]; [|eauto]. apply Cl in H as [H|H]; [eauto|].
      intros k I. apply AA in I as (x & X & _). congruence.
    + exact AA.
    + intros c x X. destruct (AB c x X) as [I|(j & u & Nj & H)]; [auto|]. right. destruct (Nat.eq_dec i j) as [<-|D].
      * rewrite N in Nj. injection Nj as <-. exists i, t'. rewrite P. auto.
      * exists j, u. rewrite P. auto.
  - assert (S0 : g_sess (s_srv s) c0 = None).
    { destruct Pre as [H|(m & enc & ->)]; [eapply AN; eauto|eapply Fresh; eauto]. }
    split; cbn [s_srv s_ts]; rewrite ?Er, ?Es; unfold upd.
    + intros j u c Nj H. apply P in Nj as [[<- ->]|[D Nj]]; [rewrite Wn in H; discriminate|].
      destruct (Nat.eqb_spec c c0) as [->|D2]; [|eauto]. exfalso. eapply alone; eauto. apply pred_touch. auto.
    + intros j u c Nj H. destruct (Nat.eqb_spec c c0) as [->|D2]; [discriminate|].
      apply P in Nj as [[<- ->]|[D Nj]]; [|eauto]. apply Ws in H. congruence.
    + intros j u c Nj H k I. apply P in Nj as [[<- ->]|[D Nj]]; [|eapply AC; eauto].
      rewrite Cl' in H. apply Nat.eqb_eq in H. subst c. apply AA in I as (y & Y & _). congruence.
    + intros c k I. destruct (Nat.eqb_spec c c0) as [->|D2]; [|auto]. apply AA in I as (y & Y & _). congruence.
    + intros c y. destruct (Nat.eqb_spec c c0) as [->|D2].
      * intros _. right. exists i, t'. rewrite P, Cl', Nat.eqb_refl. auto.
      * intros Y. destruct (AB c y Y) as [I|(j & u & Nj & H)]; [auto|]. right. exists j, u. rewrite P. split; [|exact H]. right. split; [|exact Nj].
        intros <-. rewrite N in Nj. injection Nj as <-. rewrite Cl in H. discriminate.
  - split; cbn [s_srv s_ts]; rewrite ?Es.
    + intros j u c Nj H. apply P in Nj as [[<- ->]|[D Nj]]; [|eauto]. destruct (Q c) as (H1 & _). congruence.
    + intros j u c Nj H. apply P in Nj as [[<- ->]|[D Nj]]; [|eauto]. destruct (Q c) as (_ & H1 & _). congruence.
    + intros j u c Nj H k I. apply P in Nj as [[<- ->]|[D Nj]]; [destruct (Q c) as (_ & _ & H1); congruence|].
      rewrite Er in I. apply register_in in I as [[-> ->]|I]; [|eapply AC; eauto|exact Ok].
      eapply alone; eauto. apply pred_touch. auto.
    + intros c k I. rewrite Er in I. apply register_in in I as [[-> ->]|I]; [eauto|auto|exact Ok].
    + intros c y Y. rewrite Er. destruct (Nat.eq_dec c c0) as [->|D].
      * left. apply register_in; [exact Ok|]. left. split; congruence.
      * destruct (AB c y Y) as [I|(j & u & Nj & H)]; [left; apply register_in; auto|]. right. exists j, u. rewrite P.
        split; [|exact H]. right. split; [|exact Nj]. intros <-. rewrite N in Nj. injection Nj as <-.
        rewrite Cl in H. apply Nat.eqb_eq in H. congruence.
  - subst t. exfalso. pose proof (Join _ _ _ _ N Sx) as J. apply (register_room _ _ _ c0) in J. congruence.
  - assert (I0 : inreg (reg s) c0 (x_key x)).
    { destruct (AB c0 x Sx) as [I|(j & u & Nj & H)]; [exact I|]. exfalso. destruct (Nat.eq_dec i j) as [<-|D].
      - rewrite N in Nj. injection Nj as <-. rewrite Cl in H. discriminate.
      - eapply alone; eauto. apply pred_touch. auto. }
    pose proof (fun c' k' => deregister_in _ _ _ _ c' k' W I0) as Dr.
    split; cbn [s_srv s_ts]; rewrite ?Es.
    + intros j u c Nj H. apply P in Nj as [[<- ->]|[D Nj]]; [rewrite Wn in H; discriminate|eauto].
    + intros j u c Nj H. apply P in Nj as [[<- ->]|[D Nj]]; [|eauto]. apply Ws in H. congruence.
    + intros j u c Nj H k I. rewrite Er in I. apply Dr in I as [I X]. apply P in Nj as [[<- ->]|[D Nj]]; [|eapply AC; eauto].
      rewrite Cl' in H. apply Nat.eqb_eq in H. subst c. apply X. split; [reflexivity|]. apply AA in I as (y & Y & <-). congruence.
    + intros c k I. rewrite Er in I. apply Dr in I as [I X]. auto.
    + intros c y Y. rewrite Er. destruct (Nat.eq_dec c c0) as [->|D].
      * right. exists i, t'. rewrite P, Cl', Nat.eqb_refl. auto.
      * destruct (AB c y Y) as [I|(j & u & Nj & H)]; [left; apply Dr; tauto|]. right. exists j, u. rewrite P.
        split; [|exact H]. right. split; [|exact Nj]. intros <-. rewrite N in Nj. injection Nj as <-. rewrite Cl in H. discriminate.
  - assert (U0 : forall k, ~ inreg (reg s) c0 k) by (eapply AC; eauto; rewrite Cl; apply Nat.eqb_refl).
    split; cbn [s_srv s_ts]; rewrite ?Er, ?Es; unfold upd.
    + intros j u c Nj H. destruct (Nat.eqb_spec c c0) as [->|D2]; [reflexivity|].
      apply P in Nj as [[<- ->]|[D Nj]]; [|eauto]. destruct (Q c) as (H1 & _). congruence.
    + intros j u c Nj H. apply P in Nj as [[<- ->]|[D Nj]]; [destruct (Q c) as (_ & H1 & _); congruence|].
      destruct (Nat.eqb_spec c c0) as [->|D2]; [|eauto]. exfalso. eapply alone; eauto. apply pred_touch. auto.
    + intros j u c Nj H. apply P in Nj as [[<- ->]|[D Nj]]; [destruct (Q c) as (_ & _ & H1); congruence|eauto].
    + intros c k I. destruct (Nat.eqb_spec c c0) as [->|D2]; [exfalso; eapply U0; eauto|auto].
    + intros c y. destruct (Nat.eqb_spec c c0) as [->|D2]; [discriminate|]. intros Y.
      destruct (AB c y Y) as [I|(j & u & Nj & H)]; [auto|]. right. exists j, u. rewrite P.
      split; [|exact H]. right. split; [|exact Nj]. intros <-. rewrite N in Nj. injection Nj as <-.
      rewrite Cl in H. apply Nat.eqb_eq in H. congruence.
Qed.
End Step.

Definition at_least (f : config) (ok : sys -> Prop) : Prop := forall s, ok s -> orderly f s.
Lemma agreement f ok s : at_least f ok -> sreach f ok s -> agree s.
Proof.
  intros AL R. assert (Oall : forall s, sreach f ok s -> orderly f s).
  { intros s0 R0. destruct R0; [apply orderly_new|apply AL; assumption]. }
  revert s R. apply reach_ind.
  - split; cbn; try discriminate; try (intros [|] ? ? [=]). intros c k (l & E & _). discriminate.
  - intros s e t R IH B _. destruct IH as [AN AS AC AA AB].
    split; cbn [s_srv s_ts].
    + intros i u c N H. apply nth_error_snoc_some in N as [N|[_ ->]]; [eauto|]. destruct (begin_preds e t c B) as (X & _). congruence.
    + intros i u c N H. apply nth_error_snoc_some in N as [N|[_ ->]]; [eauto|]. destruct (begin_preds e t c B) as (_ & X & _). congruence.
    + intros i u c N H. apply nth_error_snoc_some in N as [N|[_ ->]]; [eauto|]. destruct (begin_preds e t c B) as (_ & _ & X). congruence.
    + exact AA.
    + intros c x X. destruct (AB c x X) as [I|(j & u & Nj & H)]; [auto|]. right. exists j, u. split; [apply nth_error_snoc_some; auto|exact H].
  - intros s i ch t g' t' R IH _ N H _. apply tstep_inv in H. eapply (agree_step f); eauto.
    + eapply reg_wf; eauto.
    + eapply locks; eauto.
    + eapply thread_effect; eauto.
Qed.
