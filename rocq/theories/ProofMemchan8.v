(* The in-memory transport: consequences used by the property theorems; checking of policies. *)
From Coq Require Import List Arith NArith ZArith Lia Bool.
From Verif Require Import BaseBytes BaseConc ModelMessage ModelWrite ModelMemchan SpecWire SpecWrite SpecMemchan.
From Verif Require Import ProofMemchan ProofMemchan2 ProofMemchan3 ProofMemchan4 ProofMemchan5 ProofMemchan6 ProofMemchan7.
Import ListNotations.
Open Scope nat_scope.

(* ----- C40 ----- *)
Lemma every_in P l e : every P l -> In e l -> exists l1 l2, l = l1 ++ e :: l2 /\ P l1 e.
Proof. intros H I. apply in_split in I as (l1 & l2 & ->). exists l1, l2. split; [reflexivity|]. apply (H l1 e l2). reflexivity. Qed.
Lemma write_fits size ok s l1 i k p b l2 : mreach size ok s -> mlog s = l1 ++ LWrite i k p b :: l2 ->
  (b = true <-> length (pending i l1) + length p <= size).
Proof.
  intros R H. pose proof (writers_all _ _ _ R) as W. apply (W l1 _ l2) in H. destruct H as (_ & _ & ->). apply Nat.leb_le.
Qed.
Lemma flush_exact size ok s l1 i k g b l2 : mreach size ok s -> mlog s = l1 ++ LSend i k g b :: l2 -> ~ failed i l1 -> b = written i l1 /\ b <> [].
Proof.
  intros R H N. pose proof (writers_all _ _ _ R) as W. pose proof (W l1 _ l2 H) as (_ & _ & _ & -> & Q). split; [|exact Q].
  eapply pending_written; [|exact N]. intros a e c Q'. apply (W a e (c ++ LSend i k g (pending i l1) :: l2)). rewrite H, Q', <- app_assoc. reflexivity.
Qed.

(* ----- C41 ----- *)
Lemma mfrom_reach size s s' : mreach size anything s -> mfrom anything s s' -> mreach size anything s'.
Proof. intros R H. induction H; [exact R|]. econstructor; eauto. Qed.
Lemma wedged_forever size s s' j k : mreach size anything s -> In (LWriter j k WrEmpty) (mlog s) -> mfrom anything s s' ->
  exists l, mlog s' = mlog s ++ l /\ (forall i, ~ In (LOpen i k) l) /\ (forall i r, ~ In (LWriter i k r) l).
Proof.
  intros R I H. destruct (mfrom_grows _ _ _ H) as (l & E). exists l. split; [exact E|].
  pose proof (writers_all _ _ _ (mfrom_reach _ _ _ R H)) as W. rewrite E in W. split.
  - intros i X. apply in_split in X as (l1 & l2 & ->). specialize (W (mlog s ++ l1) (LOpen i k) l2). rewrite <- app_assoc in W.
    destruct (W eq_refl j k WrEmpty) as (_ & _ & W'). apply W', in_or_app. auto.
  - intros i r X. apply in_split in X as (l1 & l2 & ->). specialize (W (mlog s ++ l1) (LWriter i k r) l2). rewrite <- app_assoc in W.
    destruct (W eq_refl) as [W' _]. apply (W' j), in_or_app. auto.
Qed.
Lemma next_writer size (ok : sys -> Prop) s i k : mreach size ok s -> n_crashed (s_net s) = false -> at_ s i (TWrite k WGet) ->
  (forall j, ~ active j k (mlog s)) -> (forall j, ~ In (LWriter j k WrEmpty) (mlog s)) ->
  exists s', mstep s (EvStep i Go) = Some s' /\
    if n_on (s_net s) (fst k) then mlog s' = mlog s ++ [LOpen i k] /\ at_ s' i (TWrite k WOpen) /\ can_step s' i
    else mlog s' = mlog s ++ [LWriter i k WrDisconnected] /\ at_ s' i (TWrite k (WDone WrDisconnected)).
Proof.
  intros R C I N NE. destruct (invariants _ _ _ R) as [Lk K].
  assert (G : forall j st, at_ s j (TWrite k st) -> st = WGet \/ exists r, st = WDone r /\ r <> WrEmpty).
  { intros j st J. destruct st; auto; try (exfalso; apply (N j); exact (story_active _ _ _ _ _ _ K J ltac:(discriminate) ltac:(intros; discriminate))).
    right. exists r. split; [reflexivity|]. intros ->. pose proof (K_story _ _ _ K _ _ J) as S. cbn in S.
    apply (NE j). assert (X : In (LWriter j k WrEmpty) (mine j (mlog s))) by (rewrite S; cbn; auto). apply filter_In in X. apply X. }
  assert (Fw : u_wlk (n_sock (s_net s) k) = None).
  { destruct (u_wlk (n_sock (s_net s) k)) as [j|] eqn:Q; [exfalso|reflexivity]. apply (L_w _ _ Lk) in Q as (t & J & Hw).
    destruct t as [k' st| | | |]; try discriminate Hw. assert (Qk : sock_eqb k' k = true) by (cbn in Hw; destruct st as [| | | | | | | |[]]; congruence). destruct (sock_eqb_spec k' k) as [->|]; [|discriminate].
    destruct (G _ _ J) as [->|(r & -> & Nr)]; [discriminate|destruct r; try discriminate; congruence]. }
  assert (Fb : u_blk (n_sock (s_net s) k) = None).
  { destruct (u_blk (n_sock (s_net s) k)) as [j|] eqn:Q; [exfalso|reflexivity]. apply (L_b _ _ Lk) in Q as (t & J & Hw).
    destruct t as [k' st| | | |]; try discriminate Hw. assert (Qk : sock_eqb k' k = true) by (cbn in Hw; destruct st as [| | | | | | | |[]]; congruence). destruct (sock_eqb_spec k' k) as [->|]; [|discriminate].
    destruct (G _ _ J) as [->|(r & -> & Nr)]; [discriminate|destruct r; try discriminate; congruence]. }
  unfold mstep. rewrite C. unfold at_ in I. rewrite I. cbn [tstep write_step]. rewrite Fw. cbn [free].
  destruct (n_on (s_net s) (fst k)) eqn:On; eexists; (split; [reflexivity|]).
  - split; [reflexivity|]. split; [eapply set_nth_eq; eauto|]. exists (ChWrite []).
    unfold mstep. cbn [wake s_net s_ts]. rewrite (eq_refl : n_crashed (log (LOpen i k) (set_wlk k (Some i) (s_net s))) = n_crashed (s_net s)), C.
    rewrite (set_nth_eq _ _ _ _ I). cbn [tstep write_step]. rewrite sock_log, blk_set_wlk, Fb. cbn [free].
    destruct (buf_write _ _) as [b o]. eexists. reflexivity.
  - split; [reflexivity|]. eapply set_nth_eq; eauto.
Qed.

(* ----- C43 ----- *)
Lemma crash_cause size (ok : sys -> Prop) s e s' : (forall s, ok s -> calm s /\ fitting s) -> mreach size ok s ->
  mstep s e = Some s' -> n_crashed (s_net s') = true ->
  exists i k, e = EvStep i Go /\ at_ s i (TWrite k WSend) /\ off s (fst k).
Proof.
  intros Ok R E Cr. destruct (crash_step size ok s e s' Ok R E Cr) as (i & ch & k & -> & I & Sh). exists i, k.
  assert (ch = Go). { unfold mstep in E. destruct (n_crashed (s_net s)); [discriminate|]. rewrite I in E. cbn in E. destruct ch; cbn in E; try discriminate; reflexivity. }
  subst ch. split; [reflexivity|]. split; [exact I|]. destruct (n_on (s_net s) (fst k)) eqn:On; [exfalso|reflexivity].
  assert (Cm : calm s) by (apply (calm_reach size ok); [intros s0 H; apply (Ok _ H)|exact R]).
  destruct (flows size ok s (fun s0 H => proj1 (Ok s0 H)) R) as [_ FS]. destruct (s_o _ _ _ (FS (fst k)) On) as [O1 O2].
  - intros x u X. destruct (dialing (fst k) u) eqn:Dl; [|reflexivity]. destruct (Nat.eq_dec x i) as [->|Nx].
    + unfold at_ in I. rewrite I in X. injection X as <-. discriminate.
    + assert (B : busy (fst k) (TWrite k WSend) = false) by (apply (Cm x i (fst k) u); auto). cbn in B. rewrite Nat.eqb_refl in B. discriminate.
  - destruct k as [p []]; unfold remote in Sh; cbn in *; congruence.
Qed.
Lemma no_panic size s : mreach size orderly s -> n_crashed (s_net s) = false.
Proof. apply (no_crash size orderly). { intros s0 (A & B & _). auto. } intros s0 (_ & _ & H). exact H. Qed.
Lemma writer_hangs s i k : closed_up s (fst k) -> at_ s i (TWrite k WParked) ->
  (forall j u, at_ s j u -> receiving (remote k) u = false) ->
  forall s', mfrom (fun s => off s (fst k)) s s' -> at_ s' i (TWrite k WParked) /\ ~ can_step s' i.
Proof.
  intros [Off Cl] I N. apply stuck_writer; auto. intros j u J. split; [eauto|]. unfold mid. destruct (closing u) as [[k' c]|] eqn:Q; [|reflexivity].
  destruct (fst k' =? fst k) eqn:Qk; [|reflexivity]. apply Nat.eqb_eq in Qk. rewrite (Cl _ _ _ _ J Q Qk). reflexivity.
Qed.

(* ----- C44 ----- *)
Lemma dial_connects size s e s1 p : mreach size anything s -> mstep s e = Some s1 -> off s p -> connected s1 p ->
  exists i, at_ s i (TDial p DlCAS) /\ at_ s1 i (TDial p DlReset1) /\
  forall s2 r, mfrom anything s1 s2 -> In (LDialed i p r) (mlog s2) -> r = DlNil \/ r = DlShutting \/ r = DlClosed.
Proof.
  intros R E Off On. destruct (connects _ _ _ _ E Off On) as (i & ch & -> & I & I1). exists i. split; [exact I|]. split; [exact I1|].
  intros s2 r F L. assert (R2 : mreach size anything s2) by (eapply mfrom_reach; [|exact F]; econstructor; eauto; constructor).
  apply (dialed_done _ _ _ R2) in L. destruct (past_stays _ _ _ _ s2 I1 (or_introl eq_refl) F) as (st & X & Y).
  unfold at_ in *. rewrite L in X. injection X as <-. destruct Y as [Y|[Y|[Y|Y]]]; [discriminate|..]; injection Y as ->; auto.
Qed.

(* ----- C45 ----- *)
Lemma down_inactive size (ok : sys -> Prop) s : mreach size ok s ->
  (forall i st, at_ s i (TDown st) -> st <> ShCAS -> n_active (s_net s) = false) /\ (forall i, In (LDown i) (mlog s) -> n_active (s_net s) = false).
Proof.
  revert s. apply (mreach_ind_ size ok (fun s => (forall i st, at_ s i (TDown st) -> st <> ShCAS -> n_active (s_net s) = false) /\ (forall i, In (LDown i) (mlog s) -> n_active (s_net s) = false))).
  { split; [intros [] st X; discriminate X|intros i []]. }
  intros s e s' R [IH1 IH2] _ H _.
  assert (G : forall x t n' t' w, nth_error (s_ts s) x = Some t -> trel (s_ts s) x (s_net s) t n' t' w ->
     (forall i, In (LDown i) (n_log n') -> n_active n' = false) /\ (forall st, t' = TDown st -> st <> ShCAS -> n_active n' = false)).
  { intros x t n' t' w X T. tcases T k st n1 s1 H1 H0.
    - inversion H1; subst; netu; netc; (split; [|discriminate]); intros i L; try (apply in_app_or in L as [L|[L|[]]]; [|discriminate L]); eauto.
    - inversion H1; subst; netu; netc; (split; [|discriminate]); intros i L; try (apply in_app_or in L as [L|[L|[]]]; [|discriminate L]); eauto.
    - assert (Q : n_log n1 = n_log (s_net s) /\ n_active n1 = n_active (s_net s)) by (destruct H0; split; reflexivity). destruct Q as [Q1 Q2].
      destruct t as [| ? ? ? []| | |[]]; try discriminate H1; destruct s1; cbn [end_close to_close]; netu; netc; rewrite ?Q1, ?Q2;
        (split; [intros i0 L; try (apply in_app_or in L as [L|[L|[]]]; [|discriminate L]); eauto|]); intros ? Q; try discriminate; intros _; (eapply IH1; [exact X|discriminate]).
    - inversion H1; subst; netu; netc; (split; [|discriminate]); intros i L; repeat (apply in_app_or in L as [L|L]; [|cbn in L; destruct L as [L|[]]; discriminate L]); eauto.
    - inversion H1; subst; netu; netc; (split; [intros i0 L; try (apply in_app_or in L as [L|[L|[]]]); eauto|intros st0 _ _; auto]);
        try (eapply IH1; [exact X|discriminate]); auto. }
  split.
  - intros i st I N. pose proof (inactive_stays _ _ _ H) as St. unfold at_ in I.
    destruct H as [e t B|x ch t n' t' X T|x ch t n' t' j v k0 X T D V J]; cbn in *.
    + apply snoc_lookup in I as [I|I]; [eapply IH1; eauto|]. subst t. destruct e; try discriminate B. injection B as B. congruence.
    + apply set_nth_lookup in I as [[<- I]|[Dx I]]; [symmetry in I; eapply (G _ _ _ _ _ X T); eauto|]. apply St. eapply IH1; eauto.
    + apply set_nth_lookup in I as [[<- ?]|[Dx I]]; [discriminate|].
      apply set_nth_lookup in I as [[<- I]|[Dx' I]]; [symmetry in I; refine (proj2 (G _ _ _ _ _ X T) _ I N)|]. apply St. eapply IH1; eauto.
  - destruct H as [e t B|x ch t n' t' X T|x ch t n' t' j v k0 X T D V J]; cbn in *; [exact IH2|apply (G _ _ _ _ _ X T)|apply (G _ _ _ _ _ X T)].
Qed.
Lemma dials_refused size s i s' : mreach size anything s -> In (LDown i) (mlog s) -> (forall j p, ~ at_ s j (TDial p DlAdd)) ->
  mfrom anything s s' -> news (mlog s') = news (mlog s).
Proof. intros R L N F. apply (no_more_news s s'); auto. eapply (proj2 (down_inactive _ _ _ R)); eauto. Qed.
Lemma second_shutdown size s i j : mreach size anything s -> In (LDown j) (mlog s) -> n_crashed (s_net s) = false -> at_ s i (TDown ShCAS) ->
  mstep s (EvStep i Go) = Some (MkSys (log (LDown i) (s_net s)) (set_nth (s_ts s) i (TDown ShDone))).
Proof.
  intros R L C I. unfold mstep. rewrite C, I. cbn [tstep down_step]. rewrite (proj2 (down_inactive _ _ _ R) _ L). reflexivity.
Qed.

(* ----- checking runs ----- *)
Fixpoint pairs_ok (f : thread -> thread -> bool) (ts : list thread) : bool :=
  match ts with [] => true | t :: ts' => forallb (fun u => f t u && f u t) ts' && pairs_ok f ts' end.
Lemma pairs_ok_spec f ts : pairs_ok f ts = true -> forall i j t u, i <> j -> nth_error ts i = Some t -> nth_error ts j = Some u -> f t u = true.
Proof.
  induction ts as [|a ts IH]; cbn; intros H [|i] [|j] t u D I J; try discriminate; try congruence;
    apply andb_true_iff in H as [H1 H2]; rewrite forallb_forall in H1; cbn in *.
  - injection I as <-. apply nth_error_In, H1, andb_true_iff in J. apply J.
  - injection J as <-. apply nth_error_In, H1, andb_true_iff in I. apply I.
  - eapply IH; [exact H2| |exact I|exact J]. congruence.
Qed.
Definition dialed (t : thread) : option nat := match t with TDial q (DlReset1 | DlReset2) => Some q | _ => None end.
Definition calmb (s : sys) : bool :=
  pairs_ok (fun t u => match dialed t with Some p => negb (busy p u) | None => true end) (s_ts s).
Lemma calmb_spec s : calmb s = true -> calm s.
Proof.
  intros H i j p t u D I J Dl. pose proof (pairs_ok_spec _ _ H i j t u D I J) as Q. cbn in Q.
  assert (E : dialed t = Some p). { destruct t as [| | |q []|]; try discriminate Dl; cbn in *; apply Nat.eqb_eq in Dl; subst; reflexivity. }
  rewrite E in Q. apply negb_true_iff. exact Q.
Qed.
Definition politeb (s : sys) : bool :=
  forallb (fun t => match closing t with
    | Some (k, ClRemote) => forallb (fun u => negb (sending k u) && negb (sending (remote k) u) &&
        forallb (fun v => negb (waits k u && receiving (remote k) v) && negb (waits (remote k) u && receiving k v)) (s_ts s)) (s_ts s)
    | _ => true end) (s_ts s).
Lemma politeb_spec s : politeb s = true -> polite s.
Proof.
  intros H i j h t u v k I C J V. unfold politeb in H. rewrite forallb_forall in H. specialize (H _ (nth_error_In _ _ I)). rewrite C in H.
  rewrite forallb_forall in H. specialize (H _ (nth_error_In _ _ J)). apply andb_true_iff in H as [H H2]. apply andb_true_iff in H as [H H1].
  rewrite forallb_forall in H2. specialize (H2 _ (nth_error_In _ _ V)). apply andb_true_iff in H2 as [H2 H3].
  apply negb_true_iff in H, H1, H2, H3. repeat split; auto; intros W; rewrite W in *; assumption.
Qed.
Definition orderlyb (s : sys) : bool :=
  calmb s && politeb s && forallb (fun t => match t with TRead _ m _ _ => length (m_ident m) =? 8 | _ => true end) (s_ts s).
Lemma orderlyb_spec s : orderlyb s = true -> orderly s.
Proof.
  intros H. apply andb_true_iff in H as [H H3]. apply andb_true_iff in H as [H1 H2]. split; [apply calmb_spec, H1|]. split; [apply politeb_spec, H2|].
  intros i t I. rewrite forallb_forall in H3. specialize (H3 _ (nth_error_In _ _ I)). destruct t; cbn; auto. apply Nat.eqb_eq, H3.
Qed.
Definition no_dialb (s : sys) : bool := forallb (fun t => match t with TDial _ st => negb (past_cas st) | _ => true end) (s_ts s).
Lemma no_dialb_spec s : no_dialb s = true -> no_dial s.
Proof. intros H i p st I. unfold no_dialb in H. rewrite forallb_forall in H. specialize (H _ (nth_error_In _ _ I)). apply negb_true_iff, H. Qed.
Fixpoint checked_run (b : sys -> bool) (s : sys) (es : list ev) : option sys :=
  match es with
  | [] => Some s
  | e :: es' => match mstep s e with Some s' => if b s' then checked_run b s' es' else None | None => None end
  end.
Lemma checked_from (b : sys -> bool) (ok : sys -> Prop) s0 es : (forall s, b s = true -> ok s) ->
  forall s s', mfrom ok s0 s -> checked_run b s es = Some s' -> mfrom ok s0 s'.
Proof.
  intros H. induction es as [|e es IH]; intros s s' F E; cbn in E; [injection E as <-; exact F|].
  destruct (mstep s e) as [s1|] eqn:E1; [|discriminate]. destruct (b s1) eqn:B; [|discriminate]. apply (IH s1 s'); auto. econstructor; eauto.
Qed.
Lemma checked_reach (b : sys -> bool) (ok : sys -> Prop) size es : (forall s, b s = true -> ok s) ->
  forall s s', mreach size ok s -> checked_run b s es = Some s' -> mreach size ok s'.
Proof.
  intros H. induction es as [|e es IH]; intros s s' F E; cbn in E; [injection E as <-; exact F|].
  destruct (mstep s e) as [s1|] eqn:E1; [|discriminate]. destruct (b s1) eqn:B; [|discriminate]. apply (IH s1 s'); auto. econstructor; eauto.
Qed.

(* ----- C41: calls that fail ----- *)
Lemma called_reach size f s i k s' e : mreach size anything s -> called f s i k s' e -> mreach size anything s'.
Proof.
  intros R (fails & cs & _ & E & _). revert s R E. induction (map (on_writer i) cs) as [|x es IH]; intros s R E; cbn in E; [injection E as <-; exact R|].
  destruct (mstep s x) as [s1|] eqn:E1; [|discriminate]. apply (IH s1); [|exact E]. econstructor; eauto. constructor.
Qed.
Lemma failed_call_wedges size s i k f s1 e s2 : mreach size anything s -> at_ s i (TWrite k WOpen) -> pending i (mlog s) = [] ->
  (rejects f \/ exists frame, writes f frame /\ size < length frame) -> called f s i k s1 e -> mfrom anything s1 s2 ->
  e <> None /\ at_ s1 i (TWrite k (WDone WrEmpty)) /\
  exists l, mlog s2 = mlog s1 ++ l /\ (forall j, ~ In (LOpen j k) l) /\ (forall j r, ~ In (LWriter j k r) l).
Proof.
  intros R I P W C F. destruct (call_wedges size s i k f s1 e R I P W C) as [I1 N]. split; [exact N|]. split; [exact I1|].
  pose proof (called_reach _ _ _ _ _ _ _ R C) as R1. eapply wedged_forever; [exact R1| |exact F].
  destruct (invariants _ _ _ R1) as [_ K]. pose proof (K_story _ _ _ K _ _ I1) as S. cbn in S.
  assert (X : In (LWriter i k WrEmpty) (mine i (mlog s1))) by (rewrite S; cbn; auto). apply filter_In in X. apply X.
Qed.
Lemma prefix_every P l1 l2 : every P (l1 ++ l2) -> every P l1.
Proof. intros H a e c ->. apply (H a e (c ++ l2)). rewrite <- app_assoc. reflexivity. Qed.
(* what a writer sends is what was pending when its Close was called *)
Lemma flush_frame size s1 i k frame s2 : mreach size anything s1 -> at_ s1 i (TWrite k WFlush) -> pending i (mlog s1) = frame ->
  mfrom anything s1 s2 -> forall k' g b, In (LSend i k' g b) (mlog s2) -> k' = k /\ b = frame.
Proof.
  intros R1 I1 P F. revert s2 F.
  assert (G : forall s2, mfrom anything s1 s2 -> mreach size anything s2 /\ (exists st, at_ s2 i (TWrite k st) /\ st <> WGet /\ st <> WOpen) /\ pending i (mlog s2) = frame /\
    forall k' g b, In (LSend i k' g b) (mine i (mlog s2)) -> k' = k /\ b = frame).
  { intros s2 F. induction F as [|s e s' F (R & (st & I & N1 & N2) & Q & L) E _].
    - split; [exact R1|]. split; [exists WFlush; repeat split; auto; discriminate|]. split; [exact P|].
      destruct (invariants _ _ _ R1) as [_ K]. pose proof (K_story _ _ _ K _ _ I1) as S. cbn in S. destruct S as [S _]. rewrite S.
      intros k' g b [X|[]]. discriminate X.
    - split; [econstructor; eauto; constructor|]. pose proof (mstep_rel _ _ _ E) as [_ H].
      destruct (invariants _ _ _ R) as [_ K]. pose proof (K_story _ _ _ K _ _ I) as S.
      destruct H as [e t B|x ch t n' t' X T|x ch t n' t' j v k0 X T D V J]; unfold at_ in *; cbn [s_net s_ts] in *.
      + split; [|split; [exact Q|exact L]]. exists st. split; [apply snoc_old; exact I|auto].
      + destruct (Nat.eq_dec x i) as [->|Nx].
        * rewrite I in X. injection X as <-. tcases T k1 st1 n1 s1' H1 H0; [|discriminate H1].
          split; [exists s1'; split; [eapply set_nth_eq; eauto|]; inversion H1; subst; split; congruence|].
          split; [inversion H1; subst; netu; netc; rewrite ?pending_snoc; cbn [pending1]; rewrite ?Nat.eqb_refl; auto; congruence|].
          inversion H1; subst; try congruence; netu; netc; rewrite ?mine_snoc; cbn [of]; rewrite ?Nat.eqb_refl; auto;
            intros k' g0 b Y; try (apply in_app_or in Y as [Y|[Y|[]]]; [eauto|]); eauto; try discriminate Y;
            injection Y as <- _ <-; (split; [reflexivity|]); cbn in S; destruct S as (_ & S & _); unfold full in S; congruence.
        * destruct (trel_log _ _ _ _ _ _ _ i T ltac:(auto)) as [Q'' Q']. split; [exists st; rewrite set_nth_ne by auto; auto|]. split; [congruence|].
          rewrite Q''. exact L.
      + destruct (Nat.eq_dec x i) as [->|Nx].
        * rewrite I in X. injection X as <-. tcases T k1 st1 n1 s1' H1 H0. discriminate H1.
        * destruct (trel_log _ _ _ _ _ _ _ i T ltac:(auto)) as [Q'' Q']. 
          split; [|split; [netu; netc; congruence|netu; netc; rewrite Q''; exact L]].
          destruct (Nat.eq_dec j i) as [->|Nj].
          -- rewrite I in J. injection J as -> ->. exists (WReset v). split; [eapply set_nth_eq; rewrite set_nth_ne by auto; exact I|split; discriminate].
          -- exists st. rewrite !set_nth_ne by auto. auto. }
  intros s2 F k' g b L. destruct (G s2 F) as (R2 & _ & _ & Q). apply (Q k' g b). apply in_mine; [apply Nat.eqb_refl|exact L].
Qed.
(* WriteMsg* delivers exactly the frame or nothing *)
Lemma call_delivers size s i k f frame s1 e s2 : mreach size anything s -> at_ s i (TWrite k WOpen) -> pending i (mlog s) = [] ->
  writes f frame -> frame <> [] -> called f s i k s1 e -> mfrom anything s1 s2 ->
  forall k' g b, In (LSend i k' g b) (mlog s2) -> k' = k /\ b = frame.
Proof.
  intros R I P W N C F k' g b L. pose proof (called_reach _ _ _ _ _ _ _ R C) as R1. destruct (le_lt_dec (length frame) size) as [Fit|Big].
  - destruct (call_fits _ _ _ _ _ _ _ _ R I P W N Fit C) as [I1 P1]. eapply flush_frame; eauto.
  - exfalso. destruct (call_wedges size s i k f s1 e R I P (or_intror (ex_intro _ frame (conj W Big))) C) as [I1 _].
    destruct (invariants _ _ _ R1) as [_ K]. pose proof (K_story _ _ _ K _ _ I1) as S. cbn in S.
    assert (Wr : In (LWriter i k WrEmpty) (mlog s1)). { assert (Y : In (LWriter i k WrEmpty) (mine i (mlog s1))) by (rewrite S; cbn; auto). apply filter_In in Y. apply Y. }
    assert (R2 : mreach size anything s2) by (eapply mfrom_reach; eauto). destruct (mfrom_grows _ _ _ F) as (l & El). rewrite El in L.
    apply in_app_or in L as [L|L].
    + assert (Y : In (LSend i k' g b) (mine i (mlog s1))) by (apply in_mine; [apply Nat.eqb_refl|exact L]). rewrite S in Y. destruct Y as [Y|[Y|[]]]; discriminate Y.
    + apply in_split in L as (l1 & l2 & ->). pose proof (writers_all _ _ _ R2) as Wt. rewrite El in Wt.
      specialize (Wt (mlog s1 ++ l1) (LSend i k' g b) l2). rewrite <- app_assoc in Wt. destruct (Wt eq_refl) as ((Op & A) & _).
      destruct (invariants _ _ _ R2) as [_ K2].
      assert (k = k'). { assert (Y1 : In (LWriter i k WrEmpty) (mlog s2)) by (rewrite El; apply in_or_app; auto). apply (find_writer size _ _ K2) in Y1.
        assert (Y2 : In (LOpen i k') (mlog s2)) by (rewrite El; apply in_app_or in Op as [Op|Op]; apply in_or_app; [left|right; apply in_or_app; left]; exact Op).
        apply (find_open size _ _ K2) in Y2 as (st & Y2 & _). congruence. }
      subst k'. apply (A WrEmpty), in_or_app. auto.
Qed.
