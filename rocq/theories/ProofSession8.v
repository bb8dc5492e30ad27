(* Sessions: which results are due to the environment; requests and their replies *)
From Coq Require Import List Arith NArith ZArith Lia Bool.
From Verif Require Import BaseBytes BaseConc ModelMessage ModelWrite ModelHandle ModelSession.
From Verif Require Import SpecWire SpecMessage SpecWrite SpecHandle SpecSession.
From Verif Require Import ProofWrite ProofCodec ProofHandle ProofSession ProofSession2 ProofSession3 ProofSession4 ProofSession5 ProofSession6 ProofSession7.
Import ListNotations.
Open Scope nat_scope.

Local Arguments Nat.ltb : simpl never.
Local Arguments Nat.eqb : simpl never.
Local Arguments N.ltb : simpl never.
Local Arguments N.eqb : simpl never.
Local Arguments Z.leb : simpl never.
Local Arguments Z.eqb : simpl never.
Local Arguments Z.of_nat : simpl never.
Local Arguments register : simpl never.
Local Arguments deregister : simpl never.
Local Arguments reply : simpl never.

Lemma track_steps f i (P : list choice -> srv -> thread -> Prop) :
  (forall pre g t ch g' t', g_crashed g = false -> P pre g t -> tcase f i g t ch g' t' -> P (pre ++ [ch]) g' t') ->
  forall chs pre s ts t s', s_ts s = ts ++ [t] -> length ts = i -> P pre (s_srv s) t ->
  srun f s (map (EvStep i) chs) = Some s' -> exists t', s_ts s' = ts ++ [t'] /\ P (pre ++ chs) (s_srv s') t'.
Proof.
  intros St. induction chs as [|ch chs IH]; cbn [map srun]; intros pre s ts t s' Ts L Pt H.
  - injection H as <-. rewrite app_nil_r. eauto.
  - destruct (sstep f s (EvStep i ch)) as [s1|] eqn:E; [|discriminate].
    apply step_inv in E as [C [(u & B & _)|(i' & ch' & u & g' & t' & E & N & T & ->)]]; [discriminate|].
    injection E as <- <-. rewrite Ts, <- L, nth_error_app2, Nat.sub_diag in N by lia. injection N as <-.
    apply tstep_inv in T. replace (pre ++ ch :: chs) with ((pre ++ [ch]) ++ chs) by (rewrite <- app_assoc; reflexivity).
    apply (IH (pre ++ [ch]) (MkSys g' (set_nth (s_ts s) i t')) ts t' s'); [|exact L|exact (St _ _ _ _ _ _ C Pt T)|exact H].
    cbn. rewrite Ts, <- L. clear. induction ts; cbn; [reflexivity|f_equal; exact IHts].
Qed.
Lemma track f s e t0 (P : list choice -> srv -> thread -> Prop) chs s' : begin e = Some t0 -> P [] (s_srv s) t0 ->
  (forall pre g t ch g' t', g_crashed g = false -> P pre g t -> tcase f (me s) g t ch g' t' -> P (pre ++ [ch]) g' t') ->
  alone f s e chs = Some s' -> exists t, s_ts s' = s_ts s ++ [t] /\ P chs (s_srv s') t.
Proof.
  intros B P0 St. unfold alone. cbn [srun]. destruct (sstep f s e) as [s1|] eqn:E; [|discriminate]. intros H.
  apply step_inv in E as [C [(u & Bu & ->)|(i & ch & u & g' & t' & -> & _)]]; [|discriminate].
  rewrite B in Bu. injection Bu as <-.
  exact (track_steps f (me s) P St chs [] (MkSys (s_srv s) (s_ts s ++ [t0])) (s_ts s) t0 s' eq_refl eq_refl P0 H).
Qed.

(* ---------- results ---------- *)
Lemma run_calls_fail fails chunks : forall i, snd (run_calls fails i chunks) = true -> exists n, fails n = true.
Proof.
  induction chunks as [|c cs IH]; cbn; intros i H; [eauto|]. destruct (fails i) eqn:F; [eauto|].
  specialize (IH (S i)). destruct (run_calls fails (S i) cs) as [l e]. auto.
Qed.
Lemma writes_fail (fn : forall W, writer_ops W -> W -> option (W * option werr)) b fails calls e : writes fn b ->
  fn _ (log_writer fails) [] = Some (calls, Some e) -> exists n, fails n = true.
Proof.
  intros (chunks & _ & H) E. destruct (H fails []) as (e' & E' & Q & _). rewrite E in E'. injection E' as -> <-.
  apply (run_calls_fail _ chunks 0), Q. discriminate.
Qed.
Definition partial_results (t : thread) : list result :=
  match t with
  | TServer _ (SLoop done _) | TServer _ (SIn done _ _ _) => map snd done
  | _ => results t
  end.
Lemma excused_more pre ch r : excused pre r -> excused (pre ++ [ch]) r.
Proof.
  destruct r; cbn; auto; try (intros H; apply in_or_app; left; exact H).
  intros (h & n & H & F). exists h, n. split; [apply in_or_app; left; exact H|exact F].
Qed.
Lemma excused_last (ch : choice) : forall pre, In ch (pre ++ [ch]).
Proof. intros pre. apply in_or_app. right. left. reflexivity. Qed.
Lemma lcase_excused f i g c q ch g' r pre : lcase f i g c q ch g' (QDone r) -> excused (pre ++ [ch]) r.
Proof.
  intros H. inversion H; subst; cbn; auto using excused_last. destruct e; cbn; [|exact I].
  match goal with X : WriteMsgNotifySessionClosed _ _ = _ |- _ =>
    destruct (writes_fail (fun W ops w => WriteMsgNotifySessionClosed ops w) _ _ _ _ closed_writes X) as [n F] end.
  exists fails, n. split; [apply excused_last|exact F].
Qed.
Lemma errors_excused f s e chs s' t : alone f s e chs = Some s' -> s_ts s' = s_ts s ++ [t] -> Forall (excused chs) (results t).
Proof.
  intros H Ts. assert (exists t0, begin e = Some t0 /\ partial_results t0 = []) as (t0 & B & Z).
  { unfold alone in H. cbn [srun] in H. destruct (sstep f s e) as [s1|] eqn:E; [|discriminate].
    apply step_inv in E as [_ [(u & Bu & _)|(i & ch & u & g' & t' & -> & N & T & ->)]].
    - exists u. split; [exact Bu|]. destruct e; cbn in Bu; try discriminate; injection Bu as <-; reflexivity.
    - exfalso. assert (L : forall chs s1 s2, srun f s1 (map (EvStep (me s)) chs) = Some s2 -> length (s_ts s2) = length (s_ts s1)).
      { clear. induction chs as [|ch chs IH]; cbn; intros s1 s2; [intros [= <-]; reflexivity|].
        destruct (sstep f s1 (EvStep (me s) ch)) as [s3|] eqn:E; [|discriminate]. intros H. rewrite (IH _ _ H).
        apply step_inv in E as [_ [(u & Bu & _)|(i & ch' & u & g' & t' & E & N & T & ->)]]; [discriminate|]. cbn. apply set_nth_length. }
      apply L in H. cbn in H. rewrite Ts, set_nth_length, app_length in H. cbn in H. lia. }
  destruct (track f s e t0 (fun pre g t => Forall (excused pre) (partial_results t)) chs s' B) as (t' & Et & P).
  - rewrite Z. constructor.
  - intros pre g u ch g' u' _ F T.
    assert (M : Forall (excused (pre ++ [ch])) (partial_results u)) by (eapply Forall_impl; [|exact F]; intros; apply excused_more; assumption).
    inversion T; subst; clear T; cbn in *.
    + match goal with X : ccase _ _ _ _ _ _ _ _ _ |- _ => inversion X; subst; clear X end; cbn; auto;
        try (constructor; [cbn; auto using excused_last; fail|constructor]).
      match goal with X : WriteMsgNotifySessionCreated _ _ _ = _ |- _ =>
        destruct (writes_fail (fun W ops w => WriteMsgNotifySessionCreated ops w enc) _ _ _ _ (created_writes enc) X) as [n Fn] end.
      constructor; [|constructor]. exists fails, n. split; [apply excused_last|exact Fn].
    + match goal with X : lcase _ _ _ _ ?q _ _ ?q' |- _ => destruct q'; cbn; auto; constructor; [eapply lcase_excused; exact X|constructor] end.
    + constructor.
    + constructor.
    + constructor.
    + match goal with X : scase _ _ _ _ _ _ _ _ |- _ => inversion X; subst; clear X end; cbn in *; auto.
      rewrite map_app. apply Forall_app. split; [exact M|]. constructor; [|constructor]. eapply lcase_excused; eassumption.
  - exact H.
  - rewrite Ts in Et. apply app_inv_head in Et. injection Et as <-. destruct t as [? ? []|? []|? ? []|? ? []|? []|? []]; cbn in *; auto.
Qed.
(* a disconnected socket gets no session *)
Lemma create_disconnected f s c info chs s' r : alone f s (EvCreate c info) chs = Some s' ->
  s_ts s' = s_ts s ++ [TCreate c info (CDone r)] -> f_enabled f = true ->
  (r = RDisconnected <-> In (ChSock false) chs).
Proof.
  intros H Ts En.
  destruct (track f s (EvCreate c info) (TCreate c info CStart) (fun pre g t => exists p, t = TCreate c info p /\
     match p with CStart => pre = [] | CDone RDisconnected => In (ChSock false) pre | _ => ~ In (ChSock false) pre end) chs s' eq_refl) as (t & Et & P).
  - exists CStart. auto.
  - intros pre g u ch g' u' _ (p & -> & Pp) T. inversion T; subst; clear T. eexists. split; [reflexivity|].
    match goal with X : ccase _ _ _ _ _ _ _ _ _ |- _ => inversion X; subst; clear X end; try congruence; auto using excused_last;
      rewrite in_app_iff; intros [Q|[Q|[]]]; try discriminate; try (exact (Pp Q)).
    all: subst pre; destruct Q.
  - exact H.
  - rewrite Ts in Et. apply app_inv_head in Et. injection Et as <-. destruct P as (p & Ep & P). injection Ep as <-.
    destruct r; split; try discriminate; try tauto; intros; contradiction.
Qed.

(* ---------- requests ---------- *)
Lemma reply_last f s e chs s' t (c : nat) m : alone f s e chs = Some s' -> s_ts s' = s_ts s ++ [t] ->
  e = EvRestore c m /\ t = TRestore c m RDone \/ e = EvClosure c m /\ t = TClosure c m XDone ->
  exists chs0 w a sn l, chs = chs0 ++ [ChW w] /\ fine a = true /\ plain a = true /\ reply m a w = Some sn /\
    slog s' = l ++ [LReply (me s) c m a sn].
Proof.
  intros H Ts Cs.
  set (fin := fun pre g => exists chs0 w a sn l, pre = chs0 ++ [ChW w] /\ fine a = true /\ plain a = true /\ reply m a w = Some sn /\
    g_log g = l ++ [LReply (me s) c m a sn]).
  destruct Cs as [[-> ->]|[-> ->]].
  - destruct (track f s (EvRestore c m) (TRestore c m RStart) (fun pre g t => exists p, t = TRestore c m p /\
      match p with RRep a => fine a = true /\ plain a = true | RDone => fin pre g | _ => True end) chs s' eq_refl) as (t & Et & P).
    + exists RStart. auto.
    + intros pre g u ch g' u' _ (p & -> & Pp) T. inversion T; subst; clear T. eexists. split; [reflexivity|].
      match goal with X : rcase _ _ _ _ _ _ _ _ _ |- _ => inversion X; subst; clear X end; auto.
      destruct Pp as [F1 F2]. exists pre, w, a, st, (g_log g). cbn. auto.
    + exact H.
    + rewrite Ts in Et. apply app_inv_head in Et. injection Et as <-. destruct P as (p & Ep & P). injection Ep as <-. exact P.
  - destruct (track f s (EvClosure c m) (TClosure c m XStart) (fun pre g t => exists p, t = TClosure c m p /\
      match p with XRep a => fine a = true /\ plain a = true | XDone => fin pre g | _ => True end) chs s' eq_refl) as (t & Et & P).
    + exists XStart. auto.
    + intros pre g u ch g' u' _ (p & -> & Pp) T. inversion T; subst; clear T. eexists. split; [reflexivity|].
      match goal with X : xcase _ _ _ _ _ _ _ _ _ |- _ => inversion X; subst; clear X end; auto.
      destruct Pp as [F1 F2]. exists pre, w, a, st, (g_log g). cbn. auto.
    + exact H.
    + rewrite Ts in Et. apply app_inv_head in Et. injection Et as <-. destruct P as (p & Ep & P). injection Ep as <-. exact P.
Qed.
Lemma received_payload m b c : received m b c -> payload_of m = k_payload c.
Proof.
  intros (m0 & Bl & L & F & R).
  destruct (ReadBytes_spec m0 b Bl) as (m' & ok & e & R' & _ & _ & _ & _ & S).
  rewrite R in R'. injection R' as <- <- <-. destruct (S c L F) as (_ & _ & _ & _ & P & _). exact P.
Qed.
Lemma closure_last f s c m s' a sn : closure_outcome f s c m s' a sn -> exists l, slog s' = l ++ [LReply (me s) c m a sn].
Proof.
  intros H. inversion H; subst; eauto. match goal with X : ended _ _ _ _ _ _ |- _ => destruct X as (_ & _ & n & _ & E) end.
  rewrite E. exists (slog s ++ LLeave (me s) c (x_key x) true n :: (if true && (n =? 0)%Z then [LDestroy (me s) (x_key x)] else [])).
  rewrite <- app_assoc. reflexivity.
Qed.
Lemma restore_last f s c m k s' a sn : restore_outcome f s c m k s' a sn -> exists l, slog s' = l ++ [LReply (me s) c m a sn].
Proof.
  intros H. inversion H; subst; match goal with X : slog s' = ?l ++ ?evs |- _ => rewrite X; clear end; eauto.
  all: match goal with |- exists l, ?a ++ [?x; ?y] = _ => exists (a ++ [x]) | |- exists l, ?a ++ [?x; ?z; ?y] = _ => exists (a ++ [x; z]) end; rewrite <- app_assoc; reflexivity.
Qed.
Theorem restore_answered f s c m b cont chs s' : received m b cont -> k_type cont = 32%N ->
  alone f s (EvRestore c m) chs = Some s' -> s_ts s' = s_ts s ++ [TRestore c m RDone] ->
  exists chs0 w a sn, chs = chs0 ++ [ChW w] /\ restore_outcome f s c m (k_payload cont) s' a sn /\
    reply_sent (answer_content (k_ident cont) a) w sn.
Proof.
  intros Re Ty H Ts. destruct (restore_alone _ _ _ _ _ _ H Ts) as (a & w0 & sn & _ & O).
  destruct (reply_last _ _ _ _ _ _ c m H Ts (or_introl (conj eq_refl eq_refl))) as (chs0 & w & a' & sn' & l & -> & F & Pl & Rp & Lg).
  destruct (restore_last _ _ _ _ _ _ _ _ O) as [l' Lg']. rewrite Lg in Lg'. apply app_inj_tail in Lg' as [_ Q]. injection Q as -> ->.
  exists chs0, w, a, sn. split; [reflexivity|]. split; [rewrite <- (received_payload _ _ _ Re); exact O|].
  eapply reply_says; eauto. right. right. exact Ty.
Qed.
Theorem closure_answered f ok s c m b cont chs s' : at_least f ok -> sreach f ok s -> idle s c -> received m b cont -> k_type cont = 31%N ->
  alone f s (EvClosure c m) chs = Some s' -> s_ts s' = s_ts s ++ [TClosure c m XDone] ->
  exists chs0 w a sn, chs = chs0 ++ [ChW w] /\ closure_outcome f s c m s' a sn /\
    reply_sent (answer_content (k_ident cont) a) w sn.
Proof.
  intros AL R I Re Ty H Ts. destruct (closure_alone _ _ _ _ _ _ _ AL R I H Ts) as (a & w0 & sn & _ & O).
  destruct (reply_last _ _ _ _ _ _ c m H Ts (or_intror (conj eq_refl eq_refl))) as (chs0 & w & a' & sn' & l & -> & F & Pl & Rp & Lg).
  destruct (closure_last _ _ _ _ _ _ _ O) as [l' Lg']. rewrite Lg in Lg'. apply app_inj_tail in Lg' as [_ Q]. injection Q as -> ->.
  exists chs0, w, a, sn. split; [reflexivity|]. split; [exact O|].
  eapply reply_says; eauto. right. left. exact Ty.
Qed.

(* ---------- crashes, when calls on one connection do not overlap ---------- *)
Lemma register_full f s k c : snd (register (f_max f) (reg s) k c) = false -> ~ has_room f s k.
Proof.
  unfold register, has_room, sessionConnectionsNum. destruct (lookup (reg s) k) as [l|]; [|discriminate].
  destruct (N.ltb_spec 0 (f_max f)) as [A|A]; cbn [andb]; [|discriminate].
  destruct (N.ltb_spec (f_max f) (N.of_nat (length l + 1))) as [B|B]; [|discriminate]. intros _ [C|C]; lia.
Qed.
Lemma crash_causes_all f (ok : sys -> Prop) s e s' : (forall s, ok s -> exclusive s) -> sreach f ok s ->
  sstep f s e = Some s' -> g_crashed (s_srv s') = true ->
  fatal e \/ exists i c m enc x, e = EvStep i Go /\ nth_error (s_ts s) i = Some (TRestore c m (RReg enc)) /\
    g_sess (s_srv s) c = Some x /\ ~ has_room f s (x_key x).
Proof.
  intros Ok R H C'. apply step_inv in H as [Cr [(t & B & ->)|(i & ch & t & g' & t' & -> & N & T & ->)]]; [cbn in C'; congruence|].
  apply tstep_inv in T. cbn in C'.
  destruct (crash_effect _ _ _ _ _ _ _ T Cr C') as [(c & M & Z)|[->|[(now & ->)|[(c & m & enc & x & -> & X & Bad)|F]]]].
  - exfalso. exact (never_nil f ok s Ok R i t c N M Z).
  - left. left. eauto.
  - left. right. eauto.
  - right. exists i, c, m, enc, x. split; [|split; [exact N|split; [exact X|eapply register_full; exact Bad]]].
    inversion T; subst. match goal with Q : rcase _ _ _ _ _ _ _ _ _ |- _ => inversion Q; subst; reflexivity end.
  - exfalso. rewrite (fine_threads _ _ _ R _ _ N) in F. discriminate.
Qed.
