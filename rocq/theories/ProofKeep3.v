(* Sessions kept in files: calls of hooks against what the server did. *)
From Coq Require Import List Arith NArith ZArith Lia Bool.
From Verif Require Import BaseBytes BaseConc ModelMessage ModelHandle ModelSession ModelGetter ModelPath ModelFiles ModelKeep.
From Verif Require Import SpecFiles SpecSession SpecGetter SpecKeep ProofSession ProofSession2 ProofSession3 ProofSession4 ProofGetter ProofKeep ProofKeep2.
Import ListNotations.
Open Scope nat_scope.

Section Trace.
Variables (z : setting) (good : house -> hev -> house -> Prop).
Hypothesis CP : copies z.
Hypothesis OB : forall s e s', good s e s' -> one_by_one s e s'.
Notation lg s := (slog (h_sys s)).

Lemma records_clone x y : Clone (g_copy z) (Some x) = Some y -> HCreate (x_key x) (x_creation y) (x_last y) (SessionInfoToVarMap z (x_info y)) = records z x.
Proof.
  cbn. intros [= <-]. unfold records, SessionInfoToVarMap. cbn. destruct (N.eqb_spec (x_info x) 0) as [E|E]; [reflexivity|].
  destruct (CP _ E) as [N V]. apply N.eqb_neq in N. rewrite N, V. reflexivity.
Qed.

Definition got (s : house) (i : nat) (y : ModelSession.session) : Prop := exists c info x enc calls,
  nth_error (s_ts (h_sys s)) i = Some (TCreate c info CHook) /\ g_sess (s_srv (h_sys s)) c = Some x /\ In (LNotifyCreated i c x enc calls) (lg s) /\
  Clone (g_copy z) (Some x) = Some y.
Definition ran (s : house) (i : nat) (h : hook blob) : Prop :=
  match h with
  | HCreate _ _ _ _ => exists c info x enc calls, nth_error (s_ts (h_sys s)) i = Some (TCreate c info CHook) /\ In (LNotifyCreated i c x enc calls) (lg s) /\ h = records z x
  | HLookup _ _ => True
  | HClose k => In (LDestroy i k) (lg s)
  end.
Definition made_done (L : list event) (s : house) (i c : nat) : Prop := exists x enc calls r, In (LNotifyCreated i c x enc calls) L /\ In (records z x, r) (h_done s).
Definition closed_done (s : house) (i : nat) (k : key) : Prop := (exists r, In (HClose k, r) (h_done s)) \/ exists pr, h_pend s i = Some (PRun (HClose k) pr).
Record trace (s : house) : Prop := {
  Tr_got : forall i y, h_pend s i = Some (PGot y) -> got s i y;
  Tr_run : forall i h pr, h_pend s i = Some (PRun h pr) -> ran s i h;
  Tr_created : forall L i c, In L (logs s) -> In (LCreated i c) L -> made_done L s i c;
  Tr_closed : forall i k, In (LDestroy i k) (lg s) -> closed_done s i k;
  Tr_past : (forall s e s', good s e s' -> calm z s e s') -> forall L i k, In L (h_past s) -> In (LDestroy i k) L -> exists r, In (HClose k, r) (h_done s);
  Tr_from : forall h r, In (h, r) (h_done s) -> exists L, In L (logs s) /\ called_in z L h r }.

Lemma called_more L le h r : called_in z L h r -> called_in z (L ++ le) h r.
Proof.
  destruct h; cbn.
  - intros (x & (i & c & enc & calls & A & B) & E). exists x. split; [|exact E]. exists i, c, enc, calls. rewrite !in_app_iff. auto.
  - intros [i I]. exists i. rewrite in_app_iff. auto.
  - intros [i I]. exists i. rewrite in_app_iff. auto.
Qed.
Lemma trace_step s s' le ld : trace s -> h_past s' = h_past s -> lg s' = lg s ++ le -> h_done s' = h_done s ++ ld ->
  (forall i y, h_pend s' i = Some (PGot y) -> got s' i y) -> (forall i h pr, h_pend s' i = Some (PRun h pr) -> ran s' i h) ->
  (forall i c, In (LCreated i c) le -> made_done (lg s') s' i c) -> (forall i k, In (LDestroy i k) (lg s') -> closed_done s' i k) ->
  (forall h r, In (h, r) ld -> called_in z (lg s') h r) -> trace s'.
Proof.
  intros [T1 T2 T3 T4 T5 T6] EP EL ED A B C D E. constructor; auto.
  - intros L i c IL IC. unfold logs in IL. rewrite EP in IL. apply in_app_iff in IL as [IL|[<-|[]]].
    + destruct (T3 L i c) as (x & enc & calls & r & X & Y); [apply in_app_iff; auto|exact IC|]. exists x, enc, calls, r. rewrite ED, in_app_iff. auto.
    + rewrite EL in IC. apply in_app_iff in IC as [IC|IC]; [|auto]. destruct (T3 (lg s) i c) as (x & enc & calls & r & X & Y); [apply in_app_iff; right; left; reflexivity|exact IC|].
      exists x, enc, calls, r. rewrite EL, ED, !in_app_iff. auto.
  - intros Q L i k. rewrite EP. intros IL ID. destruct (T5 Q L i k IL ID) as [r R]. exists r. rewrite ED, in_app_iff. auto.
  - intros h r I. rewrite ED in I. apply in_app_iff in I as [I|I].
    + destruct (T6 h r I) as (L & IL & CL). unfold logs in *. rewrite EP. apply in_app_iff in IL as [IL|[<-|[]]]; [exists L; rewrite in_app_iff; auto|].
      exists (lg s'). rewrite in_app_iff. split; [right; left; reflexivity|]. rewrite EL. apply called_more, CL.
    + exists (lg s'). unfold logs. rewrite in_app_iff. split; [right; left; reflexivity|]. auto.
Qed.

(* what is added to the log *)
Lemma log_effect f i g t ch g' t' : tcase f i g t ch g' t' -> exists le, g_log g' = g_log g ++ le /\
  (forall j c, In (LCreated j c) le -> j = i /\ exists info, t = TCreate c info CHook) /\
  (forall j k, In (LDestroy j k) le -> j = i /\ exists c x, site_of t = Some (AtClosed c) /\ g_sess g c = Some x /\ k = x_key x).
Proof.
  intros H. tcases H; cbn; try (exists []; rewrite app_nil_r; repeat split; intros; contradiction);
    eexists; (split; [reflexivity|]); split; intros j ? [E|[]]; try discriminate E; injection E as <- <-; split; eauto 6.
Qed.
Lemma close_logs f i g t g' t' c x : tcase f i g t (ChHook false) g' t' -> site_of t = Some (AtClosed c) -> g_sess g c = Some x -> g_log g' = g_log g ++ [LDestroy i (x_key x)].
Proof.
  intros H S X. tcases H; cbn in S; try discriminate S; injection S as <-; cbn; congruence.
Qed.
Lemma hook_logs f i g c info ch g' t' : tcase f i g (TCreate c info CHook) ch g' t' -> g_log g' = g_log g ++ [LCreated i c].
Proof. intros H. inversion H as [c0 i0 s0 ch0 g0 s1 CC| | | | |]; subst. inversion CC; subst. reflexivity. Qed.
Lemma look_logs f i g c m r g' t' : tcase f i g (TRestore c m RLook) (ChLook r) g' t' -> g_log g' = g_log g ++ [LLookup i (payload_of m) r].
Proof. intros H. inversion H as [| |c0 m0 s0 ch0 g0 s1 RC| | |]; subst. inversion RC; subst; reflexivity. Qed.
Lemma site_created t c : site_of t = Some (AtCreated c) -> exists info, t = TCreate c info CHook.
Proof. destruct t as [c0 info st|c0 st|c0 m st|c0 m st|c0 st|k st]; destruct st; cbn; try discriminate; try (destruct d; discriminate). 
  - intros [= <-]. eauto.
  - destruct q; try discriminate. destruct d; discriminate.
Qed.

Lemma excl_now s : hreach z good s -> exclusive (h_sys s).
Proof. intros R. destruct R as [|s e s' R H G]; [apply exclusive_new|exact (OB _ _ _ G)]. Qed.
Lemma made_now s i t : hreach z good s -> nth_error (s_ts (h_sys s)) i = Some t -> made i (s_srv (h_sys s)) t.
Proof.
  intros R N. destruct (house_sys z good exclusive s (fun _ _ _ G => OB _ _ _ G) R) as (y & RY & SH & _).
  assert (N' : nth_error (s_ts y) i = Some t) by (destruct SH as [E|E]; rewrite E in N; exact N).
  pose proof (made_reach _ _ _ (fun _ X => X) RY _ _ N') as M. destruct SH as [E|E]; rewrite E; exact M.
Qed.

(* a step of the server: pending calls of other threads *)
Lemma others s s' i ch t g' t' : hreach z good s -> trace s -> nth_error (s_ts (h_sys s)) i = Some t -> tcase (g_cfg z) i (s_srv (h_sys s)) t ch g' t' ->
  h_sys s' = MkSys g' (set_nth (s_ts (h_sys s)) i t') ->
  (forall j y, j <> i -> h_pend s j = Some (PGot y) -> got s' j y) /\ (forall j h pr, h_pend s j = Some (PRun h pr) -> j <> i \/ not_close h -> j <> i -> ran s' j h).
Proof.
  intros R T N TC E. destruct (log_effect _ _ _ _ _ _ _ TC) as (le & EL & _).
  assert (LI : incl (lg s) (lg s')) by (rewrite E; cbn; rewrite EL; intros e I; apply in_app_iff; auto).
  split.
  - intros j y D P. destruct (Tr_got _ T j y P) as (c & info & x & enc & calls & A & B & C & F). exists c, info, x, enc, calls. rewrite E. cbn [s_ts s_srv].
    split; [apply (set_nth_some _ _ _ _ N); auto|]. split; [|split; [apply LI in C; rewrite E in C; exact C|exact F]].
    destruct (sess_touch _ _ _ _ _ _ _ c TC) as [-> |TO]; [exact B|]. exfalso. eapply (excl_now _ R i j t _ c); eauto; [apply touch_busy, TO|]. cbn. apply Nat.eqb_refl.
  - intros j h pr P _ D. pose proof (Tr_run _ T j h pr P) as RN. destruct h as [k cr lo v|k now|k]; cbn in *; [|exact Logic.I|apply LI, RN].
    destruct RN as (c & info & x & enc & calls & A & B & C). exists c, info, x, enc, calls. split; [rewrite E; apply (set_nth_some _ _ _ _ N); auto|]. auto.
Qed.

Lemma trace_all s : hreach z good s -> trace s.
Proof.
  intros R. induction R as [|s e s' R IH H G].
  - constructor; cbn; try discriminate; try contradiction.
    intros L i c [<-|[]] [].
  - pose proof (hstep_inv _ _ _ _ H) as HC.
    assert (SAME : forall j h pr, h_sys s' = h_sys s \/ h_sys s' = MkSys (crash (s_srv (h_sys s))) (s_ts (h_sys s)) -> ran s j h -> h_pend s j = Some (PRun h pr) -> ran s' j h).
    { intros j h pr E RN _. unfold ran in *. destruct E as [-> | ->]; exact RN. }
    assert (SAMEG : forall j y, h_sys s' = h_sys s \/ h_sys s' = MkSys (crash (s_srv (h_sys s))) (s_ts (h_sys s)) -> got s j y -> got s' j y).
    { intros j y E. unfold got. destruct E as [-> | ->]; auto. }
    destruct HC as [|e y C EN ST|i t c x C N S P0 GE|i t c C N S P0 GE|i now h C NX NC|i now k y C NX ST|i w h pr d pr' C P0 ST|i h r ch y C P0 RT ST|i k r C P0].
    + (* restart *) constructor; cbn; try discriminate; try contradiction.
      * intros L i c IL IC. apply in_app_iff in IL as [IL|[<-|[]]]; [|destruct IC]. exact (Tr_created _ IH L i c IL IC).
      * intros Q L i k IL ID. apply in_app_iff in IL as [IL|[<-|[]]]; [exact (Tr_past _ IH Q L i k IL ID)|].
        destruct (Tr_closed _ IH i k ID) as [X|[pr P]]; [exact X|]. exfalso. apply (Q _ _ _ G (HClose k)). exists i, pr. exact P.
      * intros h r I. destruct (Tr_from _ IH h r I) as (L & IL & CL). exists L. split; [|exact CL]. unfold logs in *. cbn. apply in_app_iff. left. exact IL.
    + (* the server *) apply step_inv in ST as [_ [(t & B & ->)|(i & ch & t & g' & t' & -> & N & T & ->)]].
      * eapply (trace_step s _ [] []); cbn; rewrite ?app_nil_r; try exact IH; try reflexivity; try (intros; contradiction).
        -- intros i y P. destruct (Tr_got _ IH i y P) as (c & info & x & enc & calls & A & X). exists c, info, x, enc, calls. split; [|exact X]. cbn. apply nth_error_snoc_some. auto.
        -- intros i h pr P. pose proof (Tr_run _ IH i h pr P) as RN. destruct h; cbn in *; try exact RN. destruct RN as (c & info0 & x & enc & calls & A & X).
           exists c, info0, x, enc, calls. split; [|exact X]. apply nth_error_snoc_some. auto.
        -- exact (Tr_closed _ IH).
      * apply tstep_inv in T. destruct EN as (P & t0 & N0 & S). rewrite N in N0. injection N0 as <-.
        destruct (log_effect _ _ _ _ _ _ _ T) as (le & EL & LC & LD).
        destruct (others s (set_sys (MkSys g' (set_nth (s_ts (h_sys s)) i t')) s) i ch t g' t' R IH N T eq_refl) as [OG OR].
        assert (ND : forall j k, In (LDestroy j k) le -> False).
        { intros j k I. destruct (LD j k I) as (-> & c & x & S' & X & _). destruct S as [S|(c0 & S & X')]; congruence. }
        eapply (trace_step s _ le []); cbn; rewrite ?app_nil_r; try exact IH; try reflexivity; try exact EL; try (intros; contradiction).
        -- intros j y PJ. destruct (Nat.eq_dec j i) as [->|D]; [congruence|]. auto.
        -- intros j h pr PJ. destruct (Nat.eq_dec j i) as [->|D]; [congruence|]. eauto.
        -- intros j c I. destruct (LC j c I) as (-> & info & ->). destruct S as [S|(c0 & S & _)]; discriminate.
        -- intros j k I. rewrite EL in I. apply in_app_iff in I as [I|I]; [exact (Tr_closed _ IH j k I)|]. destruct (ND _ _ I).
    + (* the first getter *) destruct (site_created _ _ S) as [info ->]. pose proof (made_now _ _ _ R N) as (x0 & enc & calls & M1 & M2 & M3).
      unfold getter, get_session in GE. destruct (locked (s_srv (h_sys s)) c); [discriminate|]. injection GE as GE. rewrite M1 in GE.
      eapply (trace_step s _ [] []); cbn; rewrite ?app_nil_r; try exact IH; try reflexivity; try (intros; contradiction).
      * intros j y PJ. apply upd_run in PJ as [[-> [= <-]]|[D PJ]]; [|apply SAMEG; [left; reflexivity|exact (Tr_got _ IH j y PJ)]].
        exists c, info, x0, enc, calls. auto.
      * intros j h pr PJ. apply upd_run in PJ as [[-> [=]]|[D PJ]]. eapply SAME; [left; reflexivity|exact (Tr_run _ IH j h pr PJ)|exact PJ].
      * intros j k I. destruct (Tr_closed _ IH j k I) as [X|[pr PJ]]; [left; exact X|right; exists pr; cbn]. unfold upd. destruct (Nat.eqb_spec i j) as [->|D]; [congruence|]. destruct (Nat.eqb_spec j i); congruence.
    + (* ... panics *) eapply (trace_step s _ [] []); cbn; rewrite ?app_nil_r; try exact IH; try reflexivity; try (intros; contradiction).
      * intros j y PJ. apply SAMEG; [right; reflexivity|exact (Tr_got _ IH j y PJ)].
      * intros j h pr PJ. eapply SAME; [right; reflexivity|exact (Tr_run _ IH j h pr PJ)|exact PJ].
      * exact (Tr_closed _ IH).
    + (* OnSessionCreated and OnSessionLookup *) destruct (next_site _ _ _ _ _ NX) as (t & N & X).
      eapply (trace_step s _ [] []); cbn; rewrite ?app_nil_r; try exact IH; try reflexivity; try (intros; contradiction).
      * intros j y PJ. apply upd_run in PJ as [[-> [=]]|[D PJ]]. apply SAMEG; [left; reflexivity|exact (Tr_got _ IH j y PJ)].
      * intros j h' pr PJ. apply upd_run in PJ as [[-> [= <- <-]]|[D PJ]]; [|eapply SAME; [left; reflexivity|exact (Tr_run _ IH j h' pr PJ)|exact PJ]].
        destruct h as [k cr lo v|k n|k]; [|exact Logic.I|destruct NC]. destruct X as (c & y & S & PG & GE & -> & -> & ->).
        destruct (Tr_got _ IH i y PG) as (c0 & info & x & enc & calls & A & B & D & F). rewrite N in A. injection A as ->. cbn in S. injection S as ->.
        exists c, info, x, enc, calls. split; [exact N|]. split; [exact D|]. unfold getter, get_session in GE. destruct (locked (s_srv (h_sys s)) c); [discriminate|].
        rewrite B in GE. injection GE as <-. apply records_clone, F.
      * intros j k I. destruct (Tr_closed _ IH j k I) as [Y|[pr PJ]]; [left; exact Y|right]. exists pr. cbn. unfold upd. destruct (Nat.eqb_spec j i) as [->|D]; [|exact PJ].
        exfalso. destruct h; cbn in X; [destruct X as (c & y & _ & PG & _)|destruct X as (_ & PG & _)|destruct NC]; congruence.
    + (* OnSessionClosed *) destruct (next_site _ _ _ _ _ NX) as (t & N & c & x & S & PN & GS & XK).
      apply step_inv in ST as [_ [(u & B & ->)|(i' & ch & u & g' & t' & E & N' & T & ->)]]; [discriminate B|]. injection E as <- <-. rewrite N in N'. injection N' as <-.
      apply tstep_inv in T. pose proof (close_logs _ _ _ _ _ _ _ _ T S GS) as EL. rewrite XK in EL.
      match goal with |- trace ?X => destruct (others s X i _ t g' t' R IH N T eq_refl) as [OG OR] end.
      eapply (trace_step s _ [LDestroy i k] []); cbn; rewrite ?app_nil_r; try exact IH; try reflexivity; try exact EL; try (intros; contradiction).
      * intros j y PJ. apply upd_run in PJ as [[-> [=]]|[D PJ]]. auto.
      * intros j h pr PJ. apply upd_run in PJ as [[-> [= <- <-]]|[D PJ]]; [|eauto]. cbn. cbn. rewrite EL. apply in_app_iff. right. left. reflexivity.
      * intros j c0 [E|[]]. discriminate.
      * intros j k' I. rewrite EL in I. apply in_app_iff in I as [I|[[= <- <-]|[]]].
        -- destruct (Tr_closed _ IH j k' I) as [Y|[pr PJ]]; [left; exact Y|right]. exists pr. cbn. unfold upd. destruct (Nat.eqb_spec j i) as [->|D]; [congruence|exact PJ].
        -- right. cbn. unfold upd. rewrite Nat.eqb_refl. eauto.
    + (* a system call *) eapply (trace_step s _ [] []); cbn; rewrite ?app_nil_r; try exact IH; try reflexivity; try (intros; contradiction).
      * intros j y PJ. apply upd_run in PJ as [[-> [=]]|[D PJ]]. apply SAMEG; [left; reflexivity|exact (Tr_got _ IH j y PJ)].
      * intros j h' pr0 PJ. apply upd_run in PJ as [[-> [= <- <-]]|[D PJ]]; eapply SAME; try (left; reflexivity); try exact (Tr_run _ IH _ _ _ PJ); try exact PJ; [exact (Tr_run _ IH _ _ _ P0)|exact P0].
      * intros j k I. destruct (Tr_closed _ IH j k I) as [Y|[pr0 PJ]]; [left; exact Y|right]. cbn. unfold upd. destruct (Nat.eqb_spec j i) as [->|D]; [|eauto].
        rewrite P0 in PJ. injection PJ as -> _. eauto.
    + (* OnSessionCreated and OnSessionLookup return *)
      apply step_inv in ST as [_ [(u & B & ->)|(i' & ch' & u & g' & t' & E & N & T & ->)]]; [discriminate B|]. injection E as <- <-.
      apply tstep_inv in T. destruct (fits_all _ _ _ R _ _ P0) as (u0 & N0 & BL). rewrite N in N0. injection N0 as <-.
      match goal with |- trace ?X => destruct (others s X i _ u g' t' R IH N T eq_refl) as [OG OR] end.
      assert (HL : exists ev, g_log g' = g_log (s_srv (h_sys s)) ++ [ev] /\ (forall j k, ev <> LDestroy j k) /\
        (forall j c, ev = LCreated j c -> j = i /\ exists info x enc calls, u = TCreate c info CHook /\ In (LNotifyCreated i c x enc calls) (lg s) /\ h = records z x) /\
        called_in z (g_log (s_srv (h_sys s)) ++ [ev]) h r).
      { destruct h as [k cr lo v|k n|k]; [| |discriminate RT].
        - cbn in BL. pose proof (Tr_run _ IH _ _ _ P0) as (c & info & x & enc & calls & A & B & D). rewrite N in A. injection A as ->.
          exists (LCreated i c). split; [exact (hook_logs _ _ _ _ _ _ _ _ T)|]. split; [discriminate|]. split.
          + intros j c0 [= <- <-]. split; [reflexivity|]. exists info, x, enc, calls. auto.
          + exists x. split; [|exact D]. exists i, c, enc, calls. rewrite !in_app_iff. split; [left; exact B|right; left; reflexivity].
        - cbn in RT. injection RT as <-. cbn in BL. destruct u as [c0 info st|c0 st|c0 m st|c0 m st|c0 st|k0 st]; destruct st; cbn in BL; try discriminate BL; try (destruct d; discriminate BL); try (destruct q; try discriminate BL; destruct d; discriminate BL).
          injection BL as <-. exists (LLookup i (payload_of m) (looked r)). split; [exact (look_logs _ _ _ _ _ _ _ _ T)|]. split; [discriminate|]. split; [discriminate|].
          exists i. apply in_app_iff. right. left. reflexivity. }
      destruct HL as (ev & EL & ND & CR & CI).
      eapply (trace_step s _ [ev] [(h, r)]); cbn; try exact IH; try reflexivity; try exact EL.
      * intros j y PJ. apply upd_run in PJ as [[-> [=]]|[D PJ]]. auto.
      * intros j h' pr PJ. apply upd_run in PJ as [[-> [=]]|[D PJ]]. eauto.
      * intros j c [E|[]]. destruct (CR j c E) as (-> & info & x & enc & calls & _ & A & ->). exists x, enc, calls, r. cbn. rewrite EL, !in_app_iff. split; [left; exact A|right; left; reflexivity].
      * intros j k I. rewrite EL in I. apply in_app_iff in I as [I|[I|[]]]; [|exfalso; exact (ND j k I)].
        destruct (Tr_closed _ IH j k I) as [[r0 Y]|[pr PJ]]; [left; exists r0; cbn; apply in_app_iff; auto|right]. cbn. unfold upd. destruct (Nat.eqb_spec j i) as [->|D]; [|eauto].
        rewrite P0 in PJ. injection PJ as -> _. discriminate RT.
      * intros h' r' [[= <- <-]|[]]. cbn. rewrite EL. exact CI.
    + (* OnSessionClosed returns *) eapply (trace_step s _ [] [(HClose k, r)]); cbn; rewrite ?app_nil_r; try exact IH; try reflexivity; try (intros; contradiction).
      * intros j y PJ. apply upd_run in PJ as [[-> [=]]|[D PJ]]. apply SAMEG; [left; reflexivity|exact (Tr_got _ IH j y PJ)].
      * intros j h' pr PJ. apply upd_run in PJ as [[-> [=]]|[D PJ]]. eapply SAME; [left; reflexivity|exact (Tr_run _ IH j h' pr PJ)|exact PJ].
      * intros j k' I. destruct (Tr_closed _ IH j k' I) as [[r0 Y]|[pr PJ]]; [left; exists r0; cbn; apply in_app_iff; auto|]. cbn. unfold closed_done. cbn. unfold upd. destruct (Nat.eqb_spec j i) as [->|D]; [|eauto].
        rewrite P0 in PJ. injection PJ as -> _. left. exists r. apply in_app_iff. right. left. reflexivity.
      * intros h' r' [[= <- <-]|[]]. exists i. exact (Tr_run _ IH _ _ _ P0).
Qed.
End Trace.
