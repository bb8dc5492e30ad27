(* Sessions kept in files: consequences. *)
From Coq Require Import List Arith NArith ZArith Lia Bool.
From Verif Require Import BaseBytes BaseConc ModelMessage ModelHandle ModelSession ModelGetter ModelPath ModelFiles ModelKeep.
From Verif Require Import SpecFiles SpecSession SpecGetter SpecKeep ProofSession ProofSession2 ProofSession3 ProofSession4 ProofGetter ProofKeep ProofKeep2 ProofKeep3.
Import ListNotations.
Open Scope nat_scope.

(* ----- one notification per call of CreateSession ----- *)
Definition past_note (t : thread) : bool :=
  match t with TCreate _ _ (CSet _ | CReg | CHook | CDone _) => true | _ => false end.
Definition once (L : list event) : Prop := forall i c x e l c' x' e' l', In (LNotifyCreated i c x e l) L -> In (LNotifyCreated i c' x' e' l') L -> c' = c /\ x' = x.
Lemma note_effect f i g t ch g' t' : tcase f i g t ch g' t' -> (past_note t = true -> past_note t' = true) /\ exists le, g_log g' = g_log g ++ le /\
  forall j c x e l, In (LNotifyCreated j c x e l) le -> le = [LNotifyCreated j c x e l] /\ j = i /\ past_note t = false /\ past_note t' = true.
Proof.
  intros H. tcases H; cbn; (split; [auto|]); try (exists []; rewrite app_nil_r; split; [reflexivity|intros; contradiction]);
    eexists; (split; [reflexivity|]); intros j ? ? ? ? [E|[]]; try discriminate E; injection E as <- <- <- <- <-; auto.
Qed.
Lemma once_all f ok s : sreach f ok s -> once (slog s) /\ forall i c x e l, In (LNotifyCreated i c x e l) (slog s) -> exists t, nth_error (s_ts s) i = Some t /\ past_note t = true.
Proof.
  revert s. apply (reach_ind f ok (fun s => once (slog s) /\ forall i c x e l, In (LNotifyCreated i c x e l) (slog s) -> exists t, nth_error (s_ts s) i = Some t /\ past_note t = true)).
  - split; [intros i c x e l c' x' e' l' []|intros i c x e l []].
  - intros s e t _ [O P] B _. cbn. split; [exact O|]. intros i c x e0 l I. destruct (P _ _ _ _ _ I) as (u & N & Q). exists u. split; [apply nth_error_snoc_some; auto|exact Q].
  - intros s i ch t g' t' R [O P] _ N H _. apply tstep_inv in H. cbn. destruct (note_effect _ _ _ _ _ _ _ H) as (KP & le & EL & NE). rewrite EL. split.
    + intros j c x e l c' x' e' l' A B. apply in_app_iff in A, B. destruct A as [A|A], B as [B|B].
      * eapply O; eauto.
      * destruct (NE _ _ _ _ _ B) as (_ & -> & Q & _). destruct (P _ _ _ _ _ A) as (u & Nu & Qu). congruence.
      * destruct (NE _ _ _ _ _ A) as (_ & -> & Q & _). destruct (P _ _ _ _ _ B) as (u & Nu & Qu). congruence.
      * destruct (NE _ _ _ _ _ A) as (E & _). rewrite E in B. destruct B as [B|[]]. injection B as <- <- <- <-. auto.
    + intros j c x e l A. apply in_app_iff in A as [A|A].
      * destruct (P _ _ _ _ _ A) as (u & Nu & Qu). destruct (Nat.eq_dec j i) as [->|D].
        -- exists t'. split; [apply (set_nth_some _ _ _ _ N); auto|]. apply KP. congruence.
        -- exists u. split; [apply (set_nth_some _ _ _ _ N); auto|exact Qu].
      * destruct (NE _ _ _ _ _ A) as (_ & -> & _ & Q). exists t'. split; [apply (set_nth_some _ _ _ _ N); auto|exact Q].
Qed.
Lemma logs_step z s e s' : hcase z s e s' -> (e = HRestart /\ slog (h_sys s') = [] /\ h_past s' = logs s) \/ h_past s' = h_past s.
Proof. intros H. destruct H; auto. Qed.
Lemma logs_once z (good : house -> hev -> house -> Prop) s : hreach z good s -> forall L, In L (logs s) -> once L.
Proof.
  intros R. induction R as [|s e s' R IH H G].
  - intros L [<-|[]]. intros i c x e l c' x' e' l' [].
  - assert (R' : hreach z good s') by (eapply HR_step; eauto). apply hstep_inv in H.
    intros L IL. unfold logs in IL. apply in_app_iff in IL as [IL|[<-|[]]].
    + apply IH. apply logs_step in H as [(_ & _ & E)|E]; rewrite E in IL; [exact IL|]. unfold logs. apply in_app_iff. auto.
    + destruct (house_sys z good (fun _ => True) s' (fun _ _ _ _ => Logic.I) R') as (y & RY & SH & _). destruct (shown_view _ _ SH) as (EL & _). rewrite EL. apply (proj1 (once_all _ _ _ RY)).
Qed.

Section Conclusions.
Variables (z : setting) (good : house -> hev -> house -> Prop).
Hypothesis CP : copies z.
Hypothesis OB : forall s e s', good s e s' -> one_by_one s e s'.
(* calls that have returned are calls the server made *)
Lemma hooks_sound s : hreach z good s -> forall h r, In (h, r) (h_done s) -> exists L, In L (logs s) /\ called_in z L h r.
Proof. intros R. exact (Tr_from _ _ _ (trace_all z good CP OB s R)). Qed.
Lemma hooks_created s : hreach z good s -> forall L x, In L (logs s) -> created_in L x -> exists r, In (records z x, r) (h_done s).
Proof.
  intros R L x IL (i & c & enc & calls & A & B). destruct (Tr_created _ _ _ (trace_all z good CP OB s R) L i c IL B) as (x' & enc' & calls' & r & C & D).
  destruct (logs_once z good s R L IL _ _ _ _ _ _ _ _ _ A C) as [_ ->]. eauto.
Qed.
Lemma hooks_closed s : hreach z good s -> forall i k, In (LDestroy i k) (slog (h_sys s)) -> (exists r, In (HClose k, r) (h_done s)) \/ exists pr, h_pend s i = Some (PRun (HClose k) pr).
Proof. intros R. exact (Tr_closed _ _ _ (trace_all z good CP OB s R)). Qed.

Variable norm : blob -> blob.
Hypothesis CA : forall s e s', good s e s' -> calm z s e s'.
Hypothesis FA : faithful (g_json z) norm.
Hypothesis ND : g_path z <> [].
Lemma hooks_closed_all s : hreach z good s -> forall L i k, In L (logs s) -> In (LDestroy i k) L -> calling s (HClose k) \/ exists r, In (HClose k, r) (h_done s).
Proof.
  intros R L i k IL ID. apply in_app_iff in IL as [IL|[<-|[]]].
  - right. exact (Tr_past _ _ _ (trace_all z good CP OB s R) CA L i k IL ID).
  - destruct (hooks_closed s R i k ID) as [X|[pr P]]; [right; exact X|left; exists i, pr; exact P].
Qed.
Lemma some_live k : forall l cr lo i, In (HCreate k cr lo i, RDone) l -> (forall r, ~ In (HClose k, r) l) -> exists cr' la' i', live norm k l cr' la' i'.
Proof.
  induction l as [|p l IH] using rev_ind; intros cr lo i IN NC; [destruct IN|].
  destruct p as [h r].
  assert (CASE : (exists cr' lo' i', h = HCreate k cr' lo' i' /\ r = RDone) \/ spares k (h, r)).
  { destruct h as [k' cr' lo' i'|k' now|k']; cbn; [|auto|].
    - destruct (bytes_eqb_spec k' k) as [->|D]; [|right; destruct r; auto]. destruct r; cbn; eauto 6.
    - right. intros ->. apply (NC r). apply in_app_iff. right. left. reflexivity. }
  destruct CASE as [(cr' & lo' & i' & -> & ->)|SP].
  - exists cr', lo', (norm i'). exists l, lo', i', []. repeat split. constructor.
  - apply in_app_iff in IN as [IN|[[= -> ->]|[]]]; [|cbn in SP; congruence].
    destruct (IH cr lo i IN) as (cr' & la' & i' & l1 & lo' & i0 & l2 & E & F & LA & NI).
    { intros r0 I0. apply (NC r0). apply in_app_iff. auto. }
    exists cr', (last_lookup k lo' (map fst (l2 ++ [(h, r)]))), i'. exists l1, lo', i0, (l2 ++ [(h, r)]). split; [rewrite E, <- app_assoc; reflexivity|].
    split; [apply Forall_app; split; [exact F|constructor; [exact SP|constructor]]|]. auto.
Qed.
Lemma logs_later s1 s2 : hlater z good s1 s2 -> forall L, In L (h_past s1) -> In L (h_past s2).
Proof.
  intros H. induction H as [|s e s' H IH ST NR G]; [auto|]. intros L I. apply hstep_inv, logs_step in ST as [(-> & _)|E]; [congruence|]. rewrite E. auto.
Qed.
Section Request.
Variables (k : key) (s1 s2 : house) (a : answer).
Hypothesis R1 : hreach z good s1.
Hypothesis AS : asked z good k s1 s2 a.
Let L12 : hlater z good s1 s2.
Proof. destruct AS as (c & m & s1' & c' & m' & st & _ & ST & G1 & LT & _). eapply later_trans; [|exact LT]. econstructor; [constructor|exact ST|discriminate|exact G1]. Qed.
Let R2 : hreach z good s2 := later_reach _ _ _ _ R1 L12.
Lemma answer_given : answered z good norm k s1 s2 a.
Proof. destruct AS as (c & m & s1' & c' & m' & st & <- & ST & G1 & LT & IN). destruct (answer_all z norm good s1 c m s1' s2 FA ND CA R1 ST G1 LT _ _ _ _ IN) as (_ & _ & X). exact X. Qed.
Let AN := answer_given.
Lemma genuine p : a = AOk p -> exists L x la, In L (logs s2) /\ created_in L x /\ x_key x = k /\
  let vars := if (x_info x =? 0)%N then 0%N else f_vars (g_cfg z) (x_info x) in
  exists enc, p = (Utf8, enc) /\ f_json (g_cfg z) (k) (x_creation x) la (norm vars) = Some enc.
Proof.
  intros E0. pose proof AN as AN'. rewrite E0 in AN'. inversion AN' as [| |l now r l' cr la info enc F E LV J EQ| |]; subst. destruct LV as (l1 & lo & i & l2 & E1 & _ & _ & ->).
  destruct (hooks_sound s2 R2 (HCreate (k) cr lo i) RDone) as (L & IL & x & CI & RX).
  { rewrite E, app_assoc, E1, !in_app_iff. left. right. left. reflexivity. }
  injection RX as RK RC RL RI. exists L, x, la. split; [exact IL|]. split; [exact CI|]. split; [auto|]. cbn. exists enc. split; [reflexivity|]. rewrite <- RC, <- RI. exact J.
Qed.
Lemma not_lost L x : In L (logs s1) -> created_in L x -> x_key x = k ->
  marshal (g_json z) (MkSfile (x_creation x) (x_last x) (if (x_info x =? 0)%N then 0%N else f_vars (g_cfg z) (x_info x))) <> None ->
  (forall L' i, In L' (logs s2) -> ~ In (LDestroy i (k)) L') -> a <> AFail ESessNotFound.
Proof.
  intros IL CI K MA ND' E0. pose proof AN as AN'. rewrite E0 in AN'. inversion AN' as [| | | |l now r l' F E NL EQ]; subst.
  destruct (hooks_created s1 R1 L x IL CI) as [r0 IR]. unfold records in IR. rewrite K in IR.
  assert (r0 = RDone).
  { apply in_split in IR as (la & lb & ER). pose proof (lawful_all z norm good FA ND CA s1 R1 la _ _ lb ER) as X. cbn in X. destruct (marshal _ _); [exact X|congruence]. }
  subst r0. destruct (some_live (k) (h_done s1 ++ l) _ _ _ (proj2 (in_app_iff _ _ _) (or_introl IR))) as (cr & la & i & LV); [|exact (NL _ _ _ LV)].
  intros r1 I1. destruct (hooks_sound s2 R2 (HClose (k)) r1) as (L' & IL' & i & ID); [rewrite E, app_assoc; apply in_app_iff; auto|]. exact (ND' L' i IL' ID).
Qed.
Lemma gone : (exists l1 r l2, h_done s1 = l1 ++ (HClose (k), r) :: l2 /\ (forall cr lo i r', ~ In (HCreate (k) cr lo i, r') l2)) \/
    (forall cr lo i r', ~ In (HCreate (k) cr lo i, r') (h_done s1)) ->
  (forall l cr lo i r', h_done s2 = h_done s1 ++ l -> ~ In (HCreate (k) cr lo i, r') l) ->
  a = AFail ESessDisabled \/ a = AFail EMaxSessConns \/ a = AFail ESessNotFound.
Proof.
  intros CL NC.
  assert (NO : forall l now r l' cr la info, h_done s2 = h_done s1 ++ l ++ (HLookup (k) now, r) :: l' -> ~ live norm (k) (h_done s1 ++ l) cr la info).
  { intros l now r l' cr la info E (l1 & lo & i & l2 & E1 & F & _). specialize (NC _ cr lo i RDone E). rewrite in_app_iff in NC.
    assert (I1 : In (HCreate (k) cr lo i, RDone) (h_done s1)).
    { assert (I1 : In (HCreate (k) cr lo i, RDone) (h_done s1 ++ l)) by (rewrite E1; apply in_app_iff; right; left; reflexivity). apply in_app_iff in I1 as [I1|I1]; [exact I1|]. exfalso. apply NC. auto. }
    destruct CL as [(k1 & r0 & k2 & E2 & NK)|NK]; [|exact (NK _ _ _ _ I1)].
    (* the creation comes before the closing, which is then among the calls since *)
    rewrite E2, <- app_assoc in E1. cbn in E1. clear - E1 F NK NC. revert k1 E1. induction l1 as [|p l1 IH]; intros [|q k1] E1; cbn in E1.
    - discriminate.
    - injection E1 as -> E1. rewrite <- E1 in F. apply Forall_app in F as [_ F]. inversion F; subst. cbn in *. congruence.
    - injection E1 as <- E1. assert (I : In (HCreate (k) cr lo i, RDone) (k2 ++ l)) by (rewrite E1; apply in_app_iff; right; left; reflexivity). apply in_app_iff in I as [I|I]; [exact (NK _ _ _ _ I)|apply NC; auto].
    - injection E1 as <- E1. eapply IH; eauto. }
  inversion AN as [F EQ|x F L1 L2 NR EQ|l now r l' cr la info enc F E LV J EQ|l now r l' cr la info F E LV J EQ|l now r l' F E NL EQ]; auto; exfalso; eapply NO; eauto.
Qed.
End Request.
End Conclusions.

(* the time a lookup stores was read from the clock when the hook was called *)
Lemma clock_all z (good : house -> hev -> house -> Prop) (clock : Z -> Prop) : (forall s i now s', good s (HCall i now) s' -> clock now) ->
  forall s, hreach z good s -> (forall k now r, In (HLookup k now, r) (h_done s) -> clock now) /\ (forall k now, calling s (HLookup k now) -> clock now).
Proof.
  intros CK s R. induction R as [|s e s' R [ID IP] H G]; [split; [intros k now r []|intros k now (i & pr & X); discriminate X]|].
  apply hstep_inv in H.
  destruct H as [|e y C EN ST|i t c x C N S P0 GE|i t c C N S P0 GE|i now h C NX NC|i now k y C NX ST|i w h pr d pr' C P0 ST|i h r ch y C P0 RT ST|i k r C P0];
    (split; [intros k0 now0 r0 I|intros k0 now0 (j & pr0 & P)]); cbn [h_done h_pend set_sys set_pend panic] in *;
    try (apply in_app_iff in I as [I|[I|[]]]; [|injection I as E1 _]); try (apply upd_run in P as [[-> P]|[NJ P]]); try discriminate; try (eapply ID; eassumption);
    try (apply (IP k0); do 2 eexists; eassumption).
  - injection P as -> _. apply next_site in NX as (t & _ & _ & _ & ->). exact (CK _ _ _ _ G).
  - injection P as -> _. apply (IP k0). exists i, pr. exact P0.
  - subst h. apply (IP k0). do 2 eexists. exact P0.
Qed.
