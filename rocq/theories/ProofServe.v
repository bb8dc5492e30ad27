From Coq Require Import List Arith NArith ZArith Lia Bool.
From Verif Require Import BaseBytes BaseConc ModelMessage ModelWrite ModelPool ModelPayload ModelHandle
  ModelServe SpecWire SpecMessage SpecWrite SpecHandle SpecPool SpecServe ProofMessage ProofWrite ProofCodec ProofPool ProofHandle.
Import ListNotations.
Open Scope nat_scope.

(* ----- received messages through the accessors ----- *)
Lemma received_shows m b k : received m b k -> shows (observe m) k /\ IsEmpty m = false.
Proof.
  intros (m0 & B & L & F & R). destruct (ReadBytes_spec m0 b B) as (m' & ok & e & E & H1 & H2 & _ & _ & H5).
  rewrite R in E. injection E as <- <- <-. split; [auto|].
  assert (L1 : 1 <= length b).
  { destruct b; [|cbn; lia]. destruct (H2 eq_refl) as (_ & C & _). discriminate C. }
  destruct (ReadBytes_load m0 b L1 L) as (m1 & R1 & [Hl Hf] & Hbl & T & I & IB & Nm & E & P & C & PL).
  rewrite R1 in R. destruct (no_panic_parse m1) as (m2 & ok2 & e2 & P1 & _ & P3 & _).
  { destruct B as (_ & _ & B & _). unfold wf. rewrite I, B. reflexivity. }
  { lia. }
  rewrite P1 in R. injection R as -> -> ->. unfold IsEmpty. rewrite P3, Hl. apply Nat.ltb_ge. lia.
Qed.
Lemma received_value m b k g : received m b k -> k_type k <> 0%N -> get_value m g = Some (shown k g).
Proof.
  intros R N. destruct (received_shows m b k R) as [(T & I & IB & Nm & P & E & _) Em]. specialize (E N).
  cbn in I, Nm, P, E.
  destruct g; cbn [get_value shown]; unfold acc_Identifier, acc_Name, acc_PayloadEncoding, acc_Payload;
    rewrite Em; cbn [option_map]; congruence.
Qed.
Lemma received_payload m b k : received m b k -> g_get (m_buf m) (m_pld m) = k_payload k.
Proof. intros R. destruct (received_shows m b k R) as [(_ & _ & _ & _ & P & _) _]. exact P. Qed.
Lemma received_frame m b k : received m b k -> frame b k.
Proof. intros (m0 & B & L & F & R). exact F. Qed.

(* ----- specification of single events ----- *)
Definition unanswered (f : nat) (l : list vevent) : Prop := forall e, In e l -> answers f e = false.
Definition reply_said (s : sent sink) (ok : bool) (can : Prop) (k : content) : Prop :=
  (ok = true -> can -> told s k) /\ (ok = false -> s = NoWriter) /\
  (ok = true -> ~ can -> exists er, s = Used (MkSink [] 1) (Some er)).
Definition event_ok (l : list vevent) (e : vevent) : Prop :=
  match e with
  | VFrame c f b => (exists k, frame b k) /\ forall e', In e' l -> about e' <> Some f
  | VSee f g v => exists c b k, In (VFrame c f b) l /\ frame b k /\
      (app_request (k_type k) \/ app_signal (k_type k)) /\ v = shown k g /\ ~ In (VFree f) l
  | VPeek f d => In (VFree f) l \/ exists c b k, In (VFrame c f b) l /\ frame b k /\ d = k_payload k
  | VRet f _ => ~ In (VFree f) l /\ unanswered f l
  | VReply c f r ok s => exists b k, In (VFrame c f b) l /\ frame b k /\ app_request (k_type k) /\
      ~ In (VFree f) l /\ unanswered f l /\ reply_said s ok (sendable r) (reply_content (k_ident k) r)
  | VKey f key => exists c b k, In (VFrame c f b) l /\ frame b k /\ k_type k = 32%N /\ key = k_payload k /\ ~ In (VFree f) l
  | VAnswer c f an ok s => exists b k, In (VFrame c f b) l /\ frame b k /\ (k_type k = 31%N \/ k_type k = 32%N) /\
      ~ In (VFree f) l /\ unanswered f l /\ reply_said s ok (answerable an) (answer_content (k_ident k) an)
  | VShut c f s => exists b k, In (VFrame c f b) l /\ frame b k /\ wants_reply (k_type k) /\
      ~ In (VFree f) l /\ unanswered f l /\ told s (special_content 1 (k_ident k))
  | VFree f => (exists c b, In (VFrame c f b) l) /\ ~ In (VFree f) l
  end.

(* ----- invariant ----- *)
Definition job_ok (m : message) (h : hstate) : Prop :=
  match h with
  | HRun true | HRep _ => route_of (m_type m) = RtRequest
  | HRun false => route_of (m_type m) = RtSignal
  | HSess => route_of (m_type m) = RtRestore
  | HAns => route_of (m_type m) = RtRestore \/ route_of (m_type m) = RtClosure
  | HDone => True
  end.
Definition has (z : serve) (c a f : nat) (b : bytes) (m : message) (k : content) : Prop :=
  mem z a = Some m /\ received m b k /\ In (VFrame c f b) (z_log z) /\ ~ In (VFree f) (z_log z).
Definition tok (z : serve) (t : sthread) : Prop :=
  match t with
  | SRead c a => exists m, mem z a = Some m /\ blank m
  | SFail c a => exists m, mem z a = Some m
  | SGot c a f b => exists m k, has z c a f b m k /\ unanswered f (z_log z)
  | SSkip c a f b => exists m k, has z c a f b m k
  | SJob c a f b s h => exists m k, has z c a f b m k /\ job_ok m h /\ (h = HDone \/ unanswered f (z_log z))
  | SLoop _ | SEnd => True
  end.
Record sinv (z : serve) : Prop := {
  v_pool : exists h, inv (z_pool z) h /\
             forall a, In a h <-> exists i t, nth_error (z_ts z) i = Some t /\ holds t = Some a;
  v_uniq : forall i j t u a, nth_error (z_ts z) i = Some t -> nth_error (z_ts z) j = Some u ->
             holds t = Some a -> holds u = Some a -> i = j;
  v_thr : forall i t, nth_error (z_ts z) i = Some t -> tok z t;
  v_old : forall e f, In e (z_log z) -> about e = Some f -> f < z_n z;
  v_minds : forall i j t u f, nth_error (z_ts z) i = Some t -> nth_error (z_ts z) j = Some u ->
             minds t = Some f -> minds u = Some f -> i = j;
  v_busy : forall f, f < z_n z -> In (VFree f) (z_log z) \/ exists i t, nth_error (z_ts z) i = Some t /\ minds t = Some f;
  v_mlt : forall i t f, nth_error (z_ts z) i = Some t -> minds t = Some f -> f < z_n z;
  v_kept : forall f a g, In (f, a, g) (z_kept z) -> In (VFree f) (z_log z) \/
             exists j u m k c b, nth_error (z_ts z) j = Some u /\ minds u = Some f /\ holds u = Some a /\
               mem z a = Some m /\ received m b k /\ g = m_pld m /\ In (VFrame c f b) (z_log z);
  v_evs : forall l1 e l2, z_log z = l1 ++ e :: l2 -> event_ok l1 e }.

Lemma tok_stable z z' t es : tok z t ->
  (forall a, holds t = Some a -> mem z' a = mem z a) -> z_log z' = z_log z ++ es ->
  (forall e f, In e es -> minds t = Some f -> about e <> Some f) -> tok z' t.
Proof.
  intros T M L A.
  assert (HAS : forall c a f b m k, has z c a f b m k -> holds t = Some a -> minds t = Some f -> has z' c a f b m k).
  { intros c a f b m k (H1 & H2 & H3 & H4) Ha Hf. unfold has. rewrite (M a Ha), L. repeat split; auto.
    - apply in_or_app. auto.
    - intros C. apply in_app_or in C as [C|C]; [contradiction|]. apply (A _ f C Hf). reflexivity. }
  assert (UN : forall f, unanswered f (z_log z) -> minds t = Some f -> unanswered f (z_log z')).
  { intros f U Hf e He. rewrite L in He. apply in_app_or in He as [He|He]; [apply U; exact He|].
    specialize (A e f He Hf). destruct e; cbn in A |- *; try reflexivity; apply Nat.eqb_neq; congruence. }
  destruct t; cbn in *; auto.
  - destruct T as (m & E & B). exists m. rewrite M by reflexivity. auto.
  - destruct T as (m & E). exists m. rewrite M by reflexivity. auto.
  - destruct T as (m & k & H & U). exists m, k. split; auto.
  - destruct T as (m & k & H). exists m, k. auto.
  - destruct T as (m & k & H & J & U). exists m, k. split; [auto|]. split; [auto|]. destruct U; auto.
Qed.

Lemma snoc_evs (l es : list vevent) :
  (forall l1 e l2, l = l1 ++ e :: l2 -> event_ok l1 e) ->
  (es = [] \/ exists e, es = [e] /\ event_ok l e) ->
  forall l1 e l2, l ++ es = l1 ++ e :: l2 -> event_ok l1 e.
Proof.
  intros H [->|(x & -> & X)] l1 e l2 E; [rewrite app_nil_r in E; eauto|].
  destruct l2 as [|y l2 _] using rev_ind.
  - apply app_inj_tail in E as [-> ->]. exact X.
  - rewrite app_comm_cons, app_assoc in E. apply app_inj_tail in E as [E _]. eauto.
Qed.

Lemma nth_app_sp (ts sp : list sthread) j u : nth_error (ts ++ sp) j = Some u ->
  nth_error ts j = Some u \/ In u sp.
Proof.
  intros H. destruct (Nat.ltb_spec j (length ts)).
  - rewrite nth_error_app1 in H by assumption. auto.
  - rewrite nth_error_app2 in H by assumption. right. eapply nth_error_In; eauto.
Qed.

Definition idle (t : sthread) : Prop := exists c, t = SLoop c.

Lemma sinv_gen z z' i t t' sp es : sinv z -> nth_error (z_ts z) i = Some t ->
  z_ts z' = set_nth (z_ts z) i t' ++ sp -> (forall u, In u sp -> idle u) ->
  z_log z' = z_log z ++ es -> (es = [] \/ exists e, es = [e] /\ event_ok (z_log z) e) ->
  (forall e f, In e es -> about e = Some f -> (minds t = Some f \/ minds t' = Some f) /\ f < z_n z') ->
  (exists h, inv (z_pool z') h /\ forall a, In a h <->
     (exists j u, j <> i /\ nth_error (z_ts z) j = Some u /\ holds u = Some a) \/ holds t' = Some a) ->
  (forall a j u, j <> i -> nth_error (z_ts z) j = Some u -> holds u = Some a ->
     holds t' <> Some a /\ mem z' a = mem z a) ->
  ((z_n z' = z_n z /\ (minds t' = minds t \/ minds t' = None)) \/
   (z_n z' = S (z_n z) /\ minds t = None /\ minds t' = Some (z_n z))) ->
  (forall f, minds t = Some f -> (minds t' = Some f /\ holds t' = holds t /\
     forall a, holds t = Some a -> mem z' a = mem z a) \/ In (VFree f) (z_log z')) ->
  tok z' t' ->
  (forall f a g, In (f, a, g) (z_kept z') -> In (f, a, g) (z_kept z) \/
     exists m k c b, minds t' = Some f /\ holds t' = Some a /\ mem z' a = Some m /\ received m b k /\
       g = m_pld m /\ In (VFrame c f b) (z_log z)) ->
  sinv z'.
Proof.
  intros I Ht Ets Hsp EL Hes Ab HP HM HN HF HT HK.
  assert (EI : nth_error (z_ts z') i = Some t').
  { rewrite Ets, nth_error_app1.
    - eapply set_nth_eq; eauto.
    - rewrite set_nth_length. apply nth_error_Some. congruence. }
  assert (EJ : forall j u, j <> i -> nth_error (z_ts z) j = Some u -> nth_error (z_ts z') j = Some u).
  { intros j u N H. rewrite Ets, nth_error_app1.
    - rewrite set_nth_ne by congruence. exact H.
    - rewrite set_nth_length. apply nth_error_Some. congruence. }
  assert (EK : forall j u, nth_error (z_ts z') j = Some u ->
    (j = i /\ u = t') \/ (j <> i /\ nth_error (z_ts z) j = Some u) \/ idle u).
  { intros j u H. rewrite Ets in H. apply nth_app_sp in H as [H|H]; [|auto].
    apply set_nth_lookup in H as [[<- ->]|[N H]]; auto. }
  assert (ID : forall u, idle u -> holds u = None /\ minds u = None) by (intros u [c ->]; auto).
  assert (NM : z_n z <= z_n z') by (destruct HN as [[-> _]|[-> _]]; lia).
  assert (MI : forall j u f, j <> i -> nth_error (z_ts z) j = Some u -> minds u = Some f -> minds t' <> Some f /\ minds t <> Some f).
  { intros j u f N Hj Hf. assert (N2 : minds t <> Some f).
    { intros C. apply N. symmetry. eapply (v_minds z I); eauto. }
    split; [|exact N2]. destruct HN as [[_ [-> | ->]]|(_ & _ & ->)]; [exact N2|discriminate|].
    pose proof (v_mlt z I _ _ _ Hj Hf). intros [= C]. lia. }
  constructor.
  - destruct HP as (h & Hi & HO). exists h. split; [exact Hi|]. intros a. rewrite HO. split.
    + intros [(j & u & N & Hj & Ha)|Ha]; eauto.
    + intros (j & u & Hj & Ha). destruct (EK j u Hj) as [[-> ->]|[[N H]|H]]; eauto 6.
      destruct (ID u H); congruence.
  - intros j1 j2 u1 u2 a H1 H2 A1 A2.
    destruct (EK _ _ H1) as [[-> ->]|[[N1 K1]|K1]]; [| |destruct (ID _ K1); congruence];
    (destruct (EK _ _ H2) as [[-> ->]|[[N2 K2]|K2]]; [| |destruct (ID _ K2); congruence]); auto.
    + exact (False_ind _ (proj1 (HM a j2 u2 N2 K2 A2) A1)).
    + exact (False_ind _ (proj1 (HM a j1 u1 N1 K1 A1) A2)).
    + eapply (v_uniq z I); eauto.
  - intros j u Hj. destruct (EK j u Hj) as [[-> ->]|[[N H]|[c ->]]]; [exact HT| |exact Logic.I].
    eapply tok_stable; [eapply (v_thr z I); eauto| |exact EL|].
    + intros a Ha. eapply HM; eauto.
    + intros e f He Hf C. destruct (MI j u f N H Hf) as [M1 M2]. destruct (Ab e f He C) as [[D|D] _]; contradiction.
  - intros e f He Hf. rewrite EL in He. apply in_app_or in He as [He|He].
    + pose proof (v_old z I _ _ He Hf). lia.
    + apply (Ab e f He Hf).
  - intros j1 j2 u1 u2 f H1 H2 A1 A2.
    destruct (EK _ _ H1) as [[-> ->]|[[N1 K1]|K1]]; [| |destruct (ID _ K1); congruence];
    (destruct (EK _ _ H2) as [[-> ->]|[[N2 K2]|K2]]; [| |destruct (ID _ K2); congruence]); auto.
    + exact (False_ind _ (proj1 (MI j2 u2 f N2 K2 A2) A1)).
    + exact (False_ind _ (proj1 (MI j1 u1 f N1 K1 A1) A2)).
    + eapply (v_minds z I); eauto.
  - intros f Hf. destruct (Nat.eq_dec f (z_n z)) as [->|Ne].
    + destruct HN as [[E _]|(E & _ & M)]; [lia|]. right. exists i, t'. split; assumption.
    + destruct (v_busy z I f) as [Hv|(j & u & Hj & Hu)].
      { destruct HN as [[E _]|(E & _)]; lia. }
      { left. rewrite EL. apply in_or_app. auto. }
      destruct (Nat.eq_dec j i) as [->|N]; [|right; exists j, u; split; [apply EJ; assumption|exact Hu]].
      assert (u = t) as -> by congruence. destruct (HF f Hu) as [[M _]|C]; [|left; exact C].
      right. exists i, t'. split; assumption.
  - intros j u f Hj Hf. destruct (EK j u Hj) as [[-> ->]|[[N H]|H]]; [| |destruct (ID _ H); congruence].
    + destruct HN as [[E [M|M]]|(E & _ & M)]; try congruence.
      * rewrite E. eapply (v_mlt z I); [exact Ht|congruence].
      * rewrite M in Hf. injection Hf as <-. lia.
    + pose proof (v_mlt z I _ _ _ H Hf). lia.
  - intros f a g HI. destruct (HK f a g HI) as [Old|(m & k & c & b & M1 & M2 & M3 & M4 & M5 & M6)].
    + destruct (v_kept z I f a g Old) as [C|(j & u & m & k & c & b & Hj & Hu & Ha & Hm & Hr & Hg & Hf)].
      { left. rewrite EL. apply in_or_app. auto. }
      assert (HfL : In (VFrame c f b) (z_log z')) by (rewrite EL; apply in_or_app; auto).
      destruct (Nat.eq_dec j i) as [->|N].
      * assert (u = t) as -> by congruence. destruct (HF f Hu) as [(M1 & M2 & M3)|C]; [|auto]. right.
        exists i, t', m, k, c, b. rewrite (M3 a Ha), M2. auto 8.
      * right. exists j, u, m, k, c, b. rewrite (proj2 (HM a j u N Hj Ha)). auto 8.
    + right. exists i, t', m, k, c, b. repeat split; auto. rewrite EL. apply in_or_app. auto.
  - rewrite EL. apply snoc_evs; [exact (v_evs z I)|exact Hes].
Qed.

(* ----- the kinds of steps ----- *)
Lemma owners_same z i t t' : sinv z -> nth_error (z_ts z) i = Some t -> holds t' = holds t ->
  exists h, inv (z_pool z) h /\ forall a, In a h <->
     (exists j u, j <> i /\ nth_error (z_ts z) j = Some u /\ holds u = Some a) \/ holds t' = Some a.
Proof.
  intros I Ht E. destruct (v_pool z I) as (h & Hi & HO). exists h. split; [exact Hi|]. intros a. rewrite HO, E. split.
  - intros (j & u & Hj & Ha). destruct (Nat.eq_dec j i) as [->|N]; [right; congruence|left; eauto].
  - intros [(j & u & _ & Hj & Ha)|Ha]; eauto.
Qed.

Lemma sinv_same z z' i t t' sp es : sinv z -> nth_error (z_ts z) i = Some t ->
  z_ts z' = set_nth (z_ts z) i t' ++ sp -> (forall u, In u sp -> idle u) ->
  z_log z' = z_log z ++ es -> (es = [] \/ exists e, es = [e] /\ event_ok (z_log z) e) ->
  (forall e f, In e es -> about e = Some f -> minds t = Some f) ->
  z_pool z' = z_pool z -> z_n z' = z_n z -> holds t' = holds t -> minds t' = minds t -> tok z' t' ->
  (forall f a g, In (f, a, g) (z_kept z') -> In (f, a, g) (z_kept z) \/
     exists m k c b, minds t' = Some f /\ holds t' = Some a /\ mem z a = Some m /\ received m b k /\
       g = m_pld m /\ In (VFrame c f b) (z_log z)) ->
  sinv z'.
Proof.
  intros I Ht Ets Hsp EL Hes Ab EP EN EH EM HT HK.
  assert (MM : forall a, mem z' a = mem z a) by (intros a; unfold mem; rewrite EP; reflexivity).
  eapply (sinv_gen z z' i t t' sp es); eauto.
  - intros e f He Hf. specialize (Ab e f He Hf). split; [auto|]. rewrite EN. eapply (v_mlt z I); eauto.
  - rewrite EP. eapply owners_same; eauto.
  - intros a j u N Hj Ha. split; [|apply MM]. rewrite EH. intros C. apply N.
    symmetry. eapply (v_uniq z I); eauto.
  - intros f Hf. left. rewrite EM. auto.
  - intros f a g Hk. destruct (HK f a g Hk) as [?|(m & k & c & b & H1 & H2 & H3 & H4)]; [auto|].
    right. exists m, k, c, b. rewrite MM. auto.
Qed.

Lemma free_spec z a z' : z_free a z = Some z' ->
  exists p, pool_close (z_pool z) a = Some p /\ z' = z_with p z.
Proof. unfold z_free. destruct (pool_close (z_pool z) a) as [p|]; [|discriminate]. intros [= <-]. eauto. Qed.

Lemma sinv_free z z' i t t' a p es : sinv z -> nth_error (z_ts z) i = Some t -> holds t = Some a ->
  pool_close (z_pool z) a = Some p -> z_pool z' = p -> z_n z' = z_n z -> z_kept z' = z_kept z ->
  z_ts z' = set_nth (z_ts z) i t' ++ [] -> holds t' = None -> minds t' = None -> tok z' t' ->
  z_log z' = z_log z ++ es -> es = match minds t with Some f => [VFree f] | None => [] end -> sinv z'.
Proof.
  intros I Ht Ha EC EP EN EK Ets Hh Hm HT EL Ees.
  destruct (v_pool z I) as (h & Hi & HO).
  assert (Hin : In a h) by (apply HO; eauto).
  eapply (sinv_gen z z' i t t' [] es); eauto.
  - intros u [].
  - rewrite Ees. destruct (minds t) as [f|] eqn:Ef; [|auto]. right. eexists. split; [reflexivity|].
    pose proof (v_thr z I _ _ Ht) as T.
    destruct t; cbn in Ef, T; try discriminate; injection Ef as ->.
    + destruct T as (m & k & (_ & _ & H1 & H2) & _). cbn. eauto.
    + destruct T as (m & k & (_ & _ & H1 & H2)). cbn. eauto.
    + destruct T as (m & k & (_ & _ & H1 & H2) & _). cbn. eauto.
  - intros e f He Hf. rewrite Ees in He. destruct (minds t) as [f0|] eqn:Ef; [|destruct He]. destruct He as [<-|[]].
    injection Hf as <-. split; [auto|]. rewrite EN. eapply (v_mlt z I); eauto.
  - exists (remove Nat.eq_dec a h). rewrite EP. split; [eapply close_inv; eauto|].
    intros x. split.
    + intros Hx. apply in_remove in Hx as [Hx Nx]. apply HO in Hx as (j & u & Hj & Hu).
      left. exists j, u. split; [|auto]. intros ->. congruence.
    + intros [(j & u & N & Hj & Hu)|C]; [|congruence]. apply in_in_remove; [|apply HO; eauto].
      intros ->. apply N. eapply (v_uniq z I); eauto.
  - intros x j u N Hj Hu. split; [congruence|]. unfold mem. rewrite EP.
    refine (pool_isolated (z_pool z) (OClose a) p None a x _ eq_refl _ _).
    + cbn. rewrite EC. reflexivity.
    + intros <-. apply N. eapply (v_uniq z I); eauto.
    + apply (i_lt _ _ Hi), in_or_app. right. apply HO. eauto.
  - intros f Hf. right. rewrite EL, Ees, Hf. apply in_or_app. right. left. reflexivity.
  - intros f x g. rewrite EK. auto.
Qed.

(* ----- the reply functions ----- *)
Lemma sends_told (f : forall W, writer_ops W -> option W -> option (sent W)) k ok s :
  sends f k -> f _ sink_writer (sink_of ok) = Some s ->
  (ok = true -> told s k) /\ (ok = false -> s = NoWriter).
Proof.
  intros [(b & _ & R & E) N] H. split; intros ->; cbn [sink_of] in H.
  - rewrite E in H. injection H as <-. exists b. auto.
  - rewrite N in H. injection H as <-. reflexivity.
Qed.
Lemma fulfill_told m b k p ok s : received m b k -> wants_reply (k_type k) ->
  fulfillMsg sink_writer (sink_of ok) m p = Some s ->
  reply_said s ok (utf16_ok (fst p) (snd p)) (reply_content (k_ident k) (p, ENil)).
Proof.
  intros R A H. split; [|split].
  - intros E C. subst ok. eapply (sends_told (fun W ops gw => fulfillMsg ops gw m p)); [eapply fulfillMsg_sends; eauto|exact H|reflexivity].
  - intros E. subst ok. cbn in H. congruence.
  - intros E NC. subst ok. unfold fulfillMsg in H. cbn [sink_of] in H. rewrite reply_rej in H by exact NC.
    cbn in H. injection H as <-. eauto.
Qed.
Lemma fail_told m b k e ok s : received m b k -> wants_reply (k_type k) ->
  failMsg sink_writer (sink_of ok) m e = Some s -> reply_said s ok (err_ok e) (err_content (k_ident k) e).
Proof.
  intros R A H.
  assert (RequiresReply m = true) as RR by (apply RequiresReply_type; rewrite (received_type m b k R); exact A).
  split; [|split].
  - intros E C. subst ok. eapply (sends_told (fun W ops gw => failMsg ops gw m e)); [eapply failMsg_sends; eauto|exact H|reflexivity].
  - intros E. subst ok. unfold failMsg in H. rewrite RR in H. cbn in H. congruence.
  - intros E NC. subst ok. unfold failMsg in H. rewrite RR in H. cbn [negb sink_of] in H.
    destruct e as [|code text|[[code text]|]| | | |text]; cbn [err_ok] in NC; try (exfalso; apply NC; exact Logic.I); try discriminate H;
      rewrite error_rej in H by exact NC; cbn in H; injection H as <-; eauto.
Qed.
Lemma request_told m b k r ok s : received m b k -> app_request (k_type k) ->
  handleRequest sink_writer (sink_of ok) m r = Some s -> reply_said s ok (sendable r) (reply_content (k_ident k) r).
Proof.
  intros R A H. apply app_wants in A. destruct r as [p e].
  destruct e as [|code text|[[code text]|]| | | |text]; unfold handleRequest in H; cbn [fst snd] in H;
    unfold sendable, reply_content; cbn [fst snd].
  1: exact (fulfill_told m b k p ok s R A H).
  all: first [exact (fail_told m b k _ ok s R A H)].
Qed.
Lemma answer_told m b k an ok s : received m b k -> wants_reply (k_type k) ->
  answer_msg (sink_of ok) m an = Some s -> reply_said s ok (answerable an) (answer_content (k_ident k) an).
Proof.
  intros R A H. destruct an as [p|e]; cbn [answer_msg] in H.
  - exact (fulfill_told m b k p ok s R A H).
  - pose proof (fail_told m b k e ok s R A H) as T. unfold answerable, answer_content.
    destruct e as [|code text|[[code text]|]| | | |text]; exact T.
Qed.
Lemma shut_told m b k ok s : received m b k -> wants_reply (k_type k) ->
  failMsgShutdown sink_writer (sink_of ok) m = Some s -> told s (special_content 1 (k_ident k)).
Proof.
  intros R A H. destruct ok; [|discriminate H]. destruct (failMsgShutdown_sends m b k R A) as (w & _ & Rd & E).
  cbn [sink_of] in H. rewrite E in H. injection H as <-. exists w. auto.
Qed.
