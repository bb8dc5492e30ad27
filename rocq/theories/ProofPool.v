From Coq Require Import List Arith NArith ZArith Lia Bool.
From Verif Require Import BaseBytes ModelMessage ModelPool SpecWire SpecMessage SpecPool ProofMessage.
Import ListNotations.
Open Scope nat_scope.

Definition good (size : nat) (m : message) : Prop :=
  m_pooled m = true /\ length (m_buf m) = size /\ wf m /\ m_len m <= size.

Record inv (p : pool) (h : list nat) : Prop := {
  i_nodup : NoDup (p_free p ++ h);
  i_lt : forall a, In a (p_free p ++ h) -> a < length (p_heap p);
  i_free : forall a m, In a (p_free p) -> nth_error (p_heap p) a = Some m -> blank m;
  i_good : forall a m, nth_error (p_heap p) a = Some m -> good (p_size p) m }.

Lemma update_length l i m : length (update l i m) = length l.
Proof. revert i; induction l; destruct i; cbn; auto. Qed.
Lemma update_same l i m x : nth_error l i = Some x -> nth_error (update l i m) i = Some m.
Proof. revert i; induction l; destruct i; cbn; intros; try discriminate; auto. Qed.
Lemma update_other l i j m : i <> j -> nth_error (update l i m) j = nth_error l j.
Proof. revert i j; induction l; destruct i, j; cbn; intros; try congruence; auto. Qed.

Lemma remove_nth_split {A} (l : list A) i a : nth_error l i = Some a ->
  exists l1 l2, l = l1 ++ a :: l2 /\ remove_nth l i = l1 ++ l2.
Proof.
  revert i; induction l as [|x l IH]; destruct i; cbn; intros H; try discriminate.
  - injection H as ->. exists [], l. auto.
  - destruct (IH _ H) as (l1 & l2 & -> & ->). exists (x :: l1), l2. auto.
Qed.

Lemma pool_new_good p : good (p_size p) (pool_new p) /\ blank (pool_new p).
Proof.
  unfold good, blank, wf, pool_new, NewMessage; cbn. rewrite !repeat_length. intuition (try lia; try discriminate).
Qed.

Lemma read_ident_pooled m d m' : read_ident m d = Some m' -> m_pooled m' = m_pooled m.
Proof. unfold read_ident. destruct (v_slice d 1 9); [|discriminate]. intros H; injection H as <-. reflexivity. Qed.
Lemma parse_pooled m m' ok e : parse m = Some (m', ok, e) -> m_pooled m' = m_pooled m.
Proof.
  unfold parse. destruct (IsEmpty m); [intros H; injection H as <- <- <-; reflexivity|].
  destruct (v_slice _ 0 1); [|discriminate]. destruct (v_idx _ _ 0) as [t|]; [|discriminate].
  destruct (parse_switch t) as [[p en]|] eqn:Hsel.
  2:{ intros H; injection H as <- <- <-; reflexivity. }
  assert (Hp : In p [parseAcceptConf; parseHeartbeat; parseErrorReply; parseSessionCreated;
    parseSessionClosed; parseCloseSession; parseSignal; parseSignalUtf16; parseRequest;
    parseRequestUtf16; parseReply; parseReplyUtf16; parseRestoreSession; parseSpecialReplyMessage]).
  { unfold parse_switch in Hsel. cbn [In].
    repeat match type of Hsel with (if ?c then _ else _) = _ =>
       destruct c; [injection Hsel as <- _; tauto|] end. discriminate. }
  assert (G : forall m1 e1, p m = Some (m1, e1) -> m_pooled m1 = m_pooled m).
  { intros m1 e1. clear Hsel. cbn [In] in Hp.
    repeat (destruct Hp as [<-|Hp]); [..|contradiction];
    unfold parseAcceptConf, parseHeartbeat, parseErrorReply, parseSessionCreated,
    parseSessionClosed, parseCloseSession, parseSignal, parseSignalUtf16, parseRequest,
    parseRequestUtf16, parseReply, parseReplyUtf16, parseRestoreSession, parseSpecialReplyMessage;
    intros H;
    repeat match type of H with
    | context [read_ident ?a ?b] => let E := fresh "RI" in destruct (read_ident a b) eqn:E; [apply read_ident_pooled in E|]; cbv beta iota in H; [|try discriminate H]
    | context [match ?c with _ => _ end] => destruct c eqn:?; try discriminate H
    end; injection H as <- <-; try assumption; reflexivity. }
  destruct (p m) as [[m1 e1]|] eqn:E; [|discriminate]. intros H; injection H as <- <- <-.
  cbn. eapply G. reflexivity.
Qed.

Lemma ReadBytes_good size m b m' ok e :
  good size m -> ReadBytes m b = Some (m', ok, e) -> good size m'.
Proof.
  intros (G1 & G2 & G3 & G4) H.
  destruct (Nat.ltb_spec (length b) 1) as [L1|L1].
  { unfold ReadBytes in H. rewrite (proj2 (Nat.ltb_lt _ _) L1) in H. injection H as <- <- <-. repeat split; assumption. }
  destruct (Nat.ltb_spec (length (m_buf m)) (length b)) as [L2|L2].
  { unfold ReadBytes in H. rewrite (proj2 (Nat.ltb_ge _ _) L1), (proj2 (Nat.ltb_lt _ _) L2) in H.
    injection H as <- <- <-. repeat split; assumption. }
  destruct (ReadBytes_load m b L1 L2) as (m1 & R & [Hl Hf] & Hbl & T & I & IB & Nm & E & P & C & PL).
  rewrite R in H. pose proof (parse_pooled _ _ _ _ H) as PP.
  destruct (no_panic_parse m1) as (m2 & ok2 & e2 & H2 & W2 & L2' & B2).
  { unfold wf in *; congruence. }
  { lia. }
  rewrite H2 in H. injection H as -> -> ->. unfold good. rewrite PP, PL, L2', B2. repeat split; try assumption; congruence || lia.
Qed.
Lemma ReadBytes_no_panic m b : wf m -> ReadBytes m b <> None.
Proof.
  intros Hwf. destruct (Nat.ltb_spec (length b) 1) as [L1|L1].
  { unfold ReadBytes. rewrite (proj2 (Nat.ltb_lt _ _) L1). discriminate. }
  destruct (Nat.ltb_spec (length (m_buf m)) (length b)) as [L2|L2].
  { unfold ReadBytes. rewrite (proj2 (Nat.ltb_ge _ _) L1), (proj2 (Nat.ltb_lt _ _) L2). discriminate. }
  destruct (ReadBytes_load m b L1 L2) as (m1 & R & [Hl Hf] & Hbl & T & I & IB & Nm & E & P & C & PL).
  destruct (no_panic_parse m1) as (m2 & ok2 & e2 & H2 & _).
  { unfold wf in *; congruence. }
  { lia. }
  rewrite R, H2. discriminate.
Qed.

Lemma MsgClose_total m : m_pooled m = true -> exists m' put, MsgClose m = Some (m', put).
Proof.
  intros H. unfold MsgClose. destruct (IsEmpty m); [eauto|]. cbn. rewrite H. eauto.
Qed.
Lemma MsgClose_good size m m' put : good size m -> MsgClose m = Some (m', put) ->
  good size m' /\ (put = true -> blank m') /\ (put = false -> m' = m).
Proof.
  intros (G1 & G2 & G3 & G4) H. pose proof (MsgClose_blank _ _ _ H) as Hb.
  split; [|split; [exact Hb|]]; unfold MsgClose in H; destruct (IsEmpty m).
  - injection H as <- <-. repeat split; assumption.
  - cbn in H. rewrite G1 in H. injection H as <- <-. unfold good, wf; cbn. repeat split; auto; lia.
  - injection H as <- <-. auto.
  - cbn in H. rewrite G1 in H. injection H as <- <-. discriminate.
Qed.

Lemma remove_NoDup a (h : list nat) : NoDup h -> NoDup (remove Nat.eq_dec a h).
Proof.
  induction 1; cbn; [constructor|]. destruct (Nat.eq_dec a x); [assumption|].
  constructor; [|assumption]. intros C. apply in_remove in C as [C _]. contradiction.
Qed.

Lemma NoDup_app' {A} (l1 l2 : list A) :
  NoDup (l1 ++ l2) <-> NoDup l1 /\ NoDup l2 /\ forall x, In x l1 -> ~ In x l2.
Proof.
  induction l1 as [|x l1 IH]; cbn.
  - split; [intros H|tauto]. split; [constructor|]. split; [assumption|]. intros ? [].
  - split.
    + intros H. inversion H; subst. apply IH in H3 as (H4 & H5 & H6). repeat split.
      * constructor; [|assumption]. intros C. apply H2. apply in_or_app. auto.
      * assumption.
      * intros y [->|Hy]; [intros C; apply H2, in_or_app; auto|auto].
    + intros (H1 & H2 & H3). inversion H1; subst. constructor.
      * intros C. apply in_app_or in C as [C|C]; [contradiction|]. eapply H3; eauto.
      * apply IH. repeat split; auto.
Qed.

Lemma get_new_inv p h : inv p h ->
  inv (set_heap (p_heap p ++ [pool_new p]) p) (length (p_heap p) :: h) /\ ~ In (length (p_heap p)) h.
Proof.
  intros [I1 I2 I3 I4].
  assert (NI : ~ In (length (p_heap p)) (p_free p ++ h)).
  { intros C. apply I2 in C. lia. }
  split; [|intros C; apply NI, in_or_app; auto].
  constructor; cbn [p_free p_heap p_size set_heap].
  - apply NoDup_app'. apply NoDup_app' in I1 as (J1 & J2 & J3). repeat split; auto.
    + constructor; [|assumption]. intros C. apply NI, in_or_app. auto.
    + intros x Hx [<-|Hx']; [apply NI, in_or_app; auto|eapply J3; eauto].
  - intros a Ha. rewrite app_length; cbn. apply in_app_or in Ha as [Ha|[<-|Ha]]; [|lia|].
    + assert (a < length (p_heap p)) by (apply I2, in_or_app; auto). lia.
    + assert (a < length (p_heap p)) by (apply I2, in_or_app; auto). lia.
  - intros a m Ha Hn. assert (a < length (p_heap p)) by (apply I2, in_or_app; auto).
    rewrite nth_error_app1 in Hn by assumption. eapply I3; eauto.
  - intros a m Hn. destruct (Nat.ltb_spec a (length (p_heap p))).
    + rewrite nth_error_app1 in Hn by assumption. eapply I4; eauto.
    + rewrite nth_error_app2 in Hn by assumption.
      destruct (a - length (p_heap p)) as [|k]; cbn in Hn; [|destruct k; discriminate].
      injection Hn as <-. apply pool_new_good.
Qed.

Lemma get_inv p h k p' a : inv p h -> Get p k = (p', a) ->
  inv p' (a :: h) /\ ~ In a h /\ p_size p' = p_size p /\
  exists m, nth_error (p_heap p') a = Some m /\ blank m.
Proof.
  intros I H. unfold Get in H.
  assert (NEW : (p', a) = (set_heap (p_heap p ++ [pool_new p]) p, length (p_heap p)) ->
    inv p' (a :: h) /\ ~ In a h /\ p_size p' = p_size p /\
    exists m, nth_error (p_heap p') a = Some m /\ blank m).
  { intros E; injection E as -> ->. destruct (get_new_inv p h I) as [J1 J2]. split; [exact J1|]. split; [exact J2|]. split; [reflexivity|].
    exists (pool_new p). cbn. rewrite nth_error_app2, Nat.sub_diag by lia. split; [reflexivity|exact (proj2 (pool_new_good p))]. }
  destruct k as [i|]; [|apply NEW; congruence].
  destruct (nth_error (p_free p) i) as [x|] eqn:E; [|apply NEW; congruence].
  clear NEW. injection H as <- <-. destruct I as [I1 I2 I3 I4].
  destruct (remove_nth_split _ _ _ E) as (l1 & l2 & E1 & E2).
  cbn [p_heap put_free p_size].
  assert (Hx : In x (p_free p)) by (rewrite E1; apply in_or_app; right; left; reflexivity).
  assert (Lx : x < length (p_heap p)) by (apply I2, in_or_app; auto).
  assert (ND : NoDup ((l1 ++ x :: l2) ++ h)) by (rewrite <- E1; assumption).
  split; [|split; [|split; [reflexivity|]]].
  - constructor; cbn [p_heap put_free p_size p_free]; rewrite ?E2.
    + rewrite <- app_assoc in ND; cbn in ND. rewrite <- app_assoc.
      apply NoDup_remove in ND as [N1 N2].
      apply NoDup_app' in N1 as (M1 & M2 & M3).
      apply NoDup_app'. repeat split; auto.
      * apply NoDup_app' in M2 as (Q1 & Q2 & Q3). apply NoDup_app'. repeat split; auto.
        -- constructor; [|assumption]. intros C. apply N2, in_or_app. right. apply in_or_app. auto.
        -- intros y Hy [<-|Hy']; [apply N2, in_or_app; right; apply in_or_app; auto|eapply Q3; eauto].
      * intros y Hy C. apply in_app_or in C as [C|[<-|C]].
        -- eapply M3; [eassumption|]. apply in_or_app; auto.
        -- apply N2, in_or_app; auto.
        -- eapply M3; [eassumption|]. apply in_or_app; auto.
    + intros y Hy. apply I2. rewrite E1. rewrite <- app_assoc in Hy |- *.
      apply in_app_or in Hy as [Hy|Hy]; [apply in_or_app; auto|].
      apply in_app_or in Hy as [Hy|[<-|Hy]]; apply in_or_app; right; cbn; [right|left;reflexivity|right];
        [apply in_or_app; auto|apply in_or_app; auto].
    + intros y m Hy Hn. eapply I3; [|eassumption]. rewrite E1. apply in_app_or in Hy as [Hy|Hy]; apply in_or_app; [auto|right; right; assumption].
    + exact I4.
  - intros C. apply NoDup_app' in I1 as (_ & _ & N3). eapply N3; eauto.
  - destruct (nth_error (p_heap p) x) as [m|] eqn:Em.
    + exists m. split; [reflexivity|]. eapply I3; eauto.
    + apply nth_error_None in Em. lia.
Qed.

Lemma read_inv p h a b p' ok e : inv p h -> In a h -> pool_read p a b = Some (p', ok, e) -> inv p' h.
Proof.
  intros [I1 I2 I3 I4] Ha H. unfold pool_read in H.
  destruct (nth_error (p_heap p) a) as [m|] eqn:Em; [|discriminate].
  destruct (ReadBytes m b) as [[[m1 ok1] e1]|] eqn:ER; [|discriminate]. injection H as <- <- <-.
  apply NoDup_app' in I1 as J. destruct J as (J1 & J2 & J3).
  constructor; cbn [p_heap set_heap p_size p_free].
  - assumption.
  - intros y Hy. rewrite update_length. apply I2. assumption.
  - intros y m2 Hy Hn. assert (y <> a) by (intros ->; eapply J3; eauto).
    rewrite update_other in Hn by congruence. eapply I3; eauto.
  - intros y m2 Hn. destruct (Nat.eq_dec a y) as [->|N].
    + erewrite update_same in Hn by eassumption. injection Hn as <-. eapply ReadBytes_good; eauto.
    + rewrite update_other in Hn by assumption. eapply I4; eauto.
Qed.

Lemma close_inv p h a p' : inv p h -> In a h -> pool_close p a = Some p' -> inv p' (remove Nat.eq_dec a h).
Proof.
  intros [I1 I2 I3 I4] Ha H. unfold pool_close in H.
  destruct (nth_error (p_heap p) a) as [m|] eqn:Em; [|discriminate].
  destruct (MsgClose m) as [[m1 put]|] eqn:EC; [|discriminate]. injection H as <-.
  destruct (MsgClose_good _ _ _ _ (I4 _ _ Em) EC) as (G1 & G2 & G3).
  apply NoDup_app' in I1 as J. destruct J as (J1 & J2 & J3).
  assert (Ia : ~ In a (p_free p)) by (intros C; eapply J3; eauto).
  destruct put; constructor; cbn [p_heap set_heap p_size p_free put_free].
  - apply NoDup_app'. repeat split.
    + constructor; assumption.
    + apply remove_NoDup; assumption.
    + intros x [<-|Hx] C; [eapply remove_In; eassumption|]. apply in_remove in C as [C _]. eapply J3; eauto.
  - intros y Hy. rewrite update_length. apply in_app_or in Hy as [[<-|Hy]|Hy].
    + apply I2, in_or_app; auto.
    + apply I2, in_or_app; auto.
    + apply in_remove in Hy as [Hy _]. apply I2, in_or_app; auto.
  - intros y m2 Hy Hn. destruct (Nat.eq_dec a y) as [->|N].
    + erewrite update_same in Hn by eassumption. injection Hn as <-. auto.
    + rewrite update_other in Hn by assumption. destruct Hy as [Hy|Hy]; [congruence|]. eapply I3; eauto.
  - intros y m2 Hn. destruct (Nat.eq_dec a y) as [->|N].
    + erewrite update_same in Hn by eassumption. injection Hn as <-. assumption.
    + rewrite update_other in Hn by assumption. eapply I4; eauto.
  - apply NoDup_app'. repeat split; auto.
    + apply remove_NoDup; assumption.
    + intros x Hx C. apply in_remove in C as [C _]. eapply J3; eauto.
  - intros y Hy. rewrite update_length. apply in_app_or in Hy as [Hy|Hy].
    + apply I2, in_or_app; auto.
    + apply in_remove in Hy as [Hy _]. apply I2, in_or_app; auto.
  - intros y m2 Hy Hn. assert (a <> y) by congruence. rewrite update_other in Hn by assumption. eapply I3; eauto.
  - intros y m2 Hn. destruct (Nat.eq_dec a y) as [->|N].
    + erewrite update_same in Hn by eassumption. injection Hn as <-. assumption.
    + rewrite update_other in Hn by assumption. eapply I4; eauto.
Qed.

Lemma reach_inv p h : pool_reach p h -> inv p h.
Proof.
  induction 1.
  - constructor; cbn; [constructor|intros ? []|intros ? ? []|]. intros a m H. destruct a; discriminate.
  - eapply get_inv; eauto.
  - eapply read_inv; eauto.
  - eapply close_inv; eauto.
Qed.

Lemma pool_get_spec p h k p' a : pool_reach p h -> Get p k = (p', a) ->
  ~ In a h /\ exists m, nth_error (p_heap p') a = Some m /\ blank m /\ length (m_buf m) = p_size p.
Proof.
  intros R H. destruct (get_inv _ _ _ _ _ (reach_inv _ _ R) H) as (I & N & S & m & Hm & Hb).
  split; [assumption|]. exists m. split; [assumption|]. split; [assumption|].
  destruct (i_good _ _ I _ _ Hm) as (_ & L & _). congruence.
Qed.
Lemma pool_no_panic p h a : pool_reach p h -> In a h ->
  (forall b, pool_read p a b <> None) /\ pool_close p a <> None.
Proof.
  intros R Ha. apply reach_inv in R. pose proof (i_lt _ _ R a) as L.
  assert (a < length (p_heap p)) by (apply L, in_or_app; auto).
  destruct (nth_error (p_heap p) a) as [m|] eqn:Em; [|apply nth_error_None in Em; lia].
  destruct (i_good _ _ R _ _ Em) as (G1 & G2 & G3 & G4). split.
  - intros b. unfold pool_read. rewrite Em. pose proof (ReadBytes_no_panic m b G3).
    destruct (ReadBytes m b) as [[[? ?] ?]|]; [discriminate|contradiction].
  - unfold pool_close. rewrite Em. destruct (MsgClose_total m G1) as (m' & put & ->). discriminate.
Qed.
(* operations on one message never change another one *)
Lemma pool_isolated p o p' r a b : pool_step p o = Some (p', r) ->
  match o with OGet _ => True | ORead x _ => x = a | OClose x => x = a end ->
  a <> b -> b < length (p_heap p) -> nth_error (p_heap p') b = nth_error (p_heap p) b.
Proof.
  destruct o as [k|x y|x]; cbn; intros H Hx Hab Hb.
  - unfold Get in H. destruct k as [i|]; [destruct (nth_error (p_free p) i)|]; injection H as <- <-; cbn; try reflexivity;
      apply nth_error_app1; assumption.
  - subst x. unfold pool_read in H. destruct (nth_error (p_heap p) a); [|discriminate].
    destruct (ReadBytes m y) as [[[? ?] ?]|]; [|discriminate]. injection H as <- <-. cbn. apply update_other; assumption.
  - subst x. unfold pool_close in H. destruct (nth_error (p_heap p) a); [|discriminate].
    destruct (MsgClose m) as [[? []]|]; try discriminate; injection H as <- <-; cbn; apply update_other; assumption.
Qed.
(* after Close every accessor panics ("read after close") *)
Lemma closed_accessors p a p' m : pool_close p a = Some p' -> nth_error (p_heap p') a = Some m ->
  acc_Identifier m = None /\ acc_Name m = None /\ acc_PayloadEncoding m = None /\ acc_Payload m = None.
Proof.
  intros H Hm. unfold pool_close in H. destruct (nth_error (p_heap p) a) as [m0|] eqn:E; [|discriminate].
  assert (K : forall m1 put, MsgClose m0 = Some (m1, put) -> IsEmpty m1 = true).
  { intros m1 put. unfold MsgClose. destruct (IsEmpty m0) eqn:E0; [intros X; injection X as <- <-; assumption|].
    cbn. destruct (m_pooled m0); [|discriminate]. intros X; injection X as <- <-. reflexivity. }
  destruct (MsgClose m0) as [[m1 put]|] eqn:EC; [|discriminate]. specialize (K _ _ eq_refl).
  assert (m = m1) as ->.
  { destruct put; injection H as <-; cbn in Hm; erewrite update_same in Hm by eassumption; congruence. }
  unfold acc_Identifier, acc_Name, acc_PayloadEncoding, acc_Payload. rewrite K. auto.
Qed.

Lemma unpooled n m : (NewMessage n = m \/ exists b ok e, ReadBytes (NewMessage n) b = Some (m, ok, e)) ->
  m_pooled m = false /\ (MsgClose m = None <-> IsEmpty m = false) /\ (IsEmpty m = true -> MsgClose m = Some (m, false)).
Proof.
  intros H. assert (P : m_pooled m = false).
  { destruct H as [<-|(b & ok & e & H)]; [reflexivity|].
    destruct (Nat.ltb_spec (length b) 1) as [L1|L1].
    { unfold ReadBytes in H. rewrite (proj2 (Nat.ltb_lt _ _) L1) in H. injection H as <- <- <-. reflexivity. }
    destruct (Nat.ltb_spec (length (m_buf (NewMessage n))) (length b)) as [L2|L2].
    { unfold ReadBytes in H. rewrite (proj2 (Nat.ltb_ge _ _) L1), (proj2 (Nat.ltb_lt _ _) L2) in H. injection H as <- <- <-. reflexivity. }
    destruct (ReadBytes_load (NewMessage n) b L1 L2) as (m1 & R & _ & _ & _ & _ & _ & _ & _ & _ & _ & PL).
    rewrite R in H. rewrite (parse_pooled _ _ _ _ H), PL. reflexivity. }
  split; [exact P|]. unfold MsgClose. destruct (IsEmpty m).
  - split; [split; discriminate|reflexivity].
  - cbn. rewrite P. split; [split; reflexivity|discriminate].
Qed.
