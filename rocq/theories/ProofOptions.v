(* Proofs about server options and the handshake. *)
From Coq Require Import List Arith NArith ZArith Lia Bool.
From Coq Require Import ZifyBool ZifyNat ZifyN.
From Verif Require Import BaseBytes BaseConc ModelMessage ModelWrite ModelOptions ModelMemchan SpecWire SpecMessage SpecWrite SpecOptions SpecMemchan
  ProofMessage ProofWire ProofWrite ProofCodec ProofMemchan7 ProofMemchan8.
From Verif Require Import ModelMemchan SpecMemchan.
Import ListNotations.
Open Scope nat_scope.

Lemma is_nil_spec p : is_nil p = true <-> p = PNil.
Proof. destruct p; cbn; split; congruence. Qed.
Lemma is_nil_false p : is_nil p = false <-> p <> PNil.
Proof. destruct p; cbn; split; congruence. Qed.

(* Prepare in one line per field *)
Definition or_default (p : part) : part := if is_nil p then PDefault else p.
Definition prepared (o : options) : options :=
  let on := ((op_sessions o =? 0) || (op_sessions o =? 2))%Z in
  MkOptions (if on then 2%Z else op_sessions o)
    (if on then or_default (op_manager o) else op_manager o) (if on then or_default (op_keygen o) else op_keygen o)
    (or_default (op_parser o)) (op_max o) (or_default (op_warn o)) (or_default (op_error o))
    (if (op_timeout o <? 1000000000)%Z then 60000000000%Z else op_timeout o) (op_subname o)
    (if (op_bufsize o =? 0)%N then 8192%N else op_bufsize o).
Lemma prepare_eq mk o : Prepare mk o =
  (if ((op_sessions o =? 0) || (op_sessions o =? 2))%Z && is_nil (op_manager o) && negb mk then None
   else Some (prepared o, (negb (op_bufsize o =? 0) && (op_bufsize o <? 32))%N)).
Proof.
  unfold Prepare. destruct o as [se ma ke pa mx wa er ti su bu].
  assert (E1 : prep_sessions (MkOptions se ma ke pa mx wa er ti su bu) =
    MkOptions (if ((se =? 0) || (se =? 2))%Z then 2%Z else se) ma ke pa mx wa er ti su bu).
  { unfold prep_sessions, OptionUnset; cbn [op_sessions]. destruct (Z.eqb_spec se 0); [reflexivity|]. destruct (Z.eqb_spec se 2) as [->|]; reflexivity. }
  rewrite E1. cbn [op_sessions op_manager op_bufsize]. set (on := ((se =? 0) || (se =? 2))%Z).
  assert (E : ((if on then 2 else se) =? Enabled)%Z = on) by (subst on; unfold Enabled; destruct (Z.eqb_spec se 0); cbn; [reflexivity|]; destruct (Z.eqb_spec se 2); [reflexivity|lia]).
  unfold prep_manager. cbn [op_sessions op_manager]. rewrite E.
  set (r := if on && is_nil ma && negb mk then None else Some (MkOptions (if on then 2%Z else se) (if on then or_default ma else ma) ke pa mx wa er ti su bu)).
  assert (E2 : (if on && is_nil ma then if mk then Some (set_manager PDefault (MkOptions (if on then 2%Z else se) ma ke pa mx wa er ti su bu)) else None
    else Some (MkOptions (if on then 2%Z else se) ma ke pa mx wa er ti su bu)) = r) by (subst r; destruct on, ma, mk; reflexivity).
  rewrite E2. subst r. destruct (on && is_nil ma && negb mk); [reflexivity|]. f_equal.
  assert (E3 : forall ma, prep_keygen (MkOptions (if on then 2%Z else se) ma ke pa mx wa er ti su bu) =
    MkOptions (if on then 2%Z else se) ma (if on then or_default ke else ke) pa mx wa er ti su bu).
  { intros m. unfold prep_keygen. cbn [op_sessions op_keygen]. rewrite E. destruct on, ke; reflexivity. }
  rewrite E3. clear. unfold prepared; cbn [op_sessions op_manager op_keygen op_parser op_max op_warn op_error op_timeout op_subname op_bufsize]. fold on.
  assert (P1 : forall a b c d e f g h i j, prep_parser (MkOptions a b c d e f g h i j) = MkOptions a b c (or_default d) e f g h i j) by (intros; destruct d; reflexivity).
  assert (P2 : forall a b c d e f g h i j, prep_warn (MkOptions a b c d e f g h i j) = MkOptions a b c d e (or_default f) g h i j) by (intros; destruct f; reflexivity).
  assert (P3 : forall a b c d e f g h i j, prep_error (MkOptions a b c d e f g h i j) = MkOptions a b c d e f (or_default g) h i j) by (intros; destruct g; reflexivity).
  assert (P4 : forall a b c d e f g h i j, prep_timeout (MkOptions a b c d e f g h i j) =
    MkOptions a b c d e f g (if (h <? 1000000000)%Z then 60000000000%Z else h) i j).
  { intros. unfold prep_timeout, second. cbn [op_timeout]. change (1 * 1000000000)%Z with 1000000000%Z. destruct (_ <? _)%Z; reflexivity. }
  rewrite P1, P4, P2, P3. unfold prep_bufsize, minMsgBufferSize. cbn [op_bufsize].
  destruct (bu =? 0)%N eqn:B; [reflexivity|]. destruct (bu <? 32)%N; reflexivity.
Qed.
Lemma on_spec o : ((op_sessions o =? 0) || (op_sessions o =? 2))%Z = true <-> wants_sessions o.
Proof. unfold wants_sessions. lia. Qed.
Lemma given_or_default p : given_or PDefault p (or_default p).
Proof. destruct p; [right|left|left]; (split; [try discriminate; reflexivity|reflexivity]). Qed.
Lemma or_default_some p : or_default p <> PNil.
Proof. destruct p; discriminate. Qed.
Lemma prepared_filled o : filled o (prepared o).
Proof.
  unfold prepared. pose proof (on_spec o) as ON. destruct ((op_sessions o =? 0) || (op_sessions o =? 2))%Z.
  1: assert (W : wants_sessions o) by (apply ON; reflexivity). 2: assert (W : ~ wants_sessions o) by (intros X; apply ON in X; discriminate).
  all: constructor; cbn [op_sessions op_manager op_keygen op_parser op_max op_warn op_error op_timeout op_subname op_bufsize]; intros; try tauto; try apply given_or_default; try reflexivity;
    try (destruct (Z.ltb_spec (op_timeout o) 1000000000)); try (destruct (N.eqb_spec (op_bufsize o) 0)); try reflexivity; try tauto; lia.
Qed.
Lemma prepared_range o : op_bufsize o = 0%N \/ (32 <= op_bufsize o)%N -> in_range (prepared o).
Proof.
  intros B. unfold prepared. destruct ((op_sessions o =? 0) || (op_sessions o =? 2))%Z eqn:ON; constructor; cbn [op_sessions op_manager op_keygen op_parser op_max op_warn op_error op_timeout op_subname op_bufsize];
    try split; try apply or_default_some; try (intros; split; apply or_default_some);
    try (destruct (Z.ltb_spec (op_timeout o) 1000000000)); try (destruct (N.eqb_spec (op_bufsize o) 0)); lia.
Qed.
Lemma prepared_same o : in_range o -> prepared o = o.
Proof.
  intros [S M P [W E] T B]. destruct o as [se ma ke pa mx wa er ti su bu]. cbn in *. unfold prepared, or_default; cbn.
  rewrite (proj2 (is_nil_false pa) P), (proj2 (is_nil_false wa) W), (proj2 (is_nil_false er) E).
  replace (ti <? 1000000000)%Z with false by lia. replace (bu =? 0)%N with false by lia.
  replace (se =? 0)%Z with false by lia. cbn. destruct (Z.eqb_spec se 2) as [->|]; [|reflexivity].
  destruct (M eq_refl) as [X Y]. rewrite (proj2 (is_nil_false ma) X), (proj2 (is_nil_false ke) Y). reflexivity.
Qed.

(* ----- C51 ----- *)
Theorem prepare_spec : forall mk o,
  (Prepare mk o = None <-> wants_sessions o /\ op_manager o = PNil /\ mk = false) /\
  (forall o' e, Prepare mk o = Some (o', e) ->
     filled o o' /\ (e = true <-> (1 <= op_bufsize o <= 31)%N) /\ (e = false -> in_range o')).
Proof.
  intros mk o. rewrite prepare_eq. split.
  - rewrite <- is_nil_spec, <- on_spec. destruct ((op_sessions o =? 0) || (op_sessions o =? 2))%Z, (is_nil (op_manager o)), mk; cbn; split; try discriminate; intuition discriminate.
  - intros o' e H. destruct ((op_sessions o =? 0) || (op_sessions o =? 2))%Z eqn:ON; destruct (is_nil (op_manager o)); destruct mk; cbn [andb negb] in H; try discriminate; injection H as H1 H2; subst o' e;
    (split; [apply prepared_filled|]; split; [lia|]; intros; apply prepared_range; lia).
Qed.
Theorem prepare_idempotent : forall mk mk' o o', Prepare mk o = Some (o', false) -> Prepare mk' o' = Some (o', false).
Proof.
  intros mk mk' o o' H. pose proof (proj2 (prepare_spec mk o) _ _ H) as (_ & _ & R). specialize (R eq_refl).
  rewrite prepare_eq, (prepared_same o' R). destruct R as [S M P W T B].
  replace ((op_sessions o' =? 0) || (op_sessions o' =? 2))%Z with (op_sessions o' =? 2)%Z by lia.
  replace (negb (op_bufsize o' =? 0) && (op_bufsize o' <? 32))%N with false by lia.
  destruct (Z.eqb_spec (op_sessions o') 2) as [E|]; [|reflexivity].
  destruct (M E) as [X _]. rewrite (proj2 (is_nil_false _) X). reflexivity.
Qed.

(* ----- C52 ----- *)
Theorem server_spec : forall impl tr init mk o r, NewServer impl tr init mk o = Some (inl r) ->
  exists o', Prepare mk o = Some (o', false) /\ impl = true /\ tr = true /\ init o' = true /\
  (op_timeout o' < 2 ^ 32 * 1000000)%Z /\ v_options r = o' /\ v_msgbuf r = op_bufsize o' /\ v_max r = op_max o' /\
  v_manager r = op_manager o' /\ v_keygen r = op_keygen o' /\ v_parser r = op_parser o' /\
  (v_enabled r = true <-> wants_sessions o) /\
  length (v_conf r) = 11 + length (op_subname o') /\
  ((op_bufsize o < 2 ^ 32)%N -> reads_as (v_conf r) (handshake o')).
Proof.
  intros impl tr init mk o r H. unfold NewServer in H. destruct impl; [|discriminate]. destruct tr; [|discriminate]. cbn [negb] in H.
  destruct (Prepare mk o) as [[o' [|]]|] eqn:P; try discriminate.
  destruct (NewAcceptConfMessage _ _ _ _ _) as [b|] eqn:C; [|discriminate]. destruct (init o') eqn:I; [|discriminate].
  injection H as H. subst r. exists o'. cbn [v_options v_conf v_enabled v_msgbuf v_max v_manager v_keygen v_parser].
  pose proof (proj2 (prepare_spec mk o) _ _ P) as (F & _ & R). specialize (R eq_refl).
  destruct (conf_roundtrip x02 x00 (op_timeout o') 0 (op_subname o') ltac:(lia)) as [N0 _].
  assert (T : (0 <= Z.quot (op_timeout o') 1000000 < 2 ^ 32)%Z).
  { pose proof (r_timeout _ R). unfold NewAcceptConfMessage in C.
    destruct (Z.ltb_spec 4294967295 (Z.quot (op_timeout o') 1000000)); [discriminate|].
    destruct (Z.ltb_spec (Z.quot (op_timeout o') 1000000) 0); [discriminate|]. lia. }
  assert (L : length b = 11 + length (op_subname o')).
  { unfold NewAcceptConfMessage in C. destruct (_ <? _)%Z; [discriminate|]. destruct (_ <? _)%Z; [discriminate|]. injection C as C. subst b.
    reflexivity. }
  repeat (split; [try reflexivity; try exact I|]).
  - pose proof (r_timeout _ R). rewrite Z.quot_div_nonneg in T by lia. 
    pose proof (Z.div_mod (op_timeout o') 1000000 ltac:(lia)). pose proof (Z.mod_pos_bound (op_timeout o') 1000000 ltac:(lia)). lia.
  - intros E. unfold Enabled in E. destruct (op_sessions o =? 0)%Z eqn:E0; [left; lia|]. right.
      assert (~ wants_sessions o \/ wants_sessions o) as [N|[|]] by (unfold wants_sessions; lia); [|lia|assumption].
      rewrite (f_sessions_off _ _ F N) in E. lia.
  - intros W. rewrite (f_sessions_on _ _ F W). reflexivity.
  - exact L.
  - intros B. assert (B' : (op_bufsize o' < 2 ^ 32)%N).
    { destruct (N.eq_dec (op_bufsize o) 0) as [E|E]; [rewrite (f_bufsize_unset _ _ F E)|rewrite (f_bufsize_set _ _ F E)]; lia. }
    exact (proj2 (proj2 (conf_roundtrip x02 x00 (op_timeout o') _ (op_subname o') B') b C)).
Qed.
Lemma conf_message o' : (1000000000 <= op_timeout o')%Z ->
  NewAcceptConfMessage x02 x00 (op_timeout o') (op_bufsize o') (op_subname o') = None <-> (2 ^ 32 * 1000000 <= op_timeout o')%Z.
Proof.
  intros R. unfold NewAcceptConfMessage. rewrite Z.quot_div_nonneg by lia.
  pose proof (Z.div_mod (op_timeout o') 1000000 ltac:(lia)). pose proof (Z.mod_pos_bound (op_timeout o') 1000000 ltac:(lia)).
  destruct (Z.ltb_spec 4294967295 (op_timeout o' / 1000000)) as [L|L]; [split; [lia|reflexivity]|].
  destruct (Z.ltb_spec (op_timeout o' / 1000000) 0) as [M|M]; [pose proof (Z.div_pos (op_timeout o') 1000000); lia|].
  split; [discriminate|lia].
Qed.
Theorem server_fails : forall impl tr init mk o,
  (NewServer impl tr init mk o = None <-> impl = true /\ tr = true /\ Prepare mk o = None) /\
  (forall e, NewServer impl tr init mk o = Some (inr e) <-> why_not impl tr init mk o e).
Proof.
  intros. unfold NewServer.
  assert (X : forall a b : new_err, Some (@inr srv _ a) = Some (inr b) <-> a = b) by (intros; split; congruence).
  destruct impl; [|cbn; split; [split; [discriminate|intros (A & _); discriminate]|]; intros e; rewrite X; destruct e; cbn; split; try discriminate; try reflexivity; intros (A & _); discriminate].
  destruct tr; [|cbn; split; [split; [discriminate|intros (_ & A & _); discriminate]|]; intros e; rewrite X; destruct e; cbn; split; try discriminate; auto; try (intros (_ & A & _); discriminate)]. cbn [negb].
  destruct (Prepare mk o) as [[o' [|]]|] eqn:P.
  - split; [split; [discriminate|intros (_ & _ & A); discriminate]|]. intros e; rewrite X; destruct e; cbn; split; try discriminate; try (intros _; reflexivity); try solve [intros _; split; [reflexivity|]; split; [reflexivity|]; exists o'; assumption];
      try (intros (_ & A); discriminate); intros (_ & _ & o2 & A); try destruct A as (A & _); congruence.
  - pose proof (proj2 (prepare_spec mk o) _ _ P) as (_ & _ & R). specialize (R eq_refl). pose proof (conf_message o' (r_timeout _ R)) as CM.
    destruct (NewAcceptConfMessage _ _ _ _ _) as [b|] eqn:C.
    + assert (T : (op_timeout o' < 2 ^ 32 * 1000000)%Z).
      { destruct (Z.lt_ge_cases (op_timeout o') (2 ^ 32 * 1000000)) as [L|L]; [exact L|]. apply CM in L. discriminate. }
      split; [destruct (init o'); split; [discriminate|intros (_ & _ & A); discriminate|discriminate|intros (_ & _ & A); discriminate]|].
      intros e. destruct (init o') eqn:I.
      * split; [discriminate|]. destruct e; cbn; try discriminate; try (intros (_ & A); discriminate).
        -- intros (_ & _ & o2 & A). congruence.
        -- intros (_ & _ & o2 & A & B). rewrite P in A. injection A as <-. lia.
        -- intros (_ & _ & o2 & A & _ & B). congruence.
      * rewrite X; destruct e; cbn; split; try discriminate; try (intros _; reflexivity); try solve [intros _; split; [reflexivity|]; split; [reflexivity|]; exists o'; repeat (split; [first [assumption|lia]|]); first [assumption|lia]]; try (intros (_ & A); discriminate).
        -- intros (_ & _ & o2 & A). congruence.
        -- intros (_ & _ & o2 & A & B). rewrite P in A. injection A as <-. lia.
    + assert (T : (2 ^ 32 * 1000000 <= op_timeout o')%Z) by (apply CM; reflexivity).
      split; [split; [discriminate|intros (_ & _ & A); discriminate]|]. intros e. rewrite X. destruct e; cbn; split; try discriminate; try (intros _; reflexivity); try solve [intros _; split; [reflexivity|]; split; [reflexivity|]; exists o'; repeat (split; [first [assumption|lia]|]); first [assumption|lia]];
        try (intros (_ & A); discriminate).
      * intros (_ & _ & o2 & A). congruence.
      * intros (_ & _ & o2 & A & B & _). rewrite P in A. injection A as <-. lia.
  - split; [tauto|]. intros e. split; [discriminate|]. destruct e; cbn; try discriminate; try (intros (_ & A); discriminate); intros (_ & _ & o2 & A); try destruct A as (A & _); congruence.
Qed.

Lemma conf_writes r : writes (fun W ops w => writeConfMessage r ops w) (v_conf r).
Proof.
  exists [v_conf r]. split; [cbn; apply app_nil_r|]. intros fails log0. cbn [run_calls run_error].
  unfold writeConfMessage, try_write, close_end, close_with, log_writer; cbn [w_write w_close]. destruct (fails (length log0)) eqn:F.
  - eexists. split; [rewrite <- app_assoc; reflexivity|]. cbn. split; [split; [reflexivity|discriminate]|].
    rewrite app_length, Nat.add_1_r. reflexivity.
  - rewrite app_length, Nat.add_1_r. eexists. split; [rewrite <- app_assoc; reflexivity|]. cbn. destruct (fails (S (length log0))); repeat split; congruence.
Qed.

(* on the in-memory transport (whose buffers have the configured size) the handshake message is
   flushed whole if it fits *)
Theorem handshake_fits : forall impl tr init mk o r s i k s1 e s2, NewServer impl tr init mk o = Some (inl r) ->
  11 + length (op_subname o) <= N.to_nat (v_msgbuf r) ->
  mreach (N.to_nat (v_msgbuf r)) anything s -> at_ s i (TWrite k WOpen) -> pending i (mlog s) = [] ->
  called (fun W ops w => writeConfMessage r ops w) s i k s1 e -> mfrom anything s1 s2 ->
  at_ s1 i (TWrite k WFlush) /\ forall k' g b, In (LSend i k' g b) (mlog s2) -> k' = k /\ b = v_conf r.
Proof.
  intros until s2. intros H L R A P C F. destruct (server_spec _ _ _ _ _ _ H) as (o' & PR & _ & _ & _ & _ & _ & _ & _ & _ & _ & _ & _ & LC & _).
  pose proof (proj2 (prepare_spec mk o) _ _ PR) as (FI & _ & _). rewrite (f_subname _ _ FI) in LC.
  assert (NE : v_conf r <> []) by (intros X; rewrite X in LC; discriminate).
  split.
  - refine (proj1 (call_fits _ _ _ _ _ (v_conf r) _ _ R A P (conf_writes r) NE _ C)). lia.
  - exact (call_delivers _ _ _ _ _ (v_conf r) _ _ _ R A P (conf_writes r) NE C F).
Qed.
(* and if it does not, no connection can be established *)
Theorem handshake_refused : forall impl tr init mk o r s i k s1 e s2, NewServer impl tr init mk o = Some (inl r) ->
  N.to_nat (v_msgbuf r) < 11 + length (op_subname o) ->
  mreach (N.to_nat (v_msgbuf r)) anything s -> at_ s i (TWrite k WOpen) -> pending i (mlog s) = [] ->
  called (fun W ops w => writeConfMessage r ops w) s i k s1 e -> mfrom anything s1 s2 ->
  e <> None /\ at_ s1 i (TWrite k (WDone WrEmpty)) /\
  exists l, mlog s2 = mlog s1 ++ l /\ (forall j, ~ In (LOpen j k) l) /\ (forall j r, ~ In (LWriter j k r) l).
Proof.
  intros until s2. intros H L R A P C F. destruct (server_spec _ _ _ _ _ _ H) as (o' & PR & _ & _ & _ & _ & _ & _ & _ & _ & _ & _ & _ & LC & _).
  pose proof (proj2 (prepare_spec mk o) _ _ PR) as (FI & _ & _). rewrite (f_subname _ _ FI) in LC.
  refine (failed_call_wedges _ _ _ _ _ _ _ _ R A P _ C F). right. exists (v_conf r). split; [apply conf_writes|lia].
Qed.
Theorem conf_fits : forall impl tr init mk o r, NewServer impl tr init mk o = Some (inl r) ->
  (length (v_conf r) <= N.to_nat (v_msgbuf r) <-> 11 + length (op_subname o) <= N.to_nat (v_msgbuf r)) /\
  (length (op_subname o) <= 21 -> length (v_conf r) <= N.to_nat (v_msgbuf r)).
Proof.
  intros until r. intros H. destruct (server_spec _ _ _ _ _ _ H) as (o' & PR & _ & _ & _ & _ & _ & MB & _ & _ & _ & _ & _ & LC & _).
  pose proof (proj2 (prepare_spec mk o) _ _ PR) as (FI & _ & R). specialize (R eq_refl). rewrite (f_subname _ _ FI) in LC.
  split; [lia|]. pose proof (r_bufsize _ R). lia.
Qed.
Definition bare (name : bytes) : options := MkOptions 0 PNil PNil PNil 0 PNil PNil 0 name 32.
Theorem conf_too_long : forall name, 22 <= length name -> exists r, NewServer true true (fun _ => true) true (bare name) = Some (inl r) /\
  op_subname (v_options r) = name /\ N.to_nat (v_msgbuf r) < length (v_conf r).
Proof.
  intros name L. eexists. split; [reflexivity|]. split; [reflexivity|]. cbn [v_msgbuf v_conf op_bufsize]. cbn -[Nat.ltb]. lia.
Qed.

Lemma prepare_flag mk o o' e : Prepare mk o = Some (o', e) -> op_sessions o' = if (op_sessions o =? OptionUnset)%Z then Enabled else op_sessions o.
Proof.
  unfold Prepare. intros H.
  assert (P : op_sessions (prep_sessions o) = if (op_sessions o =? OptionUnset)%Z then Enabled else op_sessions o)
    by (unfold prep_sessions; destruct (_ =? _)%Z; reflexivity).
  destruct (prep_manager mk (prep_sessions o)) as [o1|] eqn:M; [|discriminate].
  assert (Q : op_sessions o1 = op_sessions (prep_sessions o)).
  { unfold prep_manager in M. destruct (_ && _); [destruct mk; [|discriminate]|]; injection M as <-; reflexivity. }
  rewrite <- P, <- Q. injection H as H. apply (f_equal fst) in H. cbn [fst] in H. subst o'.
  unfold prep_bufsize, prep_error, prep_warn, prep_timeout, prep_parser, prep_keygen.
  repeat match goal with |- context [if ?b then _ else _] => destruct b end; reflexivity.
Qed.
Lemma flags : OptionUnset <> Disabled /\ OptionUnset <> Enabled /\ Disabled <> Enabled /\
  (forall mk o o' e, Prepare mk o = Some (o', e) -> op_sessions o' = if (op_sessions o =? OptionUnset)%Z then Enabled else op_sessions o) /\
  (forall mk o, op_sessions o = Disabled -> exists o' e, Prepare mk o = Some (o', e) /\ op_sessions o' = Disabled /\
     op_manager o' = op_manager o /\ op_keygen o' = op_keygen o) /\
  forall impl tr init mk o r, NewServer impl tr init mk o = Some (inl r) ->
    (op_sessions o = Disabled -> v_enabled r = false) /\ (op_sessions o = OptionUnset \/ op_sessions o = Enabled -> v_enabled r = true).
Proof.
  split; [discriminate|]. split; [discriminate|]. split; [discriminate|]. split; [exact prepare_flag|]. split.
  - intros mk o D. assert (E : exists o' e, Prepare mk o = Some (o', e) /\ op_manager o' = op_manager o /\ op_keygen o' = op_keygen o).
    { unfold Prepare. assert (P : prep_sessions o = o) by (unfold prep_sessions; rewrite D; reflexivity). rewrite P.
      unfold prep_manager. rewrite D. cbn [Disabled Enabled Z.eqb andb]. cbn. 
      assert (K : prep_keygen o = o) by (unfold prep_keygen; rewrite D; reflexivity). rewrite K.
      unfold prep_bufsize, prep_error, prep_warn, prep_timeout, prep_parser.
      repeat match goal with |- context [if ?b then _ else _] => destruct b end; do 2 eexists; (split; [reflexivity|]); split; reflexivity. }
    destruct E as (o' & e & E & M & K). exists o', e. split; [exact E|]. rewrite (prepare_flag _ _ _ _ E), D. auto.
  - intros impl tr init mk o r H. unfold NewServer in H. destruct (negb impl); [discriminate|]. destruct (negb tr); [discriminate|].
    destruct (Prepare mk o) as [[o' e]|] eqn:P; [|discriminate]. destruct e; [discriminate|]. destruct (NewAcceptConfMessage _ _ _ _ _); [|discriminate].
    destruct (init o'); [|discriminate]. injection H as <-. cbn [v_enabled]. rewrite (prepare_flag _ _ _ _ P). split.
    + intros ->. reflexivity.
    + intros [-> | ->]; reflexivity.
Qed.
