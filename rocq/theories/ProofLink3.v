From Coq Require Import List Arith NArith ZArith Lia Bool.
From Verif Require Import BaseBytes BaseConc ModelMessage ModelWrite ModelPool ModelPayload ModelHandle
  ModelServe ModelRequests ModelLink SpecWire SpecMessage SpecWrite SpecHandle SpecServe SpecRequests SpecLink
  ProofMessage ProofWrite ProofWire ProofCodec ProofHandle ProofServe ProofServe2 ProofServe3 ProofServe4 ProofRequests ProofLink ProofLink2.
Import ListNotations.
Open Scope nat_scope.

Lemma id_has n c r id : id_at (reqs (q_mgr (n_peer n c))) r = Some id -> has_id n c r id.
Proof. intros H. apply id_at_some in H as (q & Q & E). exists q. auto. Qed.
Lemma has_id_at n c r id : has_id n c r id -> id_at (reqs (q_mgr (n_peer n c))) r = Some id.
Proof. intros (q & Q & E). apply id_at_some. exists q. auto. Qed.
Lemma thread_resolved n c j t id v : nth_error (calls_of n c) j = Some t -> resolves t = Some (id, v) ->
  In (id, v) (flat_map res (threads (q_mgr (n_peer n c)))).
Proof. intros H R. apply in_flat_map. exists t. split; [eapply nth_error_In; eauto|]. unfold res. rewrite R. cbn. auto. Qed.

(* ---------- the reply an AwaitReply call returns ---------- *)
Lemma answer_for buf size n c r id v : linv buf size n -> few n c -> has_id n c r id ->
  In (id, v) (flat_map res (threads (q_mgr (n_peer n c)))) ->
  exists i k, reply_for n c r i k /\ k_ident k = id /\
    (positive k /\ v = MkGR (Some (MkRMsg id i)) None \/ negative k /\ v = MkGR None (Some i)).
Proof.
  intros I B D H. destruct (resolved_id _ _ _ _ _ _ I B H) as (k & o & w & G & C).
  destruct (answer_of _ _ _ _ _ _ _ _ _ I B G C) as (j & r' & x & b & f & ka & -> & A & Q & D' & F & RA & ID & AN & V).
  assert (r' = r) as -> by (eapply same_request; eauto; apply has_id_at, D).
  exists k, ka. split; [|auto]. exists id, x, b, f, w. split; [exact D|]. split; [eapply nth_error_In; eauto|]. split; [exact F|].
  split; [apply accepted_in; eapply nth_error_In; eauto|]. auto.
Qed.
Lemma own_reply buf size n c i r res : lreach buf size n -> few n c ->
  nth_error (calls_of n c) i = Some (AwR r res) -> own_answer n c r res.
Proof.
  intros R B H. pose proof (lreach_linv _ _ _ R) as I. pose proof (l_p _ _ _ I c) as P.
  destruct (await_value _ _ _ _ (p_m _ _ _ _ P) B H) as [[e ->]|(q & j & Q & C)]; [exact Logic.I|].
  assert (D : has_id n c r (r_id q)) by (exists q; auto).
  destruct C as [(m & EM & Hj & ->)|[(e & Hj & ->)|[Hj ->]]].
  - destruct (answer_for _ _ _ _ _ (r_id q) (MkGR (Some m) None) I B D) as (k & ka & RF & ID & V).
    { eapply thread_resolved; [exact Hj|]. cbn. rewrite EM. reflexivity. }
    destruct V as [[V E]|[_ E]]; [|discriminate]. injection E as E. subst m. cbn. exists ka. auto.
  - destruct (answer_for _ _ _ _ _ (r_id q) (MkGR None (Some e)) I B D) as (k & ka & RF & ID & V).
    { eapply thread_resolved; [exact Hj|]. reflexivity. }
    destruct V as [[_ E]|[V E]]; [discriminate|]. injection E as ->. cbn. exists ka. auto.
  - destruct (answer_for _ _ _ _ _ (r_id q) (MkGR None None) I B D) as (k & ka & RF & ID & [[_ E]|[_ E]]); try discriminate.
    eapply thread_resolved; [exact Hj|]. reflexivity.
Qed.

(* ---------- requests in order ---------- *)
Lemma in_order buf size n c k f b : lreach buf size n -> nth_error (accepted c (log_of n)) k = Some (f, b) ->
  exists o, nth_error (q_sent (n_peer n c)) k = Some (o, b).
Proof. intros R. apply accepted_prefix with (buf := buf) (size := size). apply lreach_linv, R. Qed.
Lemma frame_once buf z c f b c' b' : zreach buf polite z -> In (VFrame c f b) (z_log z) -> In (VFrame c' f b') (z_log z) ->
  c' = c /\ b' = b.
Proof.
  intros R H1 H2. apply in_split in H1 as (l1 & l2 & L). pose proof H2 as H3. rewrite L in H2.
  apply in_app_or in H2 as [H2|[H2|H2]].
  - destruct (frames_fresh _ _ _ _ _ _ _ R L) as [_ X]. exfalso. exact (X _ H2 eq_refl).
  - injection H2 as <- <-. auto.
  - apply in_split in H2 as (l3 & l4 & ->). 
    destruct (frames_fresh _ _ (l1 ++ VFrame c f b :: l3) c' f b' l4 R) as [_ X].
    { rewrite L, <- app_assoc. reflexivity. }
    exfalso. apply (X (VFrame c f b)); [apply in_or_app; right; left; reflexivity|reflexivity].
Qed.
Lemma sent_request buf size n c r x b id : linv buf size n -> few n c -> In (Some (r, x), b) (q_sent (n_peer n c)) ->
  has_id n c r id -> length id = 8 /\ frame_of id x = Some b.
Proof.
  intros I B S D. pose proof (l_p _ _ _ I c) as P. destruct (p_sent _ _ _ _ P _ _ S) as ((i & Hi) & id' & Hid & FO).
  destruct (created_valid _ _ _ (p_m _ _ _ _ P) B Hi) as (q & m & Q & _ & L8 & _).
  apply has_id_at in D. rewrite Hid in D. injection D as ->. split; [|exact FO].
  apply id_at_some in Hid as (q' & Q' & <-). rewrite Q in Q'. injection Q' as <-. exact L8.
Qed.
Lemma handled_once buf size n c r x b f f' : lreach buf size n -> few n c ->
  In (Some (r, x), b) (q_sent (n_peer n c)) -> In (VFrame c f b) (log_of n) -> In (VFrame c f' b) (log_of n) -> f = f'.
Proof.
  intros R B S H1 H2. pose proof (lreach_linv _ _ _ R) as I. pose proof (l_p _ _ _ I c) as P.
  assert (exists id, has_id n c r id) as [id D].
  { destruct (p_sent _ _ _ _ P _ _ S) as (_ & id & Hid & _). exists id. apply id_has, Hid. }
  destruct (sent_request _ _ _ _ _ _ _ _ I B S D) as [L8 FO].
  assert (G : forall g, In (VFrame c g b) (log_of n) -> exists k x', nth_error (accepted c (log_of n)) k = Some (g, b) /\
            nth_error (q_sent (n_peer n c)) k = Some (Some (r, x'), b)).
  { intros g Hg. pose proof Hg as Hg'. apply in_split in Hg' as (l1 & l2 & L).
    destruct (frames_fresh _ _ _ _ _ _ _ (l_z _ _ _ I) L) as [(kb & FB) _].
    assert (EK : kb = say_content id x) by (eapply say_frame; eauto). 
    assert (W : wants_reply (k_type kb)).
    { rewrite EK. unfold wants_reply, app_request. destruct x as [nm e p|ky|]; cbn; auto.
      left. unfold enc_of. destruct (e =? 1)%Z; [cbn; lia|]. destruct (e =? 2)%Z; cbn; lia. }
    apply accepted_in in Hg. apply In_nth_error in Hg as [k Hk].
    destruct (request_frame_of _ _ _ _ _ _ _ _ I B Hk FB W) as (r' & x' & Hs & _ & Dr).
    exists k, x'. split; [exact Hk|]. replace r with r'; [exact Hs|]. eapply same_request; eauto.
    rewrite EK, say_ident. apply has_id_at, D. }
  destruct (G _ H1) as (k1 & x1 & A1 & S1). destruct (G _ H2) as (k2 & x2 & A2 & S2).
  assert (k1 = k2) by (eapply (nodup_pos _ _ k1 k2 _ _ r (p_once _ _ _ _ P) S1 S2); cbn; auto). congruence.
Qed.
Lemma handler_sees buf size n f g v : lreach buf size n -> In (VSee f g v) (log_of n) ->
  exists c o b, In (VFrame c f b) (log_of n) /\ In (o, b) (q_sent (n_peer n c)) /\
    (few n c -> forall r x, o = Some (r, x) -> exists id, has_id n c r id /\ v = shown (say_content id x) g).
Proof.
  intros R H. pose proof (lreach_linv _ _ _ R) as I. apply in_split in H as (l1 & l2 & L).
  destruct (sees _ _ _ _ _ _ _ (l_z _ _ _ I) L) as (c & b & k & HF & F & -> & _).
  assert (HL : In (VFrame c f b) (log_of n)) by (rewrite L; apply in_or_app; auto).
  pose proof HL as HA. apply accepted_in in HA. apply In_nth_error in HA as [j HA].
  destruct (accepted_prefix _ _ _ _ _ _ _ I HA) as (o & S). apply nth_error_In in S.
  exists c, o, b. split; [exact HL|]. split; [exact S|]. intros B r x ->.
  destruct (p_sent _ _ _ _ (l_p _ _ _ I c) _ _ S) as (_ & id & Hid & _). apply id_has in Hid. exists id. split; [exact Hid|].
  destruct (sent_request _ _ _ _ _ _ _ _ I B S Hid) as [L8 FO]. f_equal. eapply say_frame; eauto.
Qed.

(* ---------- no reply is lost ---------- *)
Lemma answered_sign log c f id k : answered log c f id k -> positive k \/ negative k.
Proof.
  assert (P : forall e, (191 <= rep_tag (enc_of e) <= 193)%N).
  { intros e. unfold enc_of. destruct (e =? 1)%Z; [cbn; lia|]. destruct (e =? 2)%Z; cbn; lia. }
  intros [(r & s & _ & _ & ->)|[(an & s & _ & ->)|(s & _ & ->)]]; unfold positive, negative.
  - destruct r as [[e p] er]. destruct er; repeat match goal with o : option (_ * _) |- _ => destruct o as [[]|] end; first [left; apply P|right; cbn; lia].
  - destruct an as [[e p]|er]; [left; apply P|].
    destruct er; repeat match goal with o : option (_ * _) |- _ => destruct o as [[]|] end; right; cbn; lia.
  - cbn. right. lia.
Qed.
Lemma type_in t k : b2N t = k -> (191 <= k <= 193)%N \/ (k <= 5)%N ->
  existsb (beq t) reply_types = true \/ existsb (beq t) error_types = true.
Proof.
  intros E [H|H]; [left|right]; change (first_in reply_types (t :: []) = true) || change (first_in error_types (t :: []) = true);
    apply first_in_spec; rewrite E; unfold reply_types, error_types.
  - assert (k = 191 \/ k = 192 \/ k = 193)%N as [->|[->| ->]] by lia;
      [exists MsgReplyBinary|exists MsgReplyUtf8|exists MsgReplyUtf16]; (split; [cbn; auto 8|reflexivity]).
  - assert (k = 0 \/ k = 1 \/ k = 2 \/ k = 3 \/ k = 4 \/ k = 5)%N as [->|[->|[->|[->|[->| ->]]]]] by lia;
      [exists MsgReplyError|exists MsgReplyShutdown|exists MsgReplyInternalError|exists MsgReplySessionNotFound|
       exists MsgReplyMaxSessConnsReached|exists MsgReplySessionsDisabled]; (split; [cbn; auto 10|reflexivity]).
Qed.
Lemma told_nonempty w er k : told (Used (MkSink w 1) er) k -> w <> [].
Proof.
  intros (b & E & RA) ->. injection E as <- _. destruct (RA (NewMessage 0) (NewMessage_blank 0) (le_n 0)) as (m & E & _).
  vm_compute in E. discriminate.
Qed.
Lemma answer_emitted buf z c f w : zreach buf polite z -> answer_sent (z_log z) c f w ->
  w <> [] /\ exists e, In e (z_log z) /\ emitted e = Some (c, f, w).
Proof.
  intros R [[r H]|[[an H]|H]]; (split; [|eexists; split; [exact H|reflexivity]]); apply in_split in H as (l1 & l2 & L).
  - destruct (replies _ _ _ _ _ _ _ _ _ R L) as (b & k & _ & _ & _ & H4 & _ & H6 & _).
    destruct (sendable_dec r) as [S|S]; [eapply told_nonempty, H4; auto|]. destruct (H6 eq_refl S) as (er & E). discriminate E.
  - destruct (session_answers _ _ _ _ _ _ _ _ _ R L) as (b & k & _ & _ & _ & H4 & _ & H6 & _).
    destruct (answerable_dec an) as [S|S]; [eapply told_nonempty, H4; auto|]. destruct (H6 eq_refl S) as (er & E). discriminate E.
  - destruct (shut_replies _ _ _ _ _ _ _ R L) as (b & k & _ & _ & _ & H4 & _). eapply told_nonempty, H4.
Qed.
Lemma no_loss buf size n c f w : lreach buf size n -> answer_sent (log_of n) c f w ->
  In (Some f, w) (q_got (n_peer n c) ++ q_down (n_peer n c)).
Proof.
  intros R H. pose proof (lreach_linv _ _ _ R) as I. destruct (answer_emitted _ _ _ _ _ (l_z _ _ _ I) H) as (_ & e & IE & E).
  assert (IO : In (Some f, w) (outs c (z_log (n_srv n)))) by (apply outs_in; eauto).
  rewrite <- (p_down _ _ _ _ (l_p _ _ _ I c)) in IO. apply filter_In in IO. tauto.
Qed.
Lemma got_once buf size n c i j f w w' : lreach buf size n ->
  nth_error (q_got (n_peer n c)) i = Some (Some f, w) -> nth_error (q_got (n_peer n c)) j = Some (Some f, w') -> i = j.
Proof.
  intros R G1 G2. pose proof (lreach_linv _ _ _ R) as I. pose proof (l_p _ _ _ I c) as P.
  assert (ND : NoDup (tags (q_got (n_peer n c) ++ q_down (n_peer n c)))).
  { rewrite <- tags_filter, (p_down _ _ _ _ P). apply outs_nodup. intros l1 e l2 L. intros. eapply emitted_fresh; eauto. apply (l_z _ _ _ I). }
  eapply (nodup_pos (fun h => olist (fst h)) (q_got (n_peer n c) ++ q_down (n_peer n c)) i j _ _ f ND);
    try (rewrite nth_error_app1; [eassumption|apply nth_error_Some; congruence]); cbn; auto.
Qed.

Lemma resolved buf size n c r x b f w : lreach buf size n -> few n c ->
  quiescent (q_mgr (n_peer n c)) -> q_down (n_peer n c) = [] ->
  In (Some (r, x), b) (q_sent (n_peer n c)) -> In (VFrame c f b) (log_of n) -> answer_sent (log_of n) c f w -> length w <= size ->
  exists id i, has_id n c r id /\ nth_error (q_got (n_peer n c)) i = Some (Some f, w) /\
    ((exists t, In t (calls_of n c) /\ gave id i t /\ succeeded r t = true) \/ (exists e, In (AwR r (AwCtx e)) (calls_of n c))).
Proof.
  intros R B QU QD S HF AS LW. pose proof (lreach_linv _ _ _ R) as I. pose proof (l_p _ _ _ I c) as P.
  assert (exists id, has_id n c r id) as [id D].
  { destruct (p_sent _ _ _ _ P _ _ S) as (_ & id & Hid & _). exists id. apply id_has, Hid. }
  destruct (sent_request _ _ _ _ _ _ _ _ I B S D) as [L8 FO].
  pose proof (no_loss _ _ _ _ _ _ R AS) as G. rewrite QD, app_nil_r in G. apply In_nth_error in G as [i G].
  exists id, i. split; [exact D|]. split; [exact G|].
  destruct (answer_emitted _ _ _ _ _ (l_z _ _ _ I) AS) as (NE & e & IE & EE).
  destruct (emission _ _ _ _ _ _ (l_z _ _ _ I) IE EE NE) as (b' & kb & ka & HF' & FB & WB & RA & ID & AN).
  destruct (frame_once _ _ _ _ _ _ _ (l_z _ _ _ I) HF HF') as [_ ->].
  assert (KB : kb = say_content id x) by (eapply say_frame; eauto).
  rewrite KB, say_ident in ID.
  destruct (RA (NewMessage size) (NewMessage_blank size) ltac:(cbn; rewrite ?repeat_length; exact LW)) as (m & RB & SH).
  assert (MI : m_ident m = id) by (destruct SH as (_ & SH & _); cbn in SH; congruence).
  assert (MT : b2N (m_type m) = k_type ka) by (destruct SH as [SH _]; exact SH).
  assert (C : exists v, In (id, v) (called size (i, (Some f, w))) /\ (v = MkGR (Some (MkRMsg id i)) None \/ v = MkGR None (Some i))).
  { unfold called, on_frame. cbn [fst snd]. rewrite RB. unfold call_for. rewrite MI.
    destruct (existsb (beq (m_type m)) reply_types) eqn:X; [eexists; split; [cbn; left; reflexivity|auto]|].
    destruct (existsb (beq (m_type m)) error_types) eqn:Y; [eexists; split; [cbn; left; reflexivity|auto]|].
    destruct (type_in _ _ MT (answered_sign _ _ _ _ _ AN)); congruence. }
  destruct C as (v & C & V).
  assert (T : In (id, v) (flat_map res (threads (q_mgr (n_peer n c))))).
  { rewrite (p_calls _ _ _ _ P). apply in_flat_map. exists (i, (Some f, w)). split; [apply enum_nth; exact G|exact C]. }
  apply in_flat_map in T as (t & It & Tt). unfold res in Tt. destruct (resolves t) as [[id' v']|] eqn:RT; [|destruct Tt].
  destruct Tt as [[= -> ->]|[]].
  assert (GV : gave id i t) by (unfold gave; rewrite RT; destruct V as [->| ->]; auto).
  pose proof (reach_rinv _ _ (p_m _ _ _ _ P) B) as RI.
  destruct (In_nth_error _ _ It) as [j Hj].
  assert (FOUND : forall r', eng t = Some (id, r') -> r' = r).
  { intros r' E. eapply same_request; eauto; [exact (v_eng _ RI _ _ _ _ Hj E)|apply has_id_at, D]. }
  assert (MISS : missed id t -> exists e, In (AwR r (AwCtx e)) (calls_of n c)).
  { intros M. pose proof (lreach_ginv _ _ _ c R B _ _ _ r Hj M (has_id_at _ _ _ _ D)) as CL.
    apply existsb_exists in CL as (u & Iu & Cu). pose proof (QU u Iu) as Qu. destruct (In_nth_error _ _ Iu) as [j' Hj'].
    assert (U : forall id' r', eng u = Some (id', r') -> r = r' -> In id' (map fst (res u)) -> False).
    { intros id' r' E <- RU. pose proof (v_eng _ RI _ _ _ _ Hj' E) as DU. rewrite (has_id_at _ _ _ _ D) in DU. injection DU as <-.
      assert (j = j').
      { eapply (nodup_pos _ _ j j' t u id (keys_nodup _ _ _ _ I B) Hj Hj'); [|exact RU]. unfold res. rewrite RT. cbn. auto. }
      subst j'. rewrite Hj in Hj'. injection Hj' as ->. destruct u as [| | | | | | m0 [z|] | | | | y e0 [z|] | | | | | | |]; cbn in M, E; try discriminate; contradiction. }
    destruct u as [| | | | | | m0 [z|] | | | | y e0 [z|] | | | z [e1|e1|m1] | | | |]; try contradiction; cbn in Cu; try discriminate;
      apply Nat.eqb_eq in Cu; subst z.
    - exfalso. eapply U; cbn; auto.
    - exfalso. eapply U; cbn; auto.
    - exists e1. exact Iu. }
  pose proof (QU t It) as Qt. destruct t as [| | | | | | m0 [z|] | | | | y e0 [z|] | | | | | | |]; try discriminate RT; try contradiction;
    cbn in RT; injection RT as E1 E2.
  - left. eexists. split; [exact It|]. split; [exact GV|]. cbn. rewrite (FOUND z); [apply Nat.eqb_refl|]. cbn. congruence.
  - right. apply MISS. exact E1.
  - left. eexists. split; [exact It|]. split; [exact GV|]. cbn. rewrite (FOUND z); [apply Nat.eqb_refl|]. cbn. congruence.
  - right. apply MISS. exact E1.
Qed.
(* what a handler returned reaches the request *)
Lemma delivered buf size n c r x b f ret : lreach buf size n -> few n c ->
  quiescent (q_mgr (n_peer n c)) -> q_down (n_peer n c) = [] ->
  In (Some (r, x), b) (q_sent (n_peer n c)) -> (exists name e p, x = SayRequest name e p) -> In (VFrame c f b) (log_of n) ->
  In (VRet f ret) (log_of n) -> In (VFree f) (log_of n) -> sendable ret ->
  (forall s, ~ In (VReply c f ret false s) (log_of n)) -> (forall w, answer_sent (log_of n) c f w -> length w <= size) ->
  exists id i w, has_id n c r id /\ nth_error (q_got (n_peer n c)) i = Some (Some f, w) /\ reads_as w (reply_content id ret) /\
    ((exists t, In t (calls_of n c) /\ gave id i t /\ succeeded r t = true) \/ (exists e, In (AwR r (AwCtx e)) (calls_of n c))).
Proof.
  intros R B QU QD S (name & e & p & ->) HF VR VF SE OK FIT. pose proof (lreach_linv _ _ _ R) as I. pose proof (l_p _ _ _ I c) as P.
  assert (exists id, has_id n c r id) as [id D].
  { destruct (p_sent _ _ _ _ P _ _ S) as (_ & id & Hid & _). exists id. apply id_has, Hid. }
  destruct (sent_request _ _ _ _ _ _ _ _ I B S D) as [L8 FO].
  pose proof HF as HS. apply in_split in HS as (l1 & l2 & L).
  destruct (frames_fresh _ _ _ _ _ _ _ (l_z _ _ _ I) L) as [(kb & FB) _].
  assert (EK : kb = say_content id (SayRequest name e p)) by (eapply say_frame; eauto).
  assert (AP : app_request (k_type kb)).
  { rewrite EK. unfold app_request, say_content, enc_of. destruct (e =? 1)%Z; [cbn; lia|]. destruct (e =? 2)%Z; cbn; lia. }
  destruct (returned_replied _ _ _ _ _ _ _ (l_z _ _ _ I) VR HF FB AP VF) as (ok & s & HR).
  destruct ok; [|exfalso; exact (OK s HR)]. pose proof HR as HR'. apply in_split in HR' as (l3 & l4 & L').
  destruct (replies _ _ _ _ _ _ _ _ _ (l_z _ _ _ I) L') as (b' & k' & HF' & F' & _ & T & _).
  assert (HF2 : In (VFrame c f b') (log_of n)) by (unfold log_of; rewrite L'; apply in_or_app; auto).
  destruct (frame_once _ _ _ _ _ _ _ (l_z _ _ _ I) HF HF2) as [_ ->].
  assert (k' = kb) as -> by (eapply frame_fun; eauto). destruct (T eq_refl SE) as (w & -> & RA).
  assert (AS : answer_sent (log_of n) c f w) by (left; exists ret; exact HR).
  destruct (resolved _ _ _ _ _ _ _ _ _ R B QU QD S HF AS (FIT w AS)) as (id' & i & D' & G & C).
  assert (id' = id) as -> by (apply has_id_at in D, D'; congruence).
  exists id, i, w. rewrite EK, say_ident in RA. auto.
Qed.
Lemma never_stuck buf size n c i t : lreach buf size n -> few n c ->
  nth_error (calls_of n c) i = Some t -> running t -> exists n', link_step size n (LClient c (EvStep i ChRun)) = Some n'.
Proof.
  intros R B H T. cbn [link_step].
  destruct (rstep (q_mgr (n_peer n c)) (EvStep i ChRun)) as [m|] eqn:E; [eauto|].
  exfalso. exact (serial_no_block _ _ _ (lreach_serial _ _ _ _ R B) B H T E).
Qed.
Lemma resolved_once buf size n c r : lreach buf size n -> few n c -> count (succeeded r) (calls_of n c) <= 1.
Proof. intros R B. exact (serial_once _ r (lreach_serial _ _ _ _ R B) B). Qed.
