From Coq Require Import List Arith NArith ZArith Lia Bool.
From Verif Require Import BaseBytes BaseConc ModelMessage ModelWrite ModelPool ModelPayload ModelHandle
  ModelServe ModelRequests ModelLink SpecWire SpecMessage SpecWrite SpecHandle SpecServe SpecRequests SpecLink
  ProofMessage ProofWrite ProofWire ProofCodec ProofHandle ProofServe ProofServe2 ProofServe3 ProofServe4 ProofRequests ProofLink.
Import ListNotations.
Open Scope nat_scope.

(* ---------- what the server sends ---------- *)
Lemma utf16_dec e p : utf16_ok e p \/ ~ utf16_ok e p.
Proof.
  unfold utf16_ok, even_len. destruct (Z.eq_dec e 2) as [->|N]; [|left; congruence].
  destruct (Nat.eq_dec (length p mod 2) 0) as [E|E]; [left; auto|right; intros H; apply E; auto].
Qed.
Lemma code_dec c : valid_code c true \/ ~ valid_code c true.
Proof.
  unfold valid_code, printable.
  assert (D : {Forall (fun x => 32 <= b2n x <= 126) c} + {~ Forall (fun x => 32 <= b2n x <= 126) c}).
  { apply Forall_dec. intros x. destruct (le_dec 32 (b2n x)), (le_dec (b2n x) 126); [left|right|right|right]; lia. }
  destruct (le_dec 1 (length c)), (le_dec (length c) 255), D; solve [left; auto | right; intros H; destruct (H eq_refl); try lia; auto].
Qed.
Lemma sendable_dec r : sendable r \/ ~ sendable r.
Proof.
  destruct r as [p e]. unfold sendable. cbn [fst snd].
  destruct e as [|c t|[[c t]|]| | | |]; try (left; exact I); [apply utf16_dec|apply code_dec|apply code_dec|right; auto].
Qed.
Lemma answerable_dec an : answerable an \/ ~ answerable an.
Proof.
  destruct an as [p|e]; cbn; [apply utf16_dec|].
  destruct e as [|c t|[[c t]|]| | | |]; try (left; exact I); [apply code_dec|apply code_dec|right; auto].
Qed.
Lemma emission buf z e c f w : zreach buf polite z -> In e (z_log z) -> emitted e = Some (c, f, w) -> w <> [] ->
  exists b k ka, In (VFrame c f b) (z_log z) /\ frame b k /\ wants_reply (k_type k) /\
    reads_as w ka /\ k_ident ka = k_ident k /\ answered (z_log z) c f (k_ident k) ka.
Proof.
  intros R I E W. apply in_split in I as (l1 & l2 & L).
  destruct e; cbn in E; try discriminate E.
  - destruct s as [| |s er]; try discriminate E. injection E as <- <- <-.
    destruct (replies _ _ _ _ _ _ _ _ _ R L) as (b & k & H1 & H2 & H3 & H4 & H5 & H6 & _).
    destruct (reply_is_result _ _ _ _ _ _ _ _ _ R L) as [H7 _].
    destruct ok; [|specialize (H5 eq_refl); discriminate].
    destruct (sendable_dec r) as [S|S].
    + destruct (H4 eq_refl S) as (w & [= -> ->] & RA). exists b, k, (reply_content (k_ident k) r).
      split; [rewrite L, in_app_iff; auto|]. split; [exact H2|]. split; [left; exact H3|]. split; [exact RA|]. split.
      * destruct r as [p [|code t|[[code t]|]| | | |]]; reflexivity.
      * left. exists r, (Used (MkSink w 1) None). rewrite L, !in_app_iff. cbn. auto 8.
    + destruct (H6 eq_refl S) as (er' & [= -> ->]). cbn in W. congruence.
  - destruct s as [| |s er]; try discriminate E. injection E as <- <- <-.
    destruct (session_answers _ _ _ _ _ _ _ _ _ R L) as (b & k & H1 & H2 & H3 & H4 & H5 & H6 & _).
    destruct ok; [|specialize (H5 eq_refl); discriminate].
    destruct (answerable_dec an) as [S|S].
    + destruct (H4 eq_refl S) as (w & [= -> ->] & RA). exists b, k, (answer_content (k_ident k) an).
      split; [rewrite L, in_app_iff; auto|]. split; [exact H2|]. split; [right; exact H3|]. split; [exact RA|]. split.
      * destruct an as [p|[|code t|[[code t]|]| | | |]]; reflexivity.
      * right. left. exists an, (Used (MkSink w 1) None). rewrite L, !in_app_iff. cbn. auto 8.
    + destruct (H6 eq_refl S) as (er' & [= -> ->]). cbn in W. congruence.
  - destruct s as [| |s er]; try discriminate E. injection E as <- <- <-.
    destruct (shut_replies _ _ _ _ _ _ _ R L) as (b & k & H1 & H2 & H3 & (w & [= -> ->] & RA) & _).
    exists b, k, (special_content 1 (k_ident k)).
    split; [rewrite L, in_app_iff; auto|]. split; [exact H2|]. split; [exact H3|]. split; [exact RA|]. split; [reflexivity|].
    right. right. exists (Used (MkSink w 1) None). rewrite L, !in_app_iff. cbn. auto 8.
Qed.
Lemma emitted_answers e c f w : emitted e = Some (c, f, w) -> answers f e = true.
Proof. destruct e; cbn; try discriminate; destruct s; try discriminate; intros [= <- <- <-]; apply Nat.eqb_refl. Qed.
Lemma emitted_fresh buf z l1 e l2 c f w : zreach buf polite z -> z_log z = l1 ++ e :: l2 -> emitted e = Some (c, f, w) ->
  forall e', In e' l1 -> answers f e' = false.
Proof.
  intros R L E. destruct e; cbn in E; try discriminate E; destruct s; try discriminate E; injection E as <- <- <-.
  - destruct (replies _ _ _ _ _ _ _ _ _ R L) as (b & k & _ & _ & _ & _ & _ & _ & H). exact H.
  - destruct (session_answers _ _ _ _ _ _ _ _ _ R L) as (b & k & _ & _ & _ & _ & _ & _ & H). exact H.
  - destruct (shut_replies _ _ _ _ _ _ _ R L) as (b & k & _ & _ & _ & _ & H). exact H.
Qed.
Definition tags (l : list (option nat * bytes)) : list nat := flat_map (fun h => olist (fst h)) l.
Lemma outs_nodup log : (forall l1 e l2, log = l1 ++ e :: l2 -> forall c f w, emitted e = Some (c, f, w) -> forall e', In e' l1 -> answers f e' = false) ->
  forall c, NoDup (tags (outs c log)).
Proof.
  intros H c. revert H. pattern log. apply List.rev_ind; clear log; [cbn; constructor|].
  intros e log IH H. rewrite outs_app. unfold tags. rewrite flat_map_app. fold (tags (outs c log)).
  assert (IH' : NoDup (tags (outs c log))).
  { apply IH. intros l1 x l2 E. apply (H l1 x (l2 ++ [e])). rewrite E, <- app_assoc. reflexivity. }
  cbn [outs flat_map app]. destruct (emitted e) as [[[d f] w]|] eqn:E; [|cbn; rewrite app_nil_r; exact IH'].
  destruct (Nat.eqb_spec d c) as [->|]; [|cbn; rewrite app_nil_r; exact IH'].
  cbn. apply NoDup_snoc. split; [exact IH'|]. intros I. apply in_flat_map in I as ([o v] & I & J).
  apply outs_in in I as (g & x & -> & Ix & Ex). cbn in J. destruct J as [->|[]].
  pose proof (H log e [] eq_refl _ _ _ E x Ix) as A. rewrite (emitted_answers _ _ _ _ Ex) in A. discriminate.
Qed.
Lemma tags_filter l : tags (filter tagged l) = tags l.
Proof. induction l as [|[[f|] w] l IH]; cbn; [reflexivity| |exact IH]. f_equal. exact IH. Qed.
Lemma nodup_pos {A B} (g : A -> list B) l i j a b y : NoDup (flat_map g l) -> nth_error l i = Some a -> nth_error l j = Some b ->
  In y (g a) -> In y (g b) -> i = j.
Proof.
  revert i j. induction l as [|x l IH]; intros [|i] [|j] ND Hi Hj Ia Ib; try discriminate; cbn in *.
  - reflexivity.
  - injection Hi as ->. exfalso. assert (Z : In y (flat_map g l)) by (apply in_flat_map; exists b; split; [eapply nth_error_In; eauto|exact Ib]).
    clear - ND Ia Z. induction (g a) as [|u l0 IH]; [destruct Ia|]. cbn in ND. inversion ND; subst. destruct Ia as [->|Ia]; [|auto].
    apply H1. apply in_or_app. auto.
  - injection Hj as ->. exfalso. assert (Z : In y (flat_map g l)) by (apply in_flat_map; exists a; split; [eapply nth_error_In; eauto|exact Ia]).
    clear - ND Ib Z. induction (g b) as [|u l0 IH]; [destruct Ib|]. cbn in ND. inversion ND; subst. destruct Ib as [->|Ib]; [|auto].
    apply H1. apply in_or_app. auto.
  - f_equal. eapply IH; eauto. clear - ND. induction (g x); cbn in ND; [exact ND|]. inversion ND; auto.
Qed.

(* ---------- frames accepted by the server ---------- *)
Lemma accepted_prefix buf size n c k f b : linv buf size n -> nth_error (accepted c (log_of n)) k = Some (f, b) ->
  exists o, nth_error (q_sent (n_peer n c)) k = Some (o, b).
Proof.
  intros I H. destruct (p_up _ _ _ _ (l_p _ _ _ I c)) as (rej & E & _). unfold log_of in H.
  assert (nth_error (map snd (q_sent (n_peer n c))) k = Some b).
  { rewrite <- E, nth_error_app1; [rewrite nth_error_map, H; reflexivity|].
    rewrite map_length. apply nth_error_Some. congruence. }
  rewrite nth_error_map in H0. destruct (nth_error (q_sent (n_peer n c)) k) as [[o b']|]; [|discriminate].
  cbn in H0. injection H0 as ->. eauto.
Qed.
Lemma first_in_spec ts t l : first_in ts (t :: l) = true <-> exists x, In x ts /\ b2N t = b2N x.
Proof.
  cbn. rewrite existsb_exists. split; intros (x & I & H); exists x; (split; [exact I|]).
  - destruct (beq_spec t x); congruence.
  - apply b2N_inj in H as ->. apply beq_refl.
Qed.
Lemma request_first b k : frame b k -> wants_reply (k_type k) -> first_in request_types b = true.
Proof.
  intros F W. destruct (frame_first _ _ F) as (t & l & -> & T). apply first_in_spec. rewrite T. unfold request_types.
  destruct W as [W|[->| ->]].
  - assert (k_type k = 127 \/ k_type k = 128 \/ k_type k = 129)%N as [->|[->| ->]] by (unfold app_request in W; lia);
      [exists MsgRequestBinary|exists MsgRequestUtf8|exists MsgRequestUtf16]; (split; [cbn; auto 8|reflexivity]).
  - exists MsgRequestCloseSession. split; [cbn; auto 8|reflexivity].
  - exists MsgRequestRestoreSession. split; [cbn; auto 8|reflexivity].
Qed.
Lemma say_ident id x : k_ident (say_content id x) = id. Proof. destruct x; reflexivity. Qed.
Lemma request_frame_of buf size n c k f b kb : linv buf size n -> few n c ->
  nth_error (accepted c (log_of n)) k = Some (f, b) -> frame b kb -> wants_reply (k_type kb) ->
  exists r x, nth_error (q_sent (n_peer n c)) k = Some (Some (r, x), b) /\ kb = say_content (k_ident kb) x /\
    id_at (reqs (q_mgr (n_peer n c))) r = Some (k_ident kb).
Proof.
  intros I B H F W. destruct (accepted_prefix _ _ _ _ _ _ _ I H) as (o & S). pose proof (l_p _ _ _ I c) as P.
  pose proof (p_sent _ _ _ _ P o b (nth_error_In _ _ S)) as PS. destruct o as [[r x]|].
  - destruct PS as ((i & Hi) & id & Hid & FO).
    destruct (created_valid _ _ _ (p_m _ _ _ _ P) B Hi) as (q & m & Q & _ & L8 & _).
    assert (id = r_id q) as -> by (unfold id_at in Hid; rewrite Q in Hid; cbn in Hid; congruence).
    pose proof (say_frame _ _ _ _ L8 FO F) as ->. rewrite say_ident. exists r, x. auto.
  - rewrite (request_first _ _ F W) in PS. discriminate.
Qed.

(* ---------- frames read by the client ---------- *)
Lemma answer_of buf size n c k o w id v : linv buf size n -> few n c ->
  nth_error (q_got (n_peer n c)) k = Some (o, w) -> In (id, v) (called size (k, (o, w))) ->
  exists j r x b f ka, o = Some f /\ nth_error (accepted c (log_of n)) j = Some (f, b) /\
    nth_error (q_sent (n_peer n c)) j = Some (Some (r, x), b) /\ id_at (reqs (q_mgr (n_peer n c))) r = Some id /\
    frame b (say_content id x) /\ reads_as w ka /\ k_ident ka = id /\ answered (log_of n) c f id ka /\
    (positive ka /\ v = MkGR (Some (MkRMsg id k)) None \/ negative ka /\ v = MkGR None (Some k)).
Proof.
  intros I B G C. pose proof (l_p _ _ _ I c) as P. unfold called in C. cbn [fst snd] in C.
  destruct (on_frame size k w) as [cl|] eqn:OF; [|destruct C]. unfold on_frame in OF.
  destruct (ReadBytes (NewMessage size) w) as [[[m ok] er]|] eqn:RB; [|discriminate].
  destruct ok; [|discriminate]. destruct er; [discriminate|].
  destruct (ReadBytes_spec (NewMessage size) w (NewMessage_blank size)) as (m' & ok & er & RB' & IFF & _ & _ & _ & SH).
  rewrite RB in RB'. injection RB' as <- <- <-. destruct (proj1 IFF (conj eq_refl eq_refl)) as (LW & kw & FW).
  pose proof (SH kw LW FW) as SW. destruct (frame_first _ _ FW) as (t & l & EW & TW).
  assert (MT : b2N (m_type m) = b2N t) by (destruct SW as [SW _]; cbn in SW; congruence).
  assert (NG : In (o, w) (q_got (n_peer n c) ++ q_down (n_peer n c))).
  { apply in_or_app. left. eapply nth_error_In; eauto. }
  assert (CF : (existsb (beq (m_type m)) reply_types = true /\ cl = CallFulfill (MkRMsg (m_ident m) k)) \/
               (existsb (beq (m_type m)) error_types = true /\ cl = CallFail (m_ident m) (Some k))).
  { unfold call_for in OF. destruct (existsb (beq (m_type m)) reply_types); [left; split; congruence|].
    destruct (existsb (beq (m_type m)) error_types); [right; split; congruence|discriminate]. }
  destruct o as [f|].
  2:{ exfalso. pose proof (p_push _ _ _ _ P w NG) as Q. rewrite EW in Q. cbn in Q. rewrite <- not_true_iff_false in Q. apply Q.
      apply b2N_inj in MT as <-. pose proof (existsb_app (beq (m_type m)) reply_types error_types) as X. cbn in X |- *.
      destruct CF as [[CF _]|[CF _]]; cbn in CF; rewrite X; clear X; rewrite CF; rewrite ?orb_true_r; reflexivity. }
  assert (IO : In (Some f, w) (outs c (z_log (n_srv n)))).
  { rewrite <- (p_down _ _ _ _ P). apply filter_In. auto. }
  apply outs_in in IO as (f' & e & [= <-] & IE & EE).
  destruct (emission _ _ _ _ _ _ (l_z _ _ _ I) IE EE ltac:(rewrite EW; discriminate)) as (b & kb & ka & HF & FB & WB & RA & ID & AN).
  destruct (RA (NewMessage size) (NewMessage_blank size) LW) as (m2 & RB2 & S2). rewrite RB in RB2. injection RB2 as <-.
  assert (MI : m_ident m = k_ident ka) by (destruct S2 as (_ & S2 & _); exact S2).
  assert (MT2 : b2N (m_type m) = k_type ka) by (destruct S2 as [S2 _]; exact S2).
  apply accepted_in in HF. apply In_nth_error in HF as [j HJ].
  destruct (request_frame_of _ _ _ _ _ _ _ _ I B HJ FB WB) as (r & x & QS & KB & IDR).
  assert (EI : id = k_ident kb).
  { destruct CF as [[_ ->]|[_ ->]]; cbn in C; destruct C as [[= <- <-]|[]]; congruence. }
  subst id. exists j, r, x, b, f, ka. split; [reflexivity|]. split; [exact HJ|]. split; [exact QS|]. split; [exact IDR|].
  split; [rewrite <- KB; exact FB|]. split; [exact RA|]. split; [exact ID|]. split; [exact AN|].
  destruct CF as [[CF ->]|[CF ->]]; cbn in C; destruct C as [[= _ <-]|[]]; [left|right]; (split; [|rewrite ?MI, ?ID; reflexivity]);
    unfold positive, negative; rewrite <- MT2; apply existsb_exists in CF as (y & IY & EY);
    (destruct (beq_spec (m_type m) y) as [->|]; [|discriminate]); cbn in IY;
    repeat (destruct IY as [<-|IY]; [match goal with |- context [b2N ?y] => let v := eval vm_compute in (b2N y) in change (b2N y) with v end; lia|]); destruct IY.
Qed.

(* ---------- one answer per request ---------- *)
Lemma same_request buf size n c r1 r2 id : linv buf size n -> few n c ->
  id_at (reqs (q_mgr (n_peer n c))) r1 = Some id -> id_at (reqs (q_mgr (n_peer n c))) r2 = Some id -> r1 = r2.
Proof.
  intros I B. apply id_at_inj, rinv_ids_reqs. eapply reach_rinv; [apply (p_m _ _ _ _ (l_p _ _ _ I c))|exact B].
Qed.
Lemma same_entry buf size n c k1 k2 h1 h2 id v1 v2 : linv buf size n -> few n c ->
  nth_error (q_got (n_peer n c)) k1 = Some h1 -> nth_error (q_got (n_peer n c)) k2 = Some h2 ->
  In (id, v1) (called size (k1, h1)) -> In (id, v2) (called size (k2, h2)) -> k1 = k2.
Proof.
  intros I B G1 G2 C1 C2. destruct h1 as [o1 w1], h2 as [o2 w2]. pose proof (l_p _ _ _ I c) as P.
  destruct (answer_of _ _ _ _ _ _ _ _ _ I B G1 C1) as (j1 & r1 & x1 & b1 & f1 & ka1 & -> & A1 & Q1 & D1 & _).
  destruct (answer_of _ _ _ _ _ _ _ _ _ I B G2 C2) as (j2 & r2 & x2 & b2 & f2 & ka2 & -> & A2 & Q2 & D2 & _).
  assert (r2 = r1) as -> by (eapply same_request; eauto).
  assert (j2 = j1) as ->.
  { eapply (nodup_pos _ _ j2 j1 _ _ r1 (p_once _ _ _ _ P) Q2 Q1); cbn; auto. }
  assert (f2 = f1) as -> by congruence.
  assert (ND : NoDup (tags (q_got (n_peer n c) ++ q_down (n_peer n c)))).
  { rewrite <- tags_filter, (p_down _ _ _ _ P). apply outs_nodup. intros l1 e l2 L. intros. eapply emitted_fresh; eauto. apply (l_z _ _ _ I). }
  eapply (nodup_pos (fun h => olist (fst h)) (q_got (n_peer n c) ++ q_down (n_peer n c)) k1 k2 _ _ f1 ND);
    try (rewrite nth_error_app1; [eassumption|apply nth_error_Some; congruence]); cbn; auto.
Qed.
Lemma nodup_keys {A} (g : A -> list (bytes * genericReply)) l : NoDup l -> (forall x, length (g x) <= 1) ->
  (forall x y id v1 v2, In x l -> In y l -> In (id, v1) (g x) -> In (id, v2) (g y) -> x = y) ->
  NoDup (map fst (flat_map g l)).
Proof.
  induction l as [|x l IH]; intros ND L1 U; cbn; [constructor|]. inversion ND; subst. rewrite map_app.
  assert (IH' : NoDup (map fst (flat_map g l))) by (apply IH; auto; intros; eapply U; eauto; cbn; auto).
  pose proof (L1 x) as Lx. destruct (g x) as [|[id v] [|]] eqn:G; cbn in Lx |- *; try lia; [exact IH'|].
  constructor; [|exact IH']. intros I. apply in_map_iff in I as ([id' v'] & E & I). cbn in E. subst id'.
  apply in_flat_map in I as (y & Iy & Gy). assert (x = y); [|subst; contradiction].
  eapply (U x y id v v'); cbn; auto. rewrite G. cbn. auto.
Qed.
Lemma enum_nodup {A} (l : list A) : NoDup (enum l).
Proof.
  assert (G : forall (a : list nat) (b : list A), NoDup a -> NoDup (combine a b)).
  { induction a as [|u a IH]; intros [|v b] ND; cbn; try constructor; inversion ND; subst; auto.
    intros I. apply in_combine_l in I. contradiction. }
  apply G, seq_NoDup.
Qed.
Lemma keys_nodup buf size n c : linv buf size n -> few n c ->
  NoDup (flat_map (fun t => map fst (res t)) (threads (q_mgr (n_peer n c)))).
Proof.
  intros I B. assert (E : forall l, flat_map (fun t => map fst (res t)) l = map fst (flat_map res l)).
  { induction l as [|t l IH]; cbn; [reflexivity|]. rewrite map_app, IH. reflexivity. }
  rewrite E, (p_calls _ _ _ _ (l_p _ _ _ I c)). apply nodup_keys.
  - apply enum_nodup.
  - intros [k h]. unfold called. destruct (on_frame _ _ _) as [cl|]; [|cbn; lia]. unfold res. destruct (resolves _); cbn; lia.
  - intros [k1 h1] [k2 h2] id v1 v2 I1 I2 C1 C2. apply enum_nth in I1, I2.
    assert (k2 = k1) as -> by (eapply same_entry; eauto). congruence.
Qed.

(* ---------- the request manager is used as C20 asks for ---------- *)
Lemma mgr_step size n e n' c : link_step size n e = Some n' ->
  q_mgr (n_peer n' c) = q_mgr (n_peer n c) \/
  exists ev, rstep (q_mgr (n_peer n c)) ev = Some (q_mgr (n_peer n' c)).
Proof.
  assert (SP : forall d p, q_mgr (n_peer (set_peer d p n) c) = if c =? d then q_mgr p else q_mgr (n_peer n c)).
  { intros d p. cbn. destruct (c =? d); reflexivity. }
  intros H. destruct e as [d e|d i x|d b|e|d b|d].
  - assert (exists m, rstep (q_mgr (n_peer n d)) e = Some m /\ n' = set_peer d (with_mgr m (n_peer n d)) n) as (m & S & ->).
    { destruct e as [[]|]; cbn [link_step] in H; try discriminate H;
      match type of H with context [rstep ?a ?b] => destruct (rstep a b) as [m|] eqn:S; [|discriminate] end;
      injection H as <-; exists m; auto. }
    rewrite SP. destruct (Nat.eqb_spec c d) as [->|]; [|auto]. right. exists e. exact S.
  - cbn [link_step] in H. crush H; injection H as <-; left; rewrite SP; destruct (Nat.eqb_spec c d) as [->|]; auto.
  - cbn [link_step] in H. crush H; injection H as <-; left; rewrite SP; destruct (Nat.eqb_spec c d) as [->|]; auto.
  - cbn [link_step] in H. destruct (read_up n e) as [n1|] eqn:RU; [|discriminate].
    destruct (serve_step (n_srv n) e) as [z'|] eqn:S; [|discriminate]. injection H as <-. left.
    match goal with |- context [fold_left deliver ?es ?x] => destruct (deliver_peer es x c) as [-> _]; destruct (after_spec c es (n_peer x c)) as [-> _] end.
    cbn. unfold read_up in RU. crush RU; injection RU as <-; try reflexivity. rewrite SP. destruct (Nat.eqb_spec c c0) as [->|]; auto.
  - cbn [link_step] in H. crush H; injection H as <-; left; rewrite SP; destruct (Nat.eqb_spec c d) as [->|]; auto.
  - cbn [link_step] in H. destruct (q_down (n_peer n d)) as [|h rest]; [discriminate|].
    destruct (on_frame _ _ _) as [cl|].
    + destruct (rstep (q_mgr (n_peer n d)) (EvCall cl)) as [m|] eqn:S; [|discriminate]. injection H as <-.
      rewrite SP. destruct (Nat.eqb_spec c d) as [->|]; [|auto]. right. exists (EvCall cl). exact S.
    + injection H as <-. rewrite SP. left. destruct (Nat.eqb_spec c d) as [->|]; auto.
Qed.
Lemma few_mono size n e n' c : link_step size n e = Some n' -> few n' c -> few n c.
Proof.
  intros H. unfold few. destruct (mgr_step _ _ _ _ c H) as [->|(ev & S)]; [auto|]. apply creations_mono in S. lia.
Qed.
Lemma serial_ok buf size n c ev : linv buf size n -> few n c -> serial (q_mgr (n_peer n c)) ev.
Proof.
  intros I B. destruct ev as [cl|i ch]; cbn; [exact Logic.I|]. destruct ch; [exact Logic.I|].
  destruct (nth_error (threads (q_mgr (n_peer n c))) i) as [t|] eqn:Hi; [|exact Logic.I].
  pose proof (keys_nodup _ _ _ _ I B) as ND.
  assert (K : forall id, In id (map fst (res t)) -> ~ running t ->
    forall j u, nth_error (threads (q_mgr (n_peer n c))) j = Some u -> running u -> option_map fst (resolves u) <> Some id).
  { intros id It NR j u Hj Ru E. assert (i = j).
    { eapply (nodup_pos _ _ i j t u id ND Hi Hj It). unfold res. destruct (resolves u) as [[id' v]|]; [|discriminate].
      cbn in E |- *. injection E as ->. auto. }
    subst j. rewrite Hi in Hj. injection Hj as ->. contradiction. }
  destruct t; auto; apply K; cbn; auto.
Qed.
Lemma lreach_serial buf size n c : lreach buf size n -> few n c -> rreach serial (q_mgr (n_peer n c)).
Proof.
  induction 1 as [|n e n' R IH S]; intros B; [constructor|]. pose proof (few_mono _ _ _ _ _ S B) as B0.
  destruct (mgr_step _ _ _ _ c S) as [->|(ev & E)]; [auto|]. econstructor; [apply IH; exact B0| |exact E].
  eapply serial_ok; eauto. apply lreach_linv, R.
Qed.

(* ---------- calls that found no request ---------- *)
Definition missed (id : bytes) (t : thread) : Prop :=
  match t with FuR m None => rm_id m = id | FaR x _ None => x = id | _ => False end.
Definition ginv (s : manager) : Prop := forall i t id r, nth_error (threads s) i = Some t -> missed id t ->
  id_at (reqs s) r = Some id -> existsb (closes r) (threads s) = true.
Lemma closes_mono s e s' r : rstep s e = Some s' -> existsb (closes r) (threads s) = true -> existsb (closes r) (threads s') = true.
Proof.
  intros H C. destruct e as [c|i c].
  - apply rstep_call in H as ->. cbn. rewrite existsb_app, C. reflexivity.
  - apply rstep_step in H as (t & s1 & t1 & Ht & E & -> & TH). unfold set_thread. cbn [threads]. rewrite TH.
    apply existsb_exists in C as (u & Iu & Cu). apply In_nth_error in Iu as [j Hj]. apply existsb_exists.
    destruct (Nat.eq_dec i j) as [->|N].
    + exists t1. split; [eapply nth_error_In, set_nth_eq; eauto|]. rewrite Ht in Hj. injection Hj as <-.
      destruct t as [| | | | | m x | m0 [z|] | | | y e x | y e0 [w|] | | | z [e1|e1|m1] | | | |], c; cbn in Cu; try discriminate Cu;
        cbn [thread_step] in E; try discriminate E;
        match type of E with context [send ?a ?b ?d] => destruct (send a b d); [|discriminate] end; injection E as _ <-; exact Cu.
    + exists u. split; [|exact Cu]. eapply nth_error_In. rewrite set_nth_ne by exact N. exact Hj.
Qed.
Lemma ginv_step s e s' : rinv s -> rinv s' ->
  (forall id v, In (id, v) (flat_map res (threads s)) -> exists r, id_at (reqs s) r = Some id) ->
  ginv s -> rstep s e = Some s' -> ginv s'.
Proof.
  intros I I' K G H j u id r Hj M D. destruct e as [c|i c].
  - pose proof H as H0. apply rstep_call in H as ->. cbn in Hj, D |- *. apply nth_error_snoc_some in Hj as [Hj|[_ ->]].
    + rewrite existsb_app, (G _ _ _ _ Hj M D). reflexivity.
    + destruct c; destruct M.
  - pose proof H as H0. apply rstep_step in H as (t & s1 & t1 & Ht & E & -> & TH).
    assert (Hj' := Hj). unfold set_thread in Hj'. cbn [threads] in Hj'. rewrite TH in Hj'.
    apply set_nth_lookup in Hj' as [[<- ->]|[N Hj']].
    + assert (L : threads s1 = threads s /\ reqs s1 = reqs s /\ map_get bytes_eqb (pending s) id = None).
      { destruct t, c; cbn [thread_step] in E; try discriminate E;
        unfold send, recv, add_id, register in E;
        repeat match type of E with
        | Some _ = Some _ => injection E as <- <-; cbn in M; try contradiction
        | context [nth_error ?x ?y] => destruct (nth_error x y); try discriminate E
        | context [map_get ?x ?y ?z] => destruct (map_get x y z) eqn:?
        | context [?x <? ?y] => destruct (x <? y); try discriminate E
        | context [r_chan ?q] => destruct (r_chan q); try discriminate E
        end; subst id; auto. }
      destruct L as (_ & L & P). unfold set_thread in D. cbn [reqs] in D. rewrite L in D.
      eapply closes_mono; [exact H0|]. destruct (existsb (closes r) (threads s)) eqn:X; [reflexivity|].
      assert (map_get bytes_eqb (pending s) id = Some r); [|congruence].
      apply pending_iff; [exact I|]. split; [|exact D]. apply outstanding_In. split; [eapply id_at_lt; eauto|exact X].
    + eapply closes_mono; [exact H0|]. 
      assert (exists r0, id_at (reqs s) r0 = Some id) as (r0 & D0).
      { assert (R : exists v, In (id, v) (res u)).
        { destruct u as [| | | | | | m [z|] | | | | y e [w|] | | | | | | |]; try contradiction; cbn in M; subst id; eexists; cbn; left; reflexivity. }
        destruct R as [v R]. apply (K id v). apply in_flat_map. exists u. split; [eapply nth_error_In; eauto|exact R]. }
      assert (r0 = r) as ->.
      { eapply (id_at_inj _ r0 r id (rinv_ids_reqs _ I')); [eapply rstep_id; eauto|exact D]. }
      eapply G; eauto.
Qed.
Lemma resolved_id buf size n c id v : linv buf size n -> few n c -> In (id, v) (flat_map res (threads (q_mgr (n_peer n c)))) ->
  exists k o w, nth_error (q_got (n_peer n c)) k = Some (o, w) /\ In (id, v) (called size (k, (o, w))).
Proof.
  intros I B H. rewrite (p_calls _ _ _ _ (l_p _ _ _ I c)) in H. apply in_flat_map in H as ([k [o w]] & H1 & H2).
  apply enum_nth in H1. eauto.
Qed.
Lemma lreach_ginv buf size n c : lreach buf size n -> few n c -> ginv (q_mgr (n_peer n c)).
Proof.
  induction 1 as [|n e n' R IH S]; intros B.
  - intros [|i] t id r; discriminate.
  - pose proof (few_mono _ _ _ _ _ S B) as B0. pose proof (lreach_linv _ _ _ R) as LI.
    pose proof (linv_step _ _ _ _ _ LI S) as LI'.
    destruct (mgr_step _ _ _ _ c S) as [->|(ev & E)]; [auto|].
    eapply ginv_step; [| | |apply IH; exact B0|exact E].
    + eapply reach_rinv; [apply (p_m _ _ _ _ (l_p _ _ _ LI c))|exact B0].
    + eapply reach_rinv; [apply (p_m _ _ _ _ (l_p _ _ _ LI' c))|exact B].
    + intros id v H. destruct (resolved_id _ _ _ _ _ _ LI B0 H) as (k & o & w & G & C).
      destruct (answer_of _ _ _ _ _ _ _ _ _ LI B0 G C) as (_ & r & _ & _ & _ & _ & _ & _ & _ & D & _). eauto.
Qed.
