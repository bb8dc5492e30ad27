(* Released messages are in the pool; hooks are invoked for signals and requests only *)
From Coq Require Import List Arith NArith ZArith Lia Bool.
From Verif Require Import BaseBytes BaseConc ModelMessage ModelWrite ModelPool ModelPayload ModelHandle
  ModelServe SpecWire SpecMessage SpecWrite SpecHandle SpecServe ProofMessage ProofHandle ProofWire ProofPool
  ProofServe ProofServe2 ProofServe3 ProofServe4.
Import ListNotations.
Open Scope nat_scope.

Lemma close_puts z i t a f b c m k p : sinv z -> nth_error (z_ts z) i = Some t -> holds t = Some a ->
  has z c a f b m k -> pool_close (z_pool z) a = Some p -> In a (p_free p).
Proof.
  intros I Hi Ha (M & R & _) H. destruct (received_shows m b k R) as [_ E].
  unfold pool_close in H. unfold mem in M. rewrite M in H. unfold MsgClose in H. rewrite E in H.
  destruct (m_pooled _); [|discriminate]. injection H as <-. left. reflexivity.
Qed.
Lemma longer {A} (l : list A) x : l <> l ++ [x].
Proof. intros H. apply (f_equal (@length A)) in H. rewrite app_length in H. cbn in H. lia. Qed.
Lemma released_free buf z e z' f : zreach buf polite z -> polite e -> serve_step z e = Some z' ->
  z_log z' = z_log z ++ [VFree f] ->
  exists i t a, e = ZStep i CGo /\ nth_error (z_ts z) i = Some t /\ minds t = Some f /\ holds t = Some a /\
    In a (p_free (z_pool z')).
Proof.
  intros Rz P H L. pose proof (zreach_sinv buf polite z polite_polite Rz) as I.
  unfold serve_step in H. destruct (z_crashed z); [discriminate|]. destruct e as [|j|i ch].
  - injection H as <-. cbn in L. exfalso. exact (longer _ _ L).
  - destruct (nth_error (z_kept z) j) as [[[f0 a] g]|]; [|discriminate]. destruct (mem z a); [|discriminate].
    injection H as <-. cbn in L. apply app_inv_head in L. discriminate.
  - destruct (nth_error (z_ts z) i) as [t|] eqn:Hi; [|discriminate].
    destruct (zstep z t ch) as [[[z1 t1] sp]|] eqn:Hz; [|discriminate]. injection H as <-. cbn [z_threads z_log z_pool] in *.
    pose proof (v_thr z I i t Hi) as T.
    destruct t as [c|c a|c a|c a f0 b|c a f0 b|c a f0 b s h|].
    + destruct ch; try discriminate Hz. cbn [zstep] in Hz. destruct (Get (z_pool z) k). injection Hz as <- <- <-. exfalso. exact (longer _ _ L).
    + destruct ch; try discriminate Hz; cbn [zstep] in Hz.
      * destruct (pool_read (z_pool z) a b) as [[[p []] []]|]; injection Hz as <- <- <-; cbn in L; try (exfalso; exact (longer _ _ L)).
        apply app_inv_head in L. discriminate.
      * injection Hz as <- <- <-. exfalso. exact (longer _ _ L).
    + destruct ch; try discriminate Hz; cbn [zstep] in Hz. destruct (z_free a z) as [z2|] eqn:E; injection Hz as <- <- <-.
      * apply free_spec in E as (p & _ & ->). exfalso. exact (longer _ _ L).
      * exfalso. exact (longer _ _ L).
    + destruct ch; try discriminate Hz; cbn [zstep] in Hz.
      * injection Hz as <- <- <-. exfalso. exact (longer _ _ L).
      * destruct (mem z a); [|discriminate]. destruct (RequiresReply m); [|discriminate].
        destruct (failMsgShutdown _ _ _); injection Hz as <- <- <-; cbn in L; [apply app_inv_head in L; discriminate|exfalso; exact (longer _ _ L)].
      * destruct (mem z a); [|discriminate]. destruct (first_state m); [|discriminate]. injection Hz as <- <- <-. exfalso. exact (longer _ _ L).
      * destruct (mem z a); [|discriminate]. destruct (first_state m) as [[]|]; try discriminate. injection Hz as <- <- <-. exfalso. exact (longer _ _ L).
    + destruct T as (m & k & Hm). destruct ch; try discriminate Hz; cbn [zstep] in Hz.
      destruct (z_free a z) as [z2|] eqn:E; injection Hz as <- <- <-; [|exfalso; exact (longer _ _ L)].
      apply free_spec in E as (p & EC & ->). cbn in L |- *. apply app_inv_head in L. injection L as <-.
      eexists i, _, a. split; [reflexivity|]. split; [exact Hi|]. split; [reflexivity|]. split; [reflexivity|].
      exact (close_puts z i (SSkip c a f0 b) a f0 b c m k p I Hi eq_refl Hm EC).
    + destruct T as (m & k & Hm & _).
      assert (Hz' : match job z c a f0 h ch with
                    | None => None
                    | Some (z', Some h') => Some (z', SJob c a f0 b s h', None)
                    | Some (z', None) => Some (z', if s then SLoop c else SEnd, None)
                    end = Some (z1, t1, sp)) by (destruct ch; exact Hz).
      clear Hz. unfold job in Hz'. rewrite (proj1 Hm) in Hz'.
      destruct h, ch; try discriminate Hz'.
      * destruct (get_value m g); injection Hz' as <- <- <-; cbn in L; [apply app_inv_head in L; discriminate|exfalso; exact (longer _ _ L)].
      * injection Hz' as <- <- <-. exfalso. exact (longer _ _ L).
      * exfalso. apply (P i). reflexivity.
      * injection Hz' as <- <- <-. cbn in L. apply app_inv_head in L. discriminate.
      * destruct (handleRequest _ _ _ _); injection Hz' as <- <- <-; cbn in L; [apply app_inv_head in L; discriminate|exfalso; exact (longer _ _ L)].
      * injection Hz' as <- <- <-. cbn in L. apply app_inv_head in L. discriminate.
      * destruct (answer_msg _ _ _); injection Hz' as <- <- <-; cbn in L; [apply app_inv_head in L; discriminate|exfalso; exact (longer _ _ L)].
      * destruct (z_free a z) as [z2|] eqn:E; injection Hz' as <- <- <-; [|exfalso; exact (longer _ _ L)].
        apply free_spec in E as (p & EC & ->). cbn in L |- *. apply app_inv_head in L. injection L as <-.
        eexists i, _, a. split; [reflexivity|]. split; [exact Hi|]. split; [reflexivity|]. split; [reflexivity|].
        exact (close_puts z i (SJob c a f0 b s HDone) a f0 b c m k p I Hi eq_refl Hm EC).
    + destruct ch; discriminate Hz.
Qed.
Lemma hook_kind buf z f r : zreach buf polite z -> In (VRet f r) (z_log z) ->
  exists c b k, In (VFrame c f b) (z_log z) /\ frame b k /\ (app_request (k_type k) \/ app_signal (k_type k)).
Proof. intros R. exact (r_kind z (zreach_rinv buf z R) f r). Qed.

(* ----- a handler is done only after answering ----- *)
Definition answered (l : list vevent) (f : nat) : Prop := exists e, In e l /\ answers f e = true.
Lemma done_answered buf z : zreach buf polite z -> forall i c a f b s k, nth_error (z_ts z) i = Some (SJob c a f b s HDone) ->
  frame b k -> wants_reply (k_type k) -> answered (z_log z) f.
Proof.
  intros R. induction R as [|z e z' R IH P H]; [intros [|i]; discriminate|].
  pose proof (zreach_sinv buf polite z polite_polite R) as I. unfold serve_step in H. destruct (z_crashed z); [discriminate|].
  destruct e as [|j|i ch].
  - injection H as <-. cbn. intros i c a f b s k N. apply nth_app_sp in N as [N|[N|[]]]; [eauto|discriminate N].
  - destruct (nth_error (z_kept z) j) as [[[f a] g]|]; [|discriminate]. destruct (mem z a) as [m|]; [|discriminate].
    injection H as <-. cbn. intros i c a' f' b s k N F W. destruct (IH i c a' f' b s k N F W) as (e & E1 & E2).
    exists e. split; [apply in_or_app; auto|exact E2].
  - destruct (nth_error (z_ts z) i) as [t|] eqn:Hi; [|discriminate].
    destruct (zstep z t ch) as [[[z1 t1] sp]|] eqn:Hz; [|discriminate]. injection H as <-.
    pose proof (v_thr z I i t Hi) as T.
    assert (G : (forall e, In e (z_log z) -> In e (z_log z1)) /\
                (forall u, sp = Some u -> idle u) /\
                forall c a f b s k, t1 = SJob c a f b s HDone -> frame b k -> wants_reply (k_type k) -> t = t1 \/ answered (z_log z1) f).
    { assert (LG : forall x e, In e (z_log z) -> In e (z_log z ++ [x])) by (intros; apply in_or_app; auto).
      destruct t as [c|c a|c a|c a f b|c a f b|c a f b s h|].
      - destruct ch; try discriminate Hz. cbn [zstep] in Hz. destruct (Get (z_pool z) k). injection Hz as <- <- <-.
        split; [auto|]. split; intros; discriminate.
      - destruct ch; try discriminate Hz; cbn [zstep] in Hz.
        + destruct (pool_read (z_pool z) a b) as [[[p ok] er]|]; [destruct ok, er|]; injection Hz as <- <- <-;
            (split; [first [exact (LG _)|auto]|]; split; intros; discriminate).
        + injection Hz as <- <- <-. split; [auto|]. split; intros; discriminate.
      - destruct ch; try discriminate Hz; cbn [zstep] in Hz. destruct (z_free a z) as [z'|] eqn:E; injection Hz as <- <- <-.
        + apply free_spec in E as (p & _ & ->). split; [auto|]. split; intros; discriminate.
        + split; [auto|]. split; intros; discriminate.
      - destruct T as (m & k0 & (M & Rc & HF & NF) & U). pose proof (routing m b k0 Rc) as (R0 & RS & RQ & RR & RC).
        destruct ch; try discriminate Hz; cbn [zstep] in Hz.
        + injection Hz as <- <- <-. split; [auto|]. split; intros; discriminate.
        + rewrite M in Hz. destruct (RequiresReply m); [|discriminate].
          destruct (failMsgShutdown sink_writer (sink_of ok) m); injection Hz as <- <- <-;
            (split; [first [exact (LG _)|auto]|]; split; intros; discriminate).
        + rewrite M in Hz. destruct (first_state m) as [h|] eqn:EF; [|discriminate]. injection Hz as <- <- <-.
          split; [auto|]. split; [intros; discriminate|]. intros c1 a1 f1 b1 s1 k [= <- <- <- <- <- ->] F W. exfalso.
          assert (k0 = k) by (eapply frame_fun; [eapply received_frame; eauto|exact F]). subst k0.
          unfold first_state in EF. destruct W as [W|[W|W]].
          * apply RQ in W. rewrite W in EF. discriminate.
          * apply RC in W. rewrite W in EF. discriminate.
          * apply RR in W. rewrite W in EF. discriminate.
        + rewrite M in Hz. destruct (first_state m) as [[req| | | |]|] eqn:EF; try discriminate Hz. injection Hz as <- <- <-.
          split; [auto|]. split; [intros u [= <-]; exists c; reflexivity|intros; discriminate].
      - destruct ch; try discriminate Hz; cbn [zstep] in Hz. destruct (z_free a z) as [z'|] eqn:E; injection Hz as <- <- <-.
        + apply free_spec in E as (p & _ & ->). split; [exact (LG _)|]. split; intros; discriminate.
        + split; [auto|]. split; intros; discriminate.
      - destruct T as (m & k0 & (M & Rc & HF & NF) & J & U). pose proof (routing m b k0 Rc) as (R0 & RS & RQ & RR & RC).
        assert (Hz' : match job z c a f h ch with
                      | None => None
                      | Some (z', Some h') => Some (z', SJob c a f b s h', None)
                      | Some (z', None) => Some (z', if s then SLoop c else SEnd, None)
                      end = Some (z1, t1, sp)) by (destruct ch; exact Hz).
        clear Hz. unfold job in Hz'. rewrite M in Hz'.
        destruct h as [req|r| | |], ch as [|pk|fr| | |sk| | |g| | |r'|wo|an wo]; try discriminate Hz'.
        + destruct (get_value m g); injection Hz' as <- <- <-; (split; [first [exact (LG _)|auto]|]; split; intros; discriminate).
        + injection Hz' as <- <- <-. split; [auto|]. split; intros; discriminate.
        + exfalso. apply (P i). reflexivity.
        + injection Hz' as <- <- <-. split; [exact (LG _)|]. split; [intros; discriminate|].
          intros c1 a1 f1 b1 s1 k E F W. destruct req; [discriminate|]. injection E as <- <- <- <- <-. exfalso.
          assert (k0 = k) by (eapply frame_fun; [eapply received_frame; eauto|exact F]). subst k0. apply RS in J.
          unfold wants_reply, app_signal, app_request in *. lia.
        + destruct (handleRequest sink_writer (sink_of wo) m r) as [x|]; injection Hz' as <- <- <-; [|split; [auto|]; split; intros; discriminate].
          split; [exact (LG _)|]. split; [intros; discriminate|]. intros c1 a1 f1 b1 s1 k [= <- <- <- <- <-] F W. right.
          exists (VReply c f r wo x). split; [apply in_or_app; right; left; reflexivity|apply Nat.eqb_refl].
        + injection Hz' as <- <- <-. split; [exact (LG _)|]. split; intros; discriminate.
        + destruct (answer_msg (sink_of wo) m an) as [x|]; injection Hz' as <- <- <-; [|split; [auto|]; split; intros; discriminate].
          split; [exact (LG _)|]. split; [intros; discriminate|]. intros c1 a1 f1 b1 s1 k [= <- <- <- <- <-] F W. right.
          exists (VAnswer c f an wo x). split; [apply in_or_app; right; left; reflexivity|apply Nat.eqb_refl].
        + destruct (z_free a z) as [z'|] eqn:E; injection Hz' as <- <- <-.
          * apply free_spec in E as (p & _ & ->). split; [exact (LG _)|]. split; [intros; discriminate|]. destruct s; intros; discriminate.
          * split; [auto|]. split; [intros; discriminate|]. auto.
      - destruct ch; discriminate Hz. }
    destruct G as (G1 & G2 & G3). cbn. intros j c a f b s k N F W. apply nth_app_sp in N as [N|N].
    + apply set_nth_lookup in N as [[_ E]|[D N]].
      * destruct (G3 _ _ _ _ _ _ (eq_sym E) F W) as [->|A]; [|exact A]. rewrite <- E in Hi. destruct (IH i _ _ _ _ _ k Hi F W) as (x & X1 & X2). exists x. auto.
      * destruct (IH j _ _ _ _ _ k N F W) as (x & X1 & X2). exists x. auto.
    + destruct sp as [u|]; [|destruct N]. destruct N as [->|[]]. destruct (G2 _ eq_refl) as [c' X]. discriminate X.
Qed.
(* a handled request was answered when it is released *)
Lemma released_answered buf z e z' f : zreach buf polite z -> polite e -> serve_step z e = Some z' ->
  z_log z' = z_log z ++ [VFree f] ->
  exists i t c b, e = ZStep i CGo /\ nth_error (z_ts z) i = Some t /\ In (VFrame c f b) (z_log z) /\
    ((exists a, t = SSkip c a f b) \/
     (exists a s h, t = SJob c a f b s h) /\
     forall k, frame b k -> wants_reply (k_type k) -> exists e, In e (z_log z) /\ answers f e = true).
Proof.
  intros R P H L. destruct (released_free _ _ _ _ _ R P H L) as (i & t & a & -> & N & Mi & Ho & _).
  pose proof (zreach_sinv buf polite z polite_polite R) as I. pose proof (v_thr z I i t N) as T.
  unfold serve_step in H. destruct (z_crashed z); [discriminate|]. rewrite N in H.
  destruct t as [c|c a'|c a'|c a' f' b|c a' f' b|c a' f' b s h|]; try discriminate Mi; injection Mi as ->; injection Ho as ->.
  - discriminate H.
  - destruct T as (m & k & (_ & _ & HF & _)). exists i, (SSkip c a f b), c, b. repeat (split; [first [reflexivity|assumption]|]). left. eauto.
  - destruct T as (m & k & (M & _ & HF & _) & _). exists i, (SJob c a f b s h), c, b. repeat (split; [first [reflexivity|assumption]|]). right.
    split; [eauto|]. intros k' F W. destruct h as [req|r| | |]; cbn [zstep] in H; unfold job in H; rewrite M in H; try discriminate H.
    + injection H as <-. cbn in L. apply app_inj_tail in L as [_ L]. discriminate L.
    + eapply done_answered; eauto.
Qed.
