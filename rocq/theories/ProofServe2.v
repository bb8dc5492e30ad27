From Coq Require Import List Arith NArith ZArith Lia Bool.
From Verif Require Import BaseBytes BaseConc ModelMessage ModelWrite ModelPool ModelPayload ModelHandle
  ModelServe SpecWire SpecMessage SpecWrite SpecHandle SpecPool SpecServe ProofMessage ProofWrite ProofCodec ProofPool
  ProofHandle ProofServe.
Import ListNotations.
Open Scope nat_scope.

Lemma new_sinv buf : sinv (new_serve buf).
Proof.
  constructor; cbn; try (intros; destruct i; discriminate); try (intros; contradiction).
  - exists []. split; [apply reach_inv; constructor|]. intros a. split; [intros []|].
    intros (i & t & H & _). destruct i; discriminate.
  - intros f H. lia.
  - intros l1 e l2 H. destruct l1; discriminate.
Qed.

Ltac samestep I Hi t' es :=
  eapply (sinv_same _ _ _ _ t' [] es I Hi);
    [reflexivity|intros ? []|reflexivity| | |reflexivity|reflexivity|reflexivity|reflexivity| |].

(* a step that changes nothing but the crash flag *)
Lemma crash_sinv z i t : sinv z -> nth_error (z_ts z) i = Some t ->
  sinv (z_threads (set_nth (z_ts z) i t ++ []) (z_crash z)).
Proof.
  intros I Hi. eapply (sinv_same z _ i t t [] [] I Hi); try reflexivity.
  - intros ? [].
  - cbn. rewrite app_nil_r. reflexivity.
  - auto.
  - intros ? ? [].
  - exact (v_thr z I i t Hi).
  - auto.
Qed.

Lemma job_sinv z i c a f b s h ch z1 h1 : sinv z -> nth_error (z_ts z) i = Some (SJob c a f b s h) ->
  ch <> CUserClose -> job z c a f h ch = Some (z1, h1) ->
  sinv (z_threads (set_nth (z_ts z) i
    (match h1 with Some h' => SJob c a f b s h' | None => if s then SLoop c else SEnd end) ++ []) z1).
Proof.
  intros I Hi NC H. pose proof (v_thr z I i _ Hi) as T. cbn in T.
  destruct T as (m & k & (M & R & HF & NF) & J & U). unfold job in H. rewrite M in H.
  pose proof (received_frame m b k R) as Fr. pose proof (routing m b k R) as (_ & RS & RQ & RR & RC).
  assert (NI : forall A (x : A), In x [] -> False) by (intros ? ? []).
  assert (Stay : forall h' e, event_ok (z_log z) e -> about e = Some f -> answers f e = false -> job_ok m h' ->
     h' = HDone \/ unanswered f (z_log z) -> (forall g, e <> VFree g) ->
     sinv (z_threads (set_nth (z_ts z) i (SJob c a f b s h') ++ []) (z_say e z))).
  { intros h' e Ok Ab An Jo Un NV. eapply (sinv_same z _ i _ (SJob c a f b s h') [] [e] I Hi); try reflexivity.
    - intros ? [].
    - right. eauto.
    - intros e' f' [<-|[]] E. cbn. congruence.
    - cbn. exists m, k. split; [|split; [exact Jo|]].
      + split; [exact M|]. split; [exact R|]. split; [cbn; apply in_or_app; auto|].
        cbn. intros C. apply in_app_or in C as [C|[C|[]]]; [contradiction|]. exact (NV _ C).
      + destruct Un as [Un|Un]; [auto|]. right. intros x Hx. cbn in Hx. apply in_app_or in Hx as [Hx|[<-|[]]]; auto.
    - auto. }
  assert (Ans : forall e, event_ok (z_log z) e -> about e = Some f -> (forall g, e <> VFree g) ->
     sinv (z_threads (set_nth (z_ts z) i (SJob c a f b s HDone) ++ []) (z_say e z))).
  { intros e Ok Ab NV. eapply (sinv_same z _ i _ (SJob c a f b s HDone) [] [e] I Hi); try reflexivity.
    - intros ? [].
    - right. eauto.
    - intros e' f' [<-|[]] E. cbn. congruence.
    - cbn. exists m, k. split; [|split; [exact Logic.I|auto]].
      split; [exact M|]. split; [exact R|]. split; [cbn; apply in_or_app; auto|].
      cbn. intros C. apply in_app_or in C as [C|[C|[]]]; [contradiction|]. exact (NV _ C).
    - auto. }
  destruct h as [req|r| | |], ch as [|pk|fr| | |sk| | |g| | |r'|wo|an wo]; try discriminate H; try congruence.
  - (* accessor *)
    assert (AS : app_request (k_type k) \/ app_signal (k_type k)) by (destruct req; [left; apply RQ|right; apply RS]; exact J).
    assert (NZ : k_type k <> 0%N) by (destruct AS as [AS|AS]; unfold app_request, app_signal in AS; lia).
    rewrite (received_value m b k g R NZ) in H. injection H as <- <-.
    destruct U as [U|U]; [discriminate|].
    apply Stay; auto; try reflexivity; try discriminate. cbn. exists c, b, k. auto.
  - (* keep *)
    injection H as <- <-. eapply (sinv_same z _ i _ (SJob c a f b s (HRun req)) [] [] I Hi); try reflexivity.
    + intros ? [].
    + cbn. rewrite app_nil_r. reflexivity.
    + auto.
    + intros ? ? [].
    + cbn. exists m, k. split; [|split; assumption]. split; [exact M|]. auto.
    + cbn. intros f' a' g' [E|Hk]; [|auto]. injection E as <- <- <-. right. exists m, k, c, b. auto 8.
  - (* return *)
    destruct U as [U|U]; [discriminate|]. injection H as <- <-. apply Stay; try reflexivity; try discriminate; auto.
    + cbn. auto.
    + destruct req; [exact J|exact Logic.I].
  - (* reply *)
    destruct U as [U|U]; [discriminate|]. pose proof (proj1 RQ J) as AQ.
    destruct (handleRequest sink_writer (sink_of wo) m r) as [x|] eqn:E; injection H as <- <-.
    + apply Ans; try reflexivity; try discriminate. cbn. exists b, k. refine (conj HF (conj Fr (conj AQ (conj NF (conj U _))))). eapply request_told; eauto.
    + apply crash_sinv; assumption.
  - (* session key *)
    destruct U as [U|U]; [discriminate|]. injection H as <- <-. apply Stay; try reflexivity; try discriminate; auto.
    + cbn. exists c, b, k. repeat split; auto; [apply RR, J|eapply received_payload; eauto].
    + left. exact J.
  - (* session answer *)
    destruct U as [U|U]; [discriminate|].
    assert (KT : k_type k = 31%N \/ k_type k = 32%N) by (destruct J as [J|J]; [right; apply RR|left; apply RC]; exact J).
    assert (WR : wants_reply (k_type k)) by (right; exact KT).
    destruct (answer_msg (sink_of wo) m an) as [x|] eqn:E; injection H as <- <-.
    + apply Ans; try reflexivity; try discriminate. cbn. exists b, k. refine (conj HF (conj Fr (conj KT (conj NF (conj U _))))). eapply answer_told; eauto.
    + apply crash_sinv; assumption.
  - (* release *)
    destruct (z_free a z) as [z'|] eqn:E; injection H as <- <-; [|apply crash_sinv; assumption].
    apply free_spec in E as (p & EC & ->).
    eapply (sinv_free z _ i _ (if s then SLoop c else SEnd) a p [VFree f] I Hi); try reflexivity; try exact EC; destruct s; reflexivity || exact Logic.I.
Qed.

Lemma step_sinv z e z' : sinv z -> polite e -> serve_step z e = Some z' -> sinv z'.
Proof.
  intros I P H. unfold serve_step in H. destruct (z_crashed z); [discriminate|].
  destruct e as [|j|i ch].
  - (* connect *)
    injection H as <-. destruct (v_pool z I) as (h & Hi & HO).
    assert (X : forall j u, nth_error (z_ts z ++ [SLoop (length (z_ts z))]) j = Some u ->
       nth_error (z_ts z) j = Some u \/ u = SLoop (length (z_ts z))).
    { intros j u Hj. apply nth_app_sp in Hj as [Hj|[<-|[]]]; auto. }
    assert (Y : forall j u, nth_error (z_ts z) j = Some u -> nth_error (z_ts z ++ [SLoop (length (z_ts z))]) j = Some u).
    { intros j u Hj. rewrite nth_error_app1; [exact Hj|]. apply nth_error_Some. congruence. }
    constructor; cbn [z_threads z_ts z_pool z_n z_kept z_log].
    + exists h. split; [exact Hi|]. intros a. rewrite HO. split; intros (j & u & Hj & Ha).
      * eauto.
      * destruct (X j u Hj) as [?| ->]; [eauto|discriminate].
    + intros j1 j2 u1 u2 a H1 H2 A1 A2. destruct (X _ _ H1) as [?| ->]; [|discriminate].
      destruct (X _ _ H2) as [?| ->]; [|discriminate]. eapply (v_uniq z I); eauto.
    + intros j u Hj. destruct (X j u Hj) as [Hj'| ->]; [|exact Logic.I]. exact (v_thr z I j u Hj').
    + exact (v_old z I).
    + intros j1 j2 u1 u2 a H1 H2 A1 A2. destruct (X _ _ H1) as [?| ->]; [|discriminate].
      destruct (X _ _ H2) as [?| ->]; [|discriminate]. eapply (v_minds z I); eauto.
    + intros f Hf. destruct (v_busy z I f Hf) as [?|(j & u & Hj & Hu)]; [auto|]. right. exists j, u. auto.
    + intros j u f Hj Hf. destruct (X _ _ Hj) as [?| ->]; [|discriminate]. eapply (v_mlt z I); eauto.
    + intros f a g Hk. destruct (v_kept z I f a g Hk) as [?|(j & u & m & k & c & b & Hj & Q)]; [auto|].
      right. exists j, u, m, k, c, b. split; [auto|exact Q].
    + exact (v_evs z I).
  - (* peek *)
    destruct (nth_error (z_kept z) j) as [[[f a] g]|] eqn:Ek; [|discriminate].
    destruct (mem z a) as [m|] eqn:Em; [|discriminate]. injection H as <-.
    apply nth_error_In in Ek.
    assert (OK : event_ok (z_log z) (VPeek f (g_get (m_buf m) g))).
    { cbn. destruct (v_kept z I f a g Ek) as [?|(j' & u & m' & k & c & b & Hj & Hu & Ha & Hm & Hr & Hg & Hf)]; [auto|].
      right. exists c, b, k. split; [exact Hf|]. split; [eapply received_frame; eauto|].
      assert (m' = m) as -> by congruence. subst g. eapply received_payload; eauto. }
    set (e0 := VPeek f (g_get (m_buf m) g)) in *.
    destruct I as [I1 I2 I3 I4 I5 I6 I7 I8 I9].
    constructor; cbn [z_say z_ts z_pool z_n z_kept z_log]; auto.
    + intros i t Hi. eapply (tok_stable z); [eauto|auto|reflexivity|]. intros e f' [<-|[]] _. discriminate.
    + intros e f' He Hf. apply in_app_or in He as [He|[<-|[]]]; [eauto|discriminate].
    + intros f' Hf'. destruct (I6 f' Hf') as [?|?]; [left; apply in_or_app|]; auto.
    + intros f' a' g' Hk. destruct (I8 f' a' g' Hk) as [C|(j' & u & m' & k & c & b & Hj & Hu & Ha & Hm & Hr & Hg & Hf)].
      * left. apply in_or_app. auto.
      * right. exists j', u, m', k, c, b. repeat split; auto. apply in_or_app. auto.
    + apply snoc_evs; [exact I9|]. right. eauto.
  - destruct (nth_error (z_ts z) i) as [t|] eqn:Hi; [|discriminate].
    destruct (zstep z t ch) as [[[z1 t1] sp]|] eqn:Hz; [|discriminate].
    assert (NC : ch <> CUserClose) by (intros ->; apply (P i); reflexivity).
    pose proof (v_thr z I i t Hi) as T. injection H as <-.
    destruct t as [c|c a|c a|c a f b|c a f b|c a f b s h|].
    + (* Get *)
      destruct ch; try discriminate Hz. cbn [zstep] in Hz. destruct (Get (z_pool z) k) as [p a] eqn:EG.
      injection Hz as <- <- <-. destruct (v_pool z I) as (h & Hh & HO).
      destruct (get_inv _ _ _ _ _ Hh EG) as (G1 & G2 & G3 & m & G4 & G5).
      assert (GP : forall x, x < length (p_heap (z_pool z)) -> x <> a -> nth_error (p_heap p) x = nth_error (p_heap (z_pool z)) x).
      { intros x Lx Nx. refine (pool_isolated (z_pool z) (OGet k) p (Some a) a x _ Logic.I _ Lx).
        - cbn. rewrite EG. reflexivity.
        - congruence. }
      eapply (sinv_gen z _ i _ (SRead c a) [] [] I Hi); try reflexivity.
      * intros ? [].
      * cbn. rewrite app_nil_r. reflexivity.
      * auto.
      * intros ? ? [].
      * exists (a :: h). cbn. split; [exact G1|]. intros x. split.
        -- intros [<-|Hx]; [auto|]. apply HO in Hx as (j & u & Hj & Hu). left. exists j, u. split; [|auto].
           intros ->. assert (u = SLoop c) as -> by congruence. discriminate.
        -- intros [(j & u & N & Hj & Hu)|[= ->]]; [|left; reflexivity]. right. apply HO. eauto.
      * intros x j u N Hj Hu. assert (Hx : In x h) by (apply HO; eauto). split.
        -- cbn. intros [= ->]. contradiction.
        -- unfold mem. cbn. apply GP; [apply (i_lt _ _ Hh), in_or_app; auto|]. intros ->. contradiction.
      * left. auto.
      * cbn. discriminate.
      * cbn. exists m. split; [exact G4|exact G5].
      * auto.
    + (* Read *)
      destruct T as (m & M & B). destruct (v_pool z I) as (h & Hh & HO).
      assert (Ha : In a h) by (apply HO; exists i, (SRead c a); auto).
      destruct ch; try discriminate Hz; cbn [zstep] in Hz.
      * destruct (pool_read (z_pool z) a b) as [[[p ok] er]|] eqn:ER.
        2:{ injection Hz as <- <- <-. apply crash_sinv; assumption. }
        assert (MO : forall x, x < length (p_heap (z_pool z)) -> x <> a -> nth_error (p_heap p) x = nth_error (p_heap (z_pool z)) x).
        { intros x Lx Nx. refine (pool_isolated (z_pool z) (ORead a b) p None a x _ eq_refl _ Lx); [|congruence].
          cbn. rewrite ER. reflexivity. }
        pose proof (read_inv _ _ _ _ _ _ _ Hh Ha ER) as Hh'.
        assert (RB : exists m1, ReadBytes m b = Some (m1, ok, er) /\ nth_error (p_heap p) a = Some m1).
        { unfold pool_read in ER. unfold mem in M. rewrite M in ER. destruct (ReadBytes m b) as [[[m1 ok1] er1]|]; [|discriminate].
          injection ER as <- <- <-. exists m1. split; [reflexivity|]. cbn. eapply update_same; eauto. }
        destruct RB as (m1 & RB & M1).
        assert (OWN : forall t', holds t' = Some a -> exists h0, inv p h0 /\ forall x, In x h0 <->
           (exists j u, j <> i /\ nth_error (z_ts z) j = Some u /\ holds u = Some x) \/ holds t' = Some x).
        { intros t' Ht'. exists h. split; [exact Hh'|]. intros x. rewrite HO. split.
          - intros (j & u & Hj & Hu). destruct (Nat.eq_dec j i) as [->|N]; [right|left; eauto].
            assert (u = SRead c a) as -> by congruence. cbn in Hu. congruence.
          - intros [(j & u & _ & Hj & Hu)|Hx]; [eauto|]. exists i, (SRead c a). split; [exact Hi|]. cbn. congruence. }
        assert (OTH : forall x j u, j <> i -> nth_error (z_ts z) j = Some u -> holds u = Some x -> x <> a).
        { intros x j u N Hj Hu ->. apply N. eapply (v_uniq z I); eauto. }
        destruct (match ok, er with true, None => true | _, _ => false end) eqn:EOK.
        -- destruct ok, er; try discriminate EOK. injection Hz as <- <- <-.
           destruct (ReadBytes_spec m b B) as (m' & ok' & er' & E1 & E2 & _). rewrite RB in E1. injection E1 as <- <- <-.
           destruct (proj1 E2 (conj eq_refl eq_refl)) as (Lb & k & Fk).
           assert (Rc : received m1 b k) by (exists m; auto).
           assert (FR : forall e, In e (z_log z) -> about e <> Some (z_n z)).
           { intros e He C. pose proof (v_old z I _ _ He C). lia. }
           eapply (sinv_gen z _ i _ (SGot c a (z_n z) b) [] [VFrame c (z_n z) b] I Hi); try reflexivity.
           ++ intros ? [].
           ++ right. eexists. split; [reflexivity|]. cbn. split; [eauto|exact FR].
           ++ intros e f [<-|[]] [= <-]. cbn. auto.
           ++ exact (OWN (SGot c a (z_n z) b) eq_refl).
           ++ intros x j u N Hj Hu. pose proof (OTH x j u N Hj Hu). split; [cbn; congruence|].
              unfold mem. cbn. apply MO; [|assumption]. apply (i_lt _ _ Hh), in_or_app. right. apply HO. eauto.
           ++ right. auto.
           ++ cbn. discriminate.
           ++ cbn. exists m1, k. split; [split; [exact M1|]|].
              ** split; [exact Rc|]. split; [apply in_or_app; right; left; reflexivity|].
                 intros C. apply in_app_or in C as [C|[C|[]]]; [|discriminate]. apply (FR _ C). reflexivity.
              ** intros e He. apply in_app_or in He as [He|[<-|[]]]; [|reflexivity].
                 specialize (FR e He). destruct e; cbn in FR |- *; try reflexivity; apply Nat.eqb_neq; congruence.
           ++ auto.
        -- assert (Hz' : Some (z_with p z, SFail c a, @None sthread) = Some (z1, t1, sp)).
           { destruct ok, er; try discriminate EOK; exact Hz. }
           clear Hz. injection Hz' as <- <- <-.
           eapply (sinv_gen z _ i _ (SFail c a) [] [] I Hi); try reflexivity.
           ++ intros ? [].
           ++ cbn. rewrite app_nil_r. reflexivity.
           ++ auto.
           ++ intros ? ? [].
           ++ exact (OWN (SFail c a) eq_refl).
           ++ intros x j u N Hj Hu. pose proof (OTH x j u N Hj Hu). split; [cbn; congruence|].
              unfold mem. cbn. apply MO; [|assumption]. apply (i_lt _ _ Hh), in_or_app. right. apply HO. eauto.
           ++ left. auto.
           ++ cbn. discriminate.
           ++ cbn. exists m1. exact M1.
           ++ auto.
      * injection Hz as <- <- <-. eapply (sinv_same z _ i _ (SFail c a) [] [] I Hi); try reflexivity.
        -- intros ? [].
        -- cbn. rewrite app_nil_r. reflexivity.
        -- auto.
        -- intros ? ? [].
        -- cbn. exists m. exact M.
        -- auto.
    + (* read failed *)
      destruct ch; try discriminate Hz; cbn [zstep] in Hz.
      destruct (z_free a z) as [z'|] eqn:E; injection Hz as <- <- <-; [|apply crash_sinv; assumption].
      apply free_spec in E as (p & EC & ->).
      eapply (sinv_free z _ i _ SEnd a p [] I Hi); try reflexivity; try exact EC; try exact Logic.I.
      cbn. rewrite app_nil_r. reflexivity.
    + (* handleMessage *)
      destruct T as (m & k & Hm & U). pose proof Hm as (M & R & HF & NF).
      pose proof (received_frame m b k R) as Fr. pose proof (routing m b k R) as (_ & RS & RQ & RR & RC).
      assert (Quiet : forall t' sp', (forall u, In u sp' -> idle u) -> holds t' = Some a -> minds t' = Some f -> tok z t' ->
         sinv (z_threads (set_nth (z_ts z) i t' ++ sp') z)).
      { intros t' sp' Hs Hh Hf Tk. eapply (sinv_same z _ i _ t' sp' [] I Hi); try reflexivity; auto.
        cbn. rewrite app_nil_r. reflexivity. intros ? ? []. }
      destruct ch; try discriminate Hz; cbn [zstep] in Hz.
      * injection Hz as <- <- <-. apply Quiet; try reflexivity. { intros ? []. } cbn. exists m, k. exact Hm.
      * rewrite M in Hz. destruct (RequiresReply m) eqn:RQR; [|discriminate].
        assert (WR : wants_reply (k_type k)) by (rewrite <- (received_type m b k R); apply RequiresReply_type, RQR).
        destruct (failMsgShutdown sink_writer (sink_of ok) m) as [x|] eqn:E; injection Hz as <- <- <-; [|apply crash_sinv; assumption].
        eapply (sinv_same z _ i _ (SSkip c a f b) [] [VShut c f x] I Hi); try reflexivity.
        -- intros ? [].
        -- right. eexists. split; [reflexivity|]. cbn. exists b, k.
           refine (conj HF (conj Fr (conj WR (conj NF (conj U _))))). eapply shut_told; eauto.
        -- intros e f' [<-|[]] [= <-]. reflexivity.
        -- cbn. exists m, k. split; [exact M|]. split; [exact R|]. cbn. split; [apply in_or_app; auto|].
           intros C. apply in_app_or in C as [C|[C|[]]]; [contradiction|discriminate].
        -- auto.
      * rewrite M in Hz. destruct (first_state m) as [h|] eqn:EF; [|discriminate]. injection Hz as <- <- <-.
        apply Quiet; try reflexivity. { intros ? []. } cbn. exists m, k. split; [exact Hm|]. split; [|auto].
        unfold first_state in EF. destruct (route_of (m_type m)) eqn:ER; try discriminate EF; injection EF as <-; cbn; auto.
      * rewrite M in Hz. destruct (first_state m) as [h|] eqn:EF; [|discriminate].
        destruct h as [req| | | |]; try discriminate Hz. injection Hz as <- <- <-.
        apply Quiet; try reflexivity. { intros u [<-|[]]. exists c. reflexivity. } cbn. exists m, k. split; [exact Hm|]. split; [|auto].
        unfold first_state in EF. destruct (route_of (m_type m)) eqn:ER; try discriminate EF; injection EF as <-; cbn; auto.
    + (* refused *)
      destruct ch; try discriminate Hz; cbn [zstep] in Hz.
      destruct (z_free a z) as [z'|] eqn:E; injection Hz as <- <- <-; [|apply crash_sinv; assumption].
      apply free_spec in E as (p & EC & ->).
      eapply (sinv_free z _ i _ (SLoop c) a p [VFree f] I Hi); try reflexivity; try exact EC; exact Logic.I.
    + assert (Hz' : match job z c a f h ch with
                    | None => None
                    | Some (z', Some h') => Some (z', SJob c a f b s h', None)
                    | Some (z', None) => Some (z', if s then SLoop c else SEnd, None)
                    end = Some (z1, t1, sp)) by (destruct ch; exact Hz).
      clear Hz. destruct (job z c a f h ch) as [[z' [h'|]]|] eqn:EJ; try discriminate Hz'; injection Hz' as <- <- <-.
      * exact (job_sinv z i c a f b s h ch z' (Some h') I Hi NC EJ).
      * exact (job_sinv z i c a f b s h ch z' None I Hi NC EJ).
    + destruct ch; discriminate Hz.
Qed.

Lemma zreach_sinv buf (ok : zev -> Prop) z : (forall e, ok e -> polite e) -> zreach buf ok z -> sinv z.
Proof. intros P. induction 1; [apply new_sinv|]. eapply step_sinv; eauto. Qed.
