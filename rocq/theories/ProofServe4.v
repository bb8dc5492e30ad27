From Coq Require Import List Arith NArith ZArith Lia Bool.
From Verif Require Import BaseBytes BaseConc ModelMessage ModelWrite ModelPool ModelPayload ModelHandle
  ModelServe SpecWire SpecMessage SpecWrite SpecHandle SpecPool SpecServe ProofMessage ProofWrite ProofCodec ProofWire ProofPool
  ProofHandle ProofServe ProofServe2 ProofServe3.
Import ListNotations.
Open Scope nat_scope.

(* what a handler returned is what is sent, once, before the message is released *)
Definition noret (l : list vevent) (f : nat) : Prop := forall r, ~ In (VRet f r) l.
Definition replied (l : list vevent) (f : nat) : Prop :=
  forall r c b k, In (VRet f r) l -> In (VFrame c f b) l -> frame b k -> app_request (k_type k) ->
  exists c ok s, In (VReply c f r ok s) l.
Definition rt (l : list vevent) (t : sthread) : Prop :=
  match t with
  | SGot _ _ f _ | SSkip _ _ f _ => noret l f
  | SJob _ _ f _ _ h =>
      match h with
      | HRun _ | HSess | HAns => noret l f
      | HRep r => In (VRet f r) l
      | HDone => replied l f
      end
  | _ => True
  end.
Record rinv (z : serve) : Prop := {
  r_thr : forall i t, nth_error (z_ts z) i = Some t -> rt (z_log z) t;
  r_reply : forall c f r ok s, In (VReply c f r ok s) (z_log z) -> In (VRet f r) (z_log z);
  r_once : forall l1 f r l2, z_log z = l1 ++ VRet f r :: l2 -> noret l1 f;
  r_kind : forall f r, In (VRet f r) (z_log z) -> exists c b k, In (VFrame c f b) (z_log z) /\ frame b k /\
             (app_request (k_type k) \/ app_signal (k_type k));
  r_done : forall f, In (VFree f) (z_log z) -> replied (z_log z) f;
  r_kept : forall f a g, In (f, a, g) (z_kept z) -> (exists r, In (VRet f r) (z_log z)) \/
             exists i c a' b s req, nth_error (z_ts z) i = Some (SJob c a' f b s (HRun req));
  r_peek : forall l1 f d l2, z_log z = l1 ++ VPeek f d :: l2 -> (exists r, In (VRet f r) l1) \/ ~ In (VFree f) l1 }.

Definition quiet (e : vevent) : Prop := match e with VRet _ _ | VReply _ _ _ _ _ | VFree _ => False | _ => True end.

Lemma noret_app l es f : noret l f -> (forall r, ~ In (VRet f r) es) -> noret (l ++ es) f.
Proof. intros N M r C. apply in_app_or in C as [C|C]; [exact (N r C)|exact (M r C)]. Qed.
Lemma replied_app l es f : replied l f -> (forall e, In e es -> about e <> Some f) -> replied (l ++ es) f.
Proof.
  intros N M r c b k H1 H2 H3 H4.
  apply in_app_or in H1 as [H1|H1]; [|exfalso; exact (M _ H1 eq_refl)].
  apply in_app_or in H2 as [H2|H2]; [|exfalso; exact (M _ H2 eq_refl)].
  destruct (N r c b k H1 H2 H3 H4) as (c' & ok & s & H). exists c', ok, s. apply in_or_app. auto.
Qed.
Lemma rt_app l es t : rt l t -> (forall e f, In e es -> minds t = Some f -> about e <> Some f) -> rt (l ++ es) t.
Proof.
  intros T M. destruct t as [c|c a|c a|c a f b|c a f b|c a f b s h|]; cbn in *; auto.
  - apply noret_app; [exact T|]. intros r C. exact (M _ f C eq_refl eq_refl).
  - apply noret_app; [exact T|]. intros r C. exact (M _ f C eq_refl eq_refl).
  - destruct h; cbn in *; try (apply noret_app; [exact T|]; intros r0 C; exact (M _ f C eq_refl eq_refl)).
    + apply in_or_app. auto.
    + apply replied_app; [exact T|]. intros e He. exact (M e f He eq_refl).
Qed.
Lemma snoc_last (l l1 l2 : list vevent) (e x : vevent) : l ++ [e] = l1 ++ x :: l2 ->
  (e = x /\ l1 = l) \/ exists l2', l = l1 ++ x :: l2'.
Proof.
  intros E. destruct l2 as [|y l2 _] using rev_ind.
  - apply app_inj_tail in E as [-> ->]. auto.
  - right. rewrite app_comm_cons, app_assoc in E. apply app_inj_tail in E as [E _]. eauto.
Qed.

(* one more event *)
Lemma rinv_gen z z' i t t' sp es : sinv z -> rinv z -> nth_error (z_ts z) i = Some t ->
  z_ts z' = set_nth (z_ts z) i t' ++ sp -> (forall u, In u sp -> idle u) ->
  z_log z' = z_log z ++ es -> (es = [] \/ exists e, es = [e]) ->
  (forall e f, In e es -> about e = Some f -> minds t = Some f \/ (z_n z <= f /\ quiet e)) ->
  rt (z_log z') t' ->
  (forall c f r ok s, In (VReply c f r ok s) es -> In (VRet f r) (z_log z)) ->
  (forall f r, In (VRet f r) es -> noret (z_log z) f /\ exists c b k, In (VFrame c f b) (z_log z) /\ frame b k /\
             (app_request (k_type k) \/ app_signal (k_type k))) ->
  (forall f, In (VFree f) es -> replied (z_log z) f) ->
  (forall c a f b s req, t = SJob c a f b s (HRun req) -> (exists r, In (VRet f r) es) \/ t' = t) ->
  (forall f a g, In (f, a, g) (z_kept z') -> In (f, a, g) (z_kept z) \/ exists c a' b s req, t' = SJob c a' f b s (HRun req)) ->
  (forall f d, ~ In (VPeek f d) es) ->
  rinv z'.
Proof.
  intros I [R1 R2 R3 R4 R5 R6 R7] Hi Ets Hsp EL Hes Ab HT HR HV HF HRn HKp HPk.
  assert (OLD : forall j u f, nth_error (z_ts z) j = Some u -> minds u = Some f -> f < z_n z) by (intros; eapply (v_mlt z I); eauto).
  constructor.
  - intros j u Hj. rewrite Ets in Hj. apply nth_app_sp in Hj as [Hj|Hj].
    + apply set_nth_lookup in Hj as [[_ ->]|[N Hj]]; [exact HT|]. rewrite EL. apply rt_app; [eauto|].
      intros e f He Hf C. destruct (Ab e f He C) as [D|[D _]].
      * apply N. symmetry. eapply (v_minds z I); [exact Hj|exact Hi|exact Hf|exact D].
      * pose proof (OLD _ _ _ Hj Hf). lia.
    + destruct (Hsp u Hj) as [c ->]. exact Logic.I.
  - intros c f r ok s H. rewrite EL in *. apply in_or_app. left. apply in_app_or in H as [H|H]; eauto.
  - intros l1 f r l2 E. rewrite EL in E. destruct Hes as [->|(e & ->)]; [rewrite app_nil_r in E; eauto|].
    apply snoc_last in E as [[-> ->]|(l2' & E)]; [|eauto]. apply (HV f r). left. reflexivity.
  - intros f r H. rewrite EL in H. assert (X : exists c b k, In (VFrame c f b) (z_log z) /\ frame b k /\
             (app_request (k_type k) \/ app_signal (k_type k))).
    { apply in_app_or in H as [H|H]; [eauto|]. apply (HV f r H). }
    destruct X as (c & b & k & X1 & X2). exists c, b, k. split; [|exact X2]. rewrite EL. apply in_or_app. auto.
  - intros f H. rewrite EL in H |- *. apply in_app_or in H as [H|H].
    + apply replied_app; [eauto|]. intros e He C. destruct (Ab e f He C) as [D|[D _]].
      * pose proof (v_thr z I i t Hi) as T. destruct t; cbn in D, T; try discriminate; injection D as ->.
        -- destruct T as (m & k & (_ & _ & _ & N) & _). contradiction.
        -- destruct T as (m & k & (_ & _ & _ & N)). contradiction.
        -- destruct T as (m & k & (_ & _ & _ & N) & _). contradiction.
      * pose proof (v_old z I _ f H eq_refl). lia.
    + assert (R := HF f H). destruct Hes as [->|(e & ->)]; [destruct H|]. destruct H as [->|[]].
      intros r c b k H1 H2 H3 H4.
      apply in_app_or in H1 as [H1|[H1|[]]]; [|discriminate]. apply in_app_or in H2 as [H2|[H2|[]]]; [|discriminate].
      destruct (R r c b k H1 H2 H3 H4) as (c' & ok & s & X). exists c', ok, s. apply in_or_app. auto.
  - assert (EI : nth_error (z_ts z') i = Some t').
    { rewrite Ets, nth_error_app1; [eapply set_nth_eq; eauto|]. rewrite set_nth_length. apply nth_error_Some. congruence. }
    intros f a g Hk. destruct (HKp f a g Hk) as [Old|(c & a' & b & s & req & ->)]; [|right; eauto 8].
    destruct (R6 f a g Old) as [(r & C)|(j & c & a' & b & s & req & Hj)].
    { left. exists r. rewrite EL. apply in_or_app. auto. }
    destruct (Nat.eq_dec j i) as [->|N].
    + assert (t = SJob c a' f b s (HRun req)) by congruence. destruct (HRn _ _ _ _ _ _ H) as [(r & C)|E].
      * left. exists r. rewrite EL. apply in_or_app. auto.
      * right. exists i, c, a', b, s, req. congruence.
    + right. exists j, c, a', b, s, req. rewrite Ets, nth_error_app1.
      * rewrite set_nth_ne by congruence. exact Hj.
      * rewrite set_nth_length. apply nth_error_Some. congruence.
  - intros l1 f d l2 E. rewrite EL in E. destruct Hes as [->|(e & ->)]; [rewrite app_nil_r in E; eauto|].
    apply snoc_last in E as [[-> ->]|(l2' & E)]; [|eauto]. exfalso. apply (HPk f d). left. reflexivity.
Qed.

Lemma step_rinv z e z' : sinv z -> rinv z -> polite e -> serve_step z e = Some z' -> rinv z'.
Proof.
  intros I RI P H. unfold serve_step in H. destruct (z_crashed z); [discriminate|].
  destruct e as [|j|i ch].
  - injection H as <-. destruct RI as [R1 R2 R3 R4 R5 R6 R7]. constructor; auto.
    + cbn. intros i t Hi. apply nth_app_sp in Hi as [Hi|[<-|[]]]; [eauto|exact Logic.I].
    + cbn. intros f a g Hk. destruct (R6 f a g Hk) as [?|(i & c & a' & b & s & req & Hi)]; [auto|].
      right. exists i, c, a', b, s, req. rewrite nth_error_app1; [exact Hi|]. apply nth_error_Some. congruence.
  - destruct (nth_error (z_kept z) j) as [[[f a] g]|] eqn:Ek; [|discriminate]. destruct (mem z a) as [m|]; [|discriminate].
    injection H as <-. destruct RI as [R1 R2 R3 R4 R5 R6 R7]. constructor; cbn [z_say z_log z_ts].
    + intros i t Hi. apply rt_app; [eauto|]. intros e f' [<-|[]] _. discriminate.
    + intros c f' r ok s H. apply in_app_or in H as [H|[H|[]]]; [|discriminate]. apply in_or_app. eauto.
    + intros l1 f' r l2 E. apply snoc_last in E as [[C _]|(l2' & E)]; [discriminate|eauto].
    + intros f' r H. apply in_app_or in H as [H|[H|[]]]; [|discriminate]. destruct (R4 f' r H) as (c & b & k & X1 & X2).
      exists c, b, k. split; [apply in_or_app; auto|exact X2].
    + intros f' H. apply in_app_or in H as [H|[H|[]]]; [|discriminate]. apply replied_app; [eauto|].
      intros e [<-|[]]. discriminate.
    + cbn. intros f' a' g' Hk. destruct (R6 f' a' g' Hk) as [(r & C)|?]; [|auto]. left. exists r. apply in_or_app. auto.
    + intros l1 f' d l2 E. apply snoc_last in E as [[C ->]|(l2' & E)]; [|eauto]. injection C as <- <-.
      apply nth_error_In in Ek. destruct (R6 _ _ _ Ek) as [?|(i & c & a' & b & s & req & Hi)]; [auto|]. right.
      destruct (v_thr z I _ _ Hi) as (m' & k & (_ & _ & _ & N) & _). exact N.
  - destruct (nth_error (z_ts z) i) as [t|] eqn:Hi; [|discriminate].
    destruct (zstep z t ch) as [[[z1 t1] sp]|] eqn:Hz; [|discriminate].
    assert (NC : ch <> CUserClose) by (intros ->; apply (P i); reflexivity).
    pose proof (v_thr z I i t Hi) as T. pose proof (r_thr z RI i t Hi) as RT. injection H as <-.
    (* steps that log nothing *)
    assert (Silent : forall zz t' sp', z_log zz = z_log z -> (forall u, In u sp' -> idle u) -> rt (z_log z) t' ->
      (forall c a f b s req, t = SJob c a f b s (HRun req) -> t' = t) ->
      (forall f a g, In (f, a, g) (z_kept zz) -> In (f, a, g) (z_kept z) \/ exists c a' b s req, t' = SJob c a' f b s (HRun req)) ->
      rinv (z_threads (set_nth (z_ts z) i t' ++ sp') zz)).
    { intros zz t' sp' EL Hs HT Hr Hk. eapply (rinv_gen z _ i t t' sp' []); eauto; try (intros; contradiction).
      - cbn. rewrite app_nil_r. exact EL.
      - cbn. rewrite EL. exact HT. }
    assert (NI : forall u : sthread, In u [] -> idle u) by (intros ? []).
    destruct t as [c|c a|c a|c a f b|c a f b|c a f b s h|].
    + destruct ch; try discriminate Hz. cbn [zstep] in Hz. destruct (Get (z_pool z) k) as [p a].
      injection Hz as <- <- <-. apply Silent; auto; try exact Logic.I; try (intros; discriminate).
    + destruct ch; try discriminate Hz; cbn [zstep] in Hz.
      * destruct (pool_read (z_pool z) a b) as [[[p ok] er]|].
        2:{ injection Hz as <- <- <-. apply Silent; auto; try exact Logic.I; try (intros; discriminate). }
        assert (N : noret (z_log z ++ [VFrame c (z_n z) b]) (z_n z)).
        { apply noret_app; [|intros r [C|[]]; discriminate]. intros r C. pose proof (v_old z I _ (z_n z) C eq_refl). lia. }
        destruct ok, er; injection Hz as <- <- <-; try (apply Silent; auto; try exact Logic.I; intros; discriminate).
        eapply (rinv_gen z _ i _ (SGot c a (z_n z) b) [] [VFrame c (z_n z) b] I RI Hi); [..|intros; first [discriminate|right; congruence|idtac]|intros; left; assumption|intros ? ? [?|[]]; first [discriminate|idtac]]; try reflexivity.
        -- exact NI.
        -- right. eauto.
        -- intros e f [<-|[]] [= <-]. right. split; [lia|exact Logic.I].
        -- exact N.
        -- intros c0 f r ok s [C|[]]. discriminate.
        -- intros f r [C|[]]. discriminate.
        -- intros f [C|[]]. discriminate.
      * injection Hz as <- <- <-. apply Silent; auto; try exact Logic.I; try (intros; discriminate).
    + destruct ch; try discriminate Hz; cbn [zstep] in Hz.
      destruct (z_free a z) as [z'|] eqn:E; injection Hz as <- <- <-; [|apply Silent; auto; try exact Logic.I; intros; discriminate].
      apply free_spec in E as (p & _ & ->). apply Silent; auto; try exact Logic.I; try (intros; discriminate).
    + destruct T as (m & k & (M & R & HF & NF) & U).
      destruct ch; try discriminate Hz; cbn [zstep] in Hz.
      * injection Hz as <- <- <-. apply Silent; auto; try (intros; discriminate).
      * rewrite M in Hz. destruct (RequiresReply m); [|discriminate].
        destruct (failMsgShutdown sink_writer (sink_of ok) m) as [x|]; injection Hz as <- <- <-; [|apply Silent; auto; try (intros; discriminate)].
        eapply (rinv_gen z _ i _ (SSkip c a f b) [] [VShut c f x] I RI Hi); [..|intros; first [discriminate|right; congruence|idtac]|intros; left; assumption|intros ? ? [?|[]]; first [discriminate|idtac]]; try reflexivity.
        -- exact NI.
        -- right. eauto.
        -- intros e f' [<-|[]] [= <-]. auto.
        -- cbn. apply noret_app; [exact RT|]. intros r [C|[]]. discriminate.
        -- intros c0 f0 r ok0 s [C|[]]. discriminate.
        -- intros f0 r [C|[]]. discriminate.
        -- intros f0 [C|[]]. discriminate.
      * rewrite M in Hz. destruct (first_state m) as [h|] eqn:EF; [|discriminate]. injection Hz as <- <- <-.
        apply Silent; auto; try (intros; discriminate). cbn in RT |- *. destruct h; auto.
        -- unfold first_state in EF. destruct (route_of (m_type m)); discriminate.
        -- intros r0 c0 b0 k0 H1. exfalso. exact (RT _ H1).
      * rewrite M in Hz. destruct (first_state m) as [h|] eqn:EF; [|discriminate].
        destruct h as [req| | | |]; try discriminate Hz. injection Hz as <- <- <-. apply Silent; auto; try (intros; discriminate).
        intros u [<-|[]]. exists c. reflexivity.
    + destruct ch; try discriminate Hz; cbn [zstep] in Hz.
      destruct (z_free a z) as [z'|] eqn:E; injection Hz as <- <- <-; [|apply Silent; auto; try (intros; discriminate)].
      apply free_spec in E as (p & _ & ->).
      eapply (rinv_gen z _ i _ (SLoop c) [] [VFree f] I RI Hi); [..|intros; first [discriminate|right; congruence|idtac]|intros; left; assumption|intros ? ? [?|[]]; first [discriminate|idtac]]; try reflexivity.
      * exact NI.
      * right. eauto.
      * intros e f' [<-|[]] [= <-]. auto.
      * intros c0 f0 r ok0 s [C|[]]. discriminate.
      * intros f0 r [C|[]]. discriminate.
      * intros f0 [[= <-]|[]] r c0 b0 k0 H1. exfalso. exact (RT _ H1).
    + destruct T as (m & k & (M & R & HF & NF) & J & U).
      assert (Hz' : match job z c a f h ch with
                    | None => None
                    | Some (z', Some h') => Some (z', SJob c a f b s h', None)
                    | Some (z', None) => Some (z', if s then SLoop c else SEnd, None)
                    end = Some (z1, t1, sp)) by (destruct ch; exact Hz).
      clear Hz. unfold job in Hz'. rewrite M in Hz'. pose proof (received_frame m b k R) as Fr.
      pose proof (routing m b k R) as (_ & RS & RQ & RR & RC).
      (* events other than returns, replies, releases *)
      assert (Other : forall h' e, about e = Some f -> quiet e -> noret (z_log z) f ->
         match h' with HRep _ => False | _ => True end -> (forall req, h = HRun req -> h' = h) ->
         rinv (z_threads (set_nth (z_ts z) i (SJob c a f b s h') ++ []) (z_say e z))).
      { intros h' e Ae Qe Nr Hh Hst.
        assert (Nr' : noret (z_log z ++ [e]) f).
        { apply noret_app; [exact Nr|]. intros r [->|[]]. exact Qe. }
        eapply (rinv_gen z _ i _ (SJob c a f b s h') [] [e] I RI Hi); [..|intros; first [discriminate|right; congruence|idtac]|intros; left; assumption|intros ? ? [?|[]]; first [discriminate|idtac]]; try reflexivity.
        - exact NI.
        - right. eauto.
        - intros e' f' [<-|[]] E. left. cbn. congruence.
        - cbn. destruct h'; try exact Nr'; [contradiction|]. intros r0 c0 b0 k0 H1. exfalso. exact (Nr' _ H1).
        - intros c0 f0 r ok0 s0 [->|[]]. destruct Qe.
        - intros f0 r [->|[]]. destruct Qe.
        - intros f0 [->|[]]. destruct Qe.
        - right. rewrite (Hst req) by congruence. reflexivity.
        - subst e. discriminate Ae. }
      cbn in RT.
      destruct h as [req|r| | |], ch as [|pk|fr| | |sk| | |g| | |r'|wo|an wo]; try discriminate Hz'; try congruence.
      * destruct (get_value m g); injection Hz' as <- <- <-; [|apply Silent; auto; try (intros; discriminate)].
        apply Other; auto; try exact Logic.I; intros; discriminate.
      * injection Hz' as <- <- <-. apply Silent; auto. cbn. intros f0 a0 g0 [E|Hk]; [|auto]. injection E as <- <- <-. right. eauto 8.
      * injection Hz' as <- <- <-.
        eapply (rinv_gen z _ i _ (SJob c a f b s (if req then HRep r' else HDone)) [] [VRet f r'] I RI Hi); [..|intros; first [discriminate|right; congruence|idtac]|intros; left; assumption|intros ? ? [?|[]]; first [discriminate|idtac]]; try reflexivity.
        -- exact NI.
        -- right. eauto.
        -- intros e f' [<-|[]] [= <-]. auto.
        -- cbn. destruct req; [apply in_or_app; right; left; reflexivity|].
           intros r0 c0 b0 k0 H1 H2 H3 H4. exfalso.
           apply in_app_or in H2 as [H2|[H2|[]]]; [|discriminate].
           assert (b0 = b).
           { apply in_split in HF as (l1 & l2 & EL). rewrite EL in H2.
             apply in_app_or in H2 as [H2|[H2|H2]]; [| congruence|].
             - pose proof (v_evs z I _ _ _ EL) as (_ & X). exfalso. exact (X _ H2 eq_refl).
             - apply in_split in H2 as (l3 & l4 & ->). rewrite app_comm_cons, app_assoc in EL.
               pose proof (v_evs z I _ _ _ EL) as (_ & X). exfalso. refine (X (VFrame c f b) _ eq_refl). apply in_or_app. right. left. reflexivity. }
           subst b0. assert (k0 = k) by (eapply frame_fun; eauto). subst k0.
           apply RS in J. unfold app_request, app_signal in *. lia.
        -- intros c0 f0 r ok0 s0 [C|[]]. discriminate.
        -- intros f0 r [[= <- <-]|[]]. split; [exact RT|]. exists c, b, k. split; [exact HF|]. split; [exact Fr|].
           destruct req; [left; apply RQ, J|right; apply RS, J].
        -- intros f0 [C|[]]. discriminate.
        -- left. exists r'. left. congruence.
      * destruct (handleRequest sink_writer (sink_of wo) m r) as [x|]; injection Hz' as <- <- <-; [|apply Silent; auto; try (intros; discriminate)].
        eapply (rinv_gen z _ i _ (SJob c a f b s HDone) [] [VReply c f r wo x] I RI Hi); [..|intros; first [discriminate|right; congruence|idtac]|intros; left; assumption|intros ? ? [?|[]]; first [discriminate|idtac]]; try reflexivity.
        -- exact NI.
        -- right. eauto.
        -- intros e f' [<-|[]] [= <-]. auto.
        -- cbn. intros r0 c0 b0 k0 H1 H2 H3 H4. exists c, wo, x. apply in_or_app. right.
           apply in_app_or in H1 as [H1|[H1|[]]]; [|discriminate].
           assert (r0 = r); [|subst r0; left; reflexivity].
           apply in_split in H1 as (l1 & l2 & EL). rewrite EL in RT. apply in_app_or in RT as [C|[C|C]].
           ++ exfalso. exact (r_once z RI _ _ _ _ EL _ C).
           ++ congruence.
           ++ apply in_split in C as (l3 & l4 & ->). rewrite app_comm_cons, app_assoc in EL.
              exfalso. refine (r_once z RI _ _ _ _ EL r0 _). apply in_or_app. right. left. reflexivity.
        -- intros c0 f0 r0 ok0 s0 [[= <- <- <- <- <-]|[]]. exact RT.
        -- intros f0 r0 [C|[]]. discriminate.
        -- intros f0 [C|[]]. discriminate.
      * injection Hz' as <- <- <-. apply Other; auto; try exact Logic.I; intros; discriminate.
      * destruct (answer_msg (sink_of wo) m an) as [x|]; injection Hz' as <- <- <-; [|apply Silent; auto; try (intros; discriminate)].
        apply Other; auto; try exact Logic.I; intros; discriminate.
      * destruct (z_free a z) as [z'|] eqn:E; injection Hz' as <- <- <-; [|apply Silent; auto; try (intros; discriminate)].
        apply free_spec in E as (p & _ & ->).
        eapply (rinv_gen z _ i _ (if s then SLoop c else SEnd) [] [VFree f] I RI Hi); [..|intros; first [discriminate|right; congruence|idtac]|intros; left; assumption|intros ? ? [?|[]]; first [discriminate|idtac]]; try reflexivity.
        -- exact NI.
        -- right. eauto.
        -- intros e f' [<-|[]] [= <-]. auto.
        -- destruct s; exact Logic.I.
        -- intros c0 f0 r ok0 s0 [C|[]]. discriminate.
        -- intros f0 r [C|[]]. discriminate.
        -- intros f0 [[= <-]|[]]. exact RT.
    + destruct ch; discriminate Hz.
Qed.
Lemma zreach_rinv buf z : zreach buf polite z -> rinv z.
Proof.
  intros R. induction R as [|z e z' R IH P H]; [constructor; cbn; try (intros; contradiction)|].
  - intros i t E. destruct i; discriminate.
  - intros l1 f r l2 E. destruct l1; discriminate.
  - intros l1 f r l2 E. destruct l1; discriminate.
  - eapply step_rinv; eauto. exact (zreach_sinv buf polite z polite_polite R).
Qed.

Lemma returned_replied buf z f r c b k : zreach buf polite z -> In (VRet f r) (z_log z) -> In (VFrame c f b) (z_log z) ->
  frame b k -> app_request (k_type k) -> In (VFree f) (z_log z) -> exists ok s, In (VReply c f r ok s) (z_log z).
Proof.
  intros R H1 H2 H3 H4 H5. pose proof (zreach_rinv buf z R) as RI.
  destruct (r_done z RI f H5 r c b k H1 H2 H3 H4) as (c' & ok & s & H).
  exists ok, s. assert (c' = c); [|congruence].
  apply in_split in H as (l1 & l2 & E). destruct (replies buf z l1 c' f r ok s l2 R E) as (b' & k' & F & _).
  apply in_split in H2 as (l3 & l4 & E2). destruct (frames_fresh buf z _ _ _ _ _ R E2) as [_ X].
  assert (F' : In (VFrame c' f b') (z_log z)) by (rewrite E; apply in_or_app; auto).
  rewrite E2 in F'. apply in_app_or in F' as [F'|[F'|F']]; [exfalso; exact (X _ F' eq_refl)|congruence|].
  apply in_split in F' as (l5 & l6 & ->). rewrite app_comm_cons, app_assoc in E2.
  destruct (frames_fresh buf z _ _ _ _ _ R E2) as [_ Y]. exfalso. refine (Y (VFrame c f b) _ eq_refl).
  apply in_or_app. right. left. reflexivity.
Qed.
Lemma reply_is_result buf z l1 c f r ok s l2 : zreach buf polite z -> z_log z = l1 ++ VReply c f r ok s :: l2 ->
  In (VRet f r) l1 /\ forall r', In (VRet f r') (z_log z) -> r' = r.
Proof.
  intros R E. pose proof (zreach_rinv buf z R) as RI.
  assert (H : In (VRet f r) (z_log z)) by (eapply (r_reply z RI); rewrite E; apply in_or_app; right; left; reflexivity).
  split.
  - pose proof H as H0. rewrite E in H. apply in_app_or in H as [H|[H|H]]; [exact H|discriminate|exfalso].
    apply in_split in H as (l3 & l4 & ->). rewrite app_comm_cons, app_assoc in E.
    destruct (evs _ _ _ _ _ R E) as [_ U]. specialize (U (VReply c f r ok s)). cbn in U. rewrite Nat.eqb_refl in U.
    discriminate U. apply in_or_app. right. left. reflexivity.
  - intros r' H'. apply in_split in H as (l3 & l4 & E2). rewrite E2 in H'. apply in_app_or in H' as [C|[C|C]].
    + exfalso. exact (r_once z RI _ _ _ _ E2 _ C).
    + congruence.
    + apply in_split in C as (l5 & l6 & ->). rewrite app_comm_cons, app_assoc in E2.
      exfalso. refine (r_once z RI _ _ _ _ E2 r _). apply in_or_app. right. left. reflexivity.
Qed.
Lemma returns_once buf z l1 f r l2 : zreach buf polite z -> z_log z = l1 ++ VRet f r :: l2 ->
  forall r', ~ In (VRet f r') l1.
Proof. intros R E. exact (r_once z (zreach_rinv buf z R) _ _ _ _ E). Qed.

(* until the hook returns, a slice of the payload has the content of the frame *)
Lemma slices_until_return buf z l1 f d l2 : zreach buf polite z -> z_log z = l1 ++ VPeek f d :: l2 ->
  (forall r, ~ In (VRet f r) l1) -> exists c b k, In (VFrame c f b) l1 /\ frame b k /\ d = k_payload k.
Proof.
  intros R E N. apply (kept_slices buf z l1 f d l2 R E).
  destruct (r_peek z (zreach_rinv buf z R) _ _ _ _ E) as [[r C]|C]; [|exact C]. exfalso. exact (N r C).
Qed.
