From Coq Require Import List Arith NArith ZArith Lia Bool.
From Verif Require Import BaseBytes BaseConc ModelMessage ModelWrite ModelPool ModelPayload ModelHandle
  ModelServe SpecWire SpecMessage SpecWrite SpecHandle SpecPool SpecServe ProofMessage ProofWrite ProofCodec ProofPool
  ProofHandle ProofServe ProofServe2.
Import ListNotations.
Open Scope nat_scope.

Lemma polite_polite e : polite e -> polite e. Proof. auto. Qed.
Lemma strict_polite e : strict e -> polite e.
Proof. intros S i ->. exact S. Qed.

(* ----- events of the log ----- *)
Lemma evs buf z l1 e l2 : zreach buf polite z -> z_log z = l1 ++ e :: l2 -> event_ok l1 e.
Proof. intros R. apply (v_evs z (zreach_sinv buf polite z polite_polite R)). Qed.

Lemma sees buf z l1 f g v l2 : zreach buf polite z -> z_log z = l1 ++ VSee f g v :: l2 ->
  exists c b k, In (VFrame c f b) l1 /\ frame b k /\ v = shown k g /\ ~ In (VFree f) l1.
Proof.
  intros R E. destruct (evs _ _ _ _ _ R E) as (c & b & k & H1 & H2 & _ & H3 & H4). exists c, b, k. auto.
Qed.
Lemma replies buf z l1 c f r ok s l2 : zreach buf polite z -> z_log z = l1 ++ VReply c f r ok s :: l2 ->
  exists b k, In (VFrame c f b) l1 /\ frame b k /\ app_request (k_type k) /\
    (ok = true -> sendable r -> told s (reply_content (k_ident k) r)) /\
    (ok = false -> s = NoWriter) /\
    (ok = true -> ~ sendable r -> exists er, s = Used (MkSink [] 1) (Some er)) /\
    (forall e, In e l1 -> answers f e = false).
Proof.
  intros R E. destruct (evs _ _ _ _ _ R E) as (b & k & H1 & H2 & H3 & _ & H4 & H5 & H6 & H7).
  exists b, k. auto 8.
Qed.
Lemma session_answers buf z l1 c f an ok s l2 : zreach buf polite z -> z_log z = l1 ++ VAnswer c f an ok s :: l2 ->
  exists b k, In (VFrame c f b) l1 /\ frame b k /\ (k_type k = 31%N \/ k_type k = 32%N) /\
    (ok = true -> answerable an -> told s (answer_content (k_ident k) an)) /\
    (ok = false -> s = NoWriter) /\
    (ok = true -> ~ answerable an -> exists er, s = Used (MkSink [] 1) (Some er)) /\
    (forall e, In e l1 -> answers f e = false).
Proof.
  intros R E. destruct (evs _ _ _ _ _ R E) as (b & k & H1 & H2 & H3 & _ & H4 & H5 & H6 & H7).
  exists b, k. auto 8.
Qed.
Lemma session_keys buf z l1 f key l2 : zreach buf polite z -> z_log z = l1 ++ VKey f key :: l2 ->
  exists c b k, In (VFrame c f b) l1 /\ frame b k /\ k_type k = 32%N /\ key = k_payload k.
Proof.
  intros R E. destruct (evs _ _ _ _ _ R E) as (c & b & k & H1 & H2 & H3 & H4 & _). exists c, b, k. auto.
Qed.
Lemma shut_replies buf z l1 c f s l2 : zreach buf polite z -> z_log z = l1 ++ VShut c f s :: l2 ->
  exists b k, In (VFrame c f b) l1 /\ frame b k /\ wants_reply (k_type k) /\
    told s (special_content 1 (k_ident k)) /\ (forall e, In e l1 -> answers f e = false).
Proof.
  intros R E. destruct (evs _ _ _ _ _ R E) as (b & k & H1 & H2 & H3 & _ & H4 & H5). exists b, k. auto 8.
Qed.
Lemma frames_fresh buf z l1 c f b l2 : zreach buf polite z -> z_log z = l1 ++ VFrame c f b :: l2 ->
  (exists k, frame b k) /\ forall e, In e l1 -> about e <> Some f.
Proof. intros R E. exact (evs _ _ _ _ _ R E). Qed.
(* nothing happens to a frame after its message was released *)
Lemma free_last buf z l1 f l2 : zreach buf polite z -> z_log z = l1 ++ VFree f :: l2 ->
  (exists c b, In (VFrame c f b) l1) /\ ~ In (VFree f) l1 /\ forall e, In e l2 -> about e <> Some f.
Proof.
  intros R E. destruct (evs _ _ _ _ _ R E) as [H1 H2]. split; [exact H1|]. split; [exact H2|].
  intros e He Ab. apply in_split in He as (l3 & l4 & ->).
  assert (E' : z_log z = (l1 ++ VFree f :: l3) ++ e :: l4) by (rewrite E, <- app_assoc; reflexivity).
  pose proof (evs _ _ _ _ _ R E') as Ok.
  assert (InF : In (VFree f) (l1 ++ VFree f :: l3)) by (apply in_or_app; right; left; reflexivity).
  destruct H1 as (c0 & b0 & H1).
  assert (InR : In (VFrame c0 f b0) (l1 ++ VFree f :: l3)) by (apply in_or_app; left; exact H1).
  destruct e; cbn in Ab; try discriminate; injection Ab as ->; cbn in Ok.
  - destruct Ok as [_ Ok]. exfalso. apply (Ok _ InR). reflexivity.
  - destruct Ok as (? & ? & ? & _ & _ & _ & _ & Ok). contradiction.
  - tauto.
  - destruct Ok as (? & ? & _ & _ & _ & Ok & _). contradiction.
  - destruct Ok as (? & ? & ? & _ & _ & _ & _ & Ok). contradiction.
  - destruct Ok as (? & ? & _ & _ & _ & Ok & _). contradiction.
  - destruct Ok as (? & ? & _ & _ & _ & Ok & _). contradiction.
  - tauto.
Qed.

(* ----- ownership ----- *)
Lemma exclusive buf z : zreach buf polite z ->
  (forall i j t u a, nth_error (z_ts z) i = Some t -> nth_error (z_ts z) j = Some u ->
     holds t = Some a -> holds u = Some a -> i = j) /\
  (forall i t a, nth_error (z_ts z) i = Some t -> holds t = Some a -> ~ In a (p_free (z_pool z))) /\
  NoDup (p_free (z_pool z)).
Proof.
  intros R. pose proof (zreach_sinv buf polite z polite_polite R) as I. split; [exact (v_uniq z I)|].
  destruct (v_pool z I) as (h & Hi & HO). pose proof (i_nodup _ _ Hi) as ND. apply NoDup_app' in ND as (N1 & N2 & N3).
  split; [|exact N1]. intros i t a Ht Ha C. apply (N3 a C). apply HO. eauto.
Qed.
Lemma not_leaked buf z c f b : zreach buf polite z -> In (VFrame c f b) (z_log z) ->
  In (VFree f) (z_log z) \/ exists i t, nth_error (z_ts z) i = Some t /\ minds t = Some f.
Proof.
  intros R H. pose proof (zreach_sinv buf polite z polite_polite R) as I.
  apply (v_busy z I). exact (v_old z I _ f H eq_refl).
Qed.
(* the message of a frame shows the frame as long as somebody is responsible for it *)
Lemma message_kept buf z i t f : zreach buf polite z -> nth_error (z_ts z) i = Some t -> minds t = Some f ->
  exists a m c b k, holds t = Some a /\ nth_error (p_heap (z_pool z)) a = Some m /\
    In (VFrame c f b) (z_log z) /\ frame b k /\ shows (observe m) k.
Proof.
  intros R Ht Hf. pose proof (zreach_sinv buf polite z polite_polite R) as I.
  pose proof (v_thr z I i t Ht) as T.
  destruct t; cbn in Hf; try discriminate; injection Hf as ->; cbn in T;
    [destruct T as (m & k & (M & Rc & HF & _) & _)|destruct T as (m & k & (M & Rc & HF & _))|destruct T as (m & k & (M & Rc & HF & _) & _)];
    exists a, m, c, b, k; (split; [reflexivity|]); (split; [exact M|]); (split; [exact HF|]);
    (split; [eapply received_frame; eauto|apply (received_shows m b k Rc)]).
Qed.

(* ----- no panics ----- *)
Lemma close_total p h a : inv p h -> In a h -> exists p', pool_close p a = Some p'.
Proof.
  intros I Ha. assert (L : a < length (p_heap p)) by (apply (i_lt _ _ I), in_or_app; auto).
  destruct (nth_error (p_heap p) a) as [m|] eqn:E; [|apply nth_error_None in E; lia].
  destruct (i_good _ _ I _ _ E) as (G1 & _). destruct (MsgClose_total m G1) as (m' & put & EC).
  unfold pool_close. rewrite E, EC. eauto.
Qed.
Lemma free_total z i t a : sinv z -> nth_error (z_ts z) i = Some t -> holds t = Some a -> exists z', z_free a z = Some z' /\ z_crashed z' = z_crashed z.
Proof.
  intros I Ht Ha. destruct (v_pool z I) as (h & Hi & HO).
  destruct (close_total (z_pool z) h a Hi) as (p & E); [apply HO; eauto|]. unfold z_free. rewrite E. eauto.
Qed.
Lemma reply_total i e p : exists r, WriteMsgReply sink_writer empty_sink i e p = Some r.
Proof.
  unfold WriteMsgReply. destruct (_ && _); [cbn; eauto|]. destruct (e =? Utf8)%Z; destruct (e =? Utf16)%Z; cbn; eauto.
Qed.
Lemma error_total i c t : exists r, WriteMsgReplyError sink_writer empty_sink i c t true = Some r.
Proof.
  unfold WriteMsgReplyError. destruct (_ && (length c <? 1)); [cbn; eauto|].
  destruct (true && (255 <? length c)) eqn:E; [cbn; eauto|]. destruct (_ && existsb _ _); [cbn; eauto|].
  cbn [andb] in E. apply Nat.ltb_ge in E. cbn [try_write w_write sink_writer]. rewrite name_len_flag_ok by exact E. cbn. eauto.
Qed.
Lemma fail_total m e ok : e <> EReqPtr None -> exists s, failMsg sink_writer (sink_of ok) m e = Some s.
Proof.
  intros N. unfold failMsg. destruct (RequiresReply m); cbn [negb]; [|eauto]. destruct ok; cbn [sink_of]; [|eauto].
  destruct e as [|code text|[[code text]|]| | | |text]; try congruence; try (cbn; eauto);
    destruct (error_total (ident_of m) code text) as [[? ?] ->]; cbn; eauto.
Qed.
Lemma fulfill_total m p ok : exists s, fulfillMsg sink_writer (sink_of ok) m p = Some s.
Proof.
  unfold fulfillMsg. destruct ok; cbn [sink_of]; [|eauto].
  destruct (reply_total (ident_of m) (fst p) (snd p)) as [[? ?] ->]. cbn. eauto.
Qed.
Lemma request_total m r ok : snd r <> EReqPtr None -> exists s, handleRequest sink_writer (sink_of ok) m r = Some s.
Proof.
  intros N. unfold handleRequest. destruct (snd r) eqn:E; try (apply fulfill_total); apply fail_total; congruence.
Qed.

(* results waiting to be sent are sendable or at least harmless *)
Definition calm (t : sthread) : Prop :=
  match t with SJob _ _ _ _ _ (HRep r) => snd r <> EReqPtr None | _ => True end.

Lemma job_calm z i c a f b s h ch z1 h1 : sinv z -> z_crashed z = false ->
  nth_error (z_ts z) i = Some (SJob c a f b s h) -> calm (SJob c a f b s h) ->
  strict (ZStep i ch) -> job z c a f h ch = Some (z1, h1) ->
  z_crashed z1 = false /\ z_ts z1 = z_ts z /\ match h1 with Some h' => calm (SJob c a f b s h') | None => True end.
Proof.
  intros I NC Hi Ca St H. pose proof (v_thr z I i _ Hi) as T. cbn in T.
  destruct T as (m & k & (M & R & HF & NF) & J & U). unfold job in H. rewrite M in H.
  pose proof (routing m b k R) as (_ & RS & RQ & RR & RC).
  destruct h as [req|r| | |], ch as [|pk|fr| | |sk| | |g| | |r'|wo|an wo]; try discriminate H; try (exfalso; exact St).
  - assert (AS : app_request (k_type k) \/ app_signal (k_type k)) by (destruct req; [left; apply RQ|right; apply RS]; exact J).
    assert (NZ : k_type k <> 0%N) by (destruct AS as [AS|AS]; unfold app_request, app_signal in AS; lia).
    rewrite (received_value m b k g R NZ) in H. injection H as <- <-. auto.
  - injection H as <- <-. auto.
  - injection H as <- <-. cbn in St. split; [exact NC|]. split; [reflexivity|]. destruct req; cbn; auto.
  - destruct (request_total m r wo Ca) as (x & E). rewrite E in H. injection H as <- <-. auto.
  - injection H as <- <-. auto.
  - assert (exists x, answer_msg (sink_of wo) m an = Some x) as (x & E).
    { destruct an as [p|e]; cbn [answer_msg]; [apply fulfill_total|apply fail_total; exact St]. }
    rewrite E in H. injection H as <- <-. auto.
  - destruct (free_total z i _ a I Hi eq_refl) as (z' & E & C). rewrite E in H. injection H as <- <-.
    apply free_spec in E as (p & _ & ->). auto.
Qed.

Lemma strict_inv buf z : zreach buf strict z ->
  z_crashed z = false /\ forall i t, nth_error (z_ts z) i = Some t -> calm t.
Proof.
  intros R. induction R as [|z e z' R [NC CA] St H]; [split; [reflexivity|]; intros i t E; destruct i; discriminate|].
  pose proof (zreach_sinv buf strict z strict_polite R) as I.
  unfold serve_step in H. rewrite NC in H. destruct e as [|j|i ch].
  - injection H as <-. split; [exact NC|]. cbn. intros i t E. apply nth_app_sp in E as [E|[<-|[]]]; [eauto|exact Logic.I].
  - destruct (nth_error (z_kept z) j) as [[[f a] g]|]; [|discriminate]. destruct (mem z a); [|discriminate].
    injection H as <-. split; [exact NC|exact CA].
  - destruct (nth_error (z_ts z) i) as [t|] eqn:Hi; [|discriminate].
    destruct (zstep z t ch) as [[[z1 t1] sp]|] eqn:Hz; [|discriminate]. injection H as <-.
    assert (K : z_crashed z1 = false /\ z_ts z1 = z_ts z /\ calm t1 /\ match sp with Some x => calm x | None => True end).
    2:{ destruct K as (K1 & K2 & K3 & K4). cbn. split; [exact K1|]. intros j u E.
        apply nth_app_sp in E as [E|E].
        - apply set_nth_lookup in E as [[_ ->]|[_ E]]; eauto.
        - destruct sp as [x|]; [destruct E as [<-|[]]; exact K4|destruct E]. }
    pose proof (v_thr z I i t Hi) as T.
    destruct t as [c|c a|c a|c a f b|c a f b|c a f b s h|].
    + destruct ch; try discriminate Hz. cbn [zstep] in Hz. destruct (Get (z_pool z) k) as [p a].
      injection Hz as <- <- <-. cbn. auto.
    + destruct T as (m & M & B). destruct (v_pool z I) as (h & Hh & HO).
      destruct ch; try discriminate Hz; cbn [zstep] in Hz.
      * assert (exists m1 ok er, ReadBytes m b = Some (m1, ok, er)) as (m1 & ok & er & RB).
        { destruct (ReadBytes_spec m b B) as (m' & ok' & er' & E1 & _). eauto. }
        unfold pool_read in Hz. unfold mem in M. rewrite M, RB in Hz.
        destruct ok, er; injection Hz as <- <- <-; cbn; auto.
      * injection Hz as <- <- <-. cbn. auto.
    + destruct ch; try discriminate Hz; cbn [zstep] in Hz.
      destruct (free_total z i _ a I Hi eq_refl) as (z' & E & C). rewrite E in Hz. injection Hz as <- <- <-.
      apply free_spec in E as (p & _ & ->). cbn. auto.
    + destruct T as (m & k & (M & Rc & _) & _).
      destruct ch; try discriminate Hz; cbn [zstep] in Hz.
      * injection Hz as <- <- <-. cbn. auto.
      * rewrite M in Hz. destruct (RequiresReply m); [|discriminate]. cbn in St. subst ok. cbn in Hz. injection Hz as <- <- <-. cbn. auto.
      * rewrite M in Hz. destruct (first_state m) as [h|] eqn:EF; [|discriminate]. injection Hz as <- <- <-.
        unfold first_state in EF. destruct (route_of (m_type m)); try discriminate EF; injection EF as <-; cbn; auto.
      * rewrite M in Hz. destruct (first_state m) as [h|]; [|discriminate]. destruct h; try discriminate Hz. injection Hz as <- <- <-. cbn. auto.
    + destruct ch; try discriminate Hz; cbn [zstep] in Hz.
      destruct (free_total z i _ a I Hi eq_refl) as (z' & E & C). rewrite E in Hz. injection Hz as <- <- <-.
      apply free_spec in E as (p & _ & ->). cbn. auto.
    + assert (Hz' : match job z c a f h ch with
                    | None => None
                    | Some (z', Some h') => Some (z', SJob c a f b s h', None)
                    | Some (z', None) => Some (z', if s then SLoop c else SEnd, None)
                    end = Some (z1, t1, sp)) by (destruct ch; exact Hz).
      clear Hz. destruct (job z c a f h ch) as [[z' h1]|] eqn:EJ; [|discriminate].
      destruct (job_calm z i c a f b s h ch z' h1 I NC Hi (CA i _ Hi) St EJ) as (K1 & K2 & K3).
      destruct h1 as [h'|]; injection Hz' as <- <- <-; repeat split; auto. destruct s; exact Logic.I.
    + destruct ch; discriminate Hz.
Qed.
Lemma never_panics buf z : zreach buf strict z -> z_crashed z = false.
Proof. intros R. apply (strict_inv buf z R). Qed.

(* ----- kept slices ----- *)
Lemma kept_slices buf z l1 f d l2 : zreach buf polite z -> z_log z = l1 ++ VPeek f d :: l2 -> ~ In (VFree f) l1 ->
  exists c b k, In (VFrame c f b) l1 /\ frame b k /\ d = k_payload k.
Proof. intros R E N. destruct (evs _ _ _ _ _ R E) as [C|C]; [contradiction|exact C]. Qed.

(* ----- a closed request ----- *)
Lemma closed_request m b k m1 put : received m b k -> MsgClose m = Some (m1, put) ->
  (forall ok p e, e <> ENil -> handleRequest sink_writer (sink_of ok) m1 (p, e) = Some NotAsked) /\
  (forall p, utf16_ok (fst p) (snd p) ->
     handleRequest sink_writer (Some empty_sink) m1 (p, ENil) =
     Some (Used (MkSink (n2b (rep_tag (enc_of (fst p))) :: (if (fst p =? 2)%Z then [Byte.x00] else []) ++ snd p) 1) None)).
Proof.
  intros R H. destruct (received_shows m b k R) as [_ NE]. unfold MsgClose in H. rewrite NE in H.
  assert (T : m_type m1 = Byte.x00 /\ m_identB m1 = GNil).
  { cbv zeta in H. match type of H with (if ?x then _ else _) = _ => destruct x; [|discriminate] end. injection H as <- <-; split; reflexivity. }
  destruct T as [T1 T2]. split.
  - intros ok p e N. unfold handleRequest. cbn [snd fst].
    assert (Q : RequiresReply m1 = false) by (unfold RequiresReply; rewrite T1; reflexivity).
    destruct e as [|code text|[[code text]|]| | | |text]; try congruence; unfold failMsg; rewrite Q; reflexivity.
  - intros [en d] U. cbn [fst snd] in *. unfold handleRequest, fulfillMsg. cbn [snd fst].
    replace (ident_of m1) with (@nil Byte.byte) by (unfold ident_of; rewrite T2; reflexivity).
    unfold WriteMsgReply. 
    assert (G : (en =? Utf16)%Z && negb (length d mod 2 =? 0) = false).
    { destruct (en =? Utf16)%Z eqn:E; [|reflexivity]. apply Z.eqb_eq in E. specialize (U E). unfold even_len in U. apply Nat.eqb_eq in U. rewrite U. reflexivity. }
    rewrite G. unfold enc_of.
    destruct (en =? Utf8)%Z eqn:E1; destruct (en =? Utf16)%Z eqn:E2; try (apply Z.eqb_eq in E1; apply Z.eqb_eq in E2; subst; discriminate);
    cbn; unfold Utf8, Utf16 in *; rewrite ?E1, ?E2; reflexivity.
Qed.
