(* Concurrency limit, order of handlers, accounting of messages, hooks *)
From Coq Require Import List Arith ZArith Lia Bool.
From Verif Require Import BaseBytes BaseConc ModelMessage ModelWrite ModelHandle ModelDispatch.
From Verif Require Import SpecWire SpecMessage SpecWrite SpecHandle SpecDispatch.
From Verif Require Import ProofMessage ProofWire ProofCodec ProofHandle ProofDispatch.
Import ListNotations.
Open Scope nat_scope.
Local Arguments Nat.ltb : simpl never.
Local Arguments Nat.eqb : simpl never.
Local Arguments Nat.leb : simpl never.
Local Arguments Z.add : simpl never.
Local Arguments Z.sub : simpl never.
Local Arguments Z.opp : simpl never.
Local Arguments Z.modulo : simpl never.
Local Arguments Z.ltb : simpl never.
Local Arguments Z.of_nat : simpl never.

(* sums over threads that may consult the server state *)
Lemma zsum_ext {A} (f g : A -> Z) l : (forall x, In x l -> f x = g x) -> zsum f l = zsum g l.
Proof. induction l as [|a l IH]; cbn; intros H; [reflexivity|]. rewrite (H a), IH; auto. Qed.
Lemma linear_dep buf ok (f : srv -> Z) (b : srv -> thread -> Z) :
  f (s_srv (new_server buf)) = 0%Z ->
  (forall g lim, b g (TNew lim) = 0%Z) -> (forall g c, b g (TCl0 c) = 0%Z) -> (forall g, b g TSh0 = 0%Z) ->
  (forall g g' t, ext g g' -> belongs g t -> b g' t = b g t) ->
  (forall s i ch t g' t' sp, tstep_of buf ok s i ch t g' t' sp ->
     (f g' + b g' t' + osum (b g') sp = f (s_srv s) + b g' t)%Z) ->
  forall s, dreach buf ok s -> (f (s_srv s) + zsum (b (s_srv s)) (s_ts s) = 0)%Z.
Proof.
  intros F0 B1 B2 B3 Mono St s R. induction R as [|s e s' R IH Ok H]; [rewrite F0; reflexivity|].
  destruct (dstep_inv _ _ _ H) as (_ & [(t & T & ->)|(i & ch & t & g' & t' & sp & -> & N & T & ->)]).
  - cbn [s_srv s_ts]. rewrite zsum_snoc. destruct e as [lim|c| |]; try contradiction; [subst t|destruct T as [-> _]|subst t];
      rewrite ?B1, ?B2, ?B3; lia.
  - cbn [s_srv s_ts]. rewrite zsum_app. pose proof (zsum_set (b g') (s_ts s) i t' t N) as E.
    assert (E' : zsum (b g') (s_ts s) = zsum (b (s_srv s)) (s_ts s)).
    { apply zsum_ext. intros u U. apply Mono; [eapply tstep_ext; eauto|eapply all_belong; eauto]. }
    specialize (St s i ch t g' t' sp (conj R (conj Ok (conj N T)))).
    destruct sp; cbn [opt_list zsum osum] in *; lia.
Qed.

(* events concern existing connections *)
Definition conn_of (e : event) : option nat :=
  match e with
  | LConnected c | LFrame c _ _ _ | LReadErr c | LDropped c _ _ | LShutReply c _ _ _ | LStart c _ _ | LEnd c _
  | LReply c _ _ _ _ | LSession c _ _ | LUnlink c | LDisconnected c => Some c
  | _ => None
  end.
Lemma log_belongs buf ok s : dreach buf ok s -> forall e c, In e (slog s) -> conn_of e = Some c -> c < v_n (s_srv s).
Proof.
  apply (global buf ok (fun g => forall e c, In e (v_log g) -> conn_of e = Some c -> c < v_n g)); [intros e c []|].
  intros s0 i ch t g' t' sp (R & _ & N & H) IH e c I E.
  pose proof (belong_at _ _ _ _ _ R N) as B. assert (X := tstep_ext _ _ _ _ _ _ _ H).
  assert (D : In e (slog s0) \/ exists c', conn_of e = Some c' /\ c' < v_n g' \/ conn_of e = None).
  { inv_tstep H; cbn in *; auto; apply in_app_or in I as [I|[<-|[]]]; auto; right; eexists; cbn; eauto. }
  destruct D as [D|(c' & [[D1 D2]|D])]; [|congruence|congruence].
  pose proof (IH e c D E). pose proof (e_n _ _ X). lia.
Unshelve. all: exact 0.
Qed.
Lemma no_events_yet buf ok s c p : dreach buf ok s -> v_n (s_srv s) <= c ->
  (forall e, p e = true -> conn_of e = Some c) -> count p (slog s) = 0.
Proof.
  intros R L H. apply count_zero. intros e I. destruct (p e) eqn:E; [|reflexivity].
  pose proof (log_belongs _ _ _ R e c I (H e E)). lia.
Qed.

(* ---------- slots ---------- *)
Definition limited (g : srv) (c : nat) : bool := (1 <? c_limit (v_conn g c))%Z.
Lemma slots_exact buf ok s c : dreach buf ok s -> limited (s_srv s) c = true ->
  c_slots (v_conn (s_srv s) c) = Z.of_nat (count (holds c) (s_ts s) + count (leaked c) (slog s)).
Proof.
  intros R L.
  cut ((if limited (s_srv s) c then zcount (leaked c) (s_srv s) - c_slots (v_conn (s_srv s) c) else 0) +
       zsum (fun t => if limited (s_srv s) c then bz (holds c t) else 0) (s_ts s) = 0)%Z.
  { rewrite L, zsum_count. unfold zcount. lia. }
  clear L. revert s R.
  apply (linear_dep buf ok (fun g => if limited g c then zcount (leaked c) g - c_slots (v_conn g c) else 0)%Z
           (fun g t => if limited g c then bz (holds c t) else 0)%Z).
  - reflexivity.
  - intros. cbn. destruct (limited g c); reflexivity.
  - intros. cbn. destruct (limited g c); reflexivity.
  - intros. cbn. destruct (limited g c); reflexivity.
  - intros g g' t X B. assert (Q : holds c t = true -> c < v_n g).
    { destruct t; cbn in *; try discriminate; [destruct s; try discriminate|]; intros E; apply Nat.eqb_eq in E; subst; exact B. }
    unfold limited. destruct (holds c t); [rewrite (e_lim _ _ X) by auto; reflexivity|]. cbn.
    destruct (1 <? _)%Z, (1 <? _)%Z; reflexivity.
  - intros s i ch t g' t' sp (R & _ & N & H).
    assert (F := fresh _ _ _ R c).
    pose proof (fine_at _ _ _ _ _ R N) as [Sn Bl].
    unfold limited, zcount. inv_tstep H; cbn in Sn, Bl |- *; unfold upd; cbn; rewrite ?count_snoc; cbn.
    2: { destruct (Nat.eqb_spec c (v_n (s_srv s))) as [->|D].
      * assert (Z0 : count (leaked (v_n (s_srv s))) (slog s) = 0).
        { apply (no_events_yet _ _ _ (v_n (s_srv s)) _ R); [lia|]. intros [] E; cbn in E |- *; try discriminate; apply Nat.eqb_eq in E; congruence. }
        rewrite F, Z0 by lia.
        cbn. destruct (1 <? lim)%Z; reflexivity.
      * bools. }
    all: try rewrite (Nat.eqb_sym c c0); try (destruct (Nat.eqb_spec c0 c) as [->|]); bsimp.
    all: try (destruct (Z.ltb_spec 1 (c_limit (v_conn (s_srv s) c))); bsimp; lia).
Qed.
Lemma slots_bound buf ok s c : dreach buf ok s ->
  (0 <= c_slots (v_conn (s_srv s) c) <= Z.max 0 (c_limit (v_conn (s_srv s) c)))%Z.
Proof.
  revert s.
  apply (global buf ok (fun g => (0 <= c_slots (v_conn g c) <= Z.max 0 (c_limit (v_conn g c)))%Z)); [cbn; lia|].
  intros s i ch t g' t' sp (R & _ & N & H) IH. pose proof (fresh _ _ _ R c) as F.
  inv_tstep H; cbn; unfold upd; auto;
    try (destruct (Nat.eqb_spec c c0) as [<-|]; bsimp; auto; lia).
  destruct (Nat.eqb_spec c (v_n (s_srv s))) as [->|]; bsimp; auto. lia.
Qed.

(* ---------- C23 ---------- *)
Lemma count_le {A} (p q : A -> bool) l : (forall x, In x l -> p x = true -> q x = true) -> count p l <= count q l.
Proof.
  induction l as [|a l IH]; cbn; intros H; [lia|]. assert (IH' := IH (fun x I => H x (or_intror I))).
  destruct (p a) eqn:E; [rewrite (H a (or_introl eq_refl) E)|destruct (q a)]; cbn; lia.
Qed.
Lemma async_false lim : async lim = false <-> (0 <= lim <= 1)%Z.
Proof. unfold async. rewrite orb_false_iff, Z.ltb_ge, Z.ltb_ge. lia. Qed.
Lemma concurrency_limit buf ok s c : dreach buf ok s -> (0 <= c_limit (v_conn (s_srv s) c))%Z ->
  (in_progress c (slog s) <= Z.max 1 (c_limit (v_conn (s_srv s) c)))%Z.
Proof.
  intros R L0. unfold in_progress. rewrite (starts_ends _ _ _ c R).
  enough (Z.of_nat (count (running c) (s_ts s)) <= Z.max 1 (c_limit (v_conn (s_srv s) c)))%Z by lia.
  destruct (Z.ltb_spec 1 (c_limit (v_conn (s_srv s) c))) as [L|L].
  - pose proof (slots_exact _ _ _ c R) as E. unfold limited in E. specialize (E (proj2 (Z.ltb_lt _ _) L)).
    pose proof (slots_bound _ _ _ c R) as B.
    assert (count (running c) (s_ts s) <= count (holds c) (s_ts s)).
    { apply count_le. intros [] _; cbn; try discriminate; [destruct s0 as [| | | | | | | | |k m []| | | |]|destruct j]; try discriminate; auto. }
    lia.
  - pose proof (one_reader _ _ _ c R) as O.
    assert (count (running c) (s_ts s) <= count (reader_of c) (s_ts s)).
    { apply count_le. intros t I. pose proof (all_fine _ _ _ R t I) as [S _].
      destruct t; cbn in *; try discriminate.
      - destruct s0 as [| | | | | | | | |k m []| | | |]; try discriminate; auto.
      - destruct S as (_ & _ & _ & _ & A). destruct j; try discriminate. intros E. apply Nat.eqb_eq in E. subst.
        assert (async (c_limit (v_conn (s_srv s) c)) = false) by (apply async_false; lia). congruence. }
    destruct (c <? v_n (s_srv s)); cbn in O; lia.
Qed.

(* ---------- frames ---------- *)
Lemma frames_numbered buf ok s c : dreach buf ok s ->
  map frame_no (filter (is_frame c) (slog s)) = seq 0 (c_next (v_conn (s_srv s) c)).
Proof.
  revert s. apply (global buf ok (fun g => map frame_no (filter (is_frame c) (v_log g)) = seq 0 (c_next (v_conn g c)))); [reflexivity|].
  intros s i ch t g' t' sp (R & _ & N & H) IH. pose proof (fresh _ _ _ R c) as F.
  inv_tstep H; cbn; unfold upd; rewrite ?filter_app, ?map_app; cbn; rewrite ?app_nil_r; auto;
    try (destruct (Nat.eqb_spec c c0) as [<-|]; bsimp; auto).
  - destruct (Nat.eqb_spec c (v_n (s_srv s))) as [->|]; bsimp; auto. rewrite IH, F by lia. reflexivity.
  - rewrite Nat.eqb_refl. cbn [map frame_no]. rewrite IH. symmetry. apply seq_S.
  - destruct (Nat.eqb_spec c0 c); [congruence|]. cbn. rewrite app_nil_r. exact IH.
  - rewrite Nat.eqb_refl. cbn [map frame_no]. rewrite IH. symmetry. apply seq_S.
  - destruct (Nat.eqb_spec c0 c); [congruence|]. cbn. rewrite app_nil_r. exact IH.
Qed.
Definition is_frame_no (c k : nat) (e : event) : bool := is_frame c e && (frame_no e =? k).
Lemma count_filter_map {A} (p : A -> bool) (f : A -> nat) k l :
  count (fun e => p e && (f e =? k)) l = count (fun n => n =? k) (map f (filter p l)).
Proof. induction l as [|a l IH]; cbn; [reflexivity|]. destruct (p a); cbn; rewrite IH; reflexivity. Qed.
Lemma count_seq k a n : count (fun x => x =? k) (seq a n) = b2i ((a <=? k) && (k <? a + n)).
Proof.
  revert a; induction n as [|n IH]; intros a; cbn [seq count].
  - destruct (Nat.leb_spec a k), (Nat.ltb_spec k (a + 0)); cbn; lia.
  - rewrite IH. destruct (Nat.eqb_spec a k), (Nat.leb_spec (S a) k), (Nat.leb_spec a k),
      (Nat.ltb_spec k (S a + n)), (Nat.ltb_spec k (a + S n)); cbn; lia.
Qed.
Lemma frame_once buf ok s c k : dreach buf ok s ->
  count (is_frame_no c k) (slog s) = b2i (k <? c_next (v_conn (s_srv s) c)).
Proof.
  intros R. unfold is_frame_no. rewrite count_filter_map, (frames_numbered _ _ _ _ R), count_seq. reflexivity.
Qed.

(* ---------- accounting of requests and handler starts ---------- *)
Lemma route_app t : (route_of t = RtSignal \/ route_of t = RtRequest) <-> app_signal (b2N t) \/ app_request (b2N t).
Proof.
  rewrite route_table. unfold app_signal, app_request.
  destruct (N.eqb_spec (b2N t) 33); [split; [intuition discriminate|lia]|].
  destruct (N.leb_spec 63 (b2N t)), (N.leb_spec (b2N t) 65); cbn [andb]; try (split; [lia|auto]; fail);
  destruct (N.leb_spec 127 (b2N t)), (N.leb_spec (b2N t) 129); cbn [andb]; try (split; [lia|auto]; fail);
  (split; [|lia]); repeat (match goal with |- context[if ?b then _ else _] => destruct b end); intuition discriminate.
Qed.
Lemma wants_route m : RequiresReply m = true ->
  m_type m <> MsgHeartbeat /\ route_of (m_type m) <> RtSignal /\ route_of (m_type m) <> RtNone /\ route_of (m_type m) <> RtSkip.
Proof.
  intros H. apply RequiresReply_type in H. unfold wants_reply, app_request in H.
  assert (b2N (m_type m) = 127 \/ b2N (m_type m) = 128 \/ b2N (m_type m) = 129 \/ b2N (m_type m) = 31 \/ b2N (m_type m) = 32)%N as D by lia.
  rewrite route_table. split; [intros E; rewrite E in D; cbn in D; lia|].
  destruct D as [D|[D|[D|[D|D]]]]; rewrite D; cbn; repeat split; discriminate.
Qed.
Lemma request_wants m : route_of (m_type m) = RtRequest \/ route_of (m_type m) = RtRestore \/ route_of (m_type m) = RtClosure ->
  RequiresReply m = true.
Proof.
  rewrite RequiresReply_type. unfold wants_reply, app_request. rewrite route_table.
  destruct (N.eqb_spec (b2N (m_type m)) 33); [intuition discriminate|].
  destruct (N.leb_spec 63 (b2N (m_type m))), (N.leb_spec (b2N (m_type m)) 65),
   (N.leb_spec 127 (b2N (m_type m))), (N.leb_spec (b2N (m_type m)) 129),
   (N.eqb_spec (b2N (m_type m)) 32), (N.eqb_spec (b2N (m_type m)) 31); cbn [andb]; intuition (try lia; try discriminate).
Qed.

Definition settled (c k : nat) (want : message -> bool) (g : srv) : Z :=
  (zcount (replied c k want) g + zcount (shut_replied c k want) g +
   zcount (sess_replied c k want) g + zcount (dropped c k want) g)%Z.
Ltac mcase := unfold msg_is; match goal with |- context[(?a =? ?b) && (?c =? ?d) && ?w ?m] =>
   destruct (a =? b); cbn [andb]; [destruct (c =? d); cbn [andb]; [destruct (w m) eqn:?|]|] end.
Lemma requests_settled buf ok s c k (want : message -> bool) : dreach buf ok s ->
  (forall m, want m = true -> RequiresReply m = true) ->
  count (arrived c k want) (slog s) =
    count (working_on c k want) (s_ts s) + count (replied c k want) (slog s) + count (shut_replied c k want) (slog s) +
    count (sess_replied c k want) (slog s) + count (dropped c k want) (slog s).
Proof.
  intros R W.
  cut (settled c k want (s_srv s) - zcount (arrived c k want) (s_srv s) + zsum (fun t => bz (working_on c k want t)) (s_ts s) = 0)%Z.
  { rewrite zsum_count. unfold settled, zcount. lia. }
  revert s R. apply (linear buf ok (fun g => settled c k want g - zcount (arrived c k want) g)%Z); try reflexivity.
  intros s i ch t g' t' sp (R & _ & N & H). unfold settled, zcount.
  pose proof (fine_at _ _ _ _ _ R N) as [Sn _].
  assert (WR := fun m E => wants_route m (W m E)).
  inv_tstep H; cbn in Sn |- *; rewrite ?count_snoc; cbn; rewrite ?andb_true_r, ?andb_false_r; bsimp; try lia;
    try (mcase; bsimp; try lia; exfalso; destruct (WR _ Heqb) as (W1 & W2 & W3 & W4);
         unfold app_route in *; intuition congruence).
Qed.

(* handler invocations *)
Lemma route_heartbeat t : route_of t = RtSignal \/ route_of t = RtRequest -> t <> MsgHeartbeat.
Proof. intros H ->. destruct H; discriminate. Qed.
Lemma starts_settled buf ok s c k (want : message -> bool) : dreach buf ok s ->
  (forall m, want m = true -> app_route m) ->
  count (arrived c k want) (slog s) =
    count (before_start c k want) (s_ts s) + count (started c k want) (slog s) +
    count (shut_replied c k want) (slog s) + count (dropped c k want) (slog s).
Proof.
  intros R W.
  cut (zcount (started c k want) (s_srv s) + zcount (shut_replied c k want) (s_srv s) + zcount (dropped c k want) (s_srv s)
       - zcount (arrived c k want) (s_srv s) + zsum (fun t => bz (before_start c k want t)) (s_ts s) = 0)%Z.
  { rewrite zsum_count. unfold zcount. lia. }
  revert s R. apply (linear buf ok (fun g => zcount (started c k want) g + zcount (shut_replied c k want) g + zcount (dropped c k want) g
       - zcount (arrived c k want) g)%Z); try reflexivity.
  intros s i ch t g' t' sp (R & _ & N & H). unfold zcount.
  pose proof (fine_at _ _ _ _ _ R N) as [Sn _].
  inv_tstep H; cbn in Sn |- *; rewrite ?count_snoc; cbn; bsimp; try lia;
    try (mcase; bsimp; try lia; exfalso; pose proof (W _ Heqb) as Wm; pose proof (route_heartbeat _ Wm);
         unfold app_route in *; intuition congruence).
Qed.

(* only application messages are given to handlers *)
Definition start_ok (g : srv) : Prop :=
  forall c k m, In (LStart c k m) (v_log g) -> from_frame g c k m /\ app_route m.
Lemma starts_ok buf ok s : dreach buf ok s -> start_ok (s_srv s).
Proof.
  apply (global buf ok start_ok); [intros c k m []|].
  intros s0 i ch t g' t' sp (R & _ & N & H) IH c k m I.
  pose proof (fine_at _ _ _ _ _ R N) as [Sn _]. assert (X := tstep_ext _ _ _ _ _ _ _ H).
  assert (D : In (LStart c k m) (slog s0) \/ from_frame (s_srv s0) c k m /\ app_route m).
  { inv_tstep H; cbn in *; auto; apply in_app_or in I as [I|[I|[]]]; auto; try discriminate I.
    all: injection I as -> -> ->; right; tauto. }
  destruct D as [D|[D1 D2]].
  - destruct (IH _ _ _ D). split; [eapply from_frame_ext; eauto|assumption].
  - split; [eapply from_frame_ext; eauto|assumption].
Qed.
(* replies only to requests that arrived *)
Definition reply_logged (g : srv) : Prop :=
  (forall c k m r st, In (LReply c k m r st) (v_log g) ->
     from_frame g c k m /\ route_of (m_type m) = RtRequest /\
     exists ok, handleRequest sink_writer (writer_of ok) m r = Some st) /\
  (forall c k m st, In (LShutReply c k m st) (v_log g) ->
     from_frame g c k m /\ RequiresReply m = true /\ v_shutdown g = true /\
     exists ok, failMsgShutdown sink_writer (writer_of ok) m = Some st) /\
  (forall c k m, In (LSession c k m) (v_log g) ->
     from_frame g c k m /\ (route_of (m_type m) = RtRestore \/ route_of (m_type m) = RtClosure)) /\
  (forall c k m, In (LDropped c k m) (v_log g) ->
     from_frame g c k m /\ c < v_n g /\ c_active (v_conn g c) = false).
Lemma replies_ok buf ok s : dreach buf ok s -> reply_logged (s_srv s).
Proof.
  apply (global buf ok reply_logged); [repeat split; contradiction|].
  intros s0 i ch t g' t' sp (R & _ & N & H) (IH1 & IH2 & IH3 & IH4).
  pose proof (fine_at _ _ _ _ _ R N) as [Sn Bl]. assert (X := tstep_ext _ _ _ _ _ _ _ H).
  split; [|split; [|split]].
  - intros c k m r st I.
    assert (D : In (LReply c k m r st) (slog s0) \/ from_frame (s_srv s0) c k m /\ route_of (m_type m) = RtRequest /\
       exists ok, handleRequest sink_writer (writer_of ok) m r = Some st).
    { inv_tstep H; cbn in *; auto; apply in_app_or in I as [I|[I|[]]]; auto; try discriminate I.
      all: injection I as -> -> -> -> ->; right; intuition eauto. }
    destruct D as [D|(D1 & D2 & D3)]; [destruct (IH1 _ _ _ _ _ D) as (D1 & D2 & D3)|];
      (split; [eapply from_frame_ext; eauto|auto]).
  - intros c k m st I.
    assert (D : In (LShutReply c k m st) (slog s0) \/ from_frame (s_srv s0) c k m /\ RequiresReply m = true /\ v_shutdown (s_srv s0) = true /\
       exists ok, failMsgShutdown sink_writer (writer_of ok) m = Some st).
    { inv_tstep H; cbn in *; auto; apply in_app_or in I as [I|[I|[]]]; auto; try discriminate I.
      all: injection I as -> -> -> ->; right; intuition eauto. }
    pose proof (e_shut _ _ X).
    destruct D as [D|(D1 & D2 & D3 & D4)]; [destruct (IH2 _ _ _ _ D) as (D1 & D2 & D3 & D4)|];
      (split; [eapply from_frame_ext; eauto|auto]).
  - intros c k m I.
    assert (D : In (LSession c k m) (slog s0) \/ from_frame (s_srv s0) c k m /\ (route_of (m_type m) = RtRestore \/ route_of (m_type m) = RtClosure)).
    { inv_tstep H; cbn in *; auto; apply in_app_or in I as [I|[I|[]]]; auto; try discriminate I.
      all: injection I as -> -> ->; right; intuition eauto. }
    destruct D as [D|(D1 & D2)]; [destruct (IH3 _ _ _ D) as (D1 & D2)|];
      (split; [eapply from_frame_ext; eauto|auto]).
  - intros c k m I.
    assert (D : In (LDropped c k m) (slog s0) \/ from_frame (s_srv s0) c k m /\ c < v_n (s_srv s0) /\ c_active (v_conn (s_srv s0) c) = false).
    { inv_tstep H; cbn in *; auto; apply in_app_or in I as [I|[I|[]]]; auto; try discriminate I.
      all: injection I as -> -> ->; right; intuition eauto. }
    assert (E : from_frame (s_srv s0) c k m /\ c < v_n (s_srv s0) /\ c_active (v_conn (s_srv s0) c) = false).
    { destruct D as [D|D]; [exact (IH4 _ _ _ D)|exact D]. }
    destruct E as (E1 & E2 & E3). split; [eapply from_frame_ext; eauto|]. pose proof (e_n _ _ X).
    split; [lia|]. destruct (c_active (v_conn g' c)) eqn:A; [|reflexivity]. apply (e_act _ _ X) in A; congruence.
Qed.

(* ---------- C24 ---------- *)
(* state: all numbers below lo are done with; the handler running now *)
Definition tstate := (nat * option nat)%type.
Definition turn1 (st : option tstate) (x : bool * nat) : option tstate :=
  match st, x with
  | Some (lo, None), (true, k) => if lo <=? k then Some (S k, Some k) else None
  | Some (lo, Some k'), (false, k) => if k =? k' then Some (lo, None) else None
  | _, _ => None
  end.
Definition scan (l : list (bool * nat)) : option tstate := fold_left turn1 l (Some (0, None)).
Lemma fold_none l : fold_left turn1 l None = None.
Proof. induction l; cbn; auto. Qed.
Lemma scan_turn l : forall lo st, fold_left turn1 l (Some (lo, None)) = Some st -> in_turn lo l.
Proof.
  induction l as [l IH] using (induction_ltof1 _ (@length _)). unfold ltof in IH. intros lo st H.
  destruct l as [|[[] k] l]; [exact I| |cbn in H; rewrite fold_none in H; discriminate].
  cbn [fold_left turn1] in H. destruct (Nat.leb_spec lo k); [|rewrite fold_none in H; discriminate].
  destruct l as [|[[] k'] l]; [exact H0| |].
  - cbn in H. rewrite fold_none in H. discriminate.
  - cbn [fold_left turn1] in H. destruct (Nat.eqb_spec k' k) as [->|]; [|rewrite fold_none in H; discriminate].
    cbn. repeat split; auto. apply (IH l) with (st := st); [cbn; lia|exact H].
Qed.
Lemma handler_events_app c l1 l2 : handler_events c (l1 ++ l2) = handler_events c l1 ++ handler_events c l2.
Proof. induction l1 as [|[] l1 IH]; cbn; auto; destruct (_ =? c); cbn; rewrite ?IH; auto. Qed.
Definition turn_ok (c lo : nat) (cur : option nat) (t : thread) : Prop :=
  match t with
  | TRd c' st => c' = c ->
      match st with
      | RGot k _ | RSlot k _ | ROps k _ | RFail k _ | RReg k _ | RDisp k _ | RJob k _ JStart => lo <= k /\ cur = None
      | RJob k _ JRun => cur = Some k
      | _ => cur = None
      end
  | _ => True
  end.
Definition turns (c : nat) (s : sys) : Prop :=
  exists lo cur, scan (handler_events c (slog s)) = Some (lo, cur) /\ lo <= c_next (v_conn (s_srv s) c) /\
    forall t, In t (s_ts s) -> turn_ok c lo cur t.
Lemma turn_step g i t ch g' t' sp c lo cur : tstep g i t ch = Some (g', t', sp) -> fine g t ->
  c < v_n g -> async (c_limit (v_conn g c)) = false -> lo <= c_next (v_conn g c) -> turn_ok c lo cur t ->
  (handler_events c (v_log g') = handler_events c (v_log g) /\ turn_ok c lo cur t') \/
  (exists k m, t = TRd c (RJob k m JStart) /\ t' = TRd c (RJob k m JRun) /\ lo <= k /\ cur = None /\
     k < c_next (v_conn g c) /\ handler_events c (v_log g') = handler_events c (v_log g) ++ [(true, k)]) \/
  (exists k m j, t = TRd c (RJob k m JRun) /\ t' = TRd c (RJob k m j) /\ cur = Some k /\ j <> JStart /\ j <> JRun /\
     handler_events c (v_log g') = handler_events c (v_log g) ++ [(false, k)]).
Proof.
  intros H [Sn Bl] L A Lo T.
  inv_tstep H; cbn in Sn, Bl, T |- *; rewrite ?handler_events_app; cbn; rewrite ?app_nil_r; auto;
    try (left; split; [reflexivity|]; first [exact T|intros E; specialize (T E); tauto|intros; tauto]).
  all: try (left; split; [reflexivity|]; intros ->; specialize (T eq_refl); subst; split; [exact Lo|reflexivity]).
  { left. split; [reflexivity|]. intros E. lia. }
  all: destruct (Nat.eqb_spec c0 c) as [->|Ne]; rewrite ?app_nil_r; try (left; split; [reflexivity|]; intros; (contradiction || exact I)).
  all: try (exfalso; destruct Sn as (_ & _ & _ & _ & Sn); congruence).
  all: specialize (T eq_refl); right.
  - left. destruct T. exists k, m. repeat split; auto. tauto.
  - right. exists k, m, (JRep r). repeat split; auto; discriminate.
  - right. exists k, m, JOps. repeat split; auto; discriminate.
Qed.
Lemma scan_snoc l x : scan (l ++ [x]) = turn1 (scan l) x.
Proof. unfold scan. rewrite fold_left_app. reflexivity. Qed.
Lemma no_handler_events c l : (forall e, In e l -> conn_of e <> Some c) -> handler_events c l = [].
Proof.
  induction l as [|e l IH]; intros H; [reflexivity|]. specialize (IH (fun x I => H x (or_intror I))).
  specialize (H e (or_introl eq_refl)). destruct e; cbn in *; auto; destruct (Nat.eqb_spec c0 c); auto; congruence.
Qed.
Lemma all_turns buf ok s : dreach buf ok s -> forall c, c < v_n (s_srv s) -> async (c_limit (v_conn (s_srv s) c)) = false -> turns c s.
Proof.
  intros R. induction R as [|s e s' R IH Ok H]; [intros c L; cbn in L; lia|]. intros c L A.
  destruct (dstep_inv _ _ _ H) as (_ & [(t & T & ->)|(i & ch & t & g' & t' & sp & -> & N & T & ->)]).
  - destruct (IH c L A) as (lo & cur & E1 & E2 & E3). exists lo, cur. repeat split; auto. cbn.
    intros u U. apply in_app_or in U as [U|[<-|[]]]; auto.
    destruct e as [lim|c'| |]; try contradiction; [subst t|destruct T as [-> _]|subst t]; exact I.
  - cbn [s_srv s_ts] in *. assert (X := tstep_ext _ _ _ _ _ _ _ T).
    pose proof (fine_at _ _ _ _ _ R N) as F.
    assert (SP : forall u, In u (opt_list sp) -> forall lo cur, turn_ok c lo cur u).
    { clear - T. inv_tstep T; cbn; intros u []; subst; cbn; auto; contradiction. }
    destruct (Nat.lt_ge_cases c (v_n (s_srv s))) as [L'|L'].
    + rewrite (e_lim _ _ X) in A by exact L'.
      destruct (IH c L' A) as (lo & cur & E1 & E2 & E3).
      pose proof (E3 t (nth_error_In _ _ N)) as E4. pose proof (e_next _ _ X c L') as E5.
      destruct (turn_step _ _ _ _ _ _ _ c lo cur T F L' A E2 E4) as [[D1 D2]|[(k & m & -> & -> & D1 & -> & D2 & D3)|(k & m & j & -> & -> & -> & D1 & D2 & D3)]].
      * exists lo, cur. cbn [s_srv s_ts]. rewrite D1. repeat split; auto; [lia|]. intros u U. apply in_app_or in U as [U|U]; [|auto].
        apply set_nth_In in U as [->|U]; auto.
      * exists (S k), (Some k). cbn [s_srv s_ts]. rewrite D3, scan_snoc, E1. cbn [turn1].
        destruct (Nat.leb_spec lo k); [|lia]. repeat split; [lia|]. intros u U. apply in_app_or in U as [U|U]; [|auto].
        apply In_nth_error in U as [j U]. apply set_nth_lookup in U as [[_ ->]|[Ne U]]; [cbn; auto|].
        destruct u as [| |c' st| | | | | | | |]; cbn; auto. intros ->. exfalso. apply Ne. apply (reader_unique _ _ _ _ _ _ _ _ R N U).
      * exists lo, None. cbn [s_srv s_ts]. rewrite D3, scan_snoc, E1. cbn [turn1]. rewrite Nat.eqb_refl.
        repeat split; [lia|]. intros u U. apply in_app_or in U as [U|U]; [|auto].
        apply In_nth_error in U as [j' U]. apply set_nth_lookup in U as [[_ ->]|[Ne U]].
        { cbn. destruct j; auto; congruence. }
        destruct u as [| |c' st| | | | | | | |]; cbn; auto. intros ->. exfalso. apply Ne. apply (reader_unique _ _ _ _ _ _ _ _ R N U).
    + exists 0, None. cbn [s_srv s_ts].
      assert (Q : t' = TRd c RHook /\ v_log g' = slog s).
      { destruct F as [_ Bl]. clear - T L L' Bl. inv_tstep T; cbn in *; try lia. split; [|reflexivity]. f_equal. lia. }
      destruct Q as [-> Q]. rewrite Q, no_handler_events.
      2: { intros e I E. pose proof (log_belongs _ _ _ R e c I E). lia. }
      repeat split; [lia|]. intros u U. apply in_app_or in U as [U|U]; [|auto].
      apply set_nth_In in U as [->|U]; [cbn; auto|]. pose proof (all_belong _ _ _ R u U) as B.
      destruct u as [| |c' st| | | | | | | |]; cbn in *; auto. lia.
Qed.
Lemma handled_in_turn buf ok s c : dreach buf ok s -> (0 <= c_limit (v_conn (s_srv s) c) <= 1)%Z ->
  in_turn 0 (handler_events c (slog s)).
Proof.
  intros R L. destruct (Nat.lt_ge_cases c (v_n (s_srv s))) as [L'|L'].
  - destruct (all_turns _ _ _ R c L' (proj2 (async_false _) L)) as (lo & cur & E & _). eapply scan_turn; exact E.
  - rewrite no_handler_events; [exact I|]. intros e Ie E. pose proof (log_belongs _ _ _ R e c Ie E). lia.
Qed.
