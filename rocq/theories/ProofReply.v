(* Replies over pooled messages: every message in the care of the reader, the manager or a caller is
   there once. *)
From Coq Require Import List Arith NArith ZArith Bool Lia Permutation.
From Verif Require Import BaseBytes BaseConc ModelMessage ModelPayload ModelPool ModelRequests ModelReply
  SpecWire SpecMessage SpecPool SpecHandle SpecRequests SpecReply ProofMessage ProofCodec ProofPool ProofRequests ProofServe.
Import ListNotations.
Open Scope nat_scope.

(* ----- lists ----- *)
Lemma flat_set {A B} (f : A -> list B) l i x y : nth_error l i = Some y ->
  Permutation (f y ++ flat_map f (set_nth l i x)) (f x ++ flat_map f l).
Proof.
  intros H. destruct (set_nth_split l i y H) as (l1 & l2 & -> & _ & ->).
  rewrite !flat_map_app. cbn.
  rewrite (Permutation_app_comm (flat_map f l1) (f x ++ flat_map f l2)).
  rewrite (Permutation_app_comm (flat_map f l1) (f y ++ flat_map f l2)).
  rewrite !app_assoc. do 2 apply Permutation_app_tail. apply Permutation_app_comm.
Qed.
Lemma remove_perm a l : NoDup l -> In a l -> Permutation l (a :: remove Nat.eq_dec a l).
Proof.
  intros N Ha. apply in_split in Ha as (l1 & l2 & ->). apply NoDup_remove in N as (N & X).
  assert (R : forall l, ~ In a l -> remove Nat.eq_dec a l = l).
  { induction l as [|x l IH]; cbn; [reflexivity|]. intros C. destruct (Nat.eq_dec a x); [exfalso; auto|].
    f_equal. apply IH. auto. }
  rewrite remove_app. cbn. destruct (Nat.eq_dec a a); [|congruence].
  rewrite !R by (intros C; apply X, in_or_app; auto).
  symmetry. apply Permutation_middle.
Qed.
Lemma inv_perm p h h' : Permutation h h' -> inv p h -> inv p h'.
Proof.
  intros P [I1 I2 I3 I4]. constructor; auto.
  - eapply Permutation_NoDup; [|exact I1]. apply Permutation_app_head, P.
  - intros a Ha. apply I2. eapply Permutation_in; [|exact Ha]. apply Permutation_app_head. symmetry. exact P.
Qed.
Lemma inv_nodup p h : inv p h -> NoDup h.
Proof. intros [I1 _ _ _]. apply NoDup_app' in I1. apply I1. Qed.
Lemma inv_not_free p h a : inv p h -> In a h -> ~ In a (p_free p).
Proof. intros [I1 _ _ _] Ha C. apply NoDup_app' in I1 as (_ & _ & X). eapply X; eauto. Qed.
Lemma inv_lt p h a : inv p h -> In a h -> a < length (p_heap p).
Proof. intros [_ I2 _ _] Ha. apply I2, in_or_app. auto. Qed.

(* ----- messages on their way ----- *)
Definition carried (t : thread) : list msg :=
  match t with
  | Fu0 m | Fu1 m _ | Fu2 m _ | FuR m None => [m]
  | AwR _ (AwReply (Some m)) => [m]
  | _ => []
  end.
Definition queued (q : request) : list msg :=
  flat_map (fun v => match reply_of v with AwReply (Some m) => [m] | _ => [] end) (r_chan q).
Definition flight (E : list thread) (qs : list request) : list msg :=
  flat_map carried E ++ flat_map queued qs.

Lemma carried_step s t c s1 t1 : thread_step s t c = Some (s1, t1) ->
  threads s1 = threads s /\
  Permutation (carried t1 ++ flat_map queued (reqs s1)) (carried t ++ flat_map queued (reqs s)).
Proof.
  destruct t, c; cbn; try discriminate.
  - intros H; injection H as <- <-. auto.
  - intros H; injection H as <- <-. cbn. rewrite flat_map_app. cbn. rewrite app_nil_r. auto.
  - destruct (map_get _ _ _); intros H; injection H as <- <-; auto.
  - intros H; injection H as <- <-. auto.
  - unfold send. destruct (nth_error (reqs s) r) as [q|] eqn:Eq; [|discriminate].
    destruct (Nat.ltb_spec (length (r_chan q)) chan_cap) as [L|]; [|discriminate].
    intros H; injection H as <- <-. split; [reflexivity|].
    pose proof (flat_set queued (reqs s) r (MkReq (r_id q) (r_chan q ++ [MkGR (Some m) None])) q Eq) as P.
    unfold chan_cap in L. cbn in P |- *. unfold queued in P at 1 3. destruct (r_chan q); [|cbn in L; lia]. exact P.
  - destruct (map_get _ _ _); intros H; injection H as <- <-; auto.
  - intros H; injection H as <- <-. auto.
  - unfold send. destruct (nth_error (reqs s) r) as [q|] eqn:Eq; [|discriminate].
    destruct (Nat.ltb_spec (length (r_chan q)) chan_cap) as [L|]; [|discriminate].
    intros H; injection H as <- <-. split; [reflexivity|].
    pose proof (flat_set queued (reqs s) r (MkReq (r_id q) (r_chan q ++ [MkGR None e])) q Eq) as P.
    unfold chan_cap in L. cbn in P |- *. unfold queued in P at 1 3. destruct (r_chan q); [|cbn in L; lia].
    cbn in P. destruct e; exact P.
  - intros H; injection H as <- <-. auto.
  - unfold recv. destruct (nth_error (reqs s) r) as [q|] eqn:Eq; [|discriminate].
    destruct (r_chan q) as [|v rest] eqn:Ec; [discriminate|]. cbn.
    intros H; injection H as <- <-. split; [reflexivity|].
    pose proof (flat_set queued (reqs s) r (MkReq (r_id q) rest) q Eq) as P.
    unfold queued in P at 1 3. rewrite Ec in P. cbn in P. cbn [reqs set_reqs].
    change (flat_map (fun v0 => match reply_of v0 with AwReply (Some m) => [m] | _ => [] end) rest) with (queued (MkReq (r_id q) rest)) in P.
    rewrite <- app_assoc in P.
    assert (C : carried (AwR r (reply_of v)) = match reply_of v with AwReply (Some m) => [m] | _ => [] end).
    { cbn. destruct (reply_of v) as [| |[]]; reflexivity. }
    rewrite C. change (carried (Aw0 r) ++ flat_map queued (reqs s)) with (flat_map queued (reqs s)). remember (match reply_of v with AwReply (Some m) => [m] | _ => [] end) as y.
    apply (Permutation_app_inv_l (queued (MkReq (r_id q) rest))).
    etransitivity; [|exact P]. rewrite !app_assoc. apply Permutation_app_tail. apply Permutation_app_comm.
  - destruct (nth_error (reqs s) r); [|discriminate]. cbn. intros H; injection H as <- <-. auto.
  - intros H; injection H as <- <-. auto.
  - intros H; injection H as <- <-. auto.
Qed.

Definition finished (t : thread) : Prop :=
  match t with FuR _ _ | AwR _ _ => True | _ => False end.
Record ghost (ts : list thread) (d : list nat) (E : list thread) : Prop := {
  gh_len : length E = length ts;
  gh_open : forall j, ~ In j d -> nth_error E j = nth_error ts j;
  gh_done : forall j, In j d -> nth_error E j = Some Pn0 /\ exists t, nth_error ts j = Some t /\ finished t }.

Lemma ghost_snoc ts d E t : ghost ts d E -> ghost (ts ++ [t]) d (E ++ [t]).
Proof.
  intros [G1 G2 G3]. constructor.
  - rewrite !app_length. cbn. lia.
  - intros j Hj. rewrite !nth_error_snoc, G1, G2 by exact Hj. reflexivity.
  - intros j Hj. destruct (G3 j Hj) as (A & u & B & C). split; [|exists u; split; [|exact C]].
    + apply nth_error_snoc_some. auto.
    + apply nth_error_snoc_some. auto.
Qed.
Lemma ghost_set ts d E i t t1 : ghost ts d E -> nth_error ts i = Some t -> ~ In i d ->
  ghost (set_nth ts i t1) d (set_nth E i t1).
Proof.
  intros [G1 G2 G3] Hi Hd. constructor.
  - rewrite !set_nth_length. exact G1.
  - intros j Hj. destruct (Nat.eq_dec i j) as [->|N].
    + erewrite !set_nth_eq; [reflexivity|exact Hi|]. rewrite G2 by exact Hj. exact Hi.
    + rewrite !set_nth_ne by congruence. apply G2. exact Hj.
  - intros j Hj. assert (i <> j) by congruence. rewrite !set_nth_ne by congruence. apply G3. exact Hj.
Qed.
Lemma ghost_done ts d E i t : ghost ts d E -> nth_error ts i = Some t -> finished t -> ~ In i d ->
  ghost ts (i :: d) (set_nth E i Pn0).
Proof.
  intros [G1 G2 G3] Hi Ft Hd. constructor.
  - rewrite set_nth_length. exact G1.
  - intros j Hj. cbn in Hj. rewrite set_nth_ne by (intros ->; auto). apply G2. auto.
  - intros j Hj. destruct (Nat.eq_dec i j) as [->|N].
    + erewrite set_nth_eq by (rewrite G2 by exact Hd; exact Hi). eauto.
    + rewrite set_nth_ne by congruence. apply G3. destruct Hj; [congruence|assumption].
Qed.

Lemma flight_step s d E e s' : ghost (threads s) d E -> rstep s e = Some s' ->
  exists E', ghost (threads s') d E' /\
    Permutation (flight E' (reqs s')) (match e with EvCall (CallFulfill m) => [m] | _ => [] end ++ flight E (reqs s)).
Proof.
  intros G. destruct e as [c|i c]; cbn.
  - assert (K : forall t, carried t = match c with CallFulfill m => [m] | _ => [] end ->
      exists E', ghost (threads s ++ [t]) d E' /\
        Permutation (flight E' (reqs s)) (match c with CallFulfill m => [m] | _ => [] end ++ flight E (reqs s))).
    { intros t Ht. exists (E ++ [t]). split; [apply ghost_snoc, G|]. unfold flight. rewrite flat_map_app. cbn.
      rewrite app_nil_r, Ht, app_assoc. apply Permutation_app_tail. apply Permutation_app_comm. }
    destruct c; cbn; try (intros H; injection H as <-; cbn; apply K; reflexivity).
    destruct (existsb _ _); [|discriminate]. intros H; injection H as <-. cbn. apply K. reflexivity.
  - destruct (nth_error (threads s) i) as [t|] eqn:Et; [|discriminate]. cbn.
    destruct (thread_step s t c) as [[s1 t1]|] eqn:ES; [|discriminate]. intros H; injection H as <-.
    destruct (carried_step _ _ _ _ _ ES) as (T & P).
    assert (Hd : ~ In i d).
    { intros C. destruct (gh_done _ _ _ G i C) as (_ & u & Hu & Fu). rewrite Et in Hu. injection Hu as <-.
      destruct t; try contradiction; discriminate ES. }
    exists (set_nth E i t1). cbn [threads set_thread reqs]. rewrite T. split; [eapply ghost_set; eauto|].
    assert (HE : nth_error E i = Some t) by (rewrite (gh_open _ _ _ G) by exact Hd; exact Et).
    pose proof (flat_set carried E i t1 t HE) as Q. unfold flight.
    apply (Permutation_app_inv_l (carried t)).
    rewrite !app_assoc. rewrite Q. rewrite (Permutation_app_comm (carried t1)). rewrite <- app_assoc, P, app_assoc.
    apply Permutation_app_tail. apply Permutation_app_comm.
Qed.

(* ----- the invariant ----- *)
Definition sound (w : desk) (a : nat) (id : option bytes) : Prop :=
  exists m b c, nth_error (p_heap (k_pool (w_client w))) a = Some m /\ SpecHandle.received m b c /\
    frame_of w a = Some b /\ forall x, id = Some x -> m_ident m = x.
Record kinv (w : desk) : Prop := {
  v_reach : rreach anything (k_mgr (w_client w));
  v_care : exists E, ghost (threads (k_mgr (w_client w))) (w_done w) E /\
    inv (k_pool (w_client w)) (w_held w ++ map rm_content (flight E (reqs (k_mgr (w_client w))))) /\
    (forall a, In a (w_held w) -> sound w a None) /\
    (forall m, In m (flight E (reqs (k_mgr (w_client w)))) -> sound w (rm_content m) (Some (rm_id m))) }.

Lemma accepted m b m' : blank m -> ReadBytes m b = Some (m', true, None) -> exists c, SpecHandle.received m' b c.
Proof.
  intros B H. destruct (ReadBytes_spec m b B) as (m2 & ok & e & R & X & _). rewrite H in R. injection R as <- <- <-.
  destruct X as (X & _). destruct (X (conj eq_refl eq_refl)) as (L & c & F). exists c, m. auto.
Qed.

Lemma sound_kept w w' a id : sound w a id ->
  nth_error (p_heap (k_pool (w_client w'))) a = nth_error (p_heap (k_pool (w_client w))) a ->
  frame_of w' a = frame_of w a -> sound w' a id.
Proof. intros (m & b & c & A & B & C & D) H F. exists m, b, c. rewrite H, F. auto. Qed.

Lemma frame_new k h d F a b x : x <> a -> frame_of (MkDesk k h d ((a, b) :: F)) x = option_map snd (find (fun y => fst y =? x) F).
Proof. intros N. unfold frame_of. cbn. destruct (Nat.eqb_spec a x); [congruence|reflexivity]. Qed.
Lemma frame_same k h d F a b : frame_of (MkDesk k h d ((a, b) :: F)) a = Some b.
Proof. unfold frame_of. cbn. rewrite Nat.eqb_refl. reflexivity. Qed.

Lemma get_kept p pick p1 a x : Get p pick = (p1, a) -> x < length (p_heap p) ->
  nth_error (p_heap p1) x = nth_error (p_heap p) x.
Proof.
  unfold Get. intros H L. destruct pick as [i|]; [destruct (nth_error (p_free p) i)|]; injection H as <- <-; cbn;
    try reflexivity; apply nth_error_app1; exact L.
Qed.
Lemma read_kept p a b p1 ok e x : pool_read p a b = Some (p1, ok, e) -> x <> a ->
  nth_error (p_heap p1) x = nth_error (p_heap p) x.
Proof.
  unfold pool_read. intros H N. destruct (nth_error (p_heap p) a); [|discriminate]. cbn in H.
  destruct (ReadBytes m b) as [[[? ?] ?]|]; [|discriminate]. injection H as <- <- <-. cbn. apply update_other. congruence.
Qed.
Lemma close_kept p a p1 x : pool_close p a = Some p1 -> x <> a ->
  nth_error (p_heap p1) x = nth_error (p_heap p) x.
Proof.
  unfold pool_close. intros H N. destruct (nth_error (p_heap p) a); [|discriminate]. cbn in H.
  destruct (MsgClose m) as [[? []]|]; try discriminate; injection H as <-; cbn; apply update_other; congruence.
Qed.

(* what a move leaves alone: messages that are in somebody's care before and after *)
Definition kept (w w' : desk) (a : nat) : Prop :=
  nth_error (p_heap (k_pool (w_client w'))) a = nth_error (p_heap (k_pool (w_client w))) a /\ frame_of w' a = frame_of w a.
Lemma kept_sound w w' a id : sound w a id -> kept w w' a -> sound w' a id.
Proof. intros S (A & B). eapply sound_kept; eauto. Qed.
Lemma kept_refl k h d F h' d' k' a : k_pool k' = k_pool k -> kept (MkDesk k h d F) (MkDesk k' h' d' F) a.
Proof. intros E. split; cbn; [rewrite E; reflexivity|reflexivity]. Qed.

Definition care (h : list nat) (E : list thread) (qs : list request) : list nat := h ++ map rm_content (flight E qs).

(* the moves, one by one: how the messages in care change, and that the others are left alone *)
Lemma receive_moves k h d F pick b p1 a p2 ok e k' E :
  inv (k_pool k) (care h E (reqs (k_mgr k))) ->
  Get (k_pool k) pick = (p1, a) -> pool_read p1 a b = Some (p2, ok, e) -> kstep k (KReceive pick b) = Some k' ->
  k_mgr k' = k_mgr k /\ ~ In a (care h E (reqs (k_mgr k))) /\
  (forall h2 x, In x (care h E (reqs (k_mgr k))) -> kept (MkDesk k h d F) (MkDesk k' h2 d ((a, b) :: F)) x) /\
  (if ok && match e with None => true | _ => false end
   then inv (k_pool k') (a :: care h E (reqs (k_mgr k))) /\ forall h2, sound (MkDesk k' h2 d ((a, b) :: F)) a None
   else inv (k_pool k') (care h E (reqs (k_mgr k)))).
Proof.
  intros I G R K. destruct (get_inv _ _ _ _ _ I G) as (I1 & N & _ & m & Hm & Bm).
  pose proof (read_inv _ _ _ _ _ _ _ I1 (or_introl eq_refl) R) as I2.
  assert (KK : forall x, In x (care h E (reqs (k_mgr k))) -> x <> a) by (intros x Hx ->; auto).
  assert (K2 : forall x, In x (care h E (reqs (k_mgr k))) -> nth_error (p_heap p2) x = nth_error (p_heap (k_pool k)) x).
  { intros x Hx. rewrite (read_kept _ _ _ _ _ _ x R) by auto. eapply get_kept; [exact G|]. eapply inv_lt; eauto. }
  cbn in K. rewrite G, R in K.
  assert (NR : forall p3, pool_close p2 a = Some p3 -> k' = with_pool k p3 ->
     k_mgr k' = k_mgr k /\ ~ In a (care h E (reqs (k_mgr k))) /\
     (forall h2 x, In x (care h E (reqs (k_mgr k))) -> kept (MkDesk k h d F) (MkDesk k' h2 d ((a, b) :: F)) x) /\
     inv (k_pool k') (care h E (reqs (k_mgr k)))).
  { intros p3 C ->. split; [reflexivity|]. split; [exact N|]. split.
    - intros h2 x Hx. split; cbn.
      + rewrite (close_kept _ _ _ x C) by auto. apply K2, Hx.
      + apply frame_new. auto.
    - pose proof (close_inv _ _ _ _ I2 (or_introl eq_refl) C) as I3. cbn in I3 |- *.
      destruct (Nat.eq_dec a a); [|congruence]. rewrite notin_remove in I3 by exact N. exact I3. }
  destruct ok; [destruct e as [e|]|]; cbn [andb].
  - destruct (pool_close p2 a) as [p3|]; [|discriminate]. injection K as <-. eapply NR; reflexivity.
  - injection K as <-. split; [reflexivity|]. split; [exact N|]. split.
    + intros h2 x Hx. split; cbn; [apply K2, Hx|apply frame_new; auto].
    + split; [exact I2|]. intros h2. unfold pool_read in R. rewrite Hm in R. cbn in R.
      destruct (ReadBytes m b) as [[[m1 ok1] e1]|] eqn:RB; [|discriminate]. injection R as <- -> ->.
      destruct (accepted _ _ _ Bm RB) as (c & Rc). exists m1, b, c. cbn. erewrite update_same by exact Hm.
      split; [reflexivity|]. split; [exact Rc|]. split; [apply frame_same|discriminate].
  - destruct (pool_close p2 a) as [p3|]; [|discriminate]. injection K as <-. eapply NR; reflexivity.
Qed.

Lemma close_at k h d F a p' H : inv (k_pool k) (a :: H) -> pool_close (k_pool k) a = Some p' ->
  inv p' H /\ forall h2 d2 x, In x H -> kept (MkDesk k h d F) (MkDesk (with_pool k p') h2 d2 F) x.
Proof.
  intros I C. pose proof (inv_nodup _ _ I) as N. apply NoDup_cons_iff in N as (N & _).
  pose proof (close_inv _ _ _ _ I (or_introl eq_refl) C) as I2. cbn in I2.
  destruct (Nat.eq_dec a a); [|congruence]. rewrite notin_remove in I2 by exact N. split; [exact I2|].
  intros h2 d2 x Hx. split; cbn; [|reflexivity]. apply (close_kept _ _ _ x C). intros ->. auto.
Qed.

Lemma ghost_flight ts d E qs i t m : ghost ts d E -> nth_error ts i = Some t -> ~ In i d -> carried t = [m] ->
  Permutation (flight E qs) (m :: flight (set_nth E i Pn0) qs).
Proof.
  intros G Hi Hd Ht. assert (HE : nth_error E i = Some t) by (rewrite (gh_open _ _ _ G) by exact Hd; exact Hi).
  pose proof (flat_set carried E i Pn0 t HE) as Q. rewrite Ht in Q. cbn in Q. unfold flight.
  rewrite <- Q. reflexivity.
Qed.

Lemma moves_inv w w' : kinv w -> moves w w' -> kinv w'.
Proof.
  intros [VR (E & G & I & SH & SF)] M. destruct M; cbn [w_client w_held w_done w_frames] in *.
  - (* receive *)
    destruct (receive_moves _ _ d F _ _ _ _ _ _ _ _ _ I H H0 H1) as (EM & N & K & I2 & S2).
    constructor; cbn [w_client w_held w_done w_frames]; rewrite EM; [exact VR|]. exists E. split; [exact G|]. split; [exact I2|]. split.
    + intros x [<-|Hx]; [apply S2|]. eapply kept_sound; [apply SH, Hx|]. apply K. apply in_or_app. auto.
    + intros m Hm. eapply kept_sound; [apply SF, Hm|]. apply K. apply in_or_app. right. apply in_map, Hm.
  - (* refused *)
    destruct (receive_moves _ _ d F _ _ _ _ _ _ _ _ _ I H H0 H2) as (EM & N & K & I2).
    assert (ok && match e with None => true | _ => false end = false) as EQ.
    { destruct ok; [|reflexivity]. destruct e; [reflexivity|]. destruct H1; congruence. }
    rewrite EQ in I2.
    constructor; cbn [w_client w_held w_done w_frames]; rewrite EM; [exact VR|]. exists E. split; [exact G|]. split; [exact I2|]. split.
    + intros x Hx. eapply kept_sound; [apply SH, Hx|]. apply K. apply in_or_app. auto.
    + intros m Hm. eapply kept_sound; [apply SF, Hm|]. apply K. apply in_or_app. right. apply in_map, Hm.
  - (* give *)
    cbn in H0. destruct (nth_error (p_heap (k_pool k)) a) as [m|] eqn:Em; [|discriminate]. cbn in H0. injection H0 as <-.
    set (rm := MkRMsg (m_ident m) a) in *.
    assert (RS : rstep (k_mgr k) (EvCall (CallFulfill rm)) =
      Some (MkMgr (lastID (k_mgr k)) (pending (k_mgr k)) (reqs (k_mgr k)) (threads (k_mgr k) ++ [Fu0 rm]))) by reflexivity.
    destruct (flight_step _ _ _ _ _ G RS) as (E' & G' & P). cbn [reqs threads app] in G', P.
    assert (NH : NoDup h) by (apply inv_nodup in I; apply NoDup_app' in I; apply I).
    constructor; cbn [w_client w_held w_done w_frames k_mgr with_mgr k_pool]; [eapply RR_step; [exact VR|exact Logic.I|exact RS]|].
    exists E'. split; [exact G'|]. cbn [reqs]. split; [|split].
    + eapply inv_perm; [|exact I]. rewrite P. cbn [map]. rewrite (remove_perm a h NH H) at 1.
      cbn [app]. apply Permutation_cons_app. reflexivity.
    + intros x Hx. apply in_remove in Hx as (Hx & _). eapply kept_sound; [apply SH, Hx|]. apply kept_refl. reflexivity.
    + intros m' Hm'. apply (Permutation_in _ P) in Hm' as [<-|Hm'].
      * destruct (SH a H) as (m2 & b & c & A & B & C & _). cbn in A. rewrite Em in A. injection A as <-.
        exists m, b, c. cbn. split; [exact Em|]. split; [exact B|]. split; [exact C|]. intros x [= <-]. reflexivity.
      * eapply kept_sound; [apply SF, Hm'|]. apply kept_refl. reflexivity.
  - (* drop *)
    cbn in H0. destruct (pool_close (k_pool k) a) as [p'|] eqn:C; [|discriminate]. cbn in H0. injection H0 as <-.
    assert (NH : NoDup h) by (apply inv_nodup in I; apply NoDup_app' in I; apply I).
    pose proof (remove_perm a h NH H) as P.
    assert (I1 : inv (k_pool k) (a :: remove Nat.eq_dec a h ++ map rm_content (flight E (reqs (k_mgr k))))).
    { eapply inv_perm; [|exact I]. rewrite P at 1. reflexivity. }
    destruct (close_at k h d F _ _ _ I1 C) as (I2 & K).
    constructor; cbn [w_client w_held w_done w_frames k_mgr with_pool k_pool]; [exact VR|]. exists E. split; [exact G|]. split; [exact I2|]. split.
    + intros x Hx. eapply kept_sound; [apply SH; eapply in_remove, Hx|]. apply K. apply in_or_app. auto.
    + intros m Hm. eapply kept_sound; [apply SF, Hm|]. apply K. apply in_or_app. right. apply in_map, Hm.
  - (* back *)
    pose proof (ghost_flight _ _ _ (reqs (k_mgr k)) _ _ _ G H H0 eq_refl) as P.
    constructor; cbn [w_client w_held w_done w_frames]; [exact VR|]. exists (set_nth E i Pn0). split; [eapply ghost_done; [exact G|exact H|exact Logic.I|exact H0]|].
    split; [|split].
    + eapply inv_perm; [|exact I]. rewrite P. cbn. symmetry. apply Permutation_middle.
    + intros x [<-|Hx].
      * destruct (SF m) as (m2 & b & c & A & B & C & _); [eapply Permutation_in; [symmetry; exact P|left; reflexivity]|].
        exists m2, b, c. split; [exact A|]. split; [exact B|]. split; [exact C|]. discriminate.
      * eapply kept_sound; [apply SH, Hx|]. apply kept_refl. reflexivity.
    + intros m' Hm'. eapply kept_sound; [apply SF|apply kept_refl; reflexivity].
      eapply Permutation_in; [symmetry; exact P|right; exact Hm'].
  - (* manager *)
    assert (RS : exists s', rstep (k_mgr k) e = Some s' /\ k' = with_mgr k s' /\ match e with EvCall (CallFulfill m) => [m] | _ => [] end = @nil msg).
    { cbn in H. destruct e as [[]|]; try discriminate;
        match type of H with (let? _ := ?x in _) = _ => destruct x as [s'|] eqn:RS; [|discriminate] end;
        cbn in H; injection H as <-; eauto. }
    destruct RS as (s' & RS & -> & NF). destruct (flight_step _ _ _ _ _ G RS) as (E' & G' & P). rewrite NF in P. cbn [app] in P.
    constructor; cbn [w_client w_held w_done w_frames k_mgr with_mgr k_pool]; [eapply RR_step; [exact VR|exact Logic.I|exact RS]|].
    exists E'. split; [exact G'|]. split; [|split].
    + eapply inv_perm; [|exact I]. rewrite P. reflexivity.
    + intros x Hx. eapply kept_sound; [apply SH, Hx|apply kept_refl; reflexivity].
    + intros m Hm. eapply kept_sound; [apply SF|apply kept_refl; reflexivity]. eapply Permutation_in; eauto.
  - (* close *)
    destruct H as (Hi & Hd). cbn [w_client w_done] in Hi, Hd. cbn in H0. rewrite Hi in H0. cbn in H0.
    destruct (pool_close (k_pool k) (rm_content m)) as [p'|] eqn:C; [|discriminate]. injection H0 as <-.
    pose proof (ghost_flight _ _ _ (reqs (k_mgr k)) _ _ _ G Hi Hd eq_refl) as P.
    assert (I1 : inv (k_pool k) (rm_content m :: h ++ map rm_content (flight (set_nth E i Pn0) (reqs (k_mgr k))))).
    { eapply inv_perm; [|exact I]. rewrite P. cbn. symmetry. apply Permutation_middle. }
    destruct (close_at k h d F _ _ _ I1 C) as (I2 & K).
    constructor; cbn [w_client w_held w_done w_frames k_mgr with_pool k_pool]; [exact VR|]. exists (set_nth E i Pn0).
    split; [eapply ghost_done; [exact G|exact Hi|exact Logic.I|exact Hd]|]. split; [exact I2|]. split.
    + intros x Hx. eapply kept_sound; [apply SH, Hx|]. apply K. apply in_or_app. auto.
    + intros m' Hm. eapply kept_sound; [apply SF|]; [eapply Permutation_in; [symmetry; exact P|right; exact Hm]|].
      apply K. apply in_or_app. right. apply in_map, Hm.
Qed.

Lemma start_inv size : kinv (MkDesk (new_client size) [] [] []).
Proof.
  constructor; cbn; [constructor|]. exists []. split; [constructor; cbn; auto; contradiction|]. split; [|split; contradiction].
  constructor; cbn; [constructor|contradiction|contradiction|]. intros a m H. destruct a; discriminate.
Qed.
Lemma moved_inv w w' : kinv w -> moved w w' -> kinv w'.
Proof. intros I M. induction M; [exact I|]. eapply moves_inv; [apply IHM, I|eassumption]. Qed.
Lemma desks_inv w : desks w -> kinv w.
Proof. intros (size & M). eapply moved_inv; [apply start_inv|exact M]. Qed.

(* ----- replies ----- *)
Lemma open_flight w E i r m : ghost (threads (k_mgr (w_client w))) (w_done w) E -> open_reply w i r m ->
  Permutation (flight E (reqs (k_mgr (w_client w)))) (m :: flight (set_nth E i Pn0) (reqs (k_mgr (w_client w)))).
Proof. intros G (Hi & Hd). eapply ghost_flight; eauto. Qed.

Lemma reply_shows w i r m : desks w -> (N.of_nat (creations (k_mgr (w_client w))) < 2 ^ 64)%N -> open_reply w i r m ->
  exists b c q e, frame_of w (rm_content m) = Some b /\ frame b c /\
    nth_error (reqs (k_mgr (w_client w))) r = Some q /\ k_ident c = r_id q /\
    reply_Payload (k_pool (w_client w)) (Some m) = Some (k_payload c) /\
    reply_PayloadEncoding (k_pool (w_client w)) (Some m) = Some e /\ (k_type c <> 0%N -> e = enc_no (k_enc c)) /\
    reply_PayloadUtf8 (k_pool (w_client w)) (Some m) = Some (Payload_Utf8 e (k_payload c)).
Proof.
  intros D B O. destruct (desks_inv _ D) as [VR (E & G & I & SH & SF)].
  pose proof (open_flight _ _ _ _ _ G O) as P.
  destruct (SF m) as (hm & b & c & A & Rc & Fr & Id); [eapply Permutation_in; [symmetry; exact P|left; reflexivity]|].
  destruct (await_value _ _ _ _ VR B (proj1 O)) as [(e & X)|(q & j & Hq & [(m' & Im & _ & X)|[(e & _ & X)|(_ & X)]])]; try discriminate.
  injection X as <-.
  destruct Rc as (m0 & Bl & L & F & R). destruct (ReadBytes_spec m0 b Bl) as (m' & ok & e & R' & _ & _ & _ & _ & S).
  rewrite R in R'. injection R' as <- <- <-. destruct (S c L F) as (_ & Oi & _ & _ & Op & Oe & _). cbn in Oi, Op, Oe.
  exists b, c, q, (m_enc hm). unfold reply_Payload, reply_PayloadEncoding, reply_PayloadUtf8, at_msg. rewrite A.
  repeat split; try assumption.
  - rewrite <- Oi, <- Im. apply Id. reflexivity.
  - rewrite Op. reflexivity.
  - rewrite Op. reflexivity.
Qed.

Lemma reply_exclusive w i r m : desks w -> open_reply w i r m ->
  ~ In (rm_content m) (w_held w) /\ ~ In (rm_content m) (p_free (k_pool (w_client w))) /\
  forall j r' m', open_reply w j r' m' -> j <> i -> rm_content m' <> rm_content m.
Proof.
  intros D O. destruct (desks_inv _ D) as [VR (E & G & I & SH & SF)].
  pose proof (open_flight _ _ _ _ _ G O) as P.
  assert (I1 : inv (k_pool (w_client w)) (rm_content m :: w_held w ++ map rm_content (flight (set_nth E i Pn0) (reqs (k_mgr (w_client w)))))).
  { eapply inv_perm; [|exact I]. rewrite P. cbn. symmetry. apply Permutation_middle. }
  pose proof (inv_nodup _ _ I1) as N. apply NoDup_cons_iff in N as (N & _).
  split; [intros C; apply N, in_or_app; auto|]. split; [eapply inv_not_free; [exact I1|left; reflexivity]|].
  intros j r' m' (Hj & Hd) Nij Eq. apply N, in_or_app. right. rewrite <- Eq. apply in_map. apply in_or_app. left.
  apply in_flat_map. exists (AwR r' (AwReply (Some m'))). split; [|left; reflexivity].
  apply nth_error_In with (n := j). rewrite set_nth_ne by congruence. rewrite (gh_open _ _ _ G) by exact Hd. exact Hj.
Qed.

Lemma rstep_returned s e s' i r x : rstep s e = Some s' -> nth_error (threads s) i = Some (AwR r x) ->
  nth_error (threads s') i = Some (AwR r x).
Proof.
  intros H Hi. destruct e as [c|j c].
  - assert (exists t, threads s' = threads s ++ [t]) as (t & ->).
    { destruct c; cbn in H; try (injection H as <-; cbn; eauto).
      destruct (existsb _ _); [|discriminate]. injection H as <-. cbn. eauto. }
    apply nth_error_snoc_some. auto.
  - cbn in H. destruct (nth_error (threads s) j) as [t|] eqn:Et; [|discriminate]. cbn in H.
    destruct (thread_step s t c) as [[s1 t1]|] eqn:ES; [|discriminate]. injection H as <-.
    destruct (carried_step _ _ _ _ _ ES) as (T & _). cbn. rewrite T.
    destruct (Nat.eq_dec j i) as [->|N].
    + rewrite Hi in Et. injection Et as <-. discriminate ES.
    + rewrite set_nth_ne by congruence. exact Hi.
Qed.

Lemma moves_kept w w' i r m : kinv w -> moves w w' -> open_reply w i r m -> ~ In i (w_done w') ->
  open_reply w' i r m /\ kept w w' (rm_content m).
Proof.
  intros [VR (E & G & I & SH & SF)] M O Nd. pose proof (open_flight _ _ _ _ _ G O) as P.
  assert (Hm : In m (flight E (reqs (k_mgr (w_client w))))) by (eapply Permutation_in; [symmetry; exact P|left; reflexivity]).
  destruct O as (Hi & Hd).
  assert (Hc : In (rm_content m) (care (w_held w) E (reqs (k_mgr (w_client w))))) by (apply in_or_app; right; apply in_map, Hm).
  destruct M; cbn [w_client w_held w_done w_frames] in *.
  - destruct (receive_moves _ _ d F _ _ _ _ _ _ _ _ _ I H H0 H1) as (EM & N & K & _).
    split; [split; cbn [w_client w_done]; [rewrite EM; exact Hi|exact Hd]|apply K, Hc].
  - destruct (receive_moves _ _ d F _ _ _ _ _ _ _ _ _ I H H0 H2) as (EM & N & K & _).
    split; [split; cbn [w_client w_done]; [rewrite EM; exact Hi|exact Hd]|apply K, Hc].
  - cbn in H0. destruct (nth_error (p_heap (k_pool k)) a) as [m2|] eqn:Em; [|discriminate]. cbn in H0. injection H0 as <-.
    split; [split; cbn; [apply nth_error_snoc_some; auto|exact Hd]|apply kept_refl; reflexivity].
  - cbn in H0. destruct (pool_close (k_pool k) a) as [p'|] eqn:C; [|discriminate]. cbn in H0. injection H0 as <-.
    assert (N : rm_content m <> a).
    { intros Eq. apply inv_nodup in I. apply NoDup_app' in I as (_ & _ & X). apply (X a H). rewrite <- Eq. apply in_map, Hm. }
    split; [split; [exact Hi|exact Hd]|]. split; [|reflexivity]. cbn. exact (close_kept _ _ _ _ C N).
  - split; [split; [exact Hi|exact Nd]|apply kept_refl; reflexivity].
  - assert (RS : exists s', rstep (k_mgr k) e = Some s' /\ k' = with_mgr k s').
    { cbn in H. destruct e as [[]|]; try discriminate;
        match type of H with (let? _ := ?x in _) = _ => destruct x as [s'|] eqn:RS; [|discriminate] end;
        cbn in H; injection H as <-; eauto. }
    destruct RS as (s' & RS & ->). split; [split; cbn; [eapply rstep_returned; eauto|exact Hd]|apply kept_refl; reflexivity].
  - destruct H as (Hj & Hdj). cbn [w_client w_done] in Hj, Hdj. cbn in H0. rewrite Hj in H0. cbn in H0.
    destruct (pool_close (k_pool k) (rm_content m0)) as [p'|] eqn:C; [|discriminate]. injection H0 as <-.
    assert (Nij : i <> i0) by (intros ->; apply Nd; left; reflexivity).
    pose proof (ghost_flight _ _ _ (reqs (k_mgr k)) _ _ _ G Hj Hdj eq_refl) as Q.
    assert (N : rm_content m <> rm_content m0).
    { intros Eq. apply inv_nodup in I. apply NoDup_app' in I as (_ & N & _).
      eapply Permutation_NoDup in N; [|apply Permutation_map, Q]. cbn in N. apply NoDup_cons_iff in N as (N & _).
      apply N. rewrite <- Eq. apply in_map. apply in_or_app. left. apply in_flat_map.
      exists (AwR r (AwReply (Some m))). split; [|left; reflexivity].
      apply nth_error_In with (n := i). rewrite set_nth_ne by congruence. rewrite (gh_open _ _ _ G) by exact Hd. exact Hi. }
    split; [split; [exact Hi|exact Nd]|]. split; [|reflexivity]. cbn. exact (close_kept _ _ _ _ C N).
Qed.

Lemma moves_done w w' i : moves w w' -> In i (w_done w) -> In i (w_done w').
Proof. destruct 1; cbn; auto. Qed.
Lemma moved_desks w w' : desks w -> moved w w' -> desks w'.
Proof. intros (size & M) M'. exists size. induction M'; [exact M|]. eapply Md_step; [apply IHM', M|eassumption]. Qed.

Lemma reply_stays w w' i r m : desks w -> open_reply w i r m -> moved w w' -> ~ In i (w_done w') ->
  open_reply w' i r m /\ frame_of w' (rm_content m) = frame_of w (rm_content m) /\
  reply_Payload (k_pool (w_client w')) (Some m) = reply_Payload (k_pool (w_client w)) (Some m) /\
  reply_PayloadEncoding (k_pool (w_client w')) (Some m) = reply_PayloadEncoding (k_pool (w_client w)) (Some m) /\
  reply_PayloadUtf8 (k_pool (w_client w')) (Some m) = reply_PayloadUtf8 (k_pool (w_client w)) (Some m).
Proof.
  intros D O M Nd. assert (X : open_reply w' i r m /\ kept w w' (rm_content m)).
  { induction M as [w|w1 w2 w3 M IH M2]; [split; [exact O|split; reflexivity]|].
    destruct IH as (O2 & K1 & K2); [exact D|exact O|intros C; apply Nd; eapply moves_done; eauto|].
    destruct (moves_kept _ _ _ _ _ (desks_inv _ (moved_desks _ _ D M)) M2 O2 Nd) as (O3 & K3 & K4).
    split; [exact O3|]. split; congruence. }
  destruct X as (O' & K1 & K2). split; [exact O'|]. split; [exact K2|].
  unfold reply_Payload, reply_PayloadEncoding, reply_PayloadUtf8, at_msg. rewrite K1. auto.
Qed.

Lemma reply_closes w i r m : desks w -> open_reply w i r m ->
  exists k', kstep (w_client w) (KClose i) = Some k' /\ k_mgr k' = k_mgr (w_client w) /\
    p_free (k_pool k') = rm_content m :: p_free (k_pool (w_client w)) /\
    (forall a, a <> rm_content m -> nth_error (p_heap (k_pool k')) a = nth_error (p_heap (k_pool (w_client w))) a) /\
    reply_Payload (k_pool k') (Some m) = Some [] /\ reply_PayloadEncoding (k_pool k') (Some m) = Some Binary /\
    reply_PayloadUtf8 (k_pool k') (Some m) = Some (Some []).
Proof.
  intros D O. destruct (desks_inv _ D) as [VR (E & G & I & SH & SF)].
  pose proof (open_flight _ _ _ _ _ G O) as P.
  destruct (SF m) as (hm & b & c & A & Rc & Fr & Id); [eapply Permutation_in; [symmetry; exact P|left; reflexivity]|].
  destruct (i_good _ _ I _ _ A) as (Pd & _).
  assert (NE : IsEmpty hm = false) by (eapply received_shows; exact Rc).
  unfold kstep, reply_Close, pool_close. rewrite (proj1 O), A. unfold MsgClose. rewrite NE. cbn [m_pooled]. 
  unfold BufClose. cbn. rewrite Pd. cbn. eexists. split; [reflexivity|]. cbn. split; [reflexivity|]. split; [reflexivity|]. split.
  - intros a N. apply update_other. congruence.
  - unfold reply_Payload, reply_PayloadEncoding, reply_PayloadUtf8, at_msg. cbn. erewrite update_same by exact A. cbn. auto.
Qed.

Lemma reply_nil s i r : rreach anything s -> (N.of_nat (creations s) < 2 ^ 64)%N ->
  nth_error (threads s) i = Some (AwR r (AwReply None)) ->
  exists q j, nth_error (reqs s) r = Some q /\ nth_error (threads s) j = Some (FaR (r_id q) None (Some r)).
Proof.
  intros R B H. destruct (await_value _ _ _ _ R B H) as [(e & X)|(q & j & Hq & [(m' & Im & _ & X)|[(e & _ & X)|(X & _)]])]; try discriminate.
  eauto.
Qed.
Lemma reply_panics p rp : (reply_Payload p rp = None <-> at_msg p rp = None) /\
  (reply_PayloadEncoding p rp = None <-> at_msg p rp = None) /\ (reply_PayloadUtf8 p rp = None <-> at_msg p rp = None).
Proof. unfold reply_Payload, reply_PayloadEncoding, reply_PayloadUtf8. destruct (at_msg p rp); cbn; repeat split; auto; discriminate. Qed.

Lemma reader_no_panic w : desks w ->
  (forall pick b, kstep (w_client w) (KReceive pick b) <> None) /\
  (forall a, In a (w_held w) -> kstep (w_client w) (KGive a) <> None /\ kstep (w_client w) (KDrop a) <> None).
Proof.
  intros D. destruct (desks_inv _ D) as [VR (E & G & I & SH & SF)]. split.
  - intros pick b. cbn. destruct (Get (k_pool (w_client w)) pick) as [p1 a] eqn:Eg.
    destruct (get_inv _ _ _ _ _ I Eg) as (I1 & _ & _ & m & Hm & Bm).
    destruct (i_good _ _ I1 _ _ Hm) as (_ & _ & W & _).
    unfold pool_read. rewrite Hm. cbn. destruct (ReadBytes m b) as [[[m1 ok] e]|] eqn:R; [|exfalso; eapply ReadBytes_no_panic; eauto].
    assert (C : forall ok' e', ok' = ok -> e' = e -> exists p3, pool_close (set_heap (update (p_heap p1) a m1) p1) a = Some p3).
    { intros _ _ _ _. unfold pool_close. cbn. erewrite update_same by exact Hm. cbn.
      assert (RD : pool_read p1 a b = Some (set_heap (update (p_heap p1) a m1) p1, ok, e)) by (unfold pool_read; rewrite Hm; cbn; rewrite R; reflexivity).
      pose proof (read_inv _ _ _ _ _ _ _ I1 (or_introl eq_refl) RD) as I2.
      destruct (i_good _ _ I2 a m1) as (Pd & _); [cbn; eapply update_same; exact Hm|].
      destruct (MsgClose_total m1 Pd) as (m' & put & ->). cbn. eauto. }
    destruct (C ok e eq_refl eq_refl) as (p3 & C'). destruct ok; [destruct e|]; try rewrite C'; discriminate.
  - intros a Ha. destruct (SH a Ha) as (m & b & c & A & _). split; cbn.
    + rewrite A. discriminate.
    + unfold pool_close. rewrite A. destruct (i_good _ _ I _ _ A) as (Pd & _). cbn.
      destruct (MsgClose_total m Pd) as (m' & put & ->). cbn. discriminate.
Qed.

Lemma close_received p a m b c p' : nth_error (p_heap p) a = Some m -> SpecHandle.received m b c -> pool_close p a = Some p' ->
  p_free p' = a :: p_free p.
Proof.
  intros A Rc C. assert (NE : IsEmpty m = false) by (eapply received_shows; exact Rc).
  unfold pool_close in C. rewrite A in C. cbn in C. unfold MsgClose in C. rewrite NE in C. cbn in C.
  destruct (m_pooled m); [|discriminate]. injection C as <-. reflexivity.
Qed.
Lemma given_back w : desks w ->
  (forall a k', In a (w_held w) -> kstep (w_client w) (KDrop a) = Some k' ->
     k_mgr k' = k_mgr (w_client w) /\ p_free (k_pool k') = a :: p_free (k_pool (w_client w)) /\
     forall x, x <> a -> nth_error (p_heap (k_pool k')) x = nth_error (p_heap (k_pool (w_client w))) x) /\
  (forall pick b p1 a p2 ok e k', Get (k_pool (w_client w)) pick = (p1, a) -> pool_read p1 a b = Some (p2, ok, e) ->
     ok = false \/ e <> None -> kstep (w_client w) (KReceive pick b) = Some k' ->
     k_mgr k' = k_mgr (w_client w) /\ (forall x, x <> a -> nth_error (p_heap (k_pool k')) x = nth_error (p_heap p1) x) /\
     (1 <= length b <= p_size (k_pool (w_client w)) -> p_free (k_pool k') = a :: p_free p1) /\
     (~ 1 <= length b <= p_size (k_pool (w_client w)) -> p_free (k_pool k') = p_free p1)).
Proof.
  intros D. destruct (desks_inv _ D) as [VR (E & G & I & SH & SF)]. split.
  - intros a k' Ha K. destruct (SH a Ha) as (m & b & c & A & Rc & _). cbn in K.
    destruct (pool_close (k_pool (w_client w)) a) as [p'|] eqn:C; [|discriminate]. cbn in K. injection K as <-.
    split; [reflexivity|]. split; [eapply close_received; eauto|]. intros x N. exact (close_kept _ _ _ x C N).
  - intros pick b p1 a p2 ok e k' Eg R No K. destruct (get_inv _ _ _ _ _ I Eg) as (I1 & _ & Sz & m & Hm & Bm).
    assert (C : exists p3, pool_close p2 a = Some p3 /\ k' = with_pool (w_client w) p3).
    { cbn in K. rewrite Eg, R in K. destruct ok; [destruct e|]; try (destruct (pool_close p2 a) as [p3|]; [|discriminate]; injection K as <-; eauto).
      destruct No; congruence. }
    destruct C as (p3 & C & ->). split; [reflexivity|]. split.
    { intros x N. cbn. rewrite (close_kept _ _ _ x C N). exact (read_kept _ _ _ _ _ _ x R N). }
    destruct (i_good _ _ I1 _ _ Hm) as (Pd & Lm & _ & _). rewrite Sz in Lm.
    unfold pool_read in R. rewrite Hm in R. cbn in R. destruct (ReadBytes m b) as [[[m1 ok1] e1]|] eqn:RB; [|discriminate].
    injection R as <- -> ->. unfold pool_close in C. cbn [p_heap set_heap] in C. erewrite update_same in C by exact Hm. cbn in C.
    cbn [k_pool with_pool]. split.
    + intros L. destruct (dec b) as [[ok2 e2] o] eqn:Ed.
      destruct (ReadBytes_dec m b ok2 e2 o) as (m2 & R2 & _ & _ & L2); [lia|lia|exact Bm|exact Ed|].
      rewrite RB in R2. injection R2 as <- <- <-. unfold MsgClose in C. unfold IsEmpty in C. rewrite L2 in C.
      destruct (Nat.ltb_spec (length b) 1); [lia|]. cbn in C. destruct (m_pooled m1) eqn:Em1; [|discriminate].
      injection C as <-. reflexivity.
    + intros L. assert (m1 = m).
      { unfold ReadBytes in RB. destruct (Nat.ltb_spec (length b) 1); [injection RB as <- _ _; reflexivity|].
        destruct (Nat.ltb_spec (length (m_buf m)) (length b)); [injection RB as <- _ _; reflexivity|lia]. }
      subst m1. unfold MsgClose, IsEmpty in C. destruct Bm as (L0 & _). rewrite L0 in C. cbn in C. injection C as <-. reflexivity.
Qed.

(* ----- runs, for the cases ----- *)
Inductive act := Do (e : kev) | Back (i : nat).
Definition inb (a : nat) (l : list nat) : bool := existsb (Nat.eqb a) l.
Definition go (w : desk) (x : act) : option desk :=
  let k := w_client w in
  match x with
  | Do (KReceive pick b as e) =>
      let '(p1, a) := Get (k_pool k) pick in
      let? (p2, ok, er) := pool_read p1 a b in
      let? k' := kstep k e in
      Some (MkDesk k' (match ok, er with true, None => a :: w_held w | _, _ => w_held w end) (w_done w) ((a, b) :: w_frames w))
  | Do (KGive a as e) | Do (KDrop a as e) =>
      if inb a (w_held w) then let? k' := kstep k e in Some (MkDesk k' (remove Nat.eq_dec a (w_held w)) (w_done w) (w_frames w)) else None
  | Do (KMgr _ as e) => let? k' := kstep k e in Some (MkDesk k' (w_held w) (w_done w) (w_frames w))
  | Do (KClose i as e) =>
      match nth_error (threads (k_mgr k)) i with
      | Some (AwR _ (AwReply (Some _))) =>
          if inb i (w_done w) then None else let? k' := kstep k e in Some (MkDesk k' (w_held w) (i :: w_done w) (w_frames w))
      | _ => None
      end
  | Back i =>
      match nth_error (threads (k_mgr k)) i with
      | Some (FuR m None) => if inb i (w_done w) then None else Some (MkDesk k (rm_content m :: w_held w) (i :: w_done w) (w_frames w))
      | _ => None
      end
  end.
Fixpoint gos (w : desk) (l : list act) : option desk :=
  match l with [] => Some w | x :: r => let? w1 := go w x in gos w1 r end.
Lemma inb_spec a l : inb a l = true <-> In a l.
Proof.
  unfold inb. rewrite existsb_exists. split; [intros (x & Hx & E); apply Nat.eqb_eq in E; subst; exact Hx|].
  intros H. exists a. split; [exact H|apply Nat.eqb_refl].
Qed.
Lemma inb_not a l : inb a l = false -> ~ In a l.
Proof. intros E C. apply inb_spec in C. congruence. Qed.
Lemma go_moves w x w' : go w x = Some w' -> moves w w'.
Proof.
  destruct w as [k h d F], x as [[pick b|a|a|e|i]|i]; unfold go; cbn [w_client w_held w_done w_frames]; intros H.
  - destruct (Get (k_pool k) pick) as [p1 a] eqn:Eg. destruct (pool_read p1 a b) as [[[p2 ok] er]|] eqn:R; [|discriminate].
    destruct (kstep k (KReceive pick b)) as [k'|] eqn:K; [|discriminate]. injection H as <-.
    destruct ok; [destruct er|]; [eapply Mv_refuse| |eapply Mv_refuse]; eauto; [right; discriminate|eapply Mv_receive; eauto].
  - destruct (inb a h) eqn:I; [|discriminate]. apply inb_spec in I. destruct (kstep k (KGive a)) eqn:K; [|discriminate]. injection H as <-. eapply Mv_give; eauto.
  - destruct (inb a h) eqn:I; [|discriminate]. apply inb_spec in I. destruct (kstep k (KDrop a)) eqn:K; [|discriminate]. injection H as <-. eapply Mv_drop; eauto.
  - destruct (kstep k (KMgr e)) eqn:K; [|discriminate]. injection H as <-. eapply Mv_manager; eauto.
  - destruct (nth_error (threads (k_mgr k)) i) as [[| | | | | | | | | | | | |r [| |[m|]]| | | |]|] eqn:Et; try discriminate.
    destruct (inb i d) eqn:I; [discriminate|]. apply inb_not in I. destruct (kstep k (KClose i)) eqn:K; [|discriminate]. injection H as <-.
    eapply Mv_close; [split; eassumption|exact K].
  - destruct (nth_error (threads (k_mgr k)) i) as [[| | | | | |m [|]| | | | | | | | | | |]|] eqn:Et; try discriminate.
    destruct (inb i d) eqn:I; [discriminate|]. apply inb_not in I. injection H as <-. eapply Mv_back; eauto.
Qed.
Lemma moved_trans w1 w2 w3 : moved w1 w2 -> moved w2 w3 -> moved w1 w3.
Proof. intros A B. induction B; [exact A|]. eapply Md_step; [apply IHB, A|eassumption]. Qed.
Lemma gos_moved l w w' : gos w l = Some w' -> moved w w'.
Proof.
  revert w. induction l as [|x l IH]; cbn; intros w H; [injection H as <-; constructor|].
  destruct (go w x) as [w1|] eqn:G; [|discriminate]. eapply moved_trans; [|apply IH, H].
  apply Md_step with (w2 := w); [constructor|eapply go_moves, G].
Qed.
Lemma gos_desks l size w : gos (MkDesk (new_client size) [] [] []) l = Some w -> desks w.
Proof. intros H. exists size. eapply gos_moved, H. Qed.
