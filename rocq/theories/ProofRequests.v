From Coq Require Import List Arith NArith ZArith Lia Bool Permutation.
From Verif Require Import BaseBytes BaseConc ModelMessage ModelRequests SpecRequests.
Import ListNotations.
Open Scope nat_scope.

Lemma beqb a b : reflect (a = b) (bytes_eqb a b).
Proof. apply bytes_eqb_spec. Qed.

Definition id_at (qs : list request) (r : nat) : option bytes := option_map r_id (nth_error qs r).
Lemma id_at_lt qs r id : id_at qs r = Some id -> r < length qs.
Proof. unfold id_at. intros H. apply nth_error_Some. destruct (nth_error qs r); discriminate. Qed.
Lemma id_at_some qs r id : id_at qs r = Some id <-> exists q, nth_error qs r = Some q /\ r_id q = id.
Proof.
  unfold id_at. destruct (nth_error qs r); cbn; split.
  - intros [= <-]. eauto.
  - intros (q & [= ->] & <-). reflexivity.
  - discriminate.
  - intros (q & ? & _); discriminate.
Qed.
Lemma id_at_In qs r id : id_at qs r = Some id -> In id (map r_id qs).
Proof. rewrite id_at_some. intros (q & H & <-). apply in_map. eapply nth_error_In; eauto. Qed.
Lemma In_id_at qs id : In id (map r_id qs) -> exists r, id_at qs r = Some id.
Proof.
  rewrite in_map_iff. intros (q & <- & H). apply In_nth_error in H as [r H]. exists r. apply id_at_some. eauto.
Qed.
Lemma id_at_inj qs r1 r2 id : NoDup (map r_id qs) -> id_at qs r1 = Some id -> id_at qs r2 = Some id -> r1 = r2.
Proof.
  intros ND H1 H2. pose proof (id_at_lt _ _ _ H1).
  eapply (proj1 (NoDup_nth_error (map r_id qs)) ND).
  - rewrite map_length. assumption.
  - unfold id_at in *. rewrite !nth_error_map. congruence.
Qed.
Lemma id_at_app qs q r : id_at (qs ++ [q]) r =
  if r <? length qs then id_at qs r else if r =? length qs then Some (r_id q) else None.
Proof. unfold id_at. rewrite nth_error_snoc. destruct (r <? length qs), (r =? length qs); reflexivity. Qed.
Lemma id_at_set qs r0 q c r : nth_error qs r0 = Some q ->
  id_at (set_nth qs r0 (MkReq (r_id q) c)) r = id_at qs r.
Proof.
  intros H. unfold id_at. destruct (Nat.eq_dec r0 r) as [<-|N].
  - erewrite set_nth_eq by eassumption. rewrite H. reflexivity.
  - rewrite set_nth_ne by assumption. reflexivity.
Qed.
Lemma map_id_set qs r0 q c : nth_error qs r0 = Some q ->
  map r_id (set_nth qs r0 (MkReq (r_id q) c)) = map r_id qs.
Proof.
  intros H. destruct (set_nth_split _ _ _ H) as (l1 & l2 & -> & _ & ->). rewrite !map_app. reflexivity.
Qed.

(* identifiers of requests that are not registered yet *)
Definition cr1_id (t : thread) : list bytes := match t with Cr1 n => [le_put 8 n] | _ => [] end.
Definition all_ids (s : manager) : list bytes := flat_map cr1_id (threads s) ++ map r_id (reqs s).

Lemma flat_map_set ts i t t1 : nth_error ts i = Some t -> exists a b,
  flat_map cr1_id ts = a ++ cr1_id t ++ b /\ flat_map cr1_id (set_nth ts i t1) = a ++ cr1_id t1 ++ b.
Proof.
  intros H. destruct (set_nth_split _ _ _ H) as (l1 & l2 & -> & _ & ->).
  rewrite !flat_map_app. cbn. eauto.
Qed.

(* ---------- shape of steps ---------- *)
Definition refs (t : thread) : option nat :=
  match t with
  | CrR r | Fu1 _ r | Fu2 _ r | FuR _ (Some r) | Fa1 _ _ r | Fa2 _ _ r | FaR _ _ (Some r)
  | Aw0 r | Aw1 r _ | AwR r _ => Some r
  | _ => None
  end.
(* resolver threads that found request r *)
Definition eng (t : thread) : option (bytes * nat) :=
  match t with
  | Fu1 m r | Fu2 m r | FuR m (Some r) => Some (rm_id m, r)
  | Fa1 id _ r | Fa2 id _ r | FaR id _ (Some r) => Some (id, r)
  | _ => None
  end.
Definition settles (qs : list request) (t : thread) (id : bytes) : Prop :=
  match t with
  | Fu2 m _ | FuR m (Some _) => id = rm_id m
  | Fa2 x _ _ | FaR x _ (Some _) => id = x
  | AwR r (AwCtx _) => id_at qs r = Some id
  | _ => False
  end.
Definition settled (s : manager) (id : bytes) : Prop :=
  exists i t, nth_error (threads s) i = Some t /\ settles (reqs s) t id.

Record rinv (s : manager) : Prop := {
  v_last : lastID s = N.of_nat (creations s);
  v_ids : NoDup (all_ids s);
  v_num : forall id, In id (all_ids s) -> exists n, (1 <= n <= N.of_nat (creations s))%N /\ id = le_put 8 n;
  v_refs : forall i t r, nth_error (threads s) i = Some t -> refs t = Some r -> r < length (reqs s);
  v_nodup : NoDup (map fst (pending s));
  v_pend : forall id r, map_get bytes_eqb (pending s) id = Some r <-> id_at (reqs s) r = Some id /\ ~ settled s id;
  v_eng : forall i t id r, nth_error (threads s) i = Some t -> eng t = Some (id, r) -> id_at (reqs s) r = Some id;
  v_chan : forall r q v, nth_error (reqs s) r = Some q -> In v (r_chan q) ->
     exists i t, nth_error (threads s) i = Some t /\ succeeded r t = true /\ resolves t = Some (r_id q, v);
  v_recv : forall i r res, nth_error (threads s) i = Some (AwR r res) -> (forall e, res <> AwCtx e) ->
     exists j t id v, nth_error (threads s) j = Some t /\ succeeded r t = true /\ id_at (reqs s) r = Some id /\
       resolves t = Some (id, v) /\ reply_of v = res;
  v_cons : forall r q, nth_error (reqs s) r = Some q ->
     count (succeeded r) (threads s) = length (r_chan q) + count (received r) (threads s);
  v_cap : forall r q, nth_error (reqs s) r = Some q -> length (r_chan q) <= chan_cap }.

Lemma rinv_ids_reqs s : rinv s -> NoDup (map r_id (reqs s)).
Proof.
  intros I. pose proof (v_ids _ I) as H. unfold all_ids in H.
  induction (flat_map cr1_id (threads s)); cbn in H; [assumption|]. inversion H; auto.
Qed.
Lemma settled_in s id : rinv s -> settled s id -> In id (map r_id (reqs s)).
Proof.
  intros I (i & t & Ht & Hs). destruct t as [| | | | | | m [r|] | | | | x e [r|] | | | r [e|e|m] | | | |];
    cbn in Hs; try contradiction.
  all: try (subst; eapply id_at_In; eapply (v_eng _ I); [exact Ht|reflexivity]).
  eapply id_at_In; eauto.
Qed.

Lemma creations_set s i t t1 : nth_error (threads s) i = Some t ->
  count past_add (set_nth (threads s) i t1) + b2i (past_add t) = creations s + b2i (past_add t1).
Proof. apply count_set. Qed.

Lemma rinv_new : rinv NewRequestManager.
Proof.
  assert (N0 : forall (A : Type) i (x : A), nth_error [] i = Some x -> False) by (intros A [] x; discriminate).
  constructor; cbn [NewRequestManager lastID pending reqs threads].
  - reflexivity.
  - constructor.
  - intros id [].
  - intros i t r H. destruct (N0 _ _ _ H).
  - constructor.
  - intros id r. split; [discriminate|]. intros [H _]. apply id_at_lt in H. cbn in H. lia.
  - intros i t id r H. destruct (N0 _ _ _ H).
  - intros r q v H. destruct (N0 _ _ _ H).
  - intros i r res H. destruct (N0 _ _ _ H).
  - intros r q H. destruct (N0 _ _ _ H).
  - intros r q H. destruct (N0 _ _ _ H).
Qed.

(* ---------- adding a call ---------- *)
Lemma call_inv s t : rinv s ->
  past_add t = false -> cr1_id t = [] -> eng t = None -> (forall qs id, ~ settles qs t id) ->
  (forall r, succeeded r t = false) -> (forall r, received r t = false) ->
  (forall r, refs t = Some r -> r < length (reqs s)) -> (forall r res, t <> AwR r res) ->
  rinv (MkMgr (lastID s) (pending s) (reqs s) (threads s ++ [t])).
Proof.
  intros I Hp Hc He Hs Hsu Hre Href Haw.
  assert (CR : creations (MkMgr (lastID s) (pending s) (reqs s) (threads s ++ [t])) = creations s).
  { unfold creations. cbn. rewrite count_snoc, Hp. cbn. lia. }
  assert (AI : all_ids (MkMgr (lastID s) (pending s) (reqs s) (threads s ++ [t])) = all_ids s).
  { unfold all_ids. cbn. rewrite flat_map_app. cbn. rewrite Hc, !app_nil_r. reflexivity. }
  assert (ST : forall id, settled (MkMgr (lastID s) (pending s) (reqs s) (threads s ++ [t])) id <-> settled s id).
  { intros id. unfold settled; cbn. split.
    - intros (i & t' & H & H'). apply nth_error_snoc_some in H as [H|[-> ->]]; [eauto|]. destruct (Hs _ _ H').
    - intros (i & t' & H & H'). exists i, t'. rewrite nth_error_snoc_some. auto. }
  constructor; rewrite ?CR, ?AI; cbn [lastID pending reqs threads].
  - apply (v_last _ I).
  - apply (v_ids _ I).
  - apply (v_num _ I).
  - intros i t' r H. apply nth_error_snoc_some in H as [H|[-> ->]]; [eapply (v_refs _ I); eauto|auto].
  - apply (v_nodup _ I).
  - intros id r. rewrite ST. apply (v_pend _ I).
  - intros i t' id r H. apply nth_error_snoc_some in H as [H|[-> ->]]; [eapply (v_eng _ I); eauto|congruence].
  - intros r q v H1 H2. destruct (v_chan _ I r q v H1 H2) as (i & t' & A & B). exists i, t'.
    rewrite nth_error_snoc_some. auto.
  - intros i r res H N. apply nth_error_snoc_some in H as [H|[-> E]]; [|exfalso; eapply Haw; eauto].
    destruct (v_recv _ I i r res H N) as (j & t' & id & v & A & B). exists j, t', id, v.
    rewrite nth_error_snoc_some. auto.
  - intros r q H. rewrite !count_snoc, Hsu, Hre. cbn. rewrite (v_cons _ I r q H). lia.
  - apply (v_cap _ I).
Qed.

(* ---------- steps that do not touch the channels ---------- *)
(* a thread moves from t to t1; requests are only appended; the map changes to p *)
Lemma quiet_inv s i t t1 last p qs :
  rinv s -> nth_error (threads s) i = Some t ->
  let s' := MkMgr last p qs (set_nth (threads s) i t1) in
  (forall r, id_at (reqs s) r <> None -> nth_error qs r = nth_error (reqs s) r) ->
  (forall r q, nth_error qs r = Some q -> length (reqs s) <= r -> r_chan q = []) ->
  length (reqs s) <= length qs ->
  lastID s' = N.of_nat (creations s') -> NoDup (all_ids s') ->
  (forall id, In id (all_ids s') -> exists n, (1 <= n <= N.of_nat (creations s'))%N /\ id = le_put 8 n) ->
  (forall r, refs t1 = Some r -> r < length qs) ->
  NoDup (map fst p) ->
  (forall id r, map_get bytes_eqb p id = Some r <-> id_at qs r = Some id /\ ~ settled s' id) ->
  (forall id r, eng t1 = Some (id, r) -> id_at qs r = Some id) ->
  (forall r, succeeded r t = false) -> (forall r, succeeded r t1 = false) ->
  (forall r, received r t = false) -> (forall r, received r t1 = false) ->
  (forall r res, t1 = AwR r res -> exists e, res = AwCtx e) ->
  rinv s'.
Proof.
  intros I Ht s' Hq Hqn Hlen H1 H2 H3 H4 H5 H6 H7 S0 S1 R0 R1 A1.
  assert (OLD : forall r, r < length (reqs s) -> nth_error qs r = nth_error (reqs s) r).
  { intros r L. apply Hq. unfold id_at. apply nth_error_Some in L. destruct (nth_error (reqs s) r); [discriminate|congruence]. }
  assert (OID : forall r id, id_at (reqs s) r = Some id -> id_at qs r = Some id).
  { intros r id H. unfold id_at in *. rewrite OLD; [assumption|]. eapply id_at_lt; exact H. }
  constructor; try assumption.
  - intros j t' r Hj Hr. cbn in Hj. apply set_nth_lookup in Hj as [[_ ->]|[_ Hj]]; [apply H4, Hr|].
    pose proof (v_refs _ I _ _ _ Hj Hr). cbn. lia.
  - intros j t' id r Hj Hr. cbn in Hj. apply set_nth_lookup in Hj as [[_ ->]|[_ Hj]]; [apply H7, Hr|].
    apply OID. eapply (v_eng _ I); eauto.
  - cbn. intros r q v Hr Hv. destruct (Nat.lt_ge_cases r (length (reqs s))) as [L|L].
    2:{ rewrite (Hqn r q Hr L) in Hv. destruct Hv. }
    rewrite OLD in Hr by assumption. destruct (v_chan _ I r q v Hr Hv) as (j & t' & A & B & C).
    exists j, t'. split; [|auto]. rewrite set_nth_ne; [assumption|]. intros <-. rewrite Ht in A. injection A as <-.
    rewrite S0 in B. discriminate.
  - cbn. intros j r res Hj N. apply set_nth_lookup in Hj as [[_ E]|[_ Hj]].
    { symmetry in E. destruct (A1 r res E) as [e ->]. destruct (N e eq_refl). }
    destruct (v_recv _ I j r res Hj N) as (k & t' & id & v & A & B & C & D). exists k, t', id, v.
    split; [|split; [exact B|split; [apply OID, C|exact D]]].
    rewrite set_nth_ne; [assumption|]. intros <-. rewrite Ht in A. injection A as <-. rewrite S0 in B. discriminate.
  - cbn. intros r q Hr. pose proof (count_set (succeeded r) (threads s) i t1 t Ht) as C1.
    pose proof (count_set (received r) (threads s) i t1 t Ht) as C2.
    rewrite S0, S1 in C1. rewrite R0, R1 in C2. cbn in C1, C2.
    destruct (Nat.lt_ge_cases r (length (reqs s))) as [L|L].
    + rewrite OLD in Hr by assumption. pose proof (v_cons _ I r q Hr). lia.
    + rewrite (Hqn r q Hr L). cbn.
      assert (X : count (succeeded r) (threads s) = 0).
      { apply count_zero. intros x Hx. apply In_nth_error in Hx as [j Hj]. destruct (succeeded r x) eqn:E; [|reflexivity].
        assert (refs x = Some r).
        { destruct x as [| | | | | | m [y|] | | | | z e [y|] | | | y [e|e|m] | | | |]; cbn in E |- *; try discriminate;
            apply Nat.eqb_eq in E; congruence. }
        pose proof (v_refs _ I _ _ _ Hj H). lia. }
      assert (Y : count (received r) (threads s) = 0).
      { apply count_zero. intros x Hx. apply In_nth_error in Hx as [j Hj]. destruct (received r x) eqn:E; [|reflexivity].
        assert (refs x = Some r).
        { destruct x as [| | | | | | m [y|] | | | | z e [y|] | | | y [e|e|m] | | | |]; cbn in E |- *; try discriminate;
            apply Nat.eqb_eq in E; congruence. }
        pose proof (v_refs _ I _ _ _ Hj H). lia. }
      lia.
  - cbn. intros r q Hr. destruct (Nat.lt_ge_cases r (length (reqs s))) as [L|L].
    + rewrite OLD in Hr by assumption. eapply (v_cap _ I); eauto.
    + rewrite (Hqn r q Hr L). cbn. unfold chan_cap. lia.
Qed.

(* settled after a thread moved *)
Lemma settled_set s i t t1 last p qs id : nth_error (threads s) i = Some t ->
  (forall j x, nth_error (threads s) j = Some x -> settles qs x id <-> settles (reqs s) x id) ->
  (settles (reqs s) t id -> settles qs t1 id) ->
  settled (MkMgr last p qs (set_nth (threads s) i t1)) id <-> settled s id \/ settles qs t1 id.
Proof.
  intros Ht Hx Hm. unfold settled; cbn. split.
  - intros (j & x & Hj & S). apply set_nth_lookup in Hj as [[<- ->]|[N Hj]]; [auto|].
    left. exists j, x. split; [assumption|]. apply (Hx j x Hj), S.
  - intros [(j & x & Hj & S)|S].
    + destruct (Nat.eq_dec i j) as [<-|N].
      * rewrite Ht in Hj. injection Hj as <-. exists i, t1. split; [eapply set_nth_eq; eauto|auto].
      * exists j, x. split; [rewrite set_nth_ne; assumption|]. apply (Hx j x Hj), S.
    + exists i, t1. split; [eapply set_nth_eq; eauto|assumption].
Qed.

Ltac quiet I Ht :=
  match goal with |- rinv (MkMgr ?l ?p ?q (set_nth _ ?i ?t1)) =>
    eapply (quiet_inv _ i _ t1 l p q I Ht) end.

Lemma nth_error_Some_lt {A} (l : list A) i x : nth_error l i = Some x -> i < length l.
Proof. intros H. apply nth_error_Some. congruence. Qed.

Lemma move_inv s i t t1 :
  rinv s -> nth_error (threads s) i = Some t ->
  past_add t = past_add t1 -> cr1_id t = [] -> cr1_id t1 = [] ->
  (forall r, refs t1 = Some r -> r < length (reqs s)) ->
  (forall id, settles (reqs s) t id <-> settles (reqs s) t1 id) ->
  (forall id r, eng t1 = Some (id, r) -> id_at (reqs s) r = Some id) ->
  (forall r, succeeded r t = false) -> (forall r, succeeded r t1 = false) ->
  (forall r, received r t = false) -> (forall r, received r t1 = false) ->
  (forall r res, t1 = AwR r res -> exists e, res = AwCtx e) ->
  rinv (set_thread i t1 s).
Proof.
  intros I Ht P0 C0 C1 RF ST EN S0 S1 R0 R1 A1. unfold set_thread.
  assert (CR : creations (MkMgr (lastID s) (pending s) (reqs s) (set_nth (threads s) i t1)) = creations s).
  { unfold creations; cbn. pose proof (count_set past_add (threads s) i t1 t Ht). rewrite P0 in H.
    unfold creations in *. lia. }
  assert (AI : all_ids (MkMgr (lastID s) (pending s) (reqs s) (set_nth (threads s) i t1)) = all_ids s).
  { unfold all_ids; cbn. destruct (flat_map_set (threads s) i t t1 Ht) as (a & b & -> & ->). rewrite C0, C1. reflexivity. }
  quiet I Ht; auto.
  - intros r q H L. apply nth_error_Some_lt in H. lia.
  - rewrite CR. apply (v_last _ I).
  - rewrite AI. apply (v_ids _ I).
  - rewrite AI, CR. apply (v_num _ I).
  - apply (v_nodup _ I).
  - intros id r. rewrite (v_pend _ I). rewrite (settled_set s i t t1); [|assumption|tauto|apply ST].
    rewrite <- ST. split; [intros [A B]; split; [assumption|]|tauto].
    intros [C|C]; [tauto|]. apply B. exists i, t. auto.
Qed.

(* a thread removes identifier x from the map and thereby settles it *)
Lemma dereg_inv s i t t1 x :
  rinv s -> nth_error (threads s) i = Some t ->
  past_add t = past_add t1 -> cr1_id t = [] -> cr1_id t1 = [] ->
  (forall r, refs t1 = Some r -> r < length (reqs s)) ->
  (forall id, ~ settles (reqs s) t id) -> (forall id, settles (reqs s) t1 id <-> id = x) ->
  (forall id r, eng t1 = Some (id, r) -> id_at (reqs s) r = Some id) ->
  (forall r, succeeded r t = false) -> (forall r, succeeded r t1 = false) ->
  (forall r, received r t = false) -> (forall r, received r t1 = false) ->
  (forall r res, t1 = AwR r res -> exists e, res = AwCtx e) ->
  rinv (set_thread i t1 (deregister s x)).
Proof.
  intros I Ht P0 C0 C1 RF ST0 ST1 EN S0 S1 R0 R1 A1. unfold set_thread, deregister, set_pending; cbn [lastID pending reqs threads].
  set (p := map_del bytes_eqb (pending s) x).
  assert (CR : creations (MkMgr (lastID s) p (reqs s) (set_nth (threads s) i t1)) = creations s).
  { unfold creations; cbn. pose proof (count_set past_add (threads s) i t1 t Ht). rewrite P0 in H.
    unfold creations in *. lia. }
  assert (AI : all_ids (MkMgr (lastID s) p (reqs s) (set_nth (threads s) i t1)) = all_ids s).
  { unfold all_ids; cbn. destruct (flat_map_set (threads s) i t t1 Ht) as (a & b & -> & ->). rewrite C0, C1. reflexivity. }
  quiet I Ht; auto.
  - intros r q H L. apply nth_error_Some_lt in H. lia.
  - rewrite CR. apply (v_last _ I).
  - rewrite AI. apply (v_ids _ I).
  - rewrite AI, CR. apply (v_num _ I).
  - apply map_del_NoDup; [exact beqb|apply (v_nodup _ I)].
  - intros id r. unfold p. rewrite map_get_del by exact beqb.
    rewrite (settled_set s i t t1); [|assumption|tauto|intros C; destruct (ST0 _ C)].
    rewrite ST1. destruct (beqb x id) as [->|N].
    + split; [discriminate|]. intros [_ B]. destruct B. right. reflexivity.
    + rewrite (v_pend _ I). split; [intros [A B]; split; [assumption|]|tauto].
      intros [C|C]; [tauto|congruence].
Qed.

(* a resolver sends its value *)
Lemma send_inv s i t t1 s1 r v id :
  rinv s -> nth_error (threads s) i = Some t ->
  past_add t = false -> past_add t1 = false -> cr1_id t = [] -> cr1_id t1 = [] ->
  eng t = Some (id, r) -> eng t1 = Some (id, r) -> refs t1 = Some r ->
  (forall id, settles (reqs s) t id <-> settles (reqs s) t1 id) ->
  (forall qs id, settles qs t1 id <-> settles (reqs s) t1 id) ->
  (forall x, succeeded x t = false) -> (forall x, succeeded x t1 = (x =? r)) ->
  (forall x, received x t = false) -> (forall x, received x t1 = false) ->
  resolves t1 = Some (id, v) -> (forall r res, t1 <> AwR r res) ->
  send s r v = Some s1 ->
  rinv (set_thread i t1 s1).
Proof.
  intros I Ht P0 P1 C0 C1 E0 E1 RF ST STq S0 S1 R0 R1 RS A1 Hs.
  unfold send in Hs. destruct (nth_error (reqs s) r) as [q|] eqn:Hq; [|discriminate].
  destruct (Nat.ltb_spec (length (r_chan q)) chan_cap) as [L|L]; [|discriminate]. injection Hs as <-.
  set (qs := set_nth (reqs s) r (MkReq (r_id q) (r_chan q ++ [v]))).
  assert (Hid : id_at (reqs s) r = Some id) by (eapply (v_eng _ I); eauto).
  assert (Qid : r_id q = id) by (apply id_at_some in Hid as (q' & Hq' & <-); congruence).
  assert (IA : forall x, id_at qs x = id_at (reqs s) x) by (intros x; apply id_at_set, Hq).
  unfold set_thread, set_reqs; cbn [lastID pending reqs threads].
  assert (CR : creations (MkMgr (lastID s) (pending s) qs (set_nth (threads s) i t1)) = creations s).
  { unfold creations; cbn. pose proof (count_set past_add (threads s) i t1 t Ht). rewrite P0, P1 in H.
    unfold creations in *. lia. }
  assert (AI : all_ids (MkMgr (lastID s) (pending s) qs (set_nth (threads s) i t1)) = all_ids s).
  { unfold all_ids; cbn. destruct (flat_map_set (threads s) i t t1 Ht) as (a & b & -> & ->). rewrite C0, C1.
    unfold qs. rewrite map_id_set by assumption. reflexivity. }
  assert (SX : forall x y, settles qs x y <-> settles (reqs s) x y).
  { intros x y. destruct x as [| | | | | | m [z|] | | | | z e [w|] | | | z [e|e|m] | | | |]; cbn; try tauto. rewrite IA. tauto. }
  assert (SS : forall y, settled (MkMgr (lastID s) (pending s) qs (set_nth (threads s) i t1)) y <-> settled s y).
  { intros y. rewrite (settled_set s i t t1); [|assumption|intros; apply SX|].
    - rewrite SX, <- ST. split; [|auto]. intros [C|C]; [assumption|]. exists i, t. auto.
    - intros C. apply SX, ST, C. }
  assert (FIN : forall j x, nth_error (threads s) j = Some x -> succeeded r x = true \/ (exists y, succeeded y x = true) ->
            nth_error (set_nth (threads s) i t1) j = Some x).
  { intros j x Hj Hx. rewrite set_nth_ne; [assumption|]. intros <-. rewrite Ht in Hj. injection Hj as <-.
    destruct Hx as [Hx|[y Hx]]; rewrite S0 in Hx; discriminate. }
  constructor; rewrite ?CR, ?AI; cbn [lastID pending reqs threads].
  - apply (v_last _ I).
  - apply (v_ids _ I).
  - apply (v_num _ I).
  - intros j x y Hj Hy. unfold qs. rewrite set_nth_length. apply set_nth_lookup in Hj as [[_ ->]|[_ Hj]].
    + rewrite RF in Hy. injection Hy as <-. eapply nth_error_Some_lt; eauto.
    + eapply (v_refs _ I); eauto.
  - apply (v_nodup _ I).
  - intros y z. rewrite SS, IA. apply (v_pend _ I).
  - intros j x y z Hj Hy. rewrite IA. apply set_nth_lookup in Hj as [[_ ->]|[_ Hj]]; [congruence|eapply (v_eng _ I); eauto].
  - intros y q' w Hy Hw. unfold qs in Hy. apply set_nth_lookup in Hy as [[<- ->]|[N Hy]]; cbn [r_id r_chan] in *.
    + apply in_app_or in Hw as [Hw|[<-|[]]].
      * destruct (v_chan _ I r q w Hq Hw) as (j & x & A & B & C). exists j, x. split; [apply FIN; auto|auto].
      * exists i, t1. split; [eapply set_nth_eq; eauto|]. rewrite S1, Nat.eqb_refl, Qid. auto.
    + destruct (v_chan _ I y q' w Hy Hw) as (j & x & A & B & C). exists j, x. split; [apply FIN; eauto|auto].
  - intros j y res Hj N. apply set_nth_lookup in Hj as [[_ E]|[_ Hj]]; [symmetry in E; destruct (A1 _ _ E)|].
    destruct (v_recv _ I j y res Hj N) as (k & x & d & w & A & B & C & D). exists k, x, d, w. rewrite IA.
    split; [apply FIN; eauto|auto].
  - intros y q' Hy. pose proof (count_set (succeeded y) (threads s) i t1 t Ht) as K1.
    pose proof (count_set (received y) (threads s) i t1 t Ht) as K2.
    rewrite S0, S1 in K1. rewrite R0, R1 in K2. cbn in K2.
    unfold qs in Hy. apply set_nth_lookup in Hy as [[<- ->]|[N Hy]]; cbn [r_chan].
    + rewrite Nat.eqb_refl in K1. cbn in K1. rewrite app_length. cbn.
      pose proof (v_cons _ I r q Hq). lia.
    + assert (y =? r = false) as E by (apply Nat.eqb_neq; congruence). rewrite E in K1. cbn in K1.
      pose proof (v_cons _ I y q' Hy). lia.
  - intros y q' Hy. unfold qs in Hy. apply set_nth_lookup in Hy as [[<- ->]|[N Hy]]; cbn [r_chan].
    + rewrite app_length. cbn. unfold chan_cap in *. lia.
    + eapply (v_cap _ I); eauto.
Qed.

(* AwaitReply takes a value *)
Lemma recv_inv s i r s1 v :
  rinv s -> nth_error (threads s) i = Some (Aw0 r) -> recv s r = Some (s1, v) ->
  rinv (set_thread i (AwR r (reply_of v)) s1).
Proof.
  intros I Ht Hs. unfold recv in Hs. destruct (nth_error (reqs s) r) as [q|] eqn:Hq; [|discriminate].
  destruct (r_chan q) as [|v' rest] eqn:Hc; [discriminate|]. injection Hs as <- <-.
  set (t1 := AwR r (reply_of v')). set (qs := set_nth (reqs s) r (MkReq (r_id q) rest)).
  assert (NC : forall e, reply_of v' <> AwCtx e) by (intros e; unfold reply_of; destruct (g_err v'); discriminate).
  assert (IA : forall x, id_at qs x = id_at (reqs s) x) by (intros x; apply id_at_set, Hq).
  unfold set_thread, set_reqs; cbn [lastID pending reqs threads].
  assert (CR : creations (MkMgr (lastID s) (pending s) qs (set_nth (threads s) i t1)) = creations s).
  { unfold creations; cbn. pose proof (count_set past_add (threads s) i t1 _ Ht). cbn in H.
    unfold creations in *. lia. }
  assert (AI : all_ids (MkMgr (lastID s) (pending s) qs (set_nth (threads s) i t1)) = all_ids s).
  { unfold all_ids; cbn. destruct (flat_map_set (threads s) i _ t1 Ht) as (a & b & -> & ->).
    unfold qs. rewrite map_id_set by assumption. reflexivity. }
  assert (SX : forall x y, settles qs x y <-> settles (reqs s) x y).
  { intros x y. destruct x as [| | | | | | m [z|] | | | | z e [w|] | | | z [e|e|m] | | | |]; cbn; try tauto. rewrite IA. tauto. }
  assert (NT : forall y, ~ settles qs t1 y).
  { intros y. unfold t1. cbn. destruct (reply_of v') eqn:E; [destruct (NC e eq_refl)|auto|auto]. }
  assert (SS : forall y, settled (MkMgr (lastID s) (pending s) qs (set_nth (threads s) i t1)) y <-> settled s y).
  { intros y. rewrite (settled_set s i (Aw0 r) t1); [|eassumption|intros; apply SX|].
    - split; [|auto]. intros [C|C]; [assumption|]. destruct (NT _ C).
    - intros []. }
  assert (RV : forall x, received x t1 = (x =? r)).
  { intros x. unfold t1. cbn. destruct (reply_of v') eqn:E; [destruct (NC e eq_refl)|auto|auto]. }
  assert (FIN : forall j x y, nth_error (threads s) j = Some x -> succeeded y x = true ->
            nth_error (set_nth (threads s) i t1) j = Some x).
  { intros j x y Hj Hx. rewrite set_nth_ne; [assumption|]. intros <-. rewrite Ht in Hj. injection Hj as <-. discriminate. }
  constructor; rewrite ?CR, ?AI; cbn [lastID pending reqs threads].
  - apply (v_last _ I).
  - apply (v_ids _ I).
  - apply (v_num _ I).
  - intros j x y Hj Hy. unfold qs. rewrite set_nth_length. apply set_nth_lookup in Hj as [[_ ->]|[_ Hj]].
    + cbn in Hy. injection Hy as <-. eapply nth_error_Some_lt; eauto.
    + eapply (v_refs _ I); eauto.
  - apply (v_nodup _ I).
  - intros y z. rewrite SS, IA. apply (v_pend _ I).
  - intros j x y z Hj Hy. rewrite IA. apply set_nth_lookup in Hj as [[_ ->]|[_ Hj]]; [discriminate|eapply (v_eng _ I); eauto].
  - intros y q' w Hy Hw. unfold qs in Hy. apply set_nth_lookup in Hy as [[<- ->]|[N Hy]]; cbn [r_id r_chan] in *.
    + destruct (v_chan _ I r q w Hq) as (j & x & A & B & C); [rewrite Hc; right; assumption|].
      exists j, x. split; [eapply FIN; eauto|auto].
    + destruct (v_chan _ I y q' w Hy Hw) as (j & x & A & B & C). exists j, x. split; [eapply FIN; eauto|auto].
  - intros j y res Hj N. apply set_nth_lookup in Hj as [[_ E]|[_ Hj]].
    + unfold t1 in E; injection E as -> ->. destruct (v_chan _ I r q v' Hq) as (k & x & A & B & C); [rewrite Hc; left; reflexivity|].
      exists k, x, (r_id q), v'. split; [eapply FIN; eauto|]. split; [assumption|]. rewrite IA.
      split; [apply id_at_some; eauto|auto].
    + destruct (v_recv _ I j y res Hj N) as (k & x & d & w & A & B & C & D). exists k, x, d, w. rewrite IA.
      split; [eapply FIN; eauto|auto].
  - intros y q' Hy. pose proof (count_set (succeeded y) (threads s) i t1 _ Ht) as K1.
    pose proof (count_set (received y) (threads s) i t1 _ Ht) as K2.
    rewrite RV in K2. cbn in K1, K2.
    unfold qs in Hy. apply set_nth_lookup in Hy as [[<- ->]|[N Hy]]; cbn [r_chan].
    + rewrite Nat.eqb_refl in K2. cbn in K2. pose proof (v_cons _ I r q Hq) as V. rewrite Hc in V. cbn in V. lia.
    + assert (y =? r = false) as E by (apply Nat.eqb_neq; congruence). rewrite E in K2. cbn in K2.
      pose proof (v_cons _ I y q' Hy). lia.
  - intros y q' Hy. unfold qs in Hy. apply set_nth_lookup in Hy as [[<- ->]|[N Hy]]; cbn [r_chan].
    + pose proof (v_cap _ I r q Hq) as V. rewrite Hc in V. cbn in V. lia.
    + eapply (v_cap _ I); eauto.
Qed.

(* Create: taking a number *)
Lemma le8_inj a b : (a < 2 ^ 64)%N -> (b < 2 ^ 64)%N -> le_put 8 a = le_put 8 b -> a = b.
Proof. intros Ha Hb H. eapply (le_put_inj 8); eauto. Qed.

Lemma add_inv s i : rinv s -> (N.of_nat (S (creations s)) < 2 ^ 64)%N -> nth_error (threads s) i = Some Cr0 ->
  rinv (set_thread i (Cr1 (snd (add_id s))) (fst (add_id s))).
Proof.
  intros I B Ht. unfold add_id; cbn [fst snd]. unfold set_thread, set_lastID; cbn [lastID pending reqs threads].
  pose proof (v_last _ I) as VL.
  assert (EN : ((lastID s + 1) mod 2 ^ 64 = N.of_nat (S (creations s)))%N).
  { rewrite VL, N.mod_small; lia. }
  rewrite EN. set (n := N.of_nat (S (creations s))) in *.
  assert (CR : creations (MkMgr n (pending s) (reqs s) (set_nth (threads s) i (Cr1 n))) = S (creations s)).
  { unfold creations; cbn. pose proof (count_set past_add (threads s) i (Cr1 n) _ Ht). cbn in H.
    unfold creations in *. lia. }
  assert (FRESH : ~ In (le_put 8 n) (all_ids s)).
  { intros C. destruct (v_num _ I _ C) as (k & Hk & E). apply le8_inj in E; lia. }
  assert (AI : Permutation (all_ids (MkMgr n (pending s) (reqs s) (set_nth (threads s) i (Cr1 n)))) (le_put 8 n :: all_ids s)).
  { unfold all_ids; cbn [threads reqs]. destruct (flat_map_set (threads s) i _ (Cr1 n) Ht) as (a & b & -> & ->).
    cbn [cr1_id app]. rewrite <- !app_assoc. cbn [app]. symmetry. apply Permutation_middle. }
  quiet I Ht; auto.
  - intros r q H L. apply nth_error_Some_lt in H. lia.
  - rewrite CR. reflexivity.
  - apply (Permutation_NoDup (Permutation_sym AI)). constructor; [assumption|apply (v_ids _ I)].
  - intros id Hid. apply (Permutation_in _ AI) in Hid as [<-|Hid]; rewrite CR.
    + exists n. split; [|reflexivity]. unfold n. lia.
    + destruct (v_num _ I _ Hid) as (k & Hk & E). exists k. split; [lia|assumption].
  - discriminate.
  - apply (v_nodup _ I).
  - intros id r. rewrite (v_pend _ I). rewrite (settled_set s i Cr0); [|assumption|tauto|intros []]. cbn. tauto.
  - discriminate.
  - discriminate.
Qed.

(* Create: registration *)
Lemma register_inv s i n : rinv s -> nth_error (threads s) i = Some (Cr1 n) ->
  rinv (set_thread i (CrR (snd (register s n))) (fst (register s n))).
Proof.
  intros I Ht. unfold register; cbn [fst snd]. unfold set_thread, set_pending, set_reqs; cbn [lastID pending reqs threads].
  set (id := le_put 8 n). set (r0 := length (reqs s)). set (qs := reqs s ++ [MkReq id []]).
  set (p := map_set bytes_eqb (pending s) id r0).
  assert (CR : creations (MkMgr (lastID s) p qs (set_nth (threads s) i (CrR r0))) = creations s).
  { unfold creations; cbn. pose proof (count_set past_add (threads s) i (CrR r0) _ Ht). cbn in H.
    unfold creations in *. lia. }
  assert (AI : Permutation (all_ids (MkMgr (lastID s) p qs (set_nth (threads s) i (CrR r0)))) (all_ids s)).
  { unfold all_ids; cbn [threads reqs]. destruct (flat_map_set (threads s) i _ (CrR r0) Ht) as (a & b & -> & ->).
    unfold qs. cbn [cr1_id app]. rewrite map_app. cbn [map r_id]. fold id. rewrite <- !app_assoc. apply Permutation_app_head.
    rewrite app_assoc. rewrite <- Permutation_cons_append. reflexivity. }
  assert (FRESH : ~ In id (map r_id (reqs s))).
  { pose proof (v_ids _ I) as ND. unfold all_ids in ND.
    destruct (flat_map_set (threads s) i _ (CrR r0) Ht) as (a & b & E & _). rewrite E in ND. cbn [cr1_id] in ND. fold id in ND.
    rewrite <- !app_assoc in ND. cbn [app] in ND. apply NoDup_remove_2 in ND. intros C. apply ND. rewrite !in_app_iff. auto. }
  assert (OLD : forall r, r < length (reqs s) -> nth_error qs r = nth_error (reqs s) r).
  { intros r L. unfold qs. apply nth_error_app1. assumption. }
  quiet I Ht; auto.
  - intros r H. apply OLD. destruct (id_at (reqs s) r) eqn:E; [|congruence]. eapply id_at_lt; eauto.
  - intros r q H L. unfold qs in H. apply nth_error_snoc_some in H as [H|[-> ->]]; [apply nth_error_Some_lt in H; lia|reflexivity].
  - unfold qs. rewrite app_length. lia.
  - rewrite CR. apply (v_last _ I).
  - apply (Permutation_NoDup (Permutation_sym AI)), (v_ids _ I).
  - intros x Hx. apply (Permutation_in _ AI) in Hx. rewrite CR. apply (v_num _ I), Hx.
  - cbn. intros r [= <-]. unfold qs. rewrite app_length. cbn. unfold r0. lia.
  - apply map_set_NoDup; [exact beqb|apply (v_nodup _ I)].
  - assert (SX : forall j x y, nth_error (threads s) j = Some x -> settles qs x y <-> settles (reqs s) x y).
    { intros j x y Hj. destruct x as [| | | | | | m [z|] | | | | z e [w|] | | | z [e|e|m] | | | |]; cbn; try tauto.
      unfold id_at. rewrite OLD; [tauto|]. eapply (v_refs _ I); [exact Hj|reflexivity]. }
    assert (SS : forall y, settled (MkMgr (lastID s) p qs (set_nth (threads s) i (CrR r0))) y <-> settled s y).
    { intros y. rewrite (settled_set s i (Cr1 n) (CrR r0)); [|eassumption|intros; eapply SX; eauto|intros []]. cbn. tauto. }
    intros y r. rewrite SS. unfold p. rewrite map_get_set by exact beqb. unfold qs. rewrite id_at_app. fold r0.
    cbn [r_id]. destruct (beqb id y) as [<-|N].
    + destruct (Nat.ltb_spec r r0) as [L|L].
      * split; [intros [= <-]; lia|]. intros [C _]. exfalso. apply FRESH. eapply id_at_In; eauto.
      * destruct (Nat.eqb_spec r r0) as [->|N]; [|split; [congruence|intros [? _]; discriminate]].
        split; [intros _; split; [reflexivity|]|auto]. intros C. apply FRESH, settled_in; assumption.
    + rewrite (v_pend _ I). destruct (Nat.ltb_spec r r0) as [L|L]; [tauto|].
      split.
      * intros [C _]. apply id_at_lt in C. fold r0 in C. lia.
      * destruct (r =? r0); intros [C _]; congruence.
  - discriminate.
  - discriminate.
Qed.

(* ---------- the invariant ---------- *)
Lemma creations_mono s e s' : rstep s e = Some s' -> creations s <= creations s'.
Proof.
  assert (T : forall t, creations (MkMgr (lastID s) (pending s) (reqs s) (threads s ++ [t])) = creations s + b2i (past_add t)).
  { intros t. unfold creations; cbn. apply count_snoc. }
  destruct e as [c|i c]; cbn.
  - destruct c; cbn; try (intros [= <-]; rewrite T; cbn; lia).
    destruct (existsb _ _); [|discriminate]. intros [= <-]. rewrite T; cbn; lia.
  - destruct (nth_error (threads s) i) as [t|] eqn:Ht; [|discriminate].
    destruct (thread_step s t c) as [[s1 t1]|] eqn:E; [|discriminate]. intros [= <-].
    assert (TH : threads s1 = threads s /\ (past_add t = true -> past_add t1 = true)).
    { destruct t, c; cbn [thread_step] in E; try discriminate E;
        unfold send, recv, add_id, register in E;
        repeat match type of E with
        | Some _ = Some _ => injection E as <- <-; cbn; auto
        | context [nth_error ?x ?y] => destruct (nth_error x y); try discriminate E
        | context [map_get ?x ?y ?z] => destruct (map_get x y z)
        | context [?x <? ?y] => destruct (x <? y); try discriminate E
        | context [r_chan ?q] => destruct (r_chan q); try discriminate E
        end. }
    destruct TH as [TH PA]. unfold creations, set_thread; cbn. rewrite TH.
    pose proof (count_set past_add (threads s) i t1 t Ht). destruct (past_add t); cbn in *; [rewrite PA in H by reflexivity; cbn in H|]; lia.
Qed.

Lemma step_inv s e s' : rinv s -> rstep s e = Some s' -> (N.of_nat (creations s') < 2 ^ 64)%N -> rinv s'.
Proof.
  intros I H B. destruct e as [c|i c]; cbn in H.
  - destruct c; cbn in H; try (injection H as <-; apply call_inv; cbn; auto; try discriminate; fail).
    destruct (existsb _ _) eqn:E; [|discriminate]. injection H as <-.
    apply existsb_exists in E as (x & Hx & E). destruct x; try discriminate. apply Nat.eqb_eq in E. subst r0.
    apply In_nth_error in Hx as [j Hj].
    apply call_inv; cbn; auto; try discriminate. intros r0 [= <-]. eapply (v_refs _ I); [exact Hj|reflexivity].
  - destruct (nth_error (threads s) i) as [t|] eqn:Ht; [|discriminate].
    destruct (thread_step s t c) as [[s1 t1]|] eqn:E; [|discriminate]. injection H as <-.
    destruct t, c; cbn [thread_step] in E; try discriminate E.
    + (* Cr0 *) injection E as <- <-. apply (add_inv s i); [assumption| |assumption].
      revert B. unfold creations, set_thread; cbn.
      pose proof (count_set past_add (threads s) i (Cr1 ((lastID s + 1) mod 2 ^ 64)) _ Ht). cbn [past_add b2i] in H.
      intros B. unfold creations. cbn in *. lia.
    + injection E as <- <-. apply (register_inv s i); assumption.
    + (* Fu0 *) destruct (map_get bytes_eqb (pending s) (rm_id m)) as [r|] eqn:G; injection E as <- <-.
      * apply (v_pend _ I) in G as [G _].
        apply (move_inv s i (Fu0 m)); cbn; auto; try tauto; try discriminate.
        -- intros r0 [= <-]. eapply id_at_lt; eauto.
        -- intros id r0 [= <- <-]. assumption.
      * apply (move_inv s i (Fu0 m)); cbn; auto; try tauto; discriminate.
    + (* Fu1 *) injection E as <- <-. pose proof (v_eng _ I _ _ _ _ Ht eq_refl) as G.
      apply (dereg_inv s i (Fu1 m r)); cbn; auto; try tauto; try discriminate.
      * intros r0 [= <-]. eapply id_at_lt; eauto.
      * intros id r0 [= <- <-]. assumption.
    + (* Fu2 *) destruct (send s r _) as [s2|] eqn:SE; [|discriminate]. injection E as <- <-.
      eapply (send_inv s i (Fu2 m r) _ _ r _ (rm_id m)); cbn; eauto; try tauto; try discriminate.
    + (* Fa0 *) destruct (map_get bytes_eqb (pending s) id) as [r|] eqn:G; injection E as <- <-.
      * apply (v_pend _ I) in G as [G _].
        apply (move_inv s i (Fa0 id e)); cbn; auto; try tauto; try discriminate.
        -- intros r0 [= <-]. eapply id_at_lt; eauto.
        -- intros id0 r0 [= <- <-]. assumption.
      * apply (move_inv s i (Fa0 id e)); cbn; auto; try tauto; discriminate.
    + (* Fa1 *) injection E as <- <-. pose proof (v_eng _ I _ _ _ _ Ht eq_refl) as G.
      apply (dereg_inv s i (Fa1 id e r)); cbn; auto; try tauto; try discriminate.
      * intros r0 [= <-]. eapply id_at_lt; eauto.
      * intros id0 r0 [= <- <-]. assumption.
    + (* Fa2 *) destruct (send s r _) as [s2|] eqn:SE; [|discriminate]. injection E as <- <-.
      eapply (send_inv s i (Fa2 id e r) _ _ r _ id); cbn; eauto; try tauto; try discriminate.
    + (* Aw0 ctx *) injection E as <- <-.
      apply (move_inv s i (Aw0 r)); cbn; auto; try tauto; try discriminate.
      intros r0 [= <-]. eapply (v_refs _ I); [exact Ht|reflexivity].
    + (* Aw0 recv *) destruct (recv s r) as [[s2 v]|] eqn:RE; [|discriminate]. injection E as <- <-.
      eapply recv_inv; eauto.
    + (* Aw1 *) destruct (nth_error (reqs s) r) as [q|] eqn:Q; [|discriminate]. injection E as <- <-.
      apply (dereg_inv s i (Aw1 r e)); cbn; auto; try tauto; try discriminate.
      * intros r0 [= <-]. eapply nth_error_Some_lt; eauto.
      * intros id. unfold id_at. rewrite Q. cbn. split; congruence.
      * intros r0 res [= <- <-]. eauto.
    + injection E as <- <-. apply (move_inv s i Pn0); cbn; auto; try tauto; discriminate.
    + injection E as <- <-. apply (move_inv s i (Ip0 id)); cbn; auto; try tauto; discriminate.
Qed.

Lemma reach_rinv ok s : rreach ok s -> (N.of_nat (creations s) < 2 ^ 64)%N -> rinv s.
Proof.
  induction 1 as [|s e s' H IH _ St]; intros B; [apply rinv_new|].
  pose proof (creations_mono _ _ _ St). eapply step_inv; [apply IH; lia|eassumption|assumption].
Qed.

(* ---------- Create calls and requests correspond one to one ---------- *)
Lemma rstep_cases s e s' : rstep s e = Some s' ->
  (exists c, s' = MkMgr (lastID s) (pending s) (reqs s) (threads s ++ [start c])) \/
  (exists i c t s1 t1, e = EvStep i c /\ nth_error (threads s) i = Some t /\ thread_step s t c = Some (s1, t1) /\
     s' = set_thread i t1 s1 /\ threads s1 = threads s).
Proof.
  destruct e as [c|i c]; cbn.
  - intros H. left. exists c. destruct c; try (injection H as <-; reflexivity).
    destruct (existsb _ _); [|discriminate]. injection H as <-. reflexivity.
  - destruct (nth_error (threads s) i) as [t|] eqn:Ht; [|discriminate].
    destruct (thread_step s t c) as [[s1 t1]|] eqn:E; [|discriminate]. intros [= <-].
    right. exists i, c, t, s1, t1. do 4 (split; [assumption || reflexivity|]).
    destruct t, c; cbn [thread_step] in E; try discriminate E;
        unfold send, recv, add_id, register in E;
        repeat match type of E with
        | Some _ = Some _ => injection E as <- <-; cbn; auto
        | context [nth_error ?x ?y] => destruct (nth_error x y); try discriminate E
        | context [map_get ?x ?y ?z] => destruct (map_get x y z)
        | context [?x <? ?y] => destruct (x <? y); try discriminate E
        | context [r_chan ?q] => destruct (r_chan q); try discriminate E
        end.
Qed.

Definition crinv (s : manager) : Prop :=
  forall r, count (created r) (threads s) = if r <? length (reqs s) then 1 else 0.

Lemma step_crinv s e s' : crinv s -> rstep s e = Some s' -> crinv s'.
Proof.
  intros I H. apply rstep_cases in H as [(c & ->)|(i & c & t & s1 & t1 & _ & Ht & E & -> & TH)]; intros r; unfold set_thread; cbn [threads reqs].
  - rewrite count_snoc, I. destruct c; cbn; lia.
  - rewrite TH. pose proof (count_set (created r) (threads s) i t1 t Ht) as C. pose proof (I r) as Ir.
    assert ((length (reqs s1) = length (reqs s) /\ created r t = created r t1) \/
            (length (reqs s1) = S (length (reqs s)) /\ created r t = false /\ t1 = CrR (length (reqs s)))) as [[L K]|(L & K & ->)].
    { destruct t, c; cbn [thread_step] in E; try discriminate E;
        unfold send, recv, add_id, register in E;
        repeat match type of E with
        | Some _ = Some _ => injection E as <- <-; cbn; rewrite ?set_nth_length, ?app_length; cbn; auto
        | context [nth_error ?x ?y] => destruct (nth_error x y); try discriminate E
        | context [map_get ?x ?y ?z] => destruct (map_get x y z)
        | context [?x <? ?y] => destruct (x <? y); try discriminate E
        | context [r_chan ?q] => destruct (r_chan q); try discriminate E
        end. right. split; [lia|auto]. }
    + rewrite L, <- Ir. rewrite K in C. lia.
    + rewrite L. rewrite K in C. cbn in C.
      destruct (Nat.ltb_spec r (length (reqs s))), (Nat.ltb_spec r (S (length (reqs s)))), (Nat.eqb_spec r (length (reqs s)));
        cbn in C; lia.
Qed.
Lemma reach_crinv ok s : rreach ok s -> crinv s.
Proof.
  induction 1 as [|s e s' H IH _ St]; [intros r; cbn; destruct r; reflexivity|]. eapply step_crinv; eauto.
Qed.

Lemma count_two_ge {A} (f : A -> bool) l i j x y :
  i <> j -> nth_error l i = Some x -> nth_error l j = Some y -> f x = true -> f y = true -> 2 <= count f l.
Proof. intros. eapply count_two; eauto. Qed.

(* C18 *)
Lemma unique_ids s i j r1 r2 q1 q2 :
  rreach anything s -> (N.of_nat (creations s) < 2 ^ 64)%N -> i <> j ->
  nth_error (threads s) i = Some (CrR r1) -> nth_error (threads s) j = Some (CrR r2) ->
  nth_error (reqs s) r1 = Some q1 -> nth_error (reqs s) r2 = Some q2 ->
  r_id q1 <> r_id q2.
Proof.
  intros R B N Hi Hj Q1 Q2 E. pose proof (reach_rinv _ _ R B) as I. pose proof (reach_crinv _ _ R) as C.
  assert (r1 = r2).
  { eapply (id_at_inj (reqs s) r1 r2 (r_id q1)); [apply rinv_ids_reqs, I| |]; apply id_at_some; eauto. }
  subst r2. pose proof (C r1) as C1.
  assert (2 <= count (created r1) (threads s)) by (eapply count_two_ge; eauto; cbn; apply Nat.eqb_refl).
  destruct (_ <? _); lia.
Qed.
Lemma created_valid s i r : rreach anything s -> (N.of_nat (creations s) < 2 ^ 64)%N ->
  nth_error (threads s) i = Some (CrR r) ->
  exists q n, nth_error (reqs s) r = Some q /\ r_id q = le_put 8 n /\ length (r_id q) = 8 /\ (1 <= n <= N.of_nat (creations s))%N.
Proof.
  intros R B H. pose proof (reach_rinv _ _ R B) as I.
  pose proof (v_refs _ I _ _ _ H eq_refl) as L. apply nth_error_Some in L. destruct (nth_error (reqs s) r) as [q|] eqn:Q; [|congruence].
  destruct (v_num _ I (r_id q)) as (n & Hn & E).
  { unfold all_ids. rewrite in_app_iff. right. apply in_map. eapply nth_error_In; eauto. }
  exists q, n. rewrite E, le_put_length. auto.
Qed.

(* C19 *)
Lemma await_value s i r res : rreach anything s -> (N.of_nat (creations s) < 2 ^ 64)%N ->
  nth_error (threads s) i = Some (AwR r res) ->
  (exists e, res = AwCtx e) \/
  exists q j, nth_error (reqs s) r = Some q /\
    ((exists m, rm_id m = r_id q /\ nth_error (threads s) j = Some (FuR m (Some r)) /\ res = AwReply (Some m)) \/
     (exists e, nth_error (threads s) j = Some (FaR (r_id q) (Some e) (Some r)) /\ res = AwErr e) \/
     (nth_error (threads s) j = Some (FaR (r_id q) None (Some r)) /\ res = AwReply None)).
Proof.
  intros R B H. pose proof (reach_rinv _ _ R B) as I.
  destruct res as [e|e|m]; [left; eauto| |]; right.
  all: destruct (v_recv _ I _ _ _ H ltac:(discriminate)) as (j & t & id & v & Hj & S & Hid & RV & RO).
  all: apply id_at_some in Hid as (q & Hq & <-); exists q, j; split; [assumption|].
  all: destruct t as [| | | | | | m0 [z|] | | | | x e0 [w|] | | | z [e1|e1|m1] | | | |]; cbn in S; try discriminate.
  all: apply Nat.eqb_eq in S; subst; cbn in RV.
  - apply (f_equal (option_map snd)) in RV. cbn in RV. injection RV as <-. discriminate.
  - injection RV as -> <-. unfold reply_of in RO; cbn in RO. destruct e0; [|discriminate]. right; left. eexists; split; [exact Hj|congruence].
  - injection RV as E1 <-. unfold reply_of in RO; cbn in RO. left. exists m0. split; [assumption|]. split; [assumption|congruence].
  - injection RV as -> <-. unfold reply_of in RO; cbn in RO. destruct e0; [discriminate|]. right; right. split; [exact Hj|congruence].
Qed.

Lemma conservation s r q : rreach anything s -> (N.of_nat (creations s) < 2 ^ 64)%N ->
  nth_error (reqs s) r = Some q ->
  count (succeeded r) (threads s) = length (r_chan q) + count (received r) (threads s) /\ length (r_chan q) <= 1.
Proof.
  intros R B H. pose proof (reach_rinv _ _ R B) as I. split; [apply (v_cons _ I), H|apply (v_cap _ I _ _ H)].
Qed.

(* a successful Fulfill/Fail whose value nobody took yet makes AwaitReply return at once *)
Lemma delivered s i r : rreach anything s -> (N.of_nat (creations s) < 2 ^ 64)%N ->
  nth_error (threads s) i = Some (Aw0 r) ->
  count (received r) (threads s) < count (succeeded r) (threads s) ->
  exists s' res, rstep s (EvStep i ChRun) = Some s' /\ nth_error (threads s') i = Some (AwR r res) /\
    (forall e, res <> AwCtx e).
Proof.
  intros R B H L. pose proof (reach_rinv _ _ R B) as I.
  pose proof (v_refs _ I _ _ _ H eq_refl) as Lr. apply nth_error_Some in Lr. destruct (nth_error (reqs s) r) as [q|] eqn:Q; [|congruence].
  pose proof (v_cons _ I r q Q) as C. destruct (r_chan q) as [|v rest] eqn:E; [cbn in C; lia|].
  cbn [rstep]. rewrite H. cbn [thread_step]. unfold recv. rewrite Q, E. eexists _, (reply_of v). split; [reflexivity|]. split.
  - cbn. eapply set_nth_eq; eauto.
  - intros e. unfold reply_of. destruct (g_err v); discriminate.
Qed.

(* C20 *)
Lemma count_le_ext {A} (f g : A -> bool) l : (forall x, f x = true -> g x = true) -> count f l <= count g l.
Proof.
  intros H. induction l as [|a l IH]; cbn; [lia|]. specialize (H a). destruct (f a); [rewrite H by reflexivity|]; destruct (g a); cbn; lia.
Qed.
Lemma rreach_mono ok s : rreach ok s -> rreach anything s.
Proof. induction 1; [constructor|econstructor; eauto; exact I]. Qed.

Lemma eng_engaged t id r : eng t = Some (id, r) -> engaged r t = true.
Proof.
  destruct t as [| | | | | | m0 [z|] | | | | x e0 [w|] | | | z [e1|e1|m1] | | | |]; cbn; try discriminate;
   intros [= _ ->]; apply Nat.eqb_refl.
Qed.
Lemma engaged_eng t r : engaged r t = true -> exists id, eng t = Some (id, r).
Proof.
  destruct t as [| | | | | | m0 [z|] | | | | x e0 [w|] | | | z [e1|e1|m1] | | | |]; cbn; try discriminate;
   intros H; apply Nat.eqb_eq in H; subst; eauto.
Qed.

Lemma serial_step s e s' : rinv s -> serial s e -> rstep s e = Some s' ->
  (forall r, count (engaged r) (threads s) <= 1) -> forall r, count (engaged r) (threads s') <= 1.
Proof.
  intros I SE H IH r. apply rstep_cases in H as [(c & ->)|(i & c & t & s1 & t1 & -> & Ht & E & -> & TH)].
  - cbn. rewrite count_snoc. pose proof (IH r). destruct c; cbn; lia.
  - cbn. rewrite TH. pose proof (count_set (engaged r) (threads s) i t1 t Ht) as C. pose proof (IH r) as Ir.
    assert (Z : forall id, map_get bytes_eqb (pending s) id = Some r ->
       (forall j t, nth_error (threads s) j = Some t -> running t -> option_map fst (resolves t) <> Some id) ->
       count (engaged r) (threads s) = 0).
    { intros id G SR. apply (v_pend _ I) in G as [G NS]. apply count_zero. intros x Hx.
      destruct (engaged r x) eqn:EG; [|reflexivity]. exfalso. apply In_nth_error in Hx as [j Hj].
      apply engaged_eng in EG as [id' EG]. pose proof (v_eng _ I _ _ _ _ Hj EG) as G'.
      rewrite G in G'. injection G' as <-. pose proof (SR j x Hj) as SX.
      assert (settles (reqs s) x id -> False) by (intros C2; apply NS; exists j, x; auto).
      destruct x as [| | | | | | m0 [z|] | | | | y e0 [w|] | | | z [e1|e1|m1] | | | |]; cbn in EG, SX, H; try discriminate;
      injection EG as Ea Eb; subst; solve [tauto | apply SX; auto]. }
    destruct t, c; cbn [thread_step] in E; try discriminate E;
      unfold add_id, register in E;
      repeat match type of E with
        | Some _ = Some _ => injection E as <- <-; cbn [engaged b2i] in C
        | context [nth_error ?x ?y] => destruct (nth_error x y); try discriminate E
        | context [map_get ?x ?y ?z] => destruct (map_get x y z) as [n0|] eqn:G
        | context [send ?x ?y ?z] => destruct (send x y z) ; try discriminate E
        | context [recv ?x ?y] => destruct (recv x y) as [[? ?]|] ; try discriminate E
        end; try lia.
    + cbn in SE. rewrite Ht in SE. destruct (Nat.eqb_spec r n0) as [<-|N]; cbn in C; [|lia].
      rewrite (Z (rm_id m) G SE) in *. lia.
    + cbn in SE. rewrite Ht in SE. destruct (Nat.eqb_spec r n0) as [<-|N]; cbn in C; [|lia].
      rewrite (Z id G SE) in *. lia.
Qed.

Lemma serial_engaged s : rreach serial s -> (N.of_nat (creations s) < 2 ^ 64)%N ->
  forall r, count (engaged r) (threads s) <= 1.
Proof.
  induction 1 as [|s e s' H IH SE St]; intros B; [intros r; cbn; lia|].
  pose proof (creations_mono _ _ _ St). eapply serial_step; [eapply reach_rinv; [exact H|lia]|exact SE|exact St|apply IH; lia].
Qed.

Lemma succeeded_engaged r t : succeeded r t = true -> engaged r t = true.
Proof. destruct t as [| | | | | | m0 [z|] | | | | y e0 [w|] | | | z [e1|e1|m1] | | | |]; cbn; congruence. Qed.

Lemma serial_once s r : rreach serial s -> (N.of_nat (creations s) < 2 ^ 64)%N -> count (succeeded r) (threads s) <= 1.
Proof.
  intros R B. pose proof (serial_engaged s R B r). pose proof (count_le_ext (succeeded r) (engaged r) (threads s) (succeeded_engaged r)). lia.
Qed.

Lemma serial_no_block s i t : rreach serial s -> (N.of_nat (creations s) < 2 ^ 64)%N ->
  nth_error (threads s) i = Some t -> running t -> rstep s (EvStep i ChRun) <> None.
Proof.
  intros R B Ht Rt. pose proof (serial_engaged s R B) as SE. pose proof (reach_rinv _ _ (rreach_mono _ _ R) B) as I.
  assert (SEND : forall r v id, eng t = Some (id, r) -> succeeded r t = false -> send s r v <> None).
  { intros r v id E NS. pose proof (v_eng _ I _ _ _ _ Ht E) as G. apply id_at_some in G as (q & Q & _).
    unfold send. rewrite Q. pose proof (v_cons _ I r q Q) as C.
    assert (Z : count (succeeded r) (threads s) = 0).
    { apply count_zero. intros x Hx. destruct (succeeded r x) eqn:SX; [|reflexivity]. exfalso.
      apply In_nth_error in Hx as [j Hj]. assert (i <> j) by (intros <-; rewrite Ht in Hj; injection Hj as ->; congruence).
      pose proof (count_two_ge (engaged r) _ _ _ _ _ H Ht Hj (eng_engaged _ _ _ E) (succeeded_engaged _ _ SX)).
      pose proof (SE r). lia. }
    destruct (Nat.ltb_spec (length (r_chan q)) chan_cap) as [L|L]; [discriminate|]. unfold chan_cap in L. lia. }
  cbn [rstep]. rewrite Ht. destruct t; cbn in Rt; try contradiction; cbn [thread_step]; try discriminate.
  - specialize (SEND r (MkGR (Some m) None) _ eq_refl eq_refl). destruct (send _ _ _); [discriminate|congruence].
  - specialize (SEND r (MkGR None e) _ eq_refl eq_refl). destruct (send _ _ _); [discriminate|congruence].
Qed.

(* C21 *)
Lemma closes_settled s r id : rinv s -> id_at (reqs s) r = Some id ->
  existsb (closes r) (threads s) = true <-> settled s id.
Proof.
  intros I Hid. rewrite existsb_exists. split.
  - intros (t & Hin & C). apply In_nth_error in Hin as [i Ht]. exists i, t. split; [assumption|].
    destruct t as [| | | | | m x | m0 [z|] | | | y e x | y e0 [w|] | | | z [e1|e1|m1] | | | |]; cbn in C |- *; try discriminate;
      apply Nat.eqb_eq in C; subst; try assumption;
      match goal with |- id = ?x => assert (id_at (reqs s) _ = Some x) as W by (eapply (v_eng _ I); [exact Ht|reflexivity]) end; congruence.
  - intros (i & t & Ht & S). exists t. split; [eapply nth_error_In; eauto|].
    pose proof (rinv_ids_reqs _ I) as ND.
    destruct t as [| | | | | m x | m0 [z|] | | | y e x | y e0 [w|] | | | z [e1|e1|m1] | | | |]; cbn in S |- *; try contradiction;
      apply Nat.eqb_eq; eapply (id_at_inj _ _ _ id ND); try eassumption; subst;
      (eapply (v_eng _ I); [exact Ht|reflexivity]).
Qed.

Lemma outstanding_In s r : In r (outstanding s) <-> r < length (reqs s) /\ existsb (closes r) (threads s) = false.
Proof. unfold outstanding. rewrite filter_In, in_seq, negb_true_iff. cbn. intuition lia. Qed.

Lemma pending_iff s id r : rinv s ->
  map_get bytes_eqb (pending s) id = Some r <-> In r (outstanding s) /\ id_at (reqs s) r = Some id.
Proof.
  intros I. rewrite (v_pend _ I), outstanding_In. split.
  - intros [G NS]. split; [|assumption]. split; [eapply id_at_lt; eauto|].
    destruct (existsb _ _) eqn:E; [|reflexivity]. destruct NS. eapply closes_settled; eauto.
  - intros [[_ E] G]. split; [assumption|]. intros S. eapply closes_settled in S; eauto. congruence.
Qed.

Lemma pending_length s : rinv s -> length (pending s) = length (outstanding s).
Proof.
  intros I. assert (NP : NoDup (map snd (pending s))).
  { assert (X : forall p, NoDup (map fst p) -> (forall id r, In (id, r) p -> id_at (reqs s) r = Some id) -> NoDup (map snd p)).
    { induction p as [|[id r] p IHp]; intros ND H; cbn; [constructor|]. inversion ND; subst. constructor.
      - intros C. apply in_map_iff in C as ([id' r'] & E & C). cbn in E. subst r'.
        pose proof (H id r (or_introl eq_refl)). pose proof (H id' r (or_intror C)).
        apply H2. apply in_map_iff. exists (id', r). split; [cbn; congruence|assumption].
      - apply IHp; [assumption|]. intros; apply H; right; assumption. }
    apply X; [apply (v_nodup _ I)|]. intros id r Hin. apply (In_map_get _ beqb) in Hin; [|apply (v_nodup _ I)].
    apply (pending_iff _ _ _ I) in Hin. apply Hin. }
  rewrite <- (map_length snd). apply Permutation_length. apply NoDup_Permutation; [assumption| |].
  - unfold outstanding. apply NoDup_filter, seq_NoDup.
  - intros r. split.
    + intros Hin. apply in_map_iff in Hin as ([id r'] & E & Hin). cbn in E. subst r'.
      apply (In_map_get _ beqb) in Hin; [|apply (v_nodup _ I)]. apply (pending_iff _ _ _ I) in Hin. apply Hin.
    + intros Hr. pose proof Hr as Hr'. apply outstanding_In in Hr as [L _]. apply nth_error_Some in L.
      destruct (nth_error (reqs s) r) as [q|] eqn:Q; [|congruence].
      assert (G : map_get bytes_eqb (pending s) (r_id q) = Some r).
      { apply (pending_iff _ _ _ I). split; [assumption|]. apply id_at_some; eauto. }
      apply (map_get_In _ beqb) in G. apply in_map_iff. exists (r_id q, r). auto.
Qed.

Lemma is_pending_exact s i id : rreach anything s -> (N.of_nat (creations s) < 2 ^ 64)%N ->
  nth_error (threads s) i = Some (Ip0 id) ->
  exists s' b, rstep s (EvStep i ChRun) = Some s' /\ nth_error (threads s') i = Some (IpR id b) /\
    pending s' = pending s /\ reqs s' = reqs s /\
    (b = true <-> exists r q, In r (outstanding s) /\ nth_error (reqs s) r = Some q /\ r_id q = id).
Proof.
  intros R B H. pose proof (reach_rinv _ _ R B) as I. cbn [rstep]. rewrite H. cbn [thread_step].
  eexists _, _. split; [reflexivity|]. split; [cbn; eapply set_nth_eq; eauto|]. split; [reflexivity|]. split; [reflexivity|].
  split.
  - destruct (map_get _ _ _) as [r|] eqn:G; [|discriminate]. intros _. apply (pending_iff _ _ _ I) in G as [O G].
    apply id_at_some in G as (q & Q & E). eauto.
  - intros (r & q & O & Q & E). assert (G : map_get bytes_eqb (pending s) id = Some r).
    { apply (pending_iff _ _ _ I). split; [assumption|]. apply id_at_some; eauto. }
    rewrite G. reflexivity.
Qed.
Lemma pending_requests_exact s i : rreach anything s -> (N.of_nat (creations s) < 2 ^ 64)%N ->
  nth_error (threads s) i = Some Pn0 ->
  exists s', rstep s (EvStep i ChRun) = Some s' /\ nth_error (threads s') i = Some (PnR (length (outstanding s))) /\
    pending s' = pending s /\ reqs s' = reqs s.
Proof.
  intros R B H. pose proof (reach_rinv _ _ R B) as I. cbn [rstep]. rewrite H. cbn [thread_step].
  eexists. split; [reflexivity|]. split; [cbn; rewrite pending_length by assumption; eapply set_nth_eq; eauto|]. auto.
Qed.
Lemma awaited_not_outstanding s i r res : rreach anything s -> (N.of_nat (creations s) < 2 ^ 64)%N ->
  nth_error (threads s) i = Some (AwR r res) -> ~ In r (outstanding s).
Proof.
  intros R B H O. pose proof (reach_rinv _ _ R B) as I. apply outstanding_In in O as [_ O].
  assert (C : existsb (closes r) (threads s) = true); [|congruence]. apply existsb_exists.
  destruct (await_value _ _ _ _ R B H) as [[e ->]|(q & j & Q & D)].
  - exists (AwR r (AwCtx e)). split; [eapply nth_error_In; eauto|cbn; apply Nat.eqb_refl].
  - destruct D as [(m & _ & T & _)|[(e & T & _)|[T _]]]; eexists; (split; [eapply nth_error_In; exact T|cbn; apply Nat.eqb_refl]).
Qed.
Lemma resolved_not_outstanding s i t r : nth_error (threads s) i = Some t -> succeeded r t = true -> ~ In r (outstanding s).
Proof.
  intros H S O. apply outstanding_In in O as [_ O].
  assert (C : existsb (closes r) (threads s) = true); [|congruence]. apply existsb_exists. exists t. split; [eapply nth_error_In; eauto|].
  destruct t as [| | | | | m x | m0 [z|] | | | y e x | y e0 [w|] | | | z [e1|e1|m1] | | | |]; cbn in S |- *; congruence.
Qed.
(* Fulfill and Fail on an outstanding identifier find the request *)
Lemma fulfill_finds s i m : rreach anything s -> (N.of_nat (creations s) < 2 ^ 64)%N ->
  nth_error (threads s) i = Some (Fu0 m) ->
  exists s', rstep s (EvStep i ChRun) = Some s' /\
    match nth_error (threads s') i with
    | Some (Fu1 m' r) => m' = m /\ In r (outstanding s) /\ exists q, nth_error (reqs s) r = Some q /\ r_id q = rm_id m
    | Some (FuR m' None) => m' = m /\ forall r q, In r (outstanding s) -> nth_error (reqs s) r = Some q -> r_id q <> rm_id m
    | _ => False
    end.
Proof.
  intros R B H. pose proof (reach_rinv _ _ R B) as I. cbn [rstep]. rewrite H. cbn [thread_step].
  destruct (map_get bytes_eqb (pending s) (rm_id m)) as [r|] eqn:G; (eexists; split; [reflexivity|]); cbn; erewrite set_nth_eq by eauto.
  - apply (pending_iff _ _ _ I) in G as [O G]. apply id_at_some in G. auto.
  - split; [reflexivity|]. intros r q O Q E.
    assert (map_get bytes_eqb (pending s) (rm_id m) = Some r); [|congruence].
    apply (pending_iff _ _ _ I). split; [assumption|]. apply id_at_some; eauto.
Qed.
Lemma fail_finds s i id e : rreach anything s -> (N.of_nat (creations s) < 2 ^ 64)%N ->
  nth_error (threads s) i = Some (Fa0 id e) ->
  exists s', rstep s (EvStep i ChRun) = Some s' /\
    match nth_error (threads s') i with
    | Some (Fa1 id' e' r) => id' = id /\ e' = e /\ In r (outstanding s) /\ exists q, nth_error (reqs s) r = Some q /\ r_id q = id
    | Some (FaR id' e' None) => id' = id /\ e' = e /\ forall r q, In r (outstanding s) -> nth_error (reqs s) r = Some q -> r_id q <> id
    | _ => False
    end.
Proof.
  intros R B H. pose proof (reach_rinv _ _ R B) as I. cbn [rstep]. rewrite H. cbn [thread_step].
  destruct (map_get bytes_eqb (pending s) id) as [r|] eqn:G; (eexists; split; [reflexivity|]); cbn; erewrite set_nth_eq by eauto.
  - apply (pending_iff _ _ _ I) in G as [O G]. apply id_at_some in G. auto.
  - split; [reflexivity|]. split; [reflexivity|]. intros r q O Q E.
    assert (map_get bytes_eqb (pending s) id = Some r); [|congruence].
    apply (pending_iff _ _ _ I). split; [assumption|]. apply id_at_some; eauto.
Qed.

Lemma rrun_reach es : forall s s', rreach anything s -> rrun s es = Some s' -> rreach anything s'.
Proof.
  induction es as [|e es IH]; cbn; intros s s' R H; [injection H as <-; assumption|].
  destruct (rstep s e) as [s1|] eqn:E; [|discriminate]. eapply IH; [|eassumption]. econstructor; eauto. exact I.
Qed.

(* a done context: AwaitReply returns the translated error, whatever happens in between *)
Lemma context_error s i r e : nth_error (threads s) i = Some (Aw0 r) ->
  exists s', rstep s (EvStep i (ChCtx e)) = Some s' /\ nth_error (threads s') i = Some (Aw1 r e) /\
    lastID s' = lastID s /\ pending s' = pending s /\ reqs s' = reqs s.
Proof.
  intros H. cbn [rstep]. rewrite H. cbn [thread_step]. eexists. split; [reflexivity|]. cbn.
  split; [eapply set_nth_eq; eauto|auto].
Qed.
Lemma context_error_returns s i r e : rreach anything s -> (N.of_nat (creations s) < 2 ^ 64)%N ->
  nth_error (threads s) i = Some (Aw1 r e) ->
  exists s', rstep s (EvStep i ChRun) = Some s' /\ reqs s' = reqs s /\ ~ In r (outstanding s') /\
    (forall x, x <> r -> In x (outstanding s') <-> In x (outstanding s)) /\
    nth_error (threads s') i = Some (AwR r (AwCtx (match e with
      | CtxDeadline => ErrDeadlineExceeded | CtxCanceled => ErrCanceled | CtxOther => ErrUnexpected end))).
Proof.
  intros R B H. pose proof (reach_rinv _ _ R B) as I.
  pose proof (v_refs _ I _ _ _ H eq_refl) as Lr. apply nth_error_Some in Lr. destruct (nth_error (reqs s) r) as [q|] eqn:Q; [|congruence].
  cbn [rstep]. rewrite H. cbn [thread_step]. rewrite Q.
  eexists. split; [reflexivity|]. split; [reflexivity|].
  set (t1 := AwR r (AwCtx (TranslateContextError e))).
  assert (CL : forall x, existsb (closes x) (set_nth (threads s) i t1) = existsb (closes x) (threads s) || (x =? r)).
  { intros x. destruct (set_nth_split _ _ _ H) as (l1 & l2 & -> & _ & ->). rewrite !existsb_app. cbn.
    destruct (existsb (closes x) l1), (existsb (closes x) l2), (x =? r); reflexivity. }
  split; [|split].
  - rewrite outstanding_In. cbn [set_thread deregister set_pending threads]. rewrite CL, Nat.eqb_refl, orb_true_r. intros [_ C]. discriminate.
  - intros x N. rewrite !outstanding_In. cbn [set_thread deregister set_pending threads reqs]. rewrite CL.
    apply Nat.eqb_neq in N. rewrite N, orb_false_r. tauto.
  - cbn. unfold t1. erewrite set_nth_eq by eauto. destruct e; reflexivity.
Qed.
