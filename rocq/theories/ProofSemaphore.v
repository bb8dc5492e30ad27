From Coq Require Import List Arith ZArith Lia Bool.
From Verif Require Import BaseConc ModelSemaphore SpecSemaphore.
Import ListNotations.
Open Scope nat_scope.

Definition wt (t : sthread) : option Z := match t with AcW n false | AcC n false => Some n | _ => None end.
Definition adm (t : sthread) : bool := match t with AcW _ true | AcC _ true | AcR _ true => true | _ => false end.
Definition queued (t : sthread) : bool := match t with AcW _ _ | AcC _ _ | AcR _ _ => true | _ => false end.
Definition tweight (t : sthread) : Z :=
  match t with Ac0 n | AcD n | AcW n _ | AcC n _ | AcR n _ | Tr0 n | TrR n _ | Re0 n | ReR n | ReP n => n end.
Definition isP (t : sthread) : bool := match t with ReP _ => true | _ => false end.

Lemma waits_wt s i n : waits s i n <-> exists t, nth_error (s_threads s) i = Some t /\ wt t = Some n.
Proof.
  unfold waits. split.
  - intros [H|H]; eexists; (split; [exact H|reflexivity]).
  - intros (t & H & W). destruct t as [| |m []|m []| | | | | |]; try discriminate; injection W as ->; auto.
Qed.
Lemma waitsb_wt ts i : waitsb ts i = match nth_error ts i with Some t => match wt t with Some _ => true | None => false end | None => false end.
Proof. unfold waitsb. destruct (nth_error ts i) as [[| |m []|m []| | | | | |]|]; reflexivity. Qed.
Lemma let_in_adm s i : let_in s i <-> In i (s_arrived s) /\ exists t, nth_error (s_threads s) i = Some t /\ adm t = true.
Proof.
  unfold let_in. split; intros [A B]; (split; [exact A|]).
  - destruct (nth_error (s_threads s) i) as [[| |m []|m []|m []| | | | |]|]; try contradiction; eauto.
  - destruct B as (t & -> & B). destruct t as [| |m []|m []|m []| | | | |]; try discriminate; exact I.
Qed.

Record sinv (size : Z) (s : sema) : Prop := {
  i_sz : s_size s = size;
  i_cur : s_cur s = held s;
  i_le : (s_cur s <= size)%Z;
  i_q : forall i n, In (i, n) (s_waiters s) <-> waits s i n;
  i_fst : map fst (s_waiters s) = filter (waitsb (s_threads s)) (s_arrived s);
  i_nd : NoDup (s_arrived s);
  i_arr : forall i, In i (s_arrived s) -> exists t, nth_error (s_threads s) i = Some t /\ queued t = true;
  i_fifo : forall a b, before (s_arrived s) a b -> let_in s b -> waitsb (s_threads s) a = false;
  i_wsz : forall i n, In (i, n) (s_waiters s) -> (n <= size)%Z;
  i_nn : forall t, In t (s_threads s) -> (0 <= tweight t)%Z;
  i_pos : ~ panicked s -> (0 <= s_cur s)%Z }.

Lemma before_In l a b : before l a b -> In a l /\ In b l.
Proof. intros (l1 & l2 & l3 & ->). split; rewrite !in_app_iff; cbn; rewrite ?in_app_iff; cbn; tauto. Qed.

Lemma waitsb_set ts i t t1 j : nth_error ts i = Some t -> (wt t = None <-> wt t1 = None) ->
  waitsb (set_nth ts i t1) j = waitsb ts j.
Proof.
  intros H E. rewrite !waitsb_wt. destruct (Nat.eq_dec i j) as [<-|N].
  - erewrite set_nth_eq by eauto. rewrite H. destruct (wt t), (wt t1); try reflexivity; intuition discriminate.
  - rewrite set_nth_ne by assumption. reflexivity.
Qed.

Lemma panicked_set s i t t1 cur ws : nth_error (s_threads s) i = Some t -> isP t = false ->
  ~ panicked (sset s cur ws (set_nth (s_threads s) i t1)) -> ~ panicked s.
Proof.
  intros H E N (j & n & P). apply N. exists j, n. cbn. destruct (Nat.eq_dec i j) as [<-|D].
  - rewrite H in P. injection P as ->. discriminate.
  - rewrite set_nth_ne by assumption. exact P.
Qed.

(* the queue does not change *)
Lemma smove size s i t t1 cur :
  sinv size s -> nth_error (s_threads s) i = Some t ->
  wt t = wt t1 -> (adm t1 = true -> adm t = false -> ~ In i (s_arrived s)) -> (queued t = true -> queued t1 = true) ->
  (0 <= tweight t1)%Z ->
  (cur - s_cur s = granted_weight t1 - granted_weight t - (released_weight t1 - released_weight t))%Z ->
  (cur <= size)%Z -> isP t = false -> (isP t1 = false -> (0 <= s_cur s)%Z -> (0 <= cur)%Z) ->
  sinv size (sset s cur (s_waiters s) (set_nth (s_threads s) i t1)).
Proof.
  intros I Ht W A Q NN C LE P0 P1.
  assert (WB : forall j, waitsb (set_nth (s_threads s) i t1) j = waitsb (s_threads s) j).
  { intros j. eapply waitsb_set; [eassumption|]. rewrite W. tauto. }
  constructor; cbn [sset s_size s_cur s_waiters s_threads s_arrived].
  - apply (i_sz _ _ I).
  - unfold held. cbn. pose proof (zsum_set granted_weight _ i t1 t Ht). pose proof (zsum_set released_weight _ i t1 t Ht).
    pose proof (i_cur _ _ I) as V. unfold held in V. lia.
  - assumption.
  - intros j n. rewrite (i_q _ _ I), !waits_wt. cbn. destruct (Nat.eq_dec i j) as [<-|N].
    + erewrite set_nth_eq by eauto. rewrite Ht. split; intros (x & [= <-] & E); eexists; (split; [reflexivity|congruence]).
    + rewrite set_nth_ne by assumption. tauto.
  - rewrite (i_fst _ _ I). apply filter_ext. intros j. symmetry. apply WB.
  - apply (i_nd _ _ I).
  - intros j Hj. destruct (i_arr _ _ I j Hj) as (x & X & Y). destruct (Nat.eq_dec i j) as [<-|N].
    + rewrite Ht in X. injection X as <-. exists t1. split; [eapply set_nth_eq; eauto|auto].
    + rewrite set_nth_ne by assumption. eauto.
  - intros a b B D. rewrite WB. apply (i_fifo _ _ I a b B). apply let_in_adm in D as [D (x & X & Y)]. cbn in *.
    apply let_in_adm. split; [assumption|]. apply set_nth_lookup in X as [[-> ->]|[N X]]; [|eauto].
    exists t. split; [assumption|]. destruct (adm t) eqn:E; [reflexivity|]. destruct (A Y eq_refl D).
  - apply (i_wsz _ _ I).
  - intros x Hx. apply set_nth_In in Hx as [->|Hx]; [assumption|apply (i_nn _ _ I), Hx].
  - intros N. apply P1.
    + destruct (isP t1) eqn:E; [|reflexivity]. destruct N. destruct t1; try discriminate. exists i, n. eapply set_nth_eq; eauto.
    + apply (i_pos _ _ I). eapply (panicked_set s i t t1 cur (s_waiters s)); eauto.
Qed.

Lemma filter_first {A} (p q : A -> bool) (l : list A) x rest :
  NoDup l -> filter p l = x :: rest -> (forall y, y <> x -> q y = p y) -> q x = false -> filter q l = rest.
Proof.
  induction l as [|a l IH]; cbn; intros ND E H Hx; [discriminate|]. inversion ND as [|? ? NI ND']; subst.
  destruct (p a) eqn:Pa.
  - injection E as -> <-. rewrite Hx. apply filter_ext_in. intros y Hy. apply H. intros ->. contradiction.
  - assert (a <> x).
    { intros ->. apply (f_equal (@In A x)) in E. assert (X : In x (filter p l)) by (rewrite E; left; reflexivity).
      apply filter_In in X as [_ X]. congruence. }
    rewrite H, Pa by assumption. apply IH; assumption.
Qed.
Lemma filter_before (p : nat -> bool) l x rest a : filter p l = x :: rest -> NoDup l -> before l a x -> p a = false.
Proof.
  intros E ND (l1 & l2 & l3 & ->). rewrite filter_app in E. cbn in E. rewrite filter_app in E. cbn in E.
  destruct (p a) eqn:Pa; [|reflexivity]. exfalso.
  assert (a <> x).
  { intros ->. apply NoDup_remove_2 in ND. apply ND. rewrite !in_app_iff. cbn. auto. }
  destruct (filter p l1) as [|b r] eqn:F; cbn in E.
  - congruence.
  - injection E as -> _. assert (X : In x (filter p l1)) by (rewrite F; left; reflexivity). apply filter_In in X as [X _].
    assert (~ In x (l1 ++ (a :: l2) ++ l3)).
    { rewrite app_assoc. apply NoDup_remove_2. rewrite <- app_assoc. exact ND. }
    apply H0. rewrite !in_app_iff. auto.
Qed.

(* admission of the front waiter *)
Lemma sadmit size s t n rest :
  sinv size s -> s_waiters s = (t, n) :: rest -> (n <= s_size s - s_cur s)%Z -> (0 <= s_cur s)%Z ->
  sinv size (sset s (s_cur s + n) rest (wake (s_threads s) t)).
Proof.
  intros I Hw Hn Hc.
  assert (exists x x1, nth_error (s_threads s) t = Some x /\ wt x = Some n /\ wt x1 = None /\ adm x1 = true /\
     queued x1 = true /\ isP x = false /\ isP x1 = false /\ tweight x1 = tweight x /\
     wake (s_threads s) t = set_nth (s_threads s) t x1 /\
     (granted_weight x1 = granted_weight x + n)%Z /\ released_weight x1 = released_weight x) as
     (x & x1 & Hx & Wx & W1 & A1 & Q1 & P0 & P1 & TW & WK & GW & RW).
  { assert (In (t, n) (s_waiters s)) as Hin by (rewrite Hw; left; reflexivity). apply (i_q _ _ I) in Hin.
    destruct Hin as [H|H]; unfold wake; rewrite H.
    - exists (AcW n false), (AcW n true). cbn. repeat split; lia || auto.
    - exists (AcC n false), (AcC n true). cbn. repeat split; lia || auto. }
  rewrite WK. pose proof (i_fst _ _ I) as IF. rewrite Hw in IF. cbn in IF. symmetry in IF.
  assert (WO : forall j, j <> t -> waitsb (set_nth (s_threads s) t x1) j = waitsb (s_threads s) j).
  { intros j N. rewrite !waitsb_wt, set_nth_ne by auto. reflexivity. }
  assert (WT : waitsb (set_nth (s_threads s) t x1) t = false).
  { rewrite waitsb_wt. erewrite set_nth_eq by eauto. rewrite W1. reflexivity. }
  assert (NDq : NoDup (map fst (s_waiters s))).
  { rewrite (i_fst _ _ I). apply NoDup_filter, (i_nd _ _ I). }
  constructor; cbn [sset s_size s_cur s_waiters s_threads s_arrived].
  - apply (i_sz _ _ I).
  - unfold held. cbn. pose proof (zsum_set granted_weight _ t x1 x Hx). pose proof (zsum_set released_weight _ t x1 x Hx).
    pose proof (i_cur _ _ I) as V. unfold held in V. lia.
  - rewrite (i_sz _ _ I) in Hn. lia.
  - intros j m. rewrite waits_wt. cbn. destruct (Nat.eq_dec t j) as [<-|N].
    + split.
      * intros Hin. rewrite Hw in NDq. cbn in NDq. inversion NDq as [|? ? NI _]; subst. destruct NI.
        apply in_map_iff. exists (t, m). auto.
      * intros (y & E & F). erewrite set_nth_eq in E by eauto. injection E as <-. congruence.
    + rewrite set_nth_ne by assumption. rewrite <- waits_wt, <- (i_q _ _ I), Hw. cbn. intuition congruence.
  - symmetry. eapply filter_first; [apply (i_nd _ _ I)|exact IF|exact WO|exact WT].
  - apply (i_nd _ _ I).
  - intros j Hj. destruct (i_arr _ _ I j Hj) as (y & X & Y). destruct (Nat.eq_dec t j) as [<-|N].
    + exists x1. split; [eapply set_nth_eq; eauto|auto].
    + rewrite set_nth_ne by assumption. eauto.
  - intros a b B D. destruct (Nat.eq_dec a t) as [->|N]; [exact WT|]. rewrite WO by assumption.
    apply let_in_adm in D as [D (y & X & Y)]. cbn in *. apply set_nth_lookup in X as [[<- ->]|[N' X]].
    + eapply filter_before; [exact IF|apply (i_nd _ _ I)|exact B].
    + apply (i_fifo _ _ I a b B). apply let_in_adm. eauto.
  - intros j m Hin. apply (i_wsz _ _ I j m). rewrite Hw. right. assumption.
  - intros y Hy. apply set_nth_In in Hy as [->|Hy]; [rewrite TW|]; apply (i_nn _ _ I); [eapply nth_error_In; eauto|assumption].
  - intros _. assert (0 <= n)%Z; [|lia]. pose proof (i_nn _ _ I x (nth_error_In _ _ Hx)).
    destruct x as [| |m []|m []| | | | | |]; try discriminate; injection Wx as ->; assumption.
Qed.

Lemma sadmit_all size : forall ws s, sinv size s -> s_waiters s = ws -> (0 <= s_cur s)%Z ->
  forall cur' ws' ts', admit_waiters (s_size s) (s_cur s) ws (s_threads s) = (cur', ws', ts') ->
  sinv size (sset s cur' ws' ts') /\ (0 <= cur')%Z /\
  match ws' with [] => True | (_, n) :: _ => (size - cur' < n)%Z end.
Proof.
  induction ws as [|[t n] ws IH]; intros s I Hw Hc cur' ws' ts' H; cbn in H.
  - injection H as <- <- <-. split; [|auto]. destruct s. cbn in *. subst. exact I.
  - destruct (Z.ltb_spec (s_size s - s_cur s) n) as [L|L].
    + injection H as <- <- <-. split; [|rewrite <- (i_sz _ _ I); auto]. destruct s. cbn in *. subst. exact I.
    + pose proof (sadmit size s t n ws I Hw L Hc) as I'.
      assert (0 <= n)%Z.
      { assert (In (t, n) (s_waiters s)) as Hin by (rewrite Hw; left; reflexivity). apply (i_q _ _ I) in Hin.
        destruct Hin as [X|X]; apply nth_error_In in X; apply (i_nn _ _ I) in X; exact X. }
      specialize (IH _ I' eq_refl). cbn [sset s_size s_cur s_waiters s_threads] in IH.
      destruct (IH ltac:(lia) _ _ _ H) as (A & B & C). split; [|auto]. exact A.
Qed.

Lemma call_sinv size s c : sinv size s -> (0 <= weight_of c)%Z ->
  sinv size (MkSema (s_size s) (s_cur s) (s_waiters s) (s_threads s ++ [sstart c]) (s_arrived s)).
Proof.
  intros I Hn.
  assert (LT : forall i t, nth_error (s_threads s) i = Some t -> nth_error (s_threads s ++ [sstart c]) i = Some t).
  { intros i t H. apply nth_error_snoc_some. auto. }
  assert (G0 : granted_weight (sstart c) = 0%Z /\ released_weight (sstart c) = 0%Z /\ wt (sstart c) = None /\ adm (sstart c) = false /\ isP (sstart c) = false).
  { destruct c; cbn; auto. }
  destruct G0 as (G0 & R0 & W0 & A0 & P0).
  assert (WB : forall j, waitsb (s_threads s ++ [sstart c]) j = waitsb (s_threads s) j).
  { intros j. rewrite !waitsb_wt. destruct (nth_error (s_threads s) j) as [t|] eqn:E; [rewrite (LT _ _ E); reflexivity|].
    rewrite nth_error_snoc. apply nth_error_None in E. destruct (Nat.ltb_spec j (length (s_threads s))); [lia|].
    destruct (j =? _); [rewrite W0|]; reflexivity. }
  constructor; cbn [s_size s_cur s_waiters s_threads s_arrived].
  - apply (i_sz _ _ I).
  - unfold held. cbn. rewrite !zsum_snoc, G0, R0. pose proof (i_cur _ _ I) as V. unfold held in V. lia.
  - apply (i_le _ _ I).
  - intros i n. rewrite (i_q _ _ I), !waits_wt. cbn. split.
    + intros (t & H & W). exists t. auto.
    + intros (t & H & W). apply nth_error_snoc_some in H as [H|[_ ->]]; [eauto|congruence].
  - rewrite (i_fst _ _ I). apply filter_ext. intros j. symmetry. apply WB.
  - apply (i_nd _ _ I).
  - intros i H. destruct (i_arr _ _ I i H) as (t & X & Y). eauto.
  - intros a b B D. rewrite WB. apply (i_fifo _ _ I a b B). apply let_in_adm in D as [D (x & X & Y)]. cbn in *.
    apply let_in_adm. split; [assumption|]. apply nth_error_snoc_some in X as [X|[_ ->]]; [eauto|congruence].
  - apply (i_wsz _ _ I).
  - intros t H. apply in_app_or in H as [H|[<-|[]]]; [apply (i_nn _ _ I), H|]. destruct c; exact Hn.
  - intros N. apply (i_pos _ _ I). intros (i & n & H). apply N. exists i, n. cbn. auto.
Qed.

Lemma push_sinv size s i n : sinv size s -> nth_error (s_threads s) i = Some (Ac0 n) -> (n <= size)%Z ->
  sinv size (MkSema (s_size s) (s_cur s) (s_waiters s ++ [(i, n)]) (set_nth (s_threads s) i (AcW n false)) (s_arrived s ++ [i])).
Proof.
  intros I Ht Hn.
  assert (NA : ~ In i (s_arrived s)).
  { intros H. destruct (i_arr _ _ I i H) as (t & X & Y). rewrite Ht in X. injection X as <-. discriminate. }
  assert (WO : forall j, j <> i -> waitsb (set_nth (s_threads s) i (AcW n false)) j = waitsb (s_threads s) j).
  { intros j N. rewrite !waitsb_wt, set_nth_ne by auto. reflexivity. }
  constructor; cbn [s_size s_cur s_waiters s_threads s_arrived].
  - apply (i_sz _ _ I).
  - unfold held. cbn. pose proof (zsum_set granted_weight _ i (AcW n false) _ Ht). pose proof (zsum_set released_weight _ i (AcW n false) _ Ht).
    pose proof (i_cur _ _ I) as V. unfold held in V. cbn in *. lia.
  - apply (i_le _ _ I).
  - intros j m. rewrite in_app_iff. cbn. rewrite (i_q _ _ I), !waits_wt. cbn. destruct (Nat.eq_dec i j) as [<-|N].
    + erewrite set_nth_eq by eauto. rewrite Ht. split.
      * intros [(t & [= <-] & W)|[[= <-]|[]]]; [discriminate|]. eexists; split; reflexivity.
      * intros (t & [= <-] & [= <-]). auto.
    + rewrite set_nth_ne by assumption. intuition congruence.
  - rewrite map_app, filter_app, (i_fst _ _ I). cbn. rewrite waitsb_wt. erewrite set_nth_eq by eauto. cbn. f_equal.
    apply filter_ext_in. intros j Hj. symmetry. apply WO. intros ->. contradiction.
  - apply NoDup_snoc. split; [apply (i_nd _ _ I)|assumption].
  - intros j Hj. apply in_app_or in Hj as [Hj|[<-|[]]].
    + destruct (i_arr _ _ I j Hj) as (t & X & Y). rewrite set_nth_ne; [eauto|]. intros ->. contradiction.
    + exists (AcW n false). split; [eapply set_nth_eq; eauto|reflexivity].
  - intros a b (l1 & l2 & l3 & E) D. apply let_in_adm in D as [_ (x & X & Y)]. cbn in *.
    apply set_nth_lookup in X as [[<- ->]|[N X]]; [discriminate|].
    assert (b <> i) by congruence.
    destruct l3 as [|z l3 _] using rev_ind.
    + rewrite app_comm_cons, app_assoc in E. apply app_inj_tail in E as [_ E]. congruence.
    + replace (l1 ++ a :: l2 ++ b :: l3 ++ [z]) with ((l1 ++ a :: l2 ++ b :: l3) ++ [z]) in E
        by (rewrite <- !app_assoc; cbn; rewrite <- !app_assoc; reflexivity).
      apply app_inj_tail in E as [E _].
      assert (B : before (s_arrived s) a b) by (exists l1, l2, l3; exact E).
      destruct (before_In _ _ _ B) as [Ia Ib]. rewrite WO by (intros ->; contradiction).
      apply (i_fifo _ _ I a b B). apply let_in_adm. eauto.
  - intros j m H. apply in_app_or in H as [H|[[= <- <-]|[]]]; [eapply (i_wsz _ _ I); eauto|assumption].
  - intros x Hx. apply set_nth_In in Hx as [->|Hx]; [apply (i_nn _ _ I (Ac0 n)); eapply nth_error_In; eauto|apply (i_nn _ _ I), Hx].
  - intros N. apply (i_pos _ _ I). intros (j & m & P). apply N. exists j, m. cbn.
    rewrite set_nth_ne; [assumption|]. intros ->. congruence.
Qed.

Lemma remove_sinv size s i n : sinv size s -> nth_error (s_threads s) i = Some (AcC n false) ->
  sinv size (sset s (s_cur s) (remove_waiter (s_waiters s) i) (set_nth (s_threads s) i (AcR n false))).
Proof.
  intros I Ht.
  assert (WB : forall j, waitsb (set_nth (s_threads s) i (AcR n false)) j = negb (j =? i) && waitsb (s_threads s) j).
  { intros j. rewrite !waitsb_wt. destruct (Nat.eqb_spec j i) as [->|N].
    - erewrite set_nth_eq by eauto. reflexivity.
    - rewrite set_nth_ne by auto. reflexivity. }
  constructor; cbn [sset s_size s_cur s_waiters s_threads s_arrived].
  - apply (i_sz _ _ I).
  - unfold held. cbn. pose proof (zsum_set granted_weight _ i (AcR n false) _ Ht). pose proof (zsum_set released_weight _ i (AcR n false) _ Ht).
    pose proof (i_cur _ _ I) as V. unfold held in V. cbn in *. lia.
  - apply (i_le _ _ I).
  - intros j m. unfold remove_waiter. rewrite filter_In, (i_q _ _ I), !waits_wt. cbn. destruct (Nat.eqb_spec j i) as [->|N].
    + erewrite set_nth_eq by eauto. split; [intros [_ ?]; discriminate|]. intros (t & [= <-] & ?). discriminate.
    + rewrite set_nth_ne by auto. tauto.
  - transitivity (filter (fun j => negb (j =? i)) (filter (waitsb (s_threads s)) (s_arrived s))).
    + rewrite <- (i_fst _ _ I). unfold remove_waiter. generalize (s_waiters s). intros l. induction l as [|[a b] l IH]; cbn; [reflexivity|].
      destruct (a =? i); cbn; rewrite IH; reflexivity.
    + generalize (s_arrived s). intros l. induction l as [|a l IH]; cbn; [reflexivity|]. rewrite WB.
      destruct (waitsb (s_threads s) a); cbn; [|rewrite andb_false_r; exact IH]. destruct (a =? i); cbn; rewrite IH; reflexivity.
  - apply (i_nd _ _ I).
  - intros j Hj. destruct (i_arr _ _ I j Hj) as (x & X & Y). destruct (Nat.eq_dec i j) as [<-|N].
    + eexists. split; [eapply set_nth_eq; eauto|reflexivity].
    + rewrite set_nth_ne by assumption. eauto.
  - intros a b B D. rewrite WB. rewrite (i_fifo _ _ I a b B); [apply andb_false_r|].
    apply let_in_adm in D as [D (x & X & Y)]. cbn in *. apply let_in_adm. split; [assumption|].
    apply set_nth_lookup in X as [[-> ->]|[N X]]; [discriminate|eauto].
  - intros j m H. unfold remove_waiter in H. apply filter_In in H as [H _]. eapply (i_wsz _ _ I); eauto.
  - intros x Hx. apply set_nth_In in Hx as [->|Hx]; [apply (i_nn _ _ I (AcC n false)); eapply nth_error_In; eauto|apply (i_nn _ _ I), Hx].
  - intros N. apply (i_pos _ _ I). eapply (panicked_set s i (AcC n false)); eauto.
Qed.

Lemma new_sinv size : (0 <= size)%Z -> sinv size (NewWeighted size).
Proof.
  intros H. constructor; cbn; try reflexivity; try lia; try (intros; contradiction); try constructor.
  - intros [].
  - intros [C|C]; destruct i; discriminate.
  - intros a b (l1 & l2 & l3 & E). destruct l1; discriminate.
Qed.

(* weights, what is waiting, and admission, after one event *)
Lemma sstep_inv size s e s' : sinv size s -> nonneg s e -> sstep s e = Some s' ->
  sinv size s'.
Proof.
  intros I NN H. destruct e as [c|i c]; cbn in H; [injection H as <-; apply call_sinv; assumption|].
  destruct (nth_error (s_threads s) i) as [t|] eqn:Ht; [|discriminate].
  assert (TN : (0 <= tweight t)%Z) by (apply (i_nn _ _ I); eapply nth_error_In; eauto).
  pose proof (i_le _ _ I) as LE. pose proof (i_sz _ _ I) as SZ.
  destruct t as [n|n|n r|n r|n ok|n|n ok|n|n|n], c; cbn [sthread_step] in H; try discriminate H; cbn in TN.
  - (* Ac0 *) destruct ((s_size s - s_cur s >=? n)%Z && (length (s_waiters s) =? 0)) eqn:E.
    + injection H as <-. apply andb_true_iff in E as [E _]. rewrite Z.geb_leb in E. apply Z.leb_le in E.
      eapply smove; [exact I|exact Ht|reflexivity| |discriminate|assumption|cbn; lia|lia|reflexivity|cbn; lia].
      intros _ _ A. destruct (i_arr _ _ I i A) as (t & X & Y). rewrite Ht in X. injection X as <-. discriminate.
    + destruct (Z.gtb_spec n (s_size s)) as [L|L]; injection H as <-.
      * eapply smove; [exact I|exact Ht|reflexivity|discriminate|discriminate|assumption|cbn; lia|lia|reflexivity|cbn; lia].
      * apply push_sinv; [assumption|assumption|lia].
  - injection H as <-. eapply smove; [exact I|exact Ht|reflexivity|discriminate|reflexivity|assumption|cbn; lia|lia|reflexivity|cbn; lia].
  - destruct r; injection H as <-; (eapply smove; [exact I|exact Ht|reflexivity|discriminate|reflexivity|assumption|cbn; lia|lia|reflexivity|cbn; lia]).
  - destruct r; [|discriminate]. injection H as <-.
    eapply smove; [exact I|exact Ht|reflexivity|discriminate|reflexivity|assumption|cbn; lia|lia|reflexivity|cbn; lia].
  - destruct r; discriminate.
  - destruct r; injection H as <-.
    + eapply smove; [exact I|exact Ht|reflexivity|discriminate|reflexivity|assumption|cbn; lia|lia|reflexivity|cbn; lia].
    + apply remove_sinv; assumption.
  - destruct ((s_size s - s_cur s >=? n)%Z && (length (s_waiters s) =? 0)) eqn:E; injection H as <-.
    + apply andb_true_iff in E as [E _]. rewrite Z.geb_leb in E. apply Z.leb_le in E.
      eapply smove; [exact I|exact Ht|reflexivity|discriminate|discriminate|assumption|cbn; lia|lia|reflexivity|cbn; lia].
    + eapply smove; [exact I|exact Ht|reflexivity|discriminate|discriminate|assumption|cbn; lia|lia|reflexivity|cbn; lia].
  - destruct (Z.ltb_spec (s_cur s - n) 0) as [L|L].
    + injection H as <-.
      eapply smove; [exact I|exact Ht|reflexivity|discriminate|discriminate|assumption|cbn; lia|lia|reflexivity|discriminate].
    + destruct (admit_waiters _ _ _ _) as [[cur' ws] ts] eqn:A. injection H as <-.
      assert (I1 : sinv size (sset s (s_cur s - n) (s_waiters s) (set_nth (s_threads s) i (ReR n)))).
      { eapply smove; [exact I|exact Ht|reflexivity|discriminate|discriminate|assumption|cbn; lia|lia|reflexivity|cbn; lia]. }
      destruct (sadmit_all size _ _ I1 eq_refl L _ _ _ A) as [X _]. exact X.
Qed.

Lemma reach_sinv size (ok : sema -> sevent -> Prop) s : (0 <= size)%Z -> (forall s e, ok s e -> nonneg s e) -> sreach size ok s -> sinv size s.
Proof.
  intros Hs Ho. induction 1 as [|s e s' H IH O St]; [apply new_sinv, Hs|]. eapply sstep_inv; eauto.
Qed.

Lemma panicked_mono s e s' : sstep s e = Some s' -> panicked s -> panicked s'.
Proof.
  intros H (j & m & P). destruct e as [c|i c]; cbn in H.
  - injection H as <-. exists j, m. cbn. apply nth_error_snoc_some. auto.
  - destruct (nth_error (s_threads s) i) as [t|] eqn:Ht; [|discriminate].
    assert (i <> j) by (intros ->; rewrite P in Ht; injection Ht as <-; destruct c; discriminate).
    assert (S : forall t', nth_error (set_nth (s_threads s) i t') j = Some (ReP m)) by (intros; rewrite set_nth_ne; assumption).
    assert (AD : forall size ws cur ts, nth_error ts j = Some (ReP m) -> nth_error (snd (admit_waiters size cur ws ts)) j = Some (ReP m)).
    { clear. intros size. induction ws as [|[t n] ws IH]; intros cur ts H; cbn; [assumption|].
      destruct (size - cur <? n)%Z; [assumption|]. apply IH. unfold wake.
      destruct (nth_error ts t) as [x|] eqn:E; [|assumption].
      destruct x; try assumption; (rewrite set_nth_ne; [assumption|]; intros ->; congruence). }
    exists j, m.
    destruct t as [n|n|n r|n r|n ok|n|n ok|n|n|n], c; cbn [sthread_step] in H; try discriminate H;
      try (destruct r; try discriminate H);
      repeat match type of H with
      | Some _ = Some _ => injection H as <-; cbn; auto
      | context [if ?b then _ else _] => destruct b
      end.
    + specialize (AD (s_size s) (s_waiters s) (s_cur s - n)%Z _ (S (ReR n))).
      destruct (admit_waiters _ _ _ _) as [[? ?] ?]. injection H as <-. exact AD.
Qed.

Lemma srun_reach size (ok : sema -> sevent -> Prop) es : forall s s',
  sreach size ok s -> (forall s e, In e es -> ok s e) -> srun s es = Some s' -> sreach size ok s'.
Proof.
  induction es as [|e es IH]; cbn; intros s s' R O H; [injection H as <-; assumption|].
  destruct (sstep s e) as [s1|] eqn:E; [|discriminate]. eapply IH; [|intros; apply O; auto|eassumption].
  econstructor; eauto.
Qed.

(* ---------- over-admission ---------- *)
Lemma never_over size s : (0 <= size)%Z -> sreach size nonneg s -> (held s <= size)%Z.
Proof. intros Hs R. pose proof (reach_sinv size nonneg s Hs (fun _ _ H => H) R) as I. rewrite <- (i_cur _ _ I). apply (i_le _ _ I). Qed.
Lemma never_negative size s : (0 <= size)%Z -> sreach size nonneg s -> ~ panicked s -> (0 <= held s)%Z.
Proof. intros Hs R. pose proof (reach_sinv size nonneg s Hs (fun _ _ H => H) R) as I. rewrite <- (i_cur _ _ I). apply (i_pos _ _ I). Qed.

Lemma no_waiters size s : sinv size s -> length (s_waiters s) = 0 <-> forall i n, ~ waits s i n.
Proof.
  intros I. split.
  - intros H i n W. apply (i_q _ _ I) in W. destruct (s_waiters s); [destruct W|discriminate].
  - intros H. destruct (s_waiters s) as [|[i n] r] eqn:E; [reflexivity|]. destruct (H i n). apply (i_q _ _ I). rewrite E. left. reflexivity.
Qed.

Lemma fits_iff size s n : sinv size s ->
  (s_size s - s_cur s >=? n)%Z && (length (s_waiters s) =? 0) = true <->
  (n <= size - held s)%Z /\ forall i m, ~ waits s i m.
Proof.
  intros I. rewrite andb_true_iff, Z.geb_leb, Z.leb_le, Nat.eqb_eq, (no_waiters size s I), (i_sz _ _ I), (i_cur _ _ I). tauto.
Qed.

Lemma acquire_immediately size s i n : (0 <= size)%Z -> sreach size nonneg s ->
  nth_error (s_threads s) i = Some (Ac0 n) ->
  exists s' t', sstep s (SvStep i SeRun) = Some s' /\ nth_error (s_threads s') i = Some t' /\
    (t' = AcR n true <-> (n <= size - held s)%Z /\ forall j m, ~ waits s j m) /\
    (t' <> AcR n true -> held s' = held s /\ (n <= size -> waits s' i n /\ s_arrived s' = s_arrived s ++ [i])%Z /\ (size < n -> t' = AcD n)%Z).
Proof.
  intros Hs R Ht. pose proof (reach_sinv size nonneg s Hs (fun _ _ H => H) R) as I.
  assert (NN : nonneg s (SvStep i SeRun)) by exact Logic.I.
  pose proof (fun s' => sstep_inv size s (SvStep i SeRun) s' I NN) as I'. revert I'.
  cbn [sstep]. rewrite Ht. cbn [sthread_step]. intros I'.
  destruct ((s_size s - s_cur s >=? n)%Z && (length (s_waiters s) =? 0)) eqn:E.
  - eexists _, _. split; [reflexivity|]. split; [cbn; eapply set_nth_eq; eauto|]. split.
    + split; [intros _; apply (fits_iff size s n I), E|reflexivity].
    + intros C. congruence.
  - assert (NF : ~ ((n <= size - held s)%Z /\ forall j m, ~ waits s j m)).
    { rewrite <- (fits_iff size s n I), E. discriminate. }
    rewrite (i_sz _ _ I) in *. destruct (Z.gtb_spec n size) as [L|L].
    + specialize (I' _ eq_refl). eexists _, _. split; [reflexivity|]. split; [cbn; eapply set_nth_eq; eauto|]. split.
      * split; [discriminate|]. intros C. contradiction.
      * intros _. split; [rewrite <- (i_cur _ _ I), <- (i_cur _ _ I'); reflexivity|]. split; [lia|reflexivity].
    + specialize (I' _ eq_refl). eexists _, _. split; [reflexivity|]. split; [cbn; eapply set_nth_eq; eauto|]. split.
      * split; [discriminate|]. intros C. contradiction.
      * intros _. split; [rewrite <- (i_cur _ _ I), <- (i_cur _ _ I'); reflexivity|]. split; [|lia].
        intros _. split; [left; cbn; eapply set_nth_eq; eauto|reflexivity].
Qed.

Lemma try_acquire_exact size s i n : (0 <= size)%Z -> sreach size nonneg s ->
  nth_error (s_threads s) i = Some (Tr0 n) ->
  exists s' b, sstep s (SvStep i SeRun) = Some s' /\ nth_error (s_threads s') i = Some (TrR n b) /\
    (b = true <-> (n <= size - held s)%Z /\ forall j m, ~ waits s j m) /\
    held s' = (held s + if b then n else 0)%Z.
Proof.
  intros Hs R Ht. pose proof (reach_sinv size nonneg s Hs (fun _ _ H => H) R) as I.
  assert (NN : nonneg s (SvStep i SeRun)) by exact Logic.I.
  pose proof (fun s' => sstep_inv size s (SvStep i SeRun) s' I NN) as I'. revert I'.
  cbn [sstep]. rewrite Ht. cbn [sthread_step]. intros I'.
  destruct ((s_size s - s_cur s >=? n)%Z && (length (s_waiters s) =? 0)) eqn:E; specialize (I' _ eq_refl).
  - eexists _, true. split; [reflexivity|]. split; [cbn; eapply set_nth_eq; eauto|]. split.
    + split; [intros _; apply (fits_iff size s n I), E|reflexivity].
    + rewrite <- (i_cur _ _ I), <- (i_cur _ _ I'). reflexivity.
  - eexists _, false. split; [reflexivity|]. split; [cbn; eapply set_nth_eq; eauto|]. split.
    + split; [discriminate|]. rewrite <- (fits_iff size s n I), E. discriminate.
    + rewrite <- (i_cur _ _ I), <- (i_cur _ _ I'). cbn. lia.
Qed.

Lemma release_panics size s i n : (0 <= size)%Z -> sreach size nonneg s ->
  nth_error (s_threads s) i = Some (Re0 n) ->
  exists s', sstep s (SvStep i SeRun) = Some s' /\
    ((held s < n)%Z -> nth_error (s_threads s') i = Some (ReP n)) /\
    ((n <= held s)%Z -> nth_error (s_threads s') i = Some (ReR n)).
Proof.
  intros Hs R Ht. pose proof (reach_sinv size nonneg s Hs (fun _ _ H => H) R) as I.
  cbn [sstep]. rewrite Ht. cbn [sthread_step]. pose proof (i_cur _ _ I) as C.
  destruct (Z.ltb_spec (s_cur s - n) 0) as [L|L].
  - eexists. split; [reflexivity|]. split; [intros _; cbn; eapply set_nth_eq; eauto|lia].
  - destruct (admit_waiters _ _ _ _) as [[cur' ws] ts] eqn:A. eexists. split; [reflexivity|]. split; [lia|]. intros _. cbn.
    assert (AD : forall size ws cur ts j m, nth_error ts j = Some (ReR m) -> nth_error (snd (admit_waiters size cur ws ts)) j = Some (ReR m)).
    { clear. intros size ws. induction ws as [|[t n] ws IH]; intros cur ts j m H; cbn; [assumption|].
      destruct (size - cur <? n)%Z; [assumption|]. apply IH. unfold wake.
      destruct (nth_error ts t) as [x|] eqn:E; [|assumption].
      destruct x; try assumption; (rewrite set_nth_ne; [assumption|]; intros ->; congruence). }
    specialize (AD (s_size s) (s_waiters s) (s_cur s - n)%Z (set_nth (s_threads s) i (ReR n)) i n ltac:(eapply set_nth_eq; eauto)).
    rewrite A in AD. exact AD.
Qed.

(* ---------- order ---------- *)
Lemma fifo size s a b : (0 <= size)%Z -> sreach size nonneg s ->
  before (s_arrived s) a b -> let_in s b -> forall n, ~ waits s a n.
Proof.
  intros Hs R B A n W. pose proof (reach_sinv size nonneg s Hs (fun _ _ H => H) R) as I.
  pose proof (i_fifo _ _ I a b B A) as F. apply waits_wt in W as (t & T & W). rewrite waitsb_wt, T, W in F. discriminate.
Qed.

(* ---------- no lost wake-ups ---------- *)
Definition front_blocked (size : Z) (s : sema) : Prop :=
  match s_waiters s with [] => True | (_, n) :: _ => (size - s_cur s < n)%Z end.

Lemma front_waits size s i n : sinv size s -> front_blocked size s -> waits s i n ->
  (forall a m, before (s_arrived s) a i -> ~ waits s a m) -> (size - held s < n)%Z.
Proof.
  intros I F W NB. rewrite <- (i_cur _ _ I). pose proof W as W0. apply (i_q _ _ I) in W.
  assert (Ia : In i (s_arrived s)).
  { assert (X : In i (map fst (s_waiters s))) by (apply in_map_iff; exists (i, n); auto).
    rewrite (i_fst _ _ I) in X. apply filter_In in X. apply X. }
  apply in_split in Ia as (l1 & l2 & E).
  assert (F1 : filter (waitsb (s_threads s)) l1 = []).
  { destruct (filter _ l1) as [|a r] eqn:G; [reflexivity|]. exfalso.
    assert (X : In a (filter (waitsb (s_threads s)) l1)) by (rewrite G; left; reflexivity).
    apply filter_In in X as [X1 X2]. apply in_split in X1 as (k1 & k2 & ->).
    rewrite waitsb_wt in X2. destruct (nth_error (s_threads s) a) as [t|] eqn:T; [|discriminate].
    destruct (wt t) as [m|] eqn:Wm; [|discriminate].
    eapply (NB a m); [|apply waits_wt; eauto]. exists k1, k2, l2. rewrite E, <- app_assoc. reflexivity. }
  pose proof (i_fst _ _ I) as IF. rewrite E, filter_app, F1 in IF. cbn in IF.
  assert (Wb : waitsb (s_threads s) i = true).
  { apply waits_wt in W0 as (t & T & Wt). rewrite waitsb_wt, T, Wt. reflexivity. }
  rewrite Wb in IF. unfold front_blocked in F. destruct (s_waiters s) as [|[j m] r] eqn:Q; [discriminate|]. cbn in IF.
  injection IF as -> IF. assert (m = n); [|subst; assumption].
  assert (W1 : waits s i m) by (apply (i_q _ _ I); rewrite Q; left; reflexivity).
  apply waits_wt in W0 as (t & T & Wt). apply waits_wt in W1 as (t' & T' & Wt'). congruence.
Qed.

Lemma front_step size s e s' : sinv size s -> nonneg s e -> sstep s e = Some s' -> ~ panicked s' ->
  front_blocked size s ->
  match e with SvStep i SeRun => match nth_error (s_threads s) i with Some (AcC _ false) => False | _ => True end | _ => True end ->
  front_blocked size s'.
Proof.
  intros I NN H NP F OK. destruct e as [c|i c]; cbn in H; [injection H as <-; exact F|].
  destruct (nth_error (s_threads s) i) as [t|] eqn:Ht; [|discriminate].
  pose proof (i_le _ _ I) as LE. pose proof (i_sz _ _ I) as SZ. unfold front_blocked in *.
  destruct t as [n|n|n r|n r|n ok|n|n ok|n|n|n], c; cbn [sthread_step] in H; try discriminate H.
  - destruct ((s_size s - s_cur s >=? n)%Z && (length (s_waiters s) =? 0)) eqn:E.
    + injection H as <-. apply andb_true_iff in E as [_ E]. apply Nat.eqb_eq in E. cbn. destruct (s_waiters s); [exact Logic.I|discriminate].
    + destruct (Z.gtb_spec n (s_size s)) as [L|L]; injection H as <-; cbn; [assumption|].
      destruct (s_waiters s) as [|[j m] r]; cbn; [|assumption]. cbn in E. rewrite andb_true_r, Z.geb_leb in E.
      apply Z.leb_gt in E. lia.
  - injection H as <-. exact F.
  - destruct r; injection H as <-; exact F.
  - destruct r; [|discriminate]. injection H as <-. exact F.
  - destruct r; discriminate.
  - destruct r; [injection H as <-; exact F|contradiction].
  - destruct ((s_size s - s_cur s >=? n)%Z && (length (s_waiters s) =? 0)) eqn:E; injection H as <-; [|exact F].
    apply andb_true_iff in E as [_ E]. apply Nat.eqb_eq in E. cbn. destruct (s_waiters s); [exact Logic.I|discriminate].
  - destruct (Z.ltb_spec (s_cur s - n) 0) as [L|L].
    + injection H as <-. destruct NP. exists i, n. cbn. eapply set_nth_eq; eauto.
    + destruct (admit_waiters _ _ _ _) as [[cur' ws] ts] eqn:A. injection H as <-.
      assert (TN : (0 <= n)%Z) by (apply (i_nn _ _ I (Re0 n)); eapply nth_error_In; eauto).
      assert (I1 : sinv size (sset s (s_cur s - n) (s_waiters s) (set_nth (s_threads s) i (ReR n)))).
      { eapply smove; [exact I|exact Ht|reflexivity|discriminate|discriminate|assumption|cbn; lia|lia|reflexivity|cbn; lia]. }
      destruct (sadmit_all size _ _ I1 eq_refl L _ _ _ A) as [_ [_ X]]. exact X.
Qed.

(* without cancellations no thread is in the AcC state *)
Lemma no_cancel_AcC size s : sreach size no_cancel s -> forall i n r, nth_error (s_threads s) i <> Some (AcC n r).
Proof.
  induction 1 as [|s e s' H IH O St]; intros j m r X; [destruct j; discriminate|].
  destruct e as [c|i c]; cbn in St.
  - injection St as <-. cbn in X. apply nth_error_snoc_some in X as [X|[_ X]]; [eapply IH; eauto|]. destruct c; discriminate.
  - destruct c; [destruct O as [_ []]|].
    destruct (nth_error (s_threads s) i) as [t|] eqn:Ht; [|discriminate].
    assert (AD : forall size ws cur ts, (forall j n r, nth_error ts j <> Some (AcC n r)) -> forall j n r, nth_error (snd (admit_waiters size cur ws ts)) j <> Some (AcC n r)).
    { clear. intros size ws. induction ws as [|[t n] ws IH]; intros cur ts H; cbn; [assumption|].
      destruct (size - cur <? n)%Z; [assumption|]. apply IH. unfold wake. intros j k r.
      destruct (nth_error ts t) as [x|] eqn:E; [|apply H].
      destruct x; try apply H; [|destruct (H _ _ _ E)].
      intros X. apply set_nth_lookup in X as [[_ X]|[_ X]]; [discriminate|eapply H; eauto]. }
    assert (PUT : forall t', (forall n r, t' <> AcC n r) -> forall j n r, nth_error (set_nth (s_threads s) i t') j <> Some (AcC n r)).
    { intros t' T k n0 r0 Y. apply set_nth_lookup in Y as [[_ Y]|[_ Y]]; [eapply T; eauto|eapply IH; eauto]. }
    destruct t as [n|n|n r1|n r1|n ok|n|n ok|n|n|n]; cbn [sthread_step] in St; try discriminate St.
    + destruct (_ && _); [|destruct (n >? s_size s)%Z]; injection St as <-; cbn in X; eapply PUT in X; auto; discriminate.
    + destruct r1; [|discriminate]. injection St as <-; cbn in X; eapply PUT in X; auto; discriminate.
    + destruct (IH _ _ _ Ht).
    + destruct (_ && _); injection St as <-; cbn in X; eapply PUT in X; auto; discriminate.
    + destruct (_ <? _)%Z; [injection St as <-; cbn in X; eapply PUT in X; auto; discriminate|].
      specialize (AD (s_size s) (s_waiters s) (s_cur s - n)%Z (set_nth (s_threads s) i (ReR n)) (PUT (ReR n) ltac:(discriminate))).
      destruct (admit_waiters _ _ _ _) as [[? ?] ?]. injection St as <-. eapply AD; eauto.
Qed.

Lemma no_cancel_front size s : (0 <= size)%Z -> sreach size no_cancel s -> ~ panicked s -> front_blocked size s.
Proof.
  intros Hs. induction 1 as [|s e s' H IH O St]; intros NP; [exact Logic.I|].
  assert (NN : forall s e, no_cancel s e -> nonneg s e) by (intros ? ? [A _]; exact A).
  pose proof (reach_sinv size no_cancel s Hs NN H) as I.
  eapply front_step; [exact I|apply NN, O|exact St|exact NP|apply IH; intros P; apply NP; eapply panicked_mono; eauto|].
  destruct e as [|i []]; try exact Logic.I. destruct (nth_error (s_threads s) i) as [[| |? ?|? []| | | | | |]|] eqn:E; try exact Logic.I.
  eapply no_cancel_AcC; eauto.
Qed.

Lemma no_lost_wakeup size s i n : (0 <= size)%Z -> sreach size no_cancel s -> ~ panicked s -> waits s i n ->
  (forall a m, before (s_arrived s) a i -> ~ waits s a m) -> (size - held s < n)%Z.
Proof.
  intros Hs R NP. eapply front_waits; [|apply no_cancel_front; assumption].
  eapply reach_sinv; [assumption| |exact R]. intros ? ? [A _]; exact A.
Qed.

(* equal weights: cancellation does no harm *)
Lemma uniform_weight size w s : sreach size (uniform w) s -> forall t, In t (s_threads s) -> tweight t = w.
Proof.
  induction 1 as [|s e s' H IH O St]; intros x X; [destruct X|].
  destruct e as [c|i c]; cbn in St.
  - injection St as <-. cbn in X. apply in_app_or in X as [X|[<-|[]]]; [auto|]. cbn in O. destruct c; exact O.
  - destruct (nth_error (s_threads s) i) as [t|] eqn:Ht; [|discriminate].
    pose proof (IH t (nth_error_In _ _ Ht)) as Wt.
    assert (AD : forall size ws cur ts, (forall t, In t ts -> tweight t = w) -> forall t, In t (snd (admit_waiters size cur ws ts)) -> tweight t = w).
    { clear. intros size ws. induction ws as [|[t n] ws IH]; intros cur ts H; cbn; [assumption|].
      destruct (size - cur <? n)%Z; [assumption|]. apply IH. unfold wake. intros y.
      destruct (nth_error ts t) as [x|] eqn:E; [|apply H]. apply nth_error_In in E. apply H in E.
      destruct x; try apply H; (intros X; apply set_nth_In in X as [->|X]; [exact E|auto]). }
    assert (PUT : forall t', tweight t' = w -> forall y, In y (set_nth (s_threads s) i t') -> tweight y = w).
    { intros t' T y Y. apply set_nth_In in Y as [->|Y]; auto. }
    destruct t as [n|n|n r1|n r1|n ok|n|n ok|n|n|n], c; cbn [sthread_step] in St; try discriminate St; cbn in Wt;
      try (destruct r1; try discriminate St);
      repeat match type of St with
      | Some _ = Some _ => injection St as <-; cbn in X; revert x X; apply PUT; exact Wt
      | context [if ?b then _ else _] => destruct b
      end.
    + specialize (AD (s_size s) (s_waiters s) (s_cur s - n)%Z _ (PUT (ReR n) Wt)).
      destruct (admit_waiters _ _ _ _) as [[? ?] ?]. injection St as <-. apply AD, X.
Qed.

Lemma uniform_front size w s : (0 <= size)%Z -> (0 <= w)%Z -> sreach size (uniform w) s -> ~ panicked s -> front_blocked size s.
Proof.
  intros Hs Hw. induction 1 as [|s e s' H IH O St]; intros NP; [exact Logic.I|].
  assert (NN : forall s e, uniform w s e -> nonneg s e) by (intros ? [c|] U; cbn in *; lia).
  pose proof (reach_sinv size _ s Hs NN H) as I.
  assert (F : front_blocked size s) by (apply IH; intros P; apply NP; eapply panicked_mono; eauto).
  assert (C : (exists i n, e = SvStep i SeRun /\ nth_error (s_threads s) i = Some (AcC n false)) \/
    match e with SvStep i SeRun => match nth_error (s_threads s) i with Some (AcC _ false) => False | _ => True end | _ => True end).
  { destruct e as [|i []]; auto. destruct (nth_error (s_threads s) i) as [[| |? ?|? []| | | | | |]|] eqn:E; eauto. }
  destruct C as [(i & n & -> & Ht)|C].
  2:{ eapply front_step; eauto. }
  cbn in St. rewrite Ht in St. cbn [sthread_step] in St. injection St as <-.
  pose proof (uniform_weight _ _ _ H) as UW.
  assert (AW : forall j m, In (j, m) (s_waiters s) -> m = w).
  { intros j m X. apply (i_q _ _ I) in X as [X|X]; apply nth_error_In in X; apply UW in X; exact X. }
  unfold front_blocked in *. cbn. destruct (remove_waiter (s_waiters s) i) as [|[j m] r] eqn:E; [exact Logic.I|].
  assert (X : In (j, m) (s_waiters s)).
  { assert (Y : In (j, m) (remove_waiter (s_waiters s) i)) by (rewrite E; left; reflexivity). apply filter_In in Y. apply Y. }
  destruct (s_waiters s) as [|[k l] r']; [destruct X|]. rewrite (AW j m X). rewrite (AW k l) in F by (left; reflexivity). assumption.
Qed.

Lemma uniform_no_lost size w s i n : (0 <= size)%Z -> (0 <= w)%Z -> sreach size (uniform w) s -> ~ panicked s -> waits s i n ->
  (size - held s < w)%Z.
Proof.
  intros Hs Hw R NP W.
  assert (NN : forall s e, uniform w s e -> nonneg s e) by (intros ? [c|] U; cbn in *; lia).
  pose proof (reach_sinv size _ s Hs NN R) as I. pose proof (uniform_front _ _ _ Hs Hw R NP) as F.
  unfold front_blocked in F. pose proof W as W0. apply (i_q _ _ I) in W. destruct (s_waiters s) as [|[k l] r'] eqn:E; [destruct W|].
  assert (X : waits s k l) by (apply (i_q _ _ I); rewrite E; left; reflexivity).
  rewrite <- (i_cur _ _ I). assert (l = w); [|subst; assumption].
  destruct X as [X|X]; apply nth_error_In in X; apply (uniform_weight _ _ _ R) in X; exact X.
Qed.

(* nobody waits while nothing is held *)
Lemma idle_no_waiters size s : (0 <= size)%Z -> sreach size no_cancel s -> ~ panicked s -> held s = 0%Z ->
  forall i n, ~ waits s i n.
Proof.
  intros Hs R NP H0 i n W.
  assert (NN : forall s e, no_cancel s e -> nonneg s e) by (intros ? ? [A _]; exact A).
  pose proof (reach_sinv size _ s Hs NN R) as I. pose proof (no_cancel_front size s Hs R NP) as F.
  unfold front_blocked in F. apply (i_q _ _ I) in W. destruct (s_waiters s) as [|[k l] r'] eqn:E; [destruct W|].
  pose proof (i_wsz _ _ I k l). rewrite E in H. specialize (H (or_introl eq_refl)). rewrite (i_cur _ _ I), H0 in F. lia.
Qed.

(* cancellation: the call fails and nothing else changes *)
Lemma cancel_exact size s i n : (0 <= size)%Z -> sreach size nonneg s ->
  nth_error (s_threads s) i = Some (AcC n false) ->
  exists s', sstep s (SvStep i SeRun) = Some s' /\ nth_error (s_threads s') i = Some (AcR n false) /\ held s' = held s /\
    (forall j t, j <> i -> nth_error (s_threads s') j = Some t <-> nth_error (s_threads s) j = Some t) /\
    (forall j m, waits s' j m <-> waits s j m /\ j <> i) /\
    (forall j m, In (j, m) (s_waiters s') <-> In (j, m) (s_waiters s) /\ j <> i).
Proof.
  intros Hs R Ht. pose proof (reach_sinv size nonneg s Hs (fun _ _ H => H) R) as I.
  pose proof (remove_sinv size s i n I Ht) as I'.
  cbn [sstep]. rewrite Ht. cbn [sthread_step]. eexists. split; [reflexivity|]. split; [cbn; eapply set_nth_eq; eauto|].
  split; [rewrite <- (i_cur _ _ I), <- (i_cur _ _ I'); reflexivity|].
  assert (Q : forall j m, In (j, m) (s_waiters (sset s (s_cur s) (remove_waiter (s_waiters s) i) (set_nth (s_threads s) i (AcR n false)))) <->
     In (j, m) (s_waiters s) /\ j <> i).
  { intros j m. cbn. unfold remove_waiter. rewrite filter_In. cbn. rewrite negb_true_iff, Nat.eqb_neq. tauto. }
  split; [|split; [|exact Q]].
  - intros j t N. cbn. rewrite set_nth_ne by auto. tauto.
  - intros j m. rewrite <- (i_q _ _ I'), <- (i_q _ _ I). apply Q.
Qed.
