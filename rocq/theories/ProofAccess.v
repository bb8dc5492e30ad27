(* Locks held when fields are accessed: an analysis of the programs of ModelAccess, and what follows for all runs. *)
From Coq Require Import List Arith Bool Lia.
From Verif Require Import BaseConc ModelAccess SpecAccess.
Import ListNotations.
Open Scope nat_scope.

(* ---------- holds ---------- *)
Definition hold := (lock * bool)%type.
Definition hold_eqb (a b : hold) : bool := lock_eqb (fst a) (fst b) && Bool.eqb (snd a) (snd b).
Lemma lock_eqb_spec a b : lock_eqb a b = true <-> a = b.
Proof.
  destruct a as [k n], b as [k' n']; unfold lock_eqb; cbn [fst snd]; rewrite andb_true_iff, Nat.eqb_eq. split.
  - intros [H ->]. apply internal_lkind_dec_bl in H. congruence.
  - intros H. injection H as -> ->. split; [apply internal_lkind_dec_lb|]; reflexivity.
Qed.
Lemma hold_eqb_spec a b : hold_eqb a b = true <-> a = b.
Proof.
  destruct a as [l b1], b as [l' b2]; unfold hold_eqb; cbn [fst snd]; rewrite andb_true_iff, lock_eqb_spec, eqb_true_iff. split.
  - intros [-> ->]; reflexivity.
  - intros H. injection H as -> ->. auto.
Qed.
Lemma hold_eqb_refl a : hold_eqb a a = true. Proof. apply hold_eqb_spec; reflexivity. Qed.
Fixpoint count (x : hold) (h : list hold) : nat := match h with [] => 0 | y :: h => (if hold_eqb x y then 1 else 0) + count x h end.
Fixpoint rm (x : hold) (h : list hold) : option (list hold) :=
  match h with [] => None | y :: h => if hold_eqb x y then Some h else option_map (cons y) (rm x h) end.
Definition sub (h h' : list hold) : Prop := forall x, count x h <= count x h'.
Lemma sub_refl h : sub h h. Proof. intros x; lia. Qed.
Lemma sub_trans a b c : sub a b -> sub b c -> sub a c.
Proof. intros A B x. specialize (A x); specialize (B x); lia. Qed.
Lemma count_app x a b : count x (a ++ b) = count x a + count x b.
Proof. induction a as [|y a IH]; cbn; [|rewrite IH]; lia. Qed.
Lemma sub_app a a' b : sub a a' -> sub (a ++ b) (a' ++ b).
Proof. intros A x. rewrite !count_app. specialize (A x); lia. Qed.
Lemma count_rm x y h h' : rm x h = Some h' -> count y h = (if hold_eqb y x then 1 else 0) + count y h'.
Proof.
  revert h'; induction h as [|z h IH]; intros h' H; cbn in *; [discriminate|].
  destruct (hold_eqb x z) eqn:E.
  - injection H as <-. apply hold_eqb_spec in E; subst; reflexivity.
  - destruct (rm x h) as [h1|]; [|discriminate]. injection H as <-. cbn. rewrite (IH h1 eq_refl). lia.
Qed.
Lemma rm_app x h h' f : rm x h = Some h' -> rm x (h ++ f) = Some (h' ++ f).
Proof.
  revert h'; induction h as [|z h IH]; intros h' H; cbn in *; [discriminate|].
  destruct (hold_eqb x z); [congruence|].
  destruct (rm x h) as [h1|]; [|discriminate]. injection H as <-. rewrite (IH h1 eq_refl). reflexivity.
Qed.
Lemma rm_count x h : 1 <= count x h -> exists h', rm x h = Some h'.
Proof.
  induction h as [|z h IH]; cbn; [lia|]. destruct (hold_eqb x z); intros H; [eexists; reflexivity|].
  destruct IH as [h' ->]; [lia|]. eexists; reflexivity.
Qed.

(* ---------- the analysis ---------- *)
(* which lock guards a field; none: accessed with sync/atomic only *)
Definition guard (f : fkind) : option lkind :=
  match f with
  | Shutdown_ | CurrentOps => Some OpsLock | Connections => Some ConnsLock | Registry => Some RegLock
  | IsActive | Tasks => Some StateLock | Session => Some SessionLock | SemCur | SemWaiters => Some SemLock
  | TConns => Some TransLock | Reader => Some ReaderLock | ReadTimer => Some ReadLock
  | BufLen | BufData => Some BufLock | Pending => Some PendLock
  | TStatus | Status | LastID => None
  end.
Definition writes_ok (h : list hold) (x : field) : Prop := match guard (fst x) with Some k => 1 <= count ((k, snd x), true) h | None => False end.
Definition reads_ok (h : list hold) (x : field) : Prop :=
  match guard (fst x) with Some k => 1 <= count ((k, snd x), true) h + count ((k, snd x), false) h | None => False end.
Ltac llia := unfold hold, lock, field in *; lia.
Section Analysis.
Variable lax : field -> Prop.
Fixpoint wp (h : list hold) (c : code) (Q : list hold -> Prop) {struct c} : Prop :=
  match c with
  | Nop => Q h
  | Do (Lk l) => Q ((l, true) :: h)
  | Do (RLk l) => Q ((l, false) :: h)
  | Do (Ul l) => match rm (l, true) h with Some h' => Q h' | None => False end
  | Do (RUl l) => match rm (l, false) h with Some h' => Q h' | None => False end
  | Do (Rd x) => (lax x \/ reads_ok h x) /\ Q h
  | Do (Wr x) => writes_ok h x /\ Q h
  | Do (At x) => guard (fst x) = None /\ Q h
  | Do Wait => Q h
  | Seq c d => wp h c (fun h' => exists h2, sub h2 h' /\ wp h2 d Q)
  | Alt c d => wp h c Q /\ wp h d Q
  | Rep c => wp h c (fun h' => sub h h') /\ Q h
  | Any f => forall n, wp h (f n) Q
  | IfFilled c => Q h /\ wp h c Q
  | Hook _ => Q h
  end.
Lemma wp_mono c : forall h (Q R : list hold -> Prop), (forall h', Q h' -> R h') -> wp h c Q -> wp h c R.
Proof.
  induction c as [|a|c1 IH1 c2 IH2|c1 IH1 c2 IH2|c IH|f IH|c IH|i]; cbn; intros h Q R HQ W; auto.
  - destruct a; try (destruct (rm _ _)); intuition auto.
  - eapply IH1; [|exact W]. cbn. intros h' (h2 & S & H2). exists h2; eauto.
  - destruct W; eauto.
  - destruct W; eauto.
  - eauto.
  - destruct W; eauto.
Qed.
Lemma reads_app h f x : reads_ok h x -> reads_ok (h ++ f) x.
Proof. unfold reads_ok. destruct (guard _); [|auto]. rewrite !count_app; lia. Qed.
Lemma writes_app h f x : writes_ok h x -> writes_ok (h ++ f) x.
Proof. unfold writes_ok. destruct (guard _); [|auto]. rewrite !count_app; lia. Qed.
Lemma wp_frame c : forall h f (Q : list hold -> Prop), wp h c Q -> wp (h ++ f) c (fun h' => exists h0, h' = h0 ++ f /\ Q h0).
Proof.
  induction c as [|a|c1 IHc1 c2 IHc2|c1 IHc1 c2 IHc2|c IHc|f IHc|c IHc|i]; cbn; intros h0 f0 Q H; eauto.
  - destruct a; eauto.
    + exists ((l, true) :: h0); auto.
    + destruct (rm (l, true) h0) as [h'|] eqn:E; [|easy]. rewrite (rm_app _ _ _ _ E). eauto.
    + exists ((l, false) :: h0); auto.
    + destruct (rm (l, false) h0) as [h'|] eqn:E; [|easy]. rewrite (rm_app _ _ _ _ E). eauto.
    + destruct H as [[?|?] ?]; (split; [|eauto]); auto. right; apply reads_app; auto.
    + destruct H; split; [apply writes_app; auto|eauto].
    + destruct H; split; eauto.
  - eapply wp_mono; [|apply IHc1, H]. cbn. intros h' (h1 & -> & h2 & S & H2).
    exists (h2 ++ f0). split; [apply sub_app; auto|]. apply IHc2, H2.
  - destruct H; split; auto.
  - destruct H as [A B]. split; [|eauto]. eapply wp_mono; [|apply IHc, A]. cbn. intros h' (h1 & -> & S). apply sub_app; auto.
  - destruct H as [A B]. split; eauto.
Qed.
Definition fine (c : code) : Prop := wp [] c (fun _ => True).
Lemma fine_any c h : fine c -> wp h c (fun h' => sub h h').
Proof.
  intros F. pose proof (wp_frame _ _ h _ F) as W. cbn in W. eapply wp_mono; [|exact W]. cbn.
  intros h' (e & -> & _) x. rewrite count_app. lia.
Qed.
Lemma fine_seq c d h Q : fine c -> wp h d Q -> wp h (c ;; d) Q.
Proof. intros F D. cbn. eapply wp_mono; [|apply fine_any, F]. cbn. intros h' S. exists h; auto. Qed.
Lemma wp_seq c d h Q : wp h c (fun h' => wp h' d Q) -> wp h (c ;; d) Q.
Proof. intros W. cbn. eapply wp_mono; [|exact W]. cbn. intros h' D. exists h'; split; [apply sub_refl|auto]. Qed.

(* what a goroutine has left to do is in order if it holds at least h *)
Fixpoint wps (h : list hold) (k : list code) : Prop :=
  match k with [] => True | c :: k => wp h c (fun h' => exists h2, sub h2 h' /\ wps h2 k) end.
Definition lower (A : list hold) (k : list code) : Prop := exists h, sub h A /\ wps h k.

(* ---------- all runs ---------- *)
Variable p : policy.
Hypothesis p_fine : forall q, p_call p q \/ p_inner p q -> fine (code_of q).

Lemma lower_silent A k k' : lower A k -> next p k None k' -> lower A k'.
Proof.
  intros (h & S & W) N. remember None as o eqn:E. destruct N; try discriminate; cbn [wps] in W.
  - cbn in W. destruct W as (h2 & S2 & W). exists h2; split; [eapply sub_trans; eauto|auto].
  - exists h; split; [exact S|]. cbn [wps]. cbn in W. exact W.
  - exists h; split; [exact S|]. cbn in W |- *. tauto.
  - exists h; split; [exact S|]. cbn in W |- *. tauto.
  - cbn in W. destruct W as (_ & h2 & S2 & W). exists h2; split; [eapply sub_trans; eauto|auto].
  - exists h; split; [exact S|]. cbn [wps]. cbn in W. destruct W as (B & h2 & S2 & W).
    eapply wp_mono; [|exact B]. cbn. intros h' S'. exists h. split; [auto|]. split; [exact B|eauto].
  - exists h; split; [exact S|]. cbn in W |- *. auto.
  - cbn in W. destruct W as ((h2 & S2 & W) & _). exists h2; split; [eapply sub_trans; eauto|auto].
  - exists h; split; [exact S|]. cbn in W |- *. tauto.
  - cbn in W. destruct W as (h2 & S2 & W). exists h2; split; [eapply sub_trans; eauto|auto].
  - exists h; split; [exact S|]. cbn [wps]. eapply wp_mono; [|apply fine_any, p_fine; destruct i; eauto].
    cbn [wp]. intros h' S'. exists h; split; auto.
Qed.

(* sums over goroutines *)
Fixpoint total (x : hold) (As : list (list hold)) : nat := match As with [] => 0 | A :: As => count x A + total x As end.
Lemma total_app x a b : total x (a ++ b) = total x a + total x b.
Proof. induction a as [|A a IH]; cbn; [|rewrite IH]; lia. Qed.
Lemma total_set x As i A B : nth_error As i = Some A -> total x (set_nth As i B) + count x A = total x As + count x B.
Proof.
  revert i; induction As as [|C As IH]; intros i H; destruct i as [|i]; cbn in *; try discriminate.
  - injection H as ->. lia.
  - specialize (IH _ H). lia.
Qed.
Lemma total_one x As i A : nth_error As i = Some A -> count x A <= total x As.
Proof.
  revert i; induction As as [|C As IH]; intros i H; destruct i as [|i]; cbn in *; try discriminate.
  - injection H as ->. lia.
  - specialize (IH _ H). lia.
Qed.
Lemma total_two x y As i j A B : i <> j -> nth_error As i = Some A -> nth_error As j = Some B ->
  count x A + count x B <= total x As /\ (1 <= count x A -> 1 <= count y B -> 1 <= total x As /\ 1 <= total y As).
Proof.
  intros N HA HB. split.
  - clear y. revert i j N HA HB; induction As as [|C As IH]; intros i j N HA HB; destruct i as [|i], j as [|j]; cbn in *; try discriminate; try congruence.
    + injection HA as ->. pose proof (total_one x _ _ _ HB). lia.
    + injection HB as ->. pose proof (total_one x _ _ _ HA). lia.
    + assert (i <> j) as N' by congruence. specialize (IH _ _ N' HA HB). lia.
  - intros Hx Hy. pose proof (total_one x _ _ _ HA). pose proof (total_one y _ _ _ HB). lia.
Qed.

(* the locks are as the goroutines hold them *)
Definition tally (s : locks) (As : list (list hold)) : Prop :=
  forall l, total (l, true) As = (if fst (s l) then 1 else 0) /\ total (l, false) As = snd (s l) /\ (fst (s l) = true -> snd (s l) = 0).
Definition inv (As : list (list hold)) (s : state) : Prop :=
  Forall2 lower As (st_threads s) /\ tally (st_locks s) As.

Lemma Forall2_nth {A B} (R : A -> B -> Prop) l l' i b : Forall2 R l l' -> nth_error l' i = Some b -> exists a, nth_error l i = Some a /\ R a b.
Proof.
  intros F; revert i; induction F as [|x y l l' HR F IH]; intros i H; destruct i as [|i]; cbn in *; try discriminate; eauto.
  injection H as <-. eauto.
Qed.
Lemma Forall2_set {A B} (R : A -> B -> Prop) l l' i a b : Forall2 R l l' -> R a b -> Forall2 R (set_nth l i a) (set_nth l' i b).
Proof.
  intros F; revert i; induction F as [|x y l l' HR F IH]; intros i H; destruct i as [|i]; cbn; constructor; auto.
Qed.
Lemma set_same {A} (l : list A) i a : nth_error l i = Some a -> set_nth l i a = l.
Proof. revert i; induction l as [|x l IH]; intros i H; destruct i as [|i]; cbn in *; try discriminate; [congruence|f_equal; auto]. Qed.
Lemma set_lock_same s l v : set_lock s l v l = v.
Proof. unfold set_lock. replace (lock_eqb l l) with true; auto. symmetry; apply lock_eqb_spec; auto. Qed.
Lemma set_lock_other s l v l' : l' <> l -> set_lock s l v l' = s l'.
Proof. intros N. unfold set_lock. destruct (lock_eqb l' l) eqn:E; auto. apply lock_eqb_spec in E; congruence. Qed.
Lemma lock_dec (a b : lock) : a = b \/ a <> b.
Proof. destruct (lock_eqb a b) eqn:E; [left; apply lock_eqb_spec; auto|right; intros ->]. pose proof (proj2 (lock_eqb_spec b b) eq_refl); congruence. Qed.
Lemma count_hold x l b : count x [(l, b)] = if hold_eqb x (l, b) then 1 else 0.
Proof. cbn. lia. Qed.
Lemma hold_ne l b l' b' : (l, b) <> (l', b') -> hold_eqb (l, b) (l', b') = false.
Proof. intros N. destruct (hold_eqb (l, b) (l', b')) eqn:E; auto. apply hold_eqb_spec in E. congruence. Qed.

(* what a goroutine holds after an action *)
Definition after (a : act) (A : list hold) : option (list hold) :=
  match a with
  | Lk l => Some ((l, true) :: A) | RLk l => Some ((l, false) :: A)
  | Ul l => rm (l, true) A | RUl l => rm (l, false) A
  | _ => Some A
  end.
Lemma tally_act s As i A a s' B : tally s As -> nth_error As i = Some A -> effect s a = Some s' -> after a A = Some B -> tally s' (set_nth As i B).
Proof.
  intros T HA E AF.
  assert (forall x, total x (set_nth As i B) + count x A = total x As + count x B) as HT by (intros; apply total_set; auto).
  destruct a; cbn in E, AF; try (injection E as <-; injection AF as <-; rewrite (set_same _ _ _ HA); exact T).
  - destruct (s l) as [e n] eqn:Sl. destruct e; [discriminate|]. destruct n as [|n]; [|discriminate].
    injection E as <-. injection AF as <-. intros l0. destruct (T l0) as (T1 & T2 & T3).
    pose proof (HT (l0, true)) as H1. pose proof (HT (l0, false)) as H2. cbn [count] in H1, H2.
    destruct (lock_dec l0 l) as [->|N].
    + rewrite hold_eqb_refl in H1. rewrite hold_ne in H2 by congruence. rewrite set_lock_same. rewrite Sl in *. cbn in *. split; [lia|split; lia].
    + rewrite hold_ne in H1 by congruence. rewrite hold_ne in H2 by congruence. rewrite set_lock_other by auto. split; [lia|split; [lia|auto]].
  - destruct (s l) as [e n] eqn:Sl. destruct e; [|discriminate].
    injection E as <-. intros l0. destruct (T l0) as (T1 & T2 & T3).
    pose proof (HT (l0, true)) as H1. pose proof (HT (l0, false)) as H2. rewrite (count_rm _ (l0, true) _ _ AF) in H1. rewrite (count_rm _ (l0, false) _ _ AF) in H2.
    destruct (lock_dec l0 l) as [->|N].
    + rewrite hold_eqb_refl in H1. rewrite hold_ne in H2 by congruence. rewrite set_lock_same. rewrite Sl in *. cbn in *. split; [lia|split; [lia|discriminate]].
    + rewrite hold_ne in H1 by congruence. rewrite hold_ne in H2 by congruence. rewrite set_lock_other by auto. split; [lia|split; [lia|auto]].
  - destruct (s l) as [e n] eqn:Sl. destruct e; [discriminate|].
    injection E as <-. injection AF as <-. intros l0. destruct (T l0) as (T1 & T2 & T3).
    pose proof (HT (l0, true)) as H1. pose proof (HT (l0, false)) as H2. cbn [count] in H1, H2.
    destruct (lock_dec l0 l) as [->|N].
    + rewrite hold_eqb_refl in H2. rewrite hold_ne in H1 by congruence. rewrite set_lock_same. rewrite Sl in *. cbn in *. split; [lia|split; [lia|discriminate]].
    + rewrite hold_ne in H1 by congruence. rewrite hold_ne in H2 by congruence. rewrite set_lock_other by auto. split; [lia|split; [lia|auto]].
  - destruct (s l) as [e n] eqn:Sl. destruct n as [|n]; [discriminate|].
    injection E as <-. intros l0. destruct (T l0) as (T1 & T2 & T3).
    pose proof (HT (l0, true)) as H1. pose proof (HT (l0, false)) as H2. rewrite (count_rm _ (l0, true) _ _ AF) in H1. rewrite (count_rm _ (l0, false) _ _ AF) in H2.
    destruct (lock_dec l0 l) as [->|N].
    + rewrite hold_eqb_refl in H2. rewrite hold_ne in H1 by congruence. rewrite set_lock_same. rewrite Sl in *. cbn in *.
      split; [lia|split; [lia|]]. intros He. specialize (T3 He). lia.
    + rewrite hold_ne in H1 by congruence. rewrite hold_ne in H2 by congruence. rewrite set_lock_other by auto. split; [lia|split; [lia|auto]].
Qed.
Lemma lower_act A a k : lower A (Do a :: k) -> exists B, after a A = Some B /\ lower B k.
Proof.
  intros (h & S & W). destruct a; cbn in W; cbn [after].
  - destruct W as (h2 & S2 & W). eexists; split; [reflexivity|]. exists h2; split; auto.
    intros x. specialize (S x); specialize (S2 x). cbn [count] in *. lia.
  - destruct (rm (l, true) h) as [h'|] eqn:E; [|easy]. destruct W as (h2 & S2 & W).
    pose proof (fun y => count_rm (l, true) y _ _ E) as C.
    destruct (rm_count (l, true) A) as [B EB]. { specialize (S (l, true)). rewrite C, hold_eqb_refl in S. lia. }
    exists B; split; auto. exists h2; split; auto. intros x. specialize (S x); specialize (S2 x).
    rewrite C in S. rewrite (count_rm _ _ _ _ EB) in S. lia.
  - destruct W as (h2 & S2 & W). eexists; split; [reflexivity|]. exists h2; split; auto.
    intros x. specialize (S x); specialize (S2 x). cbn [count] in *. lia.
  - destruct (rm (l, false) h) as [h'|] eqn:E; [|easy]. destruct W as (h2 & S2 & W).
    pose proof (fun y => count_rm (l, false) y _ _ E) as C.
    destruct (rm_count (l, false) A) as [B EB]. { specialize (S (l, false)). rewrite C, hold_eqb_refl in S. lia. }
    exists B; split; auto. exists h2; split; auto. intros x. specialize (S x); specialize (S2 x).
    rewrite C in S. rewrite (count_rm _ _ _ _ EB) in S. lia.
  - destruct W as (_ & h2 & S2 & W). eexists; split; [reflexivity|]. exists h2; split; [eapply sub_trans; eauto|auto].
  - destruct W as (_ & h2 & S2 & W). eexists; split; [reflexivity|]. exists h2; split; [eapply sub_trans; eauto|auto].
  - destruct W as (_ & h2 & S2 & W). eexists; split; [reflexivity|]. exists h2; split; [eapply sub_trans; eauto|auto].
  - destruct W as (h2 & S2 & W). eexists; split; [reflexivity|]. exists h2; split; [eapply sub_trans; eauto|auto].
Qed.
Lemma next_act k a k' : next p k (Some a) k' -> k = Do a :: k'.
Proof. intros N. remember (Some a) as o eqn:E. destruct N; try discriminate. congruence. Qed.
Lemma nth_set_other {A} (l : list A) i j a : i <> j -> nth_error (set_nth l i a) j = nth_error l j.
Proof. revert i j; induction l as [|x l IH]; intros i j N; destruct i as [|i], j as [|j]; cbn; auto; congruence. Qed.

(* one step: at most one goroutine moves, what the others hold stays *)
Lemma inv_step As s s' : inv As s -> step p s s' ->
  exists As', inv As' s' /\
    ((exists A k, As' = As ++ [A] /\ st_threads s' = st_threads s ++ [k]) \/
     (exists i A k k' o, As' = set_nth As i A /\ nth_error (st_threads s) i = Some k /\ next p k o k' /\ st_threads s' = set_nth (st_threads s) i k' /\
        match o with Some a => effect (st_locks s) a <> None | None => True end)).
Proof.
  intros [F T] St. destruct St as [s q Hq|s i k k' Hk N|s i k a k' l' Hk N E].
  - exists (As ++ [[]]). split; [|left; cbn; eauto]. split; cbn.
    + apply Forall2_app; auto. constructor; [|constructor]. exists []. split; [apply sub_refl|]. cbn [wps].
      eapply wp_mono; [|apply p_fine; eauto]. cbn. intros h' _. exists []. split; [intros x; cbn; lia|auto].
    + intros l. rewrite !total_app. cbn. rewrite !Nat.add_0_r. apply T.
  - destruct (Forall2_nth _ _ _ _ _ F Hk) as (A & HA & L). exists (set_nth As i A).
    split; [|right; cbn; do 4 eexists; exists None; repeat split; eauto]. split; cbn.
    + apply Forall2_set; auto. eapply lower_silent; eauto.
    + rewrite (set_same _ _ _ HA). exact T.
  - destruct (Forall2_nth _ _ _ _ _ F Hk) as (A & HA & L). pose proof (next_act _ _ _ N); subst k.
    destruct (lower_act _ _ _ L) as (B & AF & LB). exists (set_nth As i B).
    split; [|right; cbn; do 4 eexists; exists (Some a); repeat split; eauto; congruence]. split; cbn.
    + apply Forall2_set; auto.
    + eapply tally_act; eauto.
Qed.
Lemma inv_new : inv [] new_state.
Proof. split; [constructor|]. intros l; cbn; auto. Qed.
Lemma inv_reach s : areach p s -> exists As, inv As s.
Proof.
  induction 1 as [|s s' R [As I] St]; [exists []; apply inv_new|]. destruct (inv_step _ _ _ I St) as (As' & I' & _). eauto.
Qed.

Lemma about_lower As s i a : inv As s -> about s i a -> exists A h, nth_error As i = Some A /\ sub h A /\ wp h (Do a) (fun _ => True).
Proof.
  intros [F T] (k & Hk). destruct (Forall2_nth _ _ _ _ _ F Hk) as (A & HA & h & S & W). exists A, h. repeat split; auto.
  eapply wp_mono; [|exact W]. auto.
Qed.
Lemma about_writes As s i x : inv As s -> about s i (Wr x) -> exists A k, nth_error As i = Some A /\ guard (fst x) = Some k /\ 1 <= count ((k, snd x), true) A.
Proof.
  intros I Ab. destruct (about_lower _ _ _ _ I Ab) as (A & h & HA & S & W). cbn in W. destruct W as [W _].
  unfold writes_ok in W. destruct (guard (fst x)) as [k|]; [|easy]. exists A, k. repeat split; auto. specialize (S ((k, snd x), true)). lia.
Qed.
Lemma about_reads As s i x : inv As s -> about s i (Rd x) -> lax x \/
  exists A k, nth_error As i = Some A /\ guard (fst x) = Some k /\ 1 <= count ((k, snd x), true) A + count ((k, snd x), false) A.
Proof.
  intros I Ab. destruct (about_lower _ _ _ _ I Ab) as (A & h & HA & S & W). cbn in W. destruct W as [[W|W] _]; auto. right.
  unfold reads_ok in W. destruct (guard (fst x)) as [k|]; [|easy]. exists A, k. repeat split; auto.
  pose proof (S ((k, snd x), true)). pose proof (S ((k, snd x), false)). lia.
Qed.
Lemma about_atomic As s i x : inv As s -> about s i (At x) -> guard (fst x) = None.
Proof. intros I Ab. destruct (about_lower _ _ _ _ I Ab) as (A & h & HA & S & W). cbn in W. tauto. Qed.

Theorem no_write_race s x : areach p s -> ~ write_race s x.
Proof.
  intros R (i & j & N & A1 & A2). destruct (inv_reach _ R) as [As I].
  destruct (about_writes _ _ _ _ I A1) as (A & k & HA & G & C). destruct (about_writes _ _ _ _ I A2) as (B & k' & HB & G' & C').
  assert (k' = k) by congruence; subst k'.
  destruct (total_two ((k, snd x), true) ((k, snd x), true) _ _ _ _ _ N HA HB) as [H _].
  destruct I as [_ T]. destruct (T (k, snd x)) as (T1 & _ & _). destruct (fst (st_locks s (k, snd x))); llia.
Qed.
Theorem no_race s x : areach p s -> ~ lax x -> ~ race s x.
Proof.
  intros R L (i & j & N & A1 & [A2|[A2|A2]]).
  - destruct (inv_reach _ R) as [As I].
    destruct (about_writes _ _ _ _ I A1) as (A & k & HA & G & C). destruct (about_reads _ _ _ _ I A2) as [X|(B & k' & HB & G' & C')]; [tauto|].
    assert (k' = k) by congruence; subst k'.
    destruct (total_two ((k, snd x), true) ((k, snd x), false) _ _ _ _ _ N HA HB) as [H H'].
    destruct I as [_ T]. destruct (T (k, snd x)) as (T1 & T2 & T3). destruct (fst (st_locks s (k, snd x))); [|llia].
    specialize (T3 eq_refl). destruct (count (k, snd x, false) B) eqn:E; [llia|]. assert (1 <= total (k, snd x, false) As) by (apply H'; llia). llia.
  - apply (no_write_race s x R). exists i, j; auto.
  - destruct (inv_reach _ R) as [As I]. destruct (about_writes _ _ _ _ I A1) as (A & k & HA & G & C).
    rewrite (about_atomic _ _ _ _ I A2) in G. discriminate.
Qed.
Theorem no_fatal s i : areach p s -> ~ fatal s i.
Proof.
  intros R (l & A & Fl). destruct (inv_reach _ R) as [As I].
  assert (about s i (Ul l) -> fst (st_locks s l) = true) as HU.
  { intros U. destruct (about_lower _ _ _ _ I U) as (B & h & HB & S & W). cbn in W. destruct (rm (l, true) h) eqn:E; [|easy].
    specialize (S (l, true)). rewrite (count_rm _ _ _ _ E), hold_eqb_refl in S. pose proof (total_one (l, true) _ _ _ HB).
    destruct I as [_ T]. destruct (T l) as (T1 & _). destruct (fst (st_locks s l)); [auto|lia]. }
  assert (about s i (RUl l) -> 1 <= snd (st_locks s l)) as HR.
  { intros U. destruct (about_lower _ _ _ _ I U) as (B & h & HB & S & W). cbn in W. destruct (rm (l, false) h) eqn:E; [|easy].
    specialize (S (l, false)). rewrite (count_rm _ _ _ _ E), hold_eqb_refl in S. pose proof (total_one (l, false) _ _ _ HB).
    destruct I as [_ T]. destruct (T l) as (_ & T2 & _). lia. }
  destruct I as [_ T]. destruct (T l) as (_ & _ & T3). destruct (st_locks s l) as [e n]; cbn in *. destruct e.
  - specialize (HR Fl). specialize (T3 eq_refl). lia.
  - destruct Fl as [->|U]; [|specialize (HU U); discriminate]. destruct A as [U|U]; [specialize (HU U); discriminate|specialize (HR U); lia].
Qed.

(* a lock held by a goroutine that does not move stays taken *)
Lemma stays_step As s s' i k l : inv As s -> step p s s' -> nth_error (st_threads s) i = Some k ->
  (forall o k', next p k o k' -> exists a, o = Some a /\ forall t : state, fst (st_locks t l) = true -> effect (st_locks t) a = None) ->
  (exists A, nth_error As i = Some A /\ 1 <= count (l, true) A) ->
  nth_error (st_threads s') i = Some k /\ exists As', inv As' s' /\ exists A, nth_error As' i = Some A /\ 1 <= count (l, true) A.
Proof.
  intros I St Hk St1 (A & HA & C).
  assert (fst (st_locks s l) = true) as Lt.
  { pose proof (total_one (l, true) _ _ _ HA). destruct I as [_ T]. destruct (T l) as (T1 & _). destruct (fst (st_locks s l)); [auto|lia]. }
  destruct (inv_step _ _ _ I St) as (As' & I' & [(B & k' & -> & E)|(j & B & k0 & k' & o & -> & Hj & N & E & Ef)]); rewrite E.
  - split; [rewrite nth_error_app1; [auto|apply nth_error_Some; congruence]|].
    exists (As ++ [B]). split; auto. exists A. split; auto. rewrite nth_error_app1; [auto|apply nth_error_Some; congruence].
  - assert (j <> i) as Nj. { intros ->. assert (k0 = k) by congruence; subst k0. destruct (St1 _ _ N) as (a & -> & X). apply Ef, X, Lt. }
    rewrite nth_set_other by auto. split; auto. exists (set_nth As j B). split; auto. exists A. rewrite nth_set_other by auto. auto.
Qed.
End Analysis.
