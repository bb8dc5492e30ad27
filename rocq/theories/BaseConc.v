(* Lists as arrays of threads, counting, and association lists as Go maps. *)
From Coq Require Import List Arith ZArith Lia Bool.
Import ListNotations.
Open Scope nat_scope.

(* ----- arrays ----- *)
Fixpoint set_nth {A} (l : list A) (i : nat) (x : A) : list A :=
  match l, i with
  | [], _ => []
  | _ :: r, O => x :: r
  | y :: r, S i' => y :: set_nth r i' x
  end.

Section Arrays.
Context {A : Type}.
Implicit Types (l : list A).

Lemma set_nth_length l i x : length (set_nth l i x) = length l.
Proof. revert i; induction l; destruct i; cbn; auto. Qed.
Lemma set_nth_eq l i x y : nth_error l i = Some y -> nth_error (set_nth l i x) i = Some x.
Proof. revert i; induction l; destruct i; cbn; intros; try discriminate; auto. Qed.
Lemma set_nth_ne l i j x : i <> j -> nth_error (set_nth l i x) j = nth_error l j.
Proof. revert i j; induction l; destruct i, j; cbn; intros; try congruence; auto. Qed.
Lemma set_nth_lookup l i j x z : nth_error (set_nth l i x) j = Some z ->
  (i = j /\ z = x) \/ (i <> j /\ nth_error l j = Some z).
Proof.
  revert i j; induction l as [|y l IH]; destruct i, j; cbn; intros H; try discriminate.
  - injection H as <-. auto.
  - right. auto.
  - right. auto.
  - destruct (IH _ _ H) as [[-> ->]|[N E]]; auto.
Qed.
Lemma set_nth_some l i x y : nth_error l i = Some y ->
  forall j z, nth_error (set_nth l i x) j = Some z <-> (i = j /\ z = x) \/ (i <> j /\ nth_error l j = Some z).
Proof.
  intros H j z. split; [apply set_nth_lookup|]. intros [[<- ->]|[N E]].
  - eapply set_nth_eq; eauto.
  - rewrite set_nth_ne; auto.
Qed.
Lemma set_nth_In l i x z : In z (set_nth l i x) -> z = x \/ In z l.
Proof.
  intros H. apply In_nth_error in H as [j H]. apply set_nth_lookup in H as [[_ ->]|[_ H]]; [auto|].
  right. eapply nth_error_In; eauto.
Qed.
Lemma set_nth_split l i y : nth_error l i = Some y ->
  exists l1 l2, l = l1 ++ y :: l2 /\ length l1 = i /\ forall x, set_nth l i x = l1 ++ x :: l2.
Proof.
  revert i; induction l as [|z l IH]; destruct i; cbn; intros H; try discriminate.
  - injection H as ->. exists [], l. auto.
  - destruct (IH _ H) as (l1 & l2 & -> & <- & E). exists (z :: l1), l2. repeat split; auto.
    intros x. cbn. f_equal. apply E.
Qed.
Lemma nth_error_snoc l x i : nth_error (l ++ [x]) i =
  if i <? length l then nth_error l i else if i =? length l then Some x else None.
Proof.
  destruct (Nat.ltb_spec i (length l)) as [H|H]; [apply nth_error_app1; assumption|].
  rewrite nth_error_app2 by assumption. destruct (Nat.eqb_spec i (length l)) as [->|N].
  - rewrite Nat.sub_diag. reflexivity.
  - destruct (i - length l) as [|k] eqn:E; [lia|]. destruct k; reflexivity.
Qed.
Lemma nth_error_snoc_some l x i z : nth_error (l ++ [x]) i = Some z <->
  nth_error l i = Some z \/ (i = length l /\ z = x).
Proof.
  rewrite nth_error_snoc. destruct (Nat.ltb_spec i (length l)); [split; [auto|intros [?|[-> _]]; [assumption|lia]]|].
  assert (nth_error l i = None) as -> by (apply nth_error_None; assumption).
  destruct (Nat.eqb_spec i (length l)) as [->|N].
  - split; [intros [= <-]; auto|intros [?|[_ ->]]; [discriminate|reflexivity]].
  - split; [discriminate|intros [?|[-> _]]; [discriminate|congruence]].
Qed.

(* ----- counting ----- *)
Definition b2i (b : bool) : nat := if b then 1 else 0.
Fixpoint count (p : A -> bool) l : nat :=
  match l with [] => 0 | x :: r => b2i (p x) + count p r end.
Lemma count_app p l1 l2 : count p (l1 ++ l2) = count p l1 + count p l2.
Proof. induction l1; cbn; lia. Qed.
Lemma count_set p l i x y : nth_error l i = Some y ->
  count p (set_nth l i x) + b2i (p y) = count p l + b2i (p x).
Proof.
  intros H. destruct (set_nth_split l i y H) as (l1 & l2 & -> & _ & ->). rewrite !count_app. cbn. lia.
Qed.
Lemma count_snoc p l x : count p (l ++ [x]) = count p l + b2i (p x).
Proof. rewrite count_app. cbn. lia. Qed.
Lemma count_ext p q l : (forall x, In x l -> p x = q x) -> count p l = count q l.
Proof. induction l; cbn; intros H; [reflexivity|]. rewrite (H a), IHl; auto. Qed.
Lemma count_zero p l : count p l = 0 <-> forall x, In x l -> p x = false.
Proof.
  induction l as [|a l IH]; cbn; [split; [intros _ ? []|auto]|]. split.
  - intros H x [<-|Hx]; destruct (p a) eqn:E; cbn in H; try lia; auto. apply IH; auto.
  - intros H. rewrite (H a) by auto. cbn. apply IH. auto.
Qed.
Lemma count_pos p l i x : nth_error l i = Some x -> p x = true -> 1 <= count p l.
Proof.
  intros H P. destruct (count p l) eqn:E; [|lia]. rewrite count_zero in E.
  rewrite (E x) in P by (eapply nth_error_In; eauto). discriminate.
Qed.
Lemma count_le_length p l : count p l <= length l.
Proof. induction l as [|a l IH]; cbn; [lia|]. destruct (p a); cbn; lia. Qed.
Lemma count_exists p l : 1 <= count p l -> exists i x, nth_error l i = Some x /\ p x = true.
Proof.
  induction l as [|a l IH]; cbn; [lia|]. destruct (p a) eqn:E; cbn; intros H.
  - exists 0, a. auto.
  - destruct (IH H) as (i & x & H1 & H2). exists (S i), x. auto.
Qed.
Lemma count_two p l i j x y : i <> j -> nth_error l i = Some x -> nth_error l j = Some y ->
  p x = true -> p y = true -> 2 <= count p l.
Proof.
  intros N H1 H2 P1 P2. pose proof (count_set p l i x x H1).
  destruct (set_nth_split l i x H1) as (l1 & l2 & E & L & _). subst l.
  rewrite count_app. cbn. rewrite P1. cbn.
  destruct (Nat.lt_ge_cases j i) as [C|C].
  - assert (nth_error l1 j = Some y) by (rewrite <- H2; symmetry; apply nth_error_app1; lia).
    pose proof (count_pos p l1 j y H0 P2). lia.
  - rewrite nth_error_app2 in H2 by lia. destruct (j - length l1) as [|k] eqn:E; [lia|].
    cbn in H2. pose proof (count_pos p l2 k y H2 P2). lia.
Qed.
End Arrays.

(* ----- Go maps with a decidable key ----- *)
Section Maps.
Context {K V : Type} (eqb : K -> K -> bool).
Hypothesis eqb_ok : forall a b, reflect (a = b) (eqb a b).

Definition map_get (m : list (K * V)) (k : K) : option V :=
  match find (fun e => eqb k (fst e)) m with Some e => Some (snd e) | None => None end.
Definition map_del (m : list (K * V)) (k : K) : list (K * V) :=
  filter (fun e => negb (eqb k (fst e))) m.
Definition map_set (m : list (K * V)) (k : K) (v : V) : list (K * V) := (k, v) :: map_del m k.

Lemma map_get_cons k v m k' : map_get ((k, v) :: m) k' = if eqb k' k then Some v else map_get m k'.
Proof. unfold map_get. cbn. destruct (eqb k' k); reflexivity. Qed.
Lemma map_get_del m k k' : map_get (map_del m k) k' = if eqb k k' then None else map_get m k'.
Proof.
  induction m as [|[a v] m IH].
  - cbn. destruct (eqb k k'); reflexivity.
  - cbn [map_del filter fst]. fold (map_del m k). destruct (eqb_ok k a) as [->|N]; cbn [negb].
    + rewrite IH, map_get_cons. destruct (eqb_ok a k') as [->|N']; [reflexivity|].
      destruct (eqb_ok k' a); [congruence|reflexivity].
    + rewrite !map_get_cons, IH. destruct (eqb_ok k' a) as [->|N'].
      * destruct (eqb_ok k a); [congruence|reflexivity].
      * reflexivity.
Qed.
Lemma map_get_set m k v k' : map_get (map_set m k v) k' = if eqb k k' then Some v else map_get m k'.
Proof.
  unfold map_set. rewrite map_get_cons, map_get_del.
  destruct (eqb_ok k k') as [E|N].
  - subst k'. destruct (eqb_ok k k); congruence.
  - destruct (eqb_ok k' k); congruence.
Qed.
Lemma map_get_In m k v : map_get m k = Some v -> In (k, v) m.
Proof.
  induction m as [|[a w] m IH]; [discriminate|]. rewrite map_get_cons.
  destruct (eqb_ok k a) as [->|N]; intros H; [injection H as ->; left; reflexivity|right; auto].
Qed.
Lemma In_map_get m k v : NoDup (map fst m) -> In (k, v) m -> map_get m k = Some v.
Proof.
  induction m as [|[a w] m IH]; [intros _ []|]. cbn. intros ND [E|H]; inversion ND; subst; rewrite map_get_cons.
  - injection E as -> ->. destruct (eqb_ok k k); [reflexivity|congruence].
  - destruct (eqb_ok k a) as [->|N]; [|auto]. exfalso. apply H2. apply (in_map fst) in H. exact H.
Qed.
Lemma map_get_none m k : map_get m k = None <-> ~ In k (map fst m).
Proof.
  induction m as [|[a w] m IH]; [cbn; split; auto|]. rewrite map_get_cons. cbn.
  destruct (eqb_ok k a) as [->|N]; [split; [discriminate|tauto]|]. rewrite IH. split; [intros H [E|H']; [congruence|tauto]|tauto].
Qed.
Lemma map_del_keys m k x : In x (map fst (map_del m k)) -> In x (map fst m) /\ x <> k.
Proof.
  unfold map_del. rewrite !in_map_iff. intros ((a & v) & <- & H). apply filter_In in H as [H1 H2]. cbn in *.
  split; [exists (a, v); auto|]. destruct (eqb_ok k a); [discriminate|congruence].
Qed.
Lemma map_del_NoDup m k : NoDup (map fst m) -> NoDup (map fst (map_del m k)).
Proof.
  induction m as [|[a w] m IH]; cbn; intros H; [constructor|]. inversion H; subst.
  destruct (eqb_ok k a); cbn; [auto|]. constructor; [|auto]. intros C. apply map_del_keys in C as [C _]. contradiction.
Qed.
Lemma map_set_NoDup m k v : NoDup (map fst m) -> NoDup (map fst (map_set m k v)).
Proof.
  intros H. cbn. constructor; [|apply map_del_NoDup, H]. intros C. apply map_del_keys in C as [_ C]. congruence.
Qed.
Lemma map_del_length m k : NoDup (map fst m) ->
  length (map_del m k) + (match map_get m k with Some _ => 1 | None => 0 end) = length m.
Proof.
  induction m as [|[a w] m IH]; cbn [length map fst]; intros H; [reflexivity|]. inversion H; subst.
  cbn [map_del filter fst]. fold (map_del m k). rewrite map_get_cons. specialize (IH H3).
  destruct (eqb_ok k a) as [->|N]; cbn [negb].
  - assert (E : map_get m a = None) by (apply map_get_none; assumption). rewrite E in IH. lia.
  - cbn [length]. lia.
Qed.
Lemma map_set_length m k v : NoDup (map fst m) ->
  length (map_set m k v) = (match map_get m k with Some _ => length m | None => S (length m) end).
Proof.
  intros H. unfold map_set. cbn [length]. pose proof (map_del_length m k H). destruct (map_get m k); lia.
Qed.
End Maps.

(* ----- integer sums over a list ----- *)
Section ZSum.
Context {A : Type}.
Fixpoint zsum (f : A -> Z) (l : list A) : Z :=
  match l with [] => 0 | x :: r => f x + zsum f r end%Z.
Lemma zsum_app f l1 l2 : (zsum f (l1 ++ l2) = zsum f l1 + zsum f l2)%Z.
Proof. induction l1; cbn; lia. Qed.
Lemma zsum_set f l i x y : nth_error l i = Some y ->
  (zsum f (set_nth l i x) + f y = zsum f l + f x)%Z.
Proof.
  intros H. destruct (set_nth_split l i y H) as (l1 & l2 & -> & _ & ->). rewrite !zsum_app. cbn. lia.
Qed.
Lemma zsum_snoc f l x : (zsum f (l ++ [x]) = zsum f l + f x)%Z.
Proof. rewrite zsum_app. cbn. lia. Qed.
End ZSum.
Lemma NoDup_snoc {A} (l : list A) x : NoDup (l ++ [x]) <-> NoDup l /\ ~ In x l.
Proof.
  split.
  - intros H. pose proof (NoDup_remove l [] x H) as [H1 H2]. rewrite app_nil_r in *. auto.
  - intros [H1 H2]. apply NoDup_Add with (a := x) (l := l); [|auto].
    rewrite <- (app_nil_r l) at 1. apply Add_app.
Qed.
