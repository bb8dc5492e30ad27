(* Proofs about JSON: maps, values, session files and sessions. *)
From Coq Require Import List Arith NArith ZArith Lia Bool.
From Coq Require Import ZifyBool ZifyNat ZifyN.
From Verif Require Import BaseBytes SpecText ModelMessage ModelPayload ProofText ModelFiles SpecFiles ModelJson SpecJson ProofJson ProofJson2 ProofJson3.
Import ListNotations.
Open Scope nat_scope.

(* ----- the order of names ----- *)
Lemma before_spec a : forall b, bytes_ltb a b = true <-> before a b.
Proof.
  induction a as [|x a IH]; intros [|y b]; cbn [bytes_ltb].
  - split; [discriminate|]. intros [(c & t & E)|(p & x & y & s & t & E & _)]; [discriminate|destruct p; discriminate].
  - split; [|reflexivity]. intros _. left. exists y, b. reflexivity.
  - split; [discriminate|]. intros [(c & t & E)|(p & u & v & s & t & _ & E & _)]; [discriminate|destruct p; discriminate].
  - rewrite orb_true_iff, andb_true_iff, N.ltb_lt, beq_eq, IH. split.
    + intros [H|[-> [(c & t & ->)|(p & u & v & s & t & -> & -> & H)]]].
      * right. exists [], x, y, a, b. auto.
      * left. exists c, t. reflexivity.
      * right. exists (y :: p), u, v, s, t. auto.
    + intros [(c & t & E)|(p & u & v & s & t & E1 & E2 & H)].
      * injection E as -> ->. right. split; [reflexivity|]. left. eauto.
      * destruct p as [|z p]; cbn [app] in E1, E2; injection E1 as -> E1; injection E2 as -> E2; [left; exact H|]. right. split; [reflexivity|]. right. exists p, u, v, s, t. auto.
Qed.
Lemma ltb_irrefl a : bytes_ltb a a = false.
Proof. induction a as [|x a IH]; [reflexivity|]. cbn [bytes_ltb]. rewrite IH, andb_false_r, orb_false_r. lia. Qed.
Lemma ltb_trans a : forall b c, bytes_ltb a b = true -> bytes_ltb b c = true -> bytes_ltb a c = true.
Proof.
  induction a as [|x a IH]; intros [|y b] [|z c]; cbn [bytes_ltb]; try discriminate; try reflexivity.
  rewrite !orb_true_iff, !andb_true_iff, !N.ltb_lt, !beq_eq. intros [H1|[-> H1]] [H2|[-> H2]]; [left; lia|left; assumption|left; assumption|].
  right. split; [reflexivity|]. eapply IH; eassumption.
Qed.
Lemma ltb_total a : forall b, bytes_eqb a b = false -> bytes_ltb a b = false -> bytes_ltb b a = true.
Proof.
  induction a as [|x a IH]; intros [|y b]; cbn [bytes_ltb bytes_eqb]; try discriminate; try reflexivity.
  intros E L. apply orb_false_iff in L as [L1 L2]. change (Byte.eqb x y) with (beq x y) in E. destruct (beq_spec x y) as [->|N]; cbn [andb] in *.
  - rewrite beq_refl. cbn [andb]. rewrite orb_true_iff. right. apply IH; assumption.
  - rewrite orb_true_iff. left. apply N.ltb_lt. apply N.ltb_ge in L1. assert (b2N x <> b2N y) by (intros Q; apply N, b2N_inj, Q). lia.
Qed.
Lemma beqb_refl k : bytes_eqb k k = true.
Proof. destruct (bytes_eqb_spec k k); congruence. Qed.

(* ----- maps ----- *)
Section Maps.
Context {V : Type}.
Implicit Types (m l : list (bytes * V)) (k : bytes) (v : V).
Definition above (k : bytes) (m : list (bytes * V)) : Prop := Forall (fun kv => bytes_ltb k (fst kv) = true) m.
Lemma inc_cons k v m : increasing ((k, v) :: m) <-> above k m /\ increasing m.
Proof.
  revert k v. induction m as [|[k' v'] m IH]; intros k v.
  - split; [split; constructor|constructor].
  - split.
    + intros H. inversion H as [| |? ? ? ? ? B I]; subst. split; [|exact I]. apply before_spec in B. constructor; [exact B|].
      apply IH in I as [A _]. eapply Forall_impl; [|exact A]. cbv beta. intros kv. apply ltb_trans, B.
    + intros [A I]. inversion A; subst. constructor; [apply before_spec; assumption|exact I].
Qed.
Lemma mput_above k k' v m : bytes_ltb k k' = true -> above k m -> above k (mput k' v m).
Proof.
  intros L. induction 1 as [|[k2 v2] m H A IH]; cbn [mput]; [repeat constructor; exact L|].
  destruct (bytes_eqb k' k2); [constructor; assumption|]. destruct (bytes_ltb k' k2); [repeat (constructor; try assumption)|constructor; assumption].
Qed.
Lemma mput_inc k v m : increasing m -> increasing (mput k v m).
Proof.
  induction m as [|[k2 v2] m IH]; intros I; cbn [mput]; [constructor|]. destruct (bytes_eqb_spec k k2) as [->|N].
  - apply inc_cons in I as [A I]. apply inc_cons. auto.
  - destruct (bytes_ltb k k2) eqn:L.
    + apply inc_cons. split; [|exact I]. apply inc_cons in I as [A _]. constructor; [exact L|]. eapply Forall_impl; [|exact A]. cbv beta. intros kv. apply ltb_trans, L.
    + apply inc_cons in I as [A I]. apply inc_cons. split; [|auto]. apply mput_above; [|exact A]. apply ltb_total; [|exact L]. destruct (bytes_eqb_spec k k2); [contradiction|reflexivity].
Qed.
Lemma mputs_inc l : forall m, increasing m -> increasing (mputs l m).
Proof. induction l as [|[k v] l IH]; intros m I; [exact I|]. cbn. apply IH, mput_inc, I. Qed.
Lemma msort_inc l : increasing (msort l).
Proof. apply mputs_inc. constructor. Qed.
Fixpoint found k m : option V := match m with [] => None | (k', v) :: m' => if bytes_eqb k k' then Some v else found k m' end.
Lemma found_put k k' v m : found k (mput k' v m) = if bytes_eqb k k' then Some v else found k m.
Proof.
  induction m as [|[k2 v2] m IH]; cbn [mput found]; [reflexivity|]. destruct (bytes_eqb_spec k' k2) as [->|N].
  - cbn [found]. destruct (bytes_eqb k k2); reflexivity.
  - destruct (bytes_ltb k' k2); cbn [found]; [reflexivity|]. rewrite IH. destruct (bytes_eqb_spec k k2) as [->|]; [|reflexivity].
    destruct (bytes_eqb_spec k2 k'); [congruence|reflexivity].
Qed.
Lemma found_puts k l : forall m, found k (mputs l m) = match last_of k l with Some v => Some v | None => found k m end.
Proof.
  induction l as [|[k' v'] l IH]; intros m; [reflexivity|]. change (mputs ((k', v') :: l) m) with (mputs l (mput k' v' m)). rewrite IH, found_put. cbn [last_of].
  destruct (last_of k l); [reflexivity|]. destruct (bytes_eqb k k'); reflexivity.
Qed.
Lemma above_found k m : above k m -> found k m = None.
Proof.
  induction 1 as [|[k' v] m H A IH]; [reflexivity|]. cbn [found]. destruct (bytes_eqb_spec k k') as [->|]; [|exact IH]. cbn in H. rewrite ltb_irrefl in H. discriminate.
Qed.
Lemma found_in k v m : increasing m -> (In (k, v) m <-> found k m = Some v).
Proof.
  induction m as [|[k' v'] m IH]; intros I; [cbn; split; [tauto|discriminate]|]. apply inc_cons in I as [A I]. cbn [In found]. rewrite (IH I).
  destruct (bytes_eqb_spec k k') as [->|N].
  - rewrite (above_found _ _ A). split; [intros [H|H]; congruence|intros H; left; congruence].
  - split; [intros [H|H]; [congruence|exact H]|auto].
Qed.
Theorem msort_spec l : increasing (msort l) /\ forall k v, In (k, v) (msort l) <-> last_of k l = Some v.
Proof.
  split; [apply msort_inc|]. intros k v. rewrite found_in by apply msort_inc. unfold msort. rewrite found_puts. cbn [found]. destruct (last_of k l); reflexivity.
Qed.
Lemma mput_end k v m : Forall (fun kv => bytes_ltb (fst kv) k = true) m -> mput k v m = m ++ [(k, v)].
Proof.
  induction 1 as [|[k' v'] m H A IH]; [reflexivity|]. cbn [mput fst app] in *. destruct (bytes_eqb_spec k k') as [->|]; [rewrite ltb_irrefl in H; discriminate|].
  destruct (bytes_ltb k k') eqn:L; [pose proof (ltb_trans _ _ _ H L) as Q; rewrite ltb_irrefl in Q; discriminate|]. rewrite IH. reflexivity.
Qed.
Lemma inc_before m k v l : increasing (m ++ (k, v) :: l) -> Forall (fun kv => bytes_ltb (fst kv) k = true) m.
Proof.
  induction m as [|[k' v'] m IH]; intros I; [constructor|]. cbn [app] in I. apply inc_cons in I as [A I]. constructor; [|auto].
  apply Forall_app in A as [_ A]. inversion A; assumption.
Qed.
Lemma mputs_end l : forall m, increasing (m ++ l) -> mputs l m = m ++ l.
Proof.
  induction l as [|[k v] l IH]; intros m I; [rewrite app_nil_r; reflexivity|]. change (mputs ((k, v) :: l) m) with (mputs l (mput k v m)).
  rewrite (mput_end k v m) by (eapply inc_before; eassumption). rewrite IH; rewrite <- app_assoc; [reflexivity|exact I].
Qed.
Lemma msort_id l : increasing l -> msort l = l.
Proof. intros I. unfold msort. apply (mputs_end l []), I. Qed.
Lemma mput_all (P : bytes * V -> Prop) k v m : P (k, v) -> Forall P m -> Forall P (mput k v m).
Proof.
  intros H. induction 1 as [|[k' v'] m X A IH]; cbn [mput]; [repeat constructor; assumption|]. destruct (bytes_eqb k k'); [constructor; assumption|].
  destruct (bytes_ltb k k'); repeat (constructor; try assumption).
Qed.
Lemma mputs_all (P : bytes * V -> Prop) l : Forall P l -> forall m, Forall P m -> Forall P (mputs l m).
Proof. induction 1 as [|[k v] l H F IH]; intros m M; [exact M|]. apply IH, mput_all; assumption. Qed.
End Maps.
Lemma mput_rel {A B} (R : A -> B -> Prop) k a b ma mb : R a b -> Forall2 (fun x y => fst x = fst y /\ R (snd x) (snd y)) ma mb ->
  Forall2 (fun x y => fst x = fst y /\ R (snd x) (snd y)) (mput k a ma) (mput k b mb).
Proof.
  intros H. induction 1 as [|[k1 a1] [k2 b2] ma mb [E X] F IH]; cbn [mput]; [repeat constructor; auto|]. cbn [fst snd] in E, X. subst k2.
  destruct (bytes_eqb k k1); [repeat (constructor; auto)|]. destruct (bytes_ltb k k1); repeat (constructor; auto).
Qed.
Lemma mputs_rel {A B} (R : A -> B -> Prop) la lb : Forall2 (fun x y => fst x = fst y /\ R (snd x) (snd y)) la lb ->
  forall ma mb, Forall2 (fun x y => fst x = fst y /\ R (snd x) (snd y)) ma mb ->
  Forall2 (fun x y => fst x = fst y /\ R (snd x) (snd y)) (mputs la ma) (mputs lb mb).
Proof.
  induction 1 as [|[k1 a1] [k2 b2] la lb [E X] F IH]; intros ma mb M; [exact M|]. cbn [fst snd] in E, X. subst k2. apply IH, mput_rel; assumption.
Qed.
Lemma msort_rel {A B} (R : A -> B -> Prop) la lb : Forall2 (fun x y => fst x = fst y /\ R (snd x) (snd y)) la lb ->
  Forall2 (fun x y => fst x = fst y /\ R (snd x) (snd y)) (msort la) (msort lb).
Proof. intros H. apply mputs_rel; [exact H|constructor]. Qed.

(* ----- lists of results ----- *)
Lemma all_some {A} (l : list (option A)) r : all l = Some r <-> Forall2 (fun o a => o = Some a) l r.
Proof.
  revert r. induction l as [|[a|] l IH]; intros r; cbn [all].
  - split; [intros H; injection H as <-; constructor|intros H; inversion H; reflexivity].
  - destruct (all l) as [l'|] eqn:E.
    + split; [intros H; injection H as <-; constructor; [reflexivity|apply IH; reflexivity]|].
      intros H. inversion H as [|? ? ? ? X Y]; subst. injection X as ->. apply IH in Y. congruence.
    + split; [discriminate|]. intros H. inversion H as [|? ? ? ? X Y]; subst. apply IH in Y. discriminate.
  - split; [discriminate|]. intros H. inversion H; discriminate.
Qed.
Lemma vals_some {A} (l : list (bytes * option A)) r : vals l = Some r <-> Forall2 (fun x y => fst x = fst y /\ snd x = Some (snd y)) l r.
Proof.
  unfold vals. rewrite all_some. split; intros H.
  - remember (map (fun kv => option_map (pair (fst kv)) (snd kv)) l) as l2 eqn:E. revert l E.
    induction H as [|o a l2 r X F IH]; intros [|[k o'] l] E; try discriminate; constructor; injection E as E1 E2; [|auto].
    cbn [fst snd] in *. destruct o'; cbn in E1; [|congruence]. assert (a = (k, a0)) as -> by congruence. auto.
  - induction H as [|[k o] [k' a] l r [X Y] F IH]; constructor; [|exact IH]. cbn [fst snd] in *. subst. reflexivity.
Qed.

(* ----- values ----- *)
Lemma gval_rect' {F} (P : gval F -> Prop) : P GNil -> (forall b, P (GBool b)) -> (forall z, P (GInt z)) -> (forall f, P (GFloat f)) -> (forall s, P (GStr s)) ->
  P (GSlice None) -> (forall l, Forall P l -> P (GSlice (Some l))) -> P (GMap None) -> (forall l, Forall (fun kv => P (snd kv)) l -> P (GMap (Some l))) -> P GOther -> forall v, P v.
Proof.
  intros H0 H1 H2 H3 H4 H5 H6 H7 H8 H9. fix IH 1. intros [|b|z|f|s|[l|]|[l|]|]; [exact H0|apply H1|apply H2|apply H3|apply H4| |exact H5| |exact H7|exact H9].
  - apply H6. induction l; constructor; [apply IH|assumption].
  - apply H8. induction l as [|[k v] l IHl]; constructor; [apply IH|assumption].
Qed.
Lemma dec_digits_ok f : forall n, (0 < f) -> (n < 10 ^ N.of_nat f)%N -> Forall is_digit (dec_digits f n) /\
  (n <> 0 -> exists d ds, dec_digits f n = d :: ds /\ between 49 57 d)%N /\ (n = 0%N -> dec_digits f n = [n2b 48]).
Proof.
  induction f as [|f IH]; intros n F L; [lia|]. cbn [dec_digits]. destruct (N.ltb_spec n 10) as [LT|LT].
  - split; [|split].
    + constructor; [|constructor]. unfold is_digit, between. rewrite b2N_n2b_small by lia. lia.
    + intros Z. do 2 eexists. split; [reflexivity|]. unfold between. rewrite b2N_n2b_small by lia. lia.
    + intros ->. reflexivity.
  - assert (Q : (n / 10 < 10 ^ N.of_nat f)%N).
    { apply N.div_lt_upper_bound; [lia|]. replace (N.of_nat (S f)) with (N.succ (N.of_nat f)) in L by lia. rewrite N.pow_succ_r' in L. exact L. }
    assert (F' : 0 < f) by (destruct f; [cbn in Q; apply N.lt_1_r in Q; apply N.div_small_iff in Q; lia|lia]).
    destruct (IH (n / 10)%N F' Q) as (D & Z & _). split; [|split; [|lia]].
    + apply Forall_app. split; [exact D|]. constructor; [|constructor]. pose proof (N.mod_lt n 10 ltac:(lia)). unfold is_digit, between. rewrite b2N_n2b_small by lia. lia.
    + intros _. destruct Z as (d & ds & -> & B); [intros X; apply N.div_small_iff in X; lia|]. cbn [app]. eauto.
Qed.
Lemma is_int_spec z : is_int z = true <-> (- 2 ^ 63 <= z < 2 ^ 64)%Z.
Proof. unfold is_int. lia. Qed.
Lemma dec_value f : forall n, (n < 10 ^ N.of_nat f)%N -> fold_left (fun n d => 10 * n + (Z.of_N (b2N d) - 48))%Z (dec_digits f n) 0%Z = Z.of_N n.
Proof.
  induction f as [|f IH]; intros n L.
  - cbn in L. apply N.lt_1_r in L. subst. reflexivity.
  - cbn [dec_digits]. destruct (N.ltb_spec n 10) as [LT|LT].
    + cbn [fold_left]. rewrite b2N_n2b_small by lia. lia.
    + pose proof (N.mod_lt n 10 ltac:(lia)). pose proof (N.div_mod n 10 ltac:(lia)). rewrite fold_left_app, IH; [cbn [fold_left]; rewrite b2N_n2b_small by lia; lia|].
      apply N.div_lt_upper_bound; [lia|]. replace (N.of_nat (S f)) with (N.succ (N.of_nat f)) in L by lia. rewrite N.pow_succ_r' in L. exact L.
Qed.
Lemma dec_spells z : is_int z = true -> spells (dec z) z.
Proof.
  intros H. apply is_int_spec in H. unfold dec.
  assert (B : (Z.abs_N z < 10 ^ N.of_nat 20)%N) by (change (10 ^ N.of_nat 20)%N with 100000000000000000000%N; lia).
  destruct (dec_digits_ok 20 (Z.abs_N z)) as (D & P & Z0); [lia|exact B|].
  exists (if (z <? 0)%Z then [x2d] else []), (dec_digits 20 (Z.abs_N z)). split; [reflexivity|]. split.
  - destruct (N.eq_dec (Z.abs_N z) 0) as [E|E]; [left; apply Z0, E|]. right. destruct (P E) as (d & ds & Q & R). rewrite Q in D |- *. exists d, ds. split; [reflexivity|]. split; [exact R|]. inversion D; assumption.
  - rewrite (dec_value 20 _ B). cbv zeta. destruct (Z.ltb_spec z 0); [right; split; [reflexivity|]|left; split; [reflexivity|]]; lia.
Qed.
Lemma spells_number l z : spells l z -> number l.
Proof.
  intros (s & ds & -> & W & H). exists s, ds, [], []. split; [rewrite !app_nil_r; reflexivity|]. split; [cbv zeta in H; destruct H as [[-> _]|[-> _]]; cbn; auto|].
  split; [exact W|]. split; left; reflexivity.
Qed.
Lemma dec_number z : is_int z = true -> number (dec z).
Proof. intros H. eapply spells_number, dec_spells, H. Qed.
(* maps are determined by what they hold *)
Lemma increasing_ext {V} (a : list (bytes * V)) : forall b, increasing a -> increasing b -> (forall k v, In (k, v) a <-> In (k, v) b) -> a = b.
Proof.
  induction a as [|[k v] a IH]; intros [|[k' v'] b] A B H.
  - reflexivity.
  - exfalso. apply (H k' v'). left. reflexivity.
  - exfalso. apply (H k v). left. reflexivity.
  - apply inc_cons in A as [A1 A2]. apply inc_cons in B as [B1 B2]. unfold above in *. rewrite Forall_forall in A1, B1.
    assert (E : (k, v) = (k', v')).
    { destruct (proj1 (H k v) (or_introl eq_refl)) as [E|I]; [congruence|]. destruct (proj2 (H k' v') (or_introl eq_refl)) as [E|I']; [congruence|].
      apply B1 in I. apply A1 in I'. cbn in I, I'. pose proof (ltb_trans _ _ _ I I') as X. rewrite ltb_irrefl in X. discriminate. }
    injection E as <- <-. f_equal. apply IH; [assumption|assumption|]. intros x y. split; intros I.
    + destruct (proj1 (H x y) (or_intror I)) as [E|]; [|assumption]. injection E as <- <-. apply A1 in I. cbn in I. rewrite ltb_irrefl in I. discriminate.
    + destruct (proj2 (H x y) (or_intror I)) as [E|]; [|assumption]. injection E as <- <-. apply B1 in I. cbn in I. rewrite ltb_irrefl in I. discriminate.
Qed.
Lemma map_of_msort {V} (l m : list (bytes * V)) : map_of l m <-> m = msort l.
Proof.
  destruct (msort_spec l) as [I S]. split; [|intros ->; split; assumption]. intros [J H]. apply increasing_ext; [exact J|exact I|]. intros k v. rewrite H, S. reflexivity.
Qed.
