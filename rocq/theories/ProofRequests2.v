(* Calls of the request manager: which, how many steps, what they wait for. *)
From Coq Require Import List Arith NArith Lia Bool.
From Verif Require Import BaseBytes BaseConc ModelMessage ModelRequests SpecRequests ProofRequests.
Import ListNotations.
Open Scope nat_scope.

Lemma set_nth_asked (l : list thread) i t u : nth_error l i = Some t -> asked u = asked t -> map asked (set_nth l i u) = map asked l.
Proof.
  revert i. induction l as [|x l IH]; intros [|i] H E; cbn in *; try discriminate.
  - injection H as ->. congruence.
  - f_equal. eauto.
Qed.
Definition ahead (t : thread) : nat :=
  match t with
  | Cr0 => 2 | Cr1 _ => 1 | Fu0 _ => 3 | Fu1 _ _ => 2 | Fu2 _ _ => 1 | Fa0 _ _ => 3 | Fa1 _ _ _ => 2 | Fa2 _ _ _ => 1
  | Aw0 _ => 2 | Aw1 _ _ => 1 | Pn0 => 1 | Ip0 _ => 1 | _ => 0
  end.
Lemma thread_shape s t c s1 t1 : thread_step s t c = Some (s1, t1) -> asked t1 = asked t /\ ahead t1 < ahead t.
Proof.
  intros E. destruct t, c; cbn [thread_step] in E; try discriminate E;
    unfold send, recv, add_id, register in E;
    repeat match type of E with
    | Some _ = Some _ => injection E as <- <-; cbn; auto
    | context [nth_error ?x ?y] => destruct (nth_error x y); try discriminate E
    | context [map_get ?x ?y ?z] => destruct (map_get x y z)
    | context [?x <? ?y] => destruct (x <? y); try discriminate E
    | context [r_chan ?q] => destruct (r_chan q); try discriminate E
    end.
Qed.
Lemma call_start c : asked (start c) = c.
Proof. destruct c; reflexivity. Qed.
Lemma rstep_call s c s' : rstep s (EvCall c) = Some s' -> threads s' = threads s ++ [start c].
Proof. cbn. destruct c; try (intros [= <-]; reflexivity). destruct (existsb _ _); [|discriminate]. intros [= <-]. reflexivity. Qed.
Lemma rstep_step s i c s' : rstep s (EvStep i c) = Some s' ->
  exists t t1, nth_error (threads s) i = Some t /\ threads s' = set_nth (threads s) i t1 /\ asked t1 = asked t /\ ahead t1 < ahead t.
Proof.
  intros H. destruct (rstep_cases _ _ _ H) as [(x & Q)|(j & c' & t & s1 & t1 & Ee & Ht & Es & -> & Th)].
  - exfalso. cbn in H. destruct (nth_error (threads s) i) as [t|] eqn:Ht; [|discriminate]. destruct (thread_step s t c) as [[s1 t1]|] eqn:E; [|discriminate].
    assert (L : length (threads s') = length (threads s1)) by (injection H as <-; cbn; apply set_nth_length).
    assert (L1 : threads s1 = threads s).
    { clear H Q L. destruct t, c; cbn [thread_step] in E; try discriminate E; unfold send, recv, add_id, register in E;
      repeat match type of E with
      | Some _ = Some _ => injection E as <- <-; cbn; auto
      | context [nth_error ?x ?y] => destruct (nth_error x y); try discriminate E
      | context [map_get ?x ?y ?z] => destruct (map_get x y z)
      | context [?x <? ?y] => destruct (x <? y); try discriminate E
      | context [r_chan ?q] => destruct (r_chan q); try discriminate E
      end. }
    rewrite L1, Q in L. cbn in L. rewrite app_length in L. cbn in L. lia.
  - injection Ee as <- <-. exists t, t1. destruct (thread_shape _ _ _ _ _ Es) as [A B]. cbn. rewrite Th. auto.
Qed.
Lemma run_asked es : forall s s', rrun s es = Some s' -> map asked (threads s') = map asked (threads s) ++ asks es.
Proof.
  induction es as [|e es IH]; cbn [rrun]; intros s s' H; [injection H as <-; rewrite app_nil_r; reflexivity|].
  destruct (rstep s e) as [s1|] eqn:E; [|discriminate]. rewrite (IH _ _ H). destruct e as [c|i c].
  - rewrite (rstep_call _ _ _ E), map_app, <- app_assoc. cbn. rewrite call_start. reflexivity.
  - destruct (rstep_step _ _ _ _ E) as (t & t1 & Ht & -> & A & _). rewrite (set_nth_asked _ _ _ _ Ht A). reflexivity.
Qed.
Lemma all_asked es s : rrun NewRequestManager es = Some s -> map asked (threads s) = asks es.
Proof. intros H. exact (run_asked es _ _ H). Qed.
Lemma taken_cons i e es : taken i (e :: es) = (match e with EvStep j _ => if j =? i then 1 else 0 | _ => 0 end) + taken i es.
Proof. unfold taken. cbn [filter]. destruct e as [|j c]; [reflexivity|]. destruct (j =? i); reflexivity. Qed.
Lemma run_ahead es : forall s s' i t, rrun s es = Some s' -> nth_error (threads s) i = Some t -> taken i es <= ahead t.
Proof.
  induction es as [|e es IH]; intros s s' i t H I; [apply Nat.le_0_l|]. cbn [rrun] in H. destruct (rstep s e) as [s1|] eqn:E; [|discriminate].
  rewrite taken_cons. destruct e as [c|j c].
  - eapply IH; [exact H|]. rewrite (rstep_call _ _ _ E), nth_error_app1; [exact I|]. apply nth_error_Some. congruence.
  - destruct (rstep_step _ _ _ _ E) as (u & u' & J & Th & _ & L). destruct (Nat.eqb_spec j i) as [->|N].
    + assert (u = t) by congruence. subst u. pose proof (IH s1 s' i u' H ltac:(rewrite Th; eapply set_nth_eq; eauto)). lia.
    + apply (IH s1 s' i t H). rewrite Th, set_nth_ne by auto. exact I.
Qed.
Lemma ahead_most t : ahead t <= steps_for (asked t).
Proof. destruct t; cbn; lia. Qed.
Lemma few_taken s es s' i t : rrun s es = Some s' -> nth_error (threads s) i = Some t -> taken i es <= steps_for (asked t).
Proof. intros H I. pose proof (run_ahead _ _ _ _ _ H I). pose proof (ahead_most t). lia. Qed.
Lemma who_is_held_up s i t : rreach anything s -> (N.of_nat (creations s) < 2 ^ 64)%N -> nth_error (threads s) i = Some t -> finished t = false ->
  ((forall s', rstep s (EvStep i ChRun) <> Some s') <-> held_up s t).
Proof.
  intros R B Ht F. pose proof (reach_rinv _ _ R B) as V.
  assert (Q : forall r, refs t = Some r -> exists q, nth_error (reqs s) r = Some q).
  { intros r E. pose proof (v_refs _ V _ _ _ Ht E) as L. apply nth_error_Some in L. destruct (nth_error (reqs s) r); [eauto|congruence]. }
  cbn [rstep]. rewrite Ht. split.
  - intros H. destruct t; try discriminate F; cbn [thread_step] in H;
      try (exfalso; eapply H; reflexivity);
      try (exfalso; destruct (map_get _ _ _); eapply H; reflexivity).
    + destruct (Q r eq_refl) as [q E]. exists r, q. split; [exact E|]. split; [reflexivity|]. intros Em. unfold send in H. rewrite E, Em in H. eapply H. reflexivity.
    + destruct (Q r eq_refl) as [q E]. exists r, q. split; [exact E|]. split; [reflexivity|]. intros Em. unfold send in H. rewrite E, Em in H. eapply H. reflexivity.
    + destruct (Q r eq_refl) as [q E]. exists r, q. split; [exact E|]. split; [reflexivity|]. unfold recv in H. rewrite E in H. destruct (r_chan q); [reflexivity|exfalso; eapply H; reflexivity].
    + exfalso. destruct (Q r eq_refl) as [q E]. rewrite E in H. eapply H. reflexivity.
  - intros (r & q & E & W) s'. destruct t; try contradiction; destruct W as [-> W]; cbn [thread_step]; unfold send, recv; rewrite E.
    + destruct (r_chan q); [congruence|discriminate].
    + destruct (r_chan q); [congruence|discriminate].
    + rewrite W. discriminate.
Qed.
