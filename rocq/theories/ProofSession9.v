(* Sessions: checking that a given run is within the restrictions, for the examples *)
From Coq Require Import List Arith NArith ZArith Lia Bool.
From Verif Require Import BaseBytes BaseConc ModelMessage ModelWrite ModelHandle ModelSession.
From Verif Require Import SpecSession ProofSession.
Import ListNotations.
Open Scope nat_scope.

Definition con_of (t : thread) : option nat :=
  match t with
  | TCreate _ _ (CDone _) | TClose _ (QDone _) | TRestore _ _ RDone | TClosure _ _ XDone | TUnlink _ UDone => None
  | TCreate c' _ _ | TClose c' _ | TRestore c' _ _ | TClosure c' _ _ | TUnlink c' _ => Some c'
  | TServer _ (SIn _ c' _ _) => Some c'
  | TServer _ _ => None
  end.
Lemma busy_con c t : busy c t = true -> con_of t = Some c.
Proof.
  destruct t as [c0 ? p|c0 p|c0 ? p|c0 ? p|c0 p|? p]; destruct p; cbn; try discriminate;
    intros H; apply Nat.eqb_eq in H; congruence.
Qed.
Fixpoint pairwise (p : thread -> thread -> bool) (l : list thread) : bool :=
  match l with [] => true | t :: l' => forallb (p t) l' && pairwise p l' end.
Lemma pairwise_spec p l : (forall t u, p t u = p u t) -> pairwise p l = true ->
  forall i j t u, i <> j -> nth_error l i = Some t -> nth_error l j = Some u -> p t u = true.
Proof.
  intros Sy. induction l as [|a l IH]; cbn; intros H i j t u D Hi Hj; [destruct i; discriminate|].
  apply andb_true_iff in H as [H1 H2]. rewrite forallb_forall in H1. destruct i, j; cbn in *; [congruence| | |].
  - injection Hi as ->. apply H1. eapply nth_error_In; eauto.
  - injection Hj as ->. rewrite Sy. apply H1. eapply nth_error_In; eauto.
  - apply (IH H2 i j); auto.
Qed.
Definition apart (t u : thread) : bool :=
  match con_of t, con_of u with Some c, Some c' => negb (c =? c') | _, _ => true end.
Definition apart' (t u : thread) : bool := apart t u || (negb (unsynced t) && negb (unsynced u)).
Lemma apart_sym t u : apart t u = apart u t.
Proof. unfold apart. destruct (con_of t), (con_of u); try reflexivity. rewrite Nat.eqb_sym. reflexivity. Qed.
Lemma apart'_sym t u : apart' t u = apart' u t.
Proof. unfold apart'. rewrite apart_sym, (andb_comm (negb (unsynced t))). reflexivity. Qed.
Lemma apart_busy c t u : busy c t = true -> busy c u = true -> apart t u = false.
Proof. intros A B. unfold apart. rewrite (busy_con _ _ A), (busy_con _ _ B), Nat.eqb_refl. reflexivity. Qed.

Definition roomb (f : config) (s : sys) (k : key) : bool :=
  (f_max f =? 0)%N || (sessionConnectionsNum (reg s) k <? Z.of_N (f_max f))%Z.
Lemma roomb_spec f s k : roomb f s k = true -> has_room f s k.
Proof. unfold roomb, has_room. rewrite orb_true_iff, N.eqb_eq, Z.ltb_lt. tauto. Qed.
Definition calmb (f : config) (s : sys) (t : thread) : bool :=
  match t with
  | TRestore c _ (RSet _ _) => match g_sess (s_srv s) c with None => true | Some _ => false end
  | TCreate c _ CReg | TRestore c _ (RReg _) => match g_sess (s_srv s) c with Some x => roomb f s (x_key x) | None => true end
  | _ => true
  end.
Definition join_of (t : thread) : option nat :=
  match t with TCreate c _ CReg | TRestore c _ (RReg _) => Some c | _ => None end.
Definition unrevived (s : sys) (t u : thread) : bool :=
  match ending t, join_of u with
  | Some c, Some c' => match g_sess (s_srv s) c, g_sess (s_srv s) c' with
                       | Some x, Some y => negb (bytes_eqb (x_key x) (x_key y))
                       | _, _ => true
                       end
  | _, _ => true
  end.
Definition strictb (f : config) (s : sys) : bool :=
  pairwise apart (s_ts s) && forallb (calmb f s) (s_ts s) && forallb (fun t => forallb (unrevived s t) (s_ts s)) (s_ts s).
Lemma strictb_spec f s : strictb f s = true -> strict f s.
Proof.
  unfold strictb. intros H. apply andb_true_iff in H as [H H3]. apply andb_true_iff in H as [H1 H2].
  rewrite forallb_forall in H2, H3.
  assert (Ex : exclusive s).
  { intros i j t u c D Hi Hj B1 B2. pose proof (pairwise_spec _ _ apart_sym H1 i j t u D Hi Hj) as P.
    rewrite (apart_busy c t u B1 B2) in P. discriminate. }
  split; [|split; [exact Ex|split]].
  - split; [|split].
    + intros i j t u c D Hi Hj B1 B2. destruct (Ex i j t u c D Hi Hj B1 B2).
    + intros i c m x enc N. specialize (H2 _ (nth_error_In _ _ N)). cbn in H2. destruct (g_sess (s_srv s) c); [discriminate|reflexivity].
    + intros i c info x N X. specialize (H2 _ (nth_error_In _ _ N)). cbn in H2. rewrite X in H2. apply roomb_spec, H2.
  - intros i c m enc x N X. specialize (H2 _ (nth_error_In _ _ N)). cbn in H2. rewrite X in H2. apply roomb_spec, H2.
  - intros i j t u c k Hi Hj E J (y & Y & Ky). specialize (H3 _ (nth_error_In _ _ Hi)). rewrite forallb_forall in H3.
    specialize (H3 _ (nth_error_In _ _ Hj)). unfold unrevived in H3. unfold ends in E. destruct (ending t) as [c1|]; [|discriminate].
    destruct (g_sess (s_srv s) c1) as [x|]; [|discriminate].
    destruct (beqb k (x_key x)) as [->|]; [|discriminate].
    assert (join_of u = Some c) as Ju by (destruct u as [c0 ? p|c0 p|c0 ? p|c0 ? p|c0 p|? p]; destruct p; cbn in *; try discriminate; apply Nat.eqb_eq in J; congruence).
    rewrite Ju, Y, Ky in H3. destruct (beqb (x_key x) (x_key x)); [discriminate|congruence].
Qed.
(* a run within the restrictions *)
Fixpoint strict_run (f : config) (s : sys) (es : list ev) : option sys :=
  match es with
  | [] => Some s
  | e :: es' => match sstep f s e with
                | Some s' => if strictb f s' then strict_run f s' es' else None
                | None => None
                end
  end.
Lemma strict_run_reach f es : forall s s', sreach f (strict f) s -> strict_run f s es = Some s' -> sreach f (strict f) s'.
Proof.
  induction es as [|e es IH]; cbn; intros s s' R H; [injection H as <-; exact R|].
  destruct (sstep f s e) as [s1|] eqn:E; [|discriminate]. destruct (strictb f s1) eqn:B; [|discriminate].
  apply (IH s1 s'); [|exact H]. eapply SR_step; eauto. apply strictb_spec, B.
Qed.
Lemma srun_reach f es : forall s s', sreach f anything s -> srun f s es = Some s' -> sreach f anything s'.
Proof.
  induction es as [|e es IH]; cbn; intros s s' R H; [injection H as <-; exact R|].
  destruct (sstep f s e) as [s1|] eqn:E; [|discriminate]. apply (IH s1 s'); [|exact H]. eapply SR_step; eauto. exact I.
Qed.
Lemma strict_orderly f : forall s, strict f s -> orderly f s. Proof. intros s H. apply H. Qed.
