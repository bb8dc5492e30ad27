(* Facts about the in-memory transport that the stack needs. *)
From Coq Require Import List Arith ZArith Lia Bool.
From Verif Require Import BaseBytes BaseConc ModelMessage ModelWrite ModelMemchan SpecMemchan.
From Verif Require Import ProofMemchan ProofMemchan2 ProofMemchan3 ProofMemchan4 ProofMemchan5 ProofMemchan6 ProofMemchan7 ProofMemchan8.
Import ListNotations.
Open Scope nat_scope.

(* which call a thread is *)
Inductive tag := GWrite (k : sock) | GRead (k : sock) (m : message) (d : bool) | GClose (k : sock) | GDial (p : nat) | GDown.
Definition tag_of (t : thread) : tag :=
  match t with
  | TWrite k _ => GWrite k
  | TRead k m d _ => GRead k m d
  | TClose k _ => GClose k
  | TDial p _ => GDial p
  | TDown _ => GDown
  end.
Lemma to_close_tag t s : tag_of (to_close t s) = tag_of t.
Proof. destruct t; try reflexivity; cbn; [destruct s0; try reflexivity; destruct s; reflexivity|destruct s0; try reflexivity; destruct s; reflexivity]. Qed.
Lemma trel_tag ts i n t n' t' w : trel ts i n t n' t' w -> tag_of t' = tag_of t.
Proof. intros []; try reflexivity. apply to_close_tag. Qed.
Lemma tags_forward s e s' x u : srel_ s e s' -> at_ s x u -> exists u', at_ s' x u' /\ tag_of u' = tag_of u.
Proof.
  unfold at_. intros [e0 t B|i ch t n' t' I T|i ch t n' t' j v k I T Ne V J] A; cbn [s_ts].
  - exists u. split; [|reflexivity]. rewrite nth_error_app1; [exact A|]. apply nth_error_Some. congruence.
  - destruct (Nat.eq_dec x i) as [->|D].
    + exists t'. split; [eapply set_nth_eq; eauto|]. rewrite A in I. injection I as ->. exact (trel_tag _ _ _ _ _ _ _ T).
    + exists u. rewrite set_nth_ne by auto. auto.
  - destruct (Nat.eq_dec x j) as [->|D].
    + exists (TWrite k (WReset v)). rewrite A in J. injection J as ->. split; [|reflexivity].
      eapply set_nth_eq. rewrite set_nth_ne by auto. exact A.
    + destruct (Nat.eq_dec x i) as [->|D'].
      * exists t'. rewrite set_nth_ne by auto. split; [eapply set_nth_eq; eauto|].
        rewrite A in I. injection I as ->. exact (trel_tag _ _ _ _ _ _ _ T).
      * exists u. rewrite !set_nth_ne by auto. auto.
Qed.
Lemma tags_back s e s' x u : srel_ s e s' -> at_ s' x u ->
  (exists u0, at_ s x u0 /\ tag_of u0 = tag_of u) \/ (x = length (s_ts s) /\ begin e = Some u).
Proof.
  intros R A. destruct (nth_error (s_ts s) x) as [u0|] eqn:E.
  - left. exists u0. split; [exact E|]. destruct (tags_forward _ _ _ _ _ R E) as (u' & A' & T). unfold at_ in *. congruence.
  - right. unfold at_ in *. apply nth_error_None in E. destruct R as [e0 t B|i ch t n' t' I T|i ch t n' t' j v k I T Ne V J]; cbn [s_ts] in A.
    + destruct (Nat.eq_dec x (length (s_ts s))) as [->|D].
      * rewrite nth_error_app2, Nat.sub_diag in A by lia. cbn in A. injection A as <-. auto.
      * exfalso. assert (x < length (s_ts s ++ [t])) by (apply nth_error_Some; congruence). rewrite app_length in H. cbn in H. lia.
    + exfalso. assert (x < length (set_nth (s_ts s) i t')) by (apply nth_error_Some; congruence). rewrite set_nth_length in H. lia.
    + exfalso. assert (x < length (set_nth (set_nth (s_ts s) i t') j (TWrite k (WReset v)))) by (apply nth_error_Some; congruence).
      rewrite !set_nth_length in H. lia.
Qed.
Lemma threads_grow s e s' : srel_ s e s' -> length (s_ts s) <= length (s_ts s').
Proof. intros []; cbn [s_ts]; rewrite ?app_length, ?set_nth_length; lia. Qed.

(* the status is changed by Shutdown only *)
Lemma trel_active ts i n t n' t' w : trel ts i n t n' t' w -> n_active n = true -> n_active n' = false -> exists st, t = TDown st.
Proof.
  intros T A B. destruct T as [k s n' s' W|k m d s n' s' w R|t k s n' s' w C R|p s n' s' D|s n' s' D].
  - exfalso. assert (n_active n' = n_active n) by (destruct W; reflexivity). congruence.
  - exfalso. assert (n_active n' = n_active n) by (destruct R; reflexivity). congruence.
  - exfalso. assert (Q : n_active n' = n_active n) by (destruct R; reflexivity).
    unfold end_close in B. destruct t as [| ? ? ? []| | |]; try congruence. destruct s'; try congruence.
    assert (n_active (log (LReader i k0 r) (set_rlk k0 None n')) = n_active n') by reflexivity. congruence.
  - exfalso. assert (n_active n' = n_active n) by (destruct D; reflexivity). congruence.
  - eauto.
Qed.
Lemma down_exists size ok s : mreach size ok s -> n_active (s_net s) = false -> exists i st, at_ s i (TDown st).
Proof.
  induction 1 as [|s e s' R IH H Ok]; [discriminate|]. intros F.
  destruct (mstep_rel _ _ _ H) as [_ Q].
  assert (D : exists i st, at_ s i (TDown st)).
  { destruct (n_active (s_net s)) eqn:A; [|auto].
    destruct Q as [e0 t B|i ch t n' t' I T|i ch t n' t' j v k I T Ne V J]; cbn in F; [congruence| |];
      destruct (trel_active _ _ _ _ _ _ _ T A F) as (st & ->); exists i, st; exact I. }
  destruct D as (i & st & A). destruct (tags_forward _ _ _ _ _ Q A) as (u & U & T).
  destruct u; try discriminate T. eauto.
Qed.
