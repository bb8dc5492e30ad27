(* Deciding that nothing goes on, for runs of the examples. *)
From Coq Require Import List Arith ZArith Lia Bool.
From Verif Require Import BaseBytes BaseConc ModelMessage ModelWrite ModelHandle ModelStack SpecWrite SpecStack SpecStill.
From Verif Require Import ProofStack ProofStack11 ProofStill ProofStill2.
From Verif Require ModelDispatch ModelMemchan SpecDispatch SpecMemchan SpecSettle.
From Verif Require ProofMemchan ProofMemchan8.
Import ListNotations.
Open Scope nat_scope.

Definition tidyb (s : stack) (e : event) (s' : stack) : bool := quietb s e s' && ProofMemchan8.orderlyb (k_net s').
Lemma tidyb_ok s e s' : tidyb s e s' = true -> tidy s e s'.
Proof. unfold tidyb, tidy. rewrite andb_true_iff. intros [H1 H2]. split; [apply (quietb_ok s e s'), H1|apply ProofMemchan8.orderlyb_spec, H2]. Qed.

Definition busy (s : stack) (o : option (use * nat)) : bool :=
  match o with
  | Some (_, j) => match nthread s j with Some x => negb (SpecMemchan.finished x) | None => false end
  | None => false
  end.
Definition keptb (s : stack) (i : nat) (t : ModelDispatch.thread) : bool :=
  SpecDispatch.finished t || busy s (k_io s i) ||
  match t with
  | ModelDispatch.TRd c (ModelDispatch.RSlot _ _) => Z.eqb (ModelDispatch.c_limit (ModelDispatch.v_conn (vsrv s) c))
      (Z.of_nat (count (SpecDispatch.holds c) (ModelDispatch.s_ts (k_srv s)) + count (SpecDispatch.leaked c) (dlog s)))
  | ModelDispatch.TShW => negb (ModelDispatch.v_rdy (vsrv s))
  | _ => false
  end.
Lemma keptb_ok s i t : keptb s i t = true -> kept s i t.
Proof.
  unfold keptb. rewrite !orb_true_iff. intros [[H|H]|H].
  - left. exact H.
  - right. left. unfold busy in H. destruct (k_io s i) as [[u j]|]; [|discriminate H]. destruct (nthread s j) as [x|] eqn:N; [|discriminate H].
    exists u, j, x. split; [reflexivity|]. split; [exact N|]. apply negb_true_iff, H.
  - right. right. destruct t as [| |c st|c k m j| | | | | | |]; try discriminate H; [|right; split; [reflexivity|apply negb_true_iff, H]].
    destruct st as [| | | |k m| | | | | | | | |]; try discriminate H. left. exists c, k, m. split; [reflexivity|]. apply Z.eqb_eq, H.
Qed.
Definition idleb (s : stack) (x : ModelMemchan.thread) : bool :=
  SpecMemchan.finished x ||
  match x with
  | ModelMemchan.TWrite _ ModelMemchan.WParked => true
  | ModelMemchan.TWrite k ModelMemchan.WGet => match ModelMemchan.u_wlk (ModelMemchan.n_sock (vnet s) k) with Some _ => true | None => false end
  | _ => false
  end.
Lemma idleb_ok s j x : nthread s j = Some x -> idleb s x = true -> ~ SpecMemchan.can_step (k_net s) j.
Proof.
  intros N I (ch & s' & M). apply ProofMemchan.mstep_rel in M as [_ M].
  assert (T : exists n' t' w, ProofMemchan.trel (ModelMemchan.s_ts (k_net s)) j (vnet s) x n' t' w).
  { inversion M as [e t B|i c t n' t' N' T|i c t n' t' y v k N' T Ne V J]; subst; [discriminate B| |]; rewrite N in N'; injection N' as ->; eauto. }
  clear M. destruct T as (n' & t' & w & T). revert N I. destruct T as [k st m st' H|k m d st m' st' v H|t k st m st' v Cl H|p st m st' H|st m st' H]; intros N I.
  - destruct st; try discriminate I; inversion H; subst; unfold idleb in I; cbn in I.
    + match goal with Q : ModelMemchan.u_wlk _ = None |- _ => rewrite Q in I end. discriminate I.
    + match goal with Q : ModelMemchan.u_wlk _ = None |- _ => rewrite Q in I end. discriminate I.
  - destruct st; try discriminate I. inversion H.
  - destruct t as [|? ? ? st0| k0 st0| |st0]; try discriminate Cl; cbn in Cl;
      [destruct st0; try discriminate Cl; discriminate I| |destruct st0; try discriminate Cl; discriminate I].
    injection Cl as -> ->. destruct st; try discriminate I. inversion H.
  - destruct st; try discriminate I. inversion H.
  - destruct st; try discriminate I. inversion H.
Qed.
Fixpoint each {A} (p : nat -> A -> bool) (i : nat) (l : list A) : bool :=
  match l with [] => true | x :: r => p i x && each p (S i) r end.
Lemma each_ok {A} (p : nat -> A -> bool) l : forall i0, each p i0 l = true -> forall i x, nth_error l i = Some x -> p (i0 + i) x = true.
Proof.
  induction l as [|a l IH]; intros i0 H i x N; [destruct i; discriminate N|]. cbn in H. apply andb_true_iff in H as [H1 H2].
  destruct i as [|i]; [injection N as <-; rewrite Nat.add_0_r; exact H1|]. rewrite Nat.add_succ_r. exact (IH (S i0) H2 i x N).
Qed.
Definition stillb (s : stack) : bool :=
  negb (ModelDispatch.v_crashed (vsrv s)) && negb (ModelMemchan.n_crashed (vnet s)) &&
  each (keptb s) 0 (ModelDispatch.s_ts (k_srv s)) && forallb (idleb s) (ModelMemchan.s_ts (k_net s)) &&
  forallb (fun r => match run_step s r with None => true | Some _ => false end) (k_runs s) &&
  (ModelMemchan.n_active (vnet s) || k_chan s).
Lemma stillb_ok buf conf ok s : kreach buf conf ok s -> stillb s = true -> alive s /\ still s.
Proof.
  intros R H. unfold stillb in H. rewrite !andb_true_iff in H. destruct H as (((((A1 & A2) & Ks) & Kn) & Kr) & Kc).
  assert (Al : alive s) by (split; apply negb_true_iff; assumption). split; [exact Al|].
  apply (still_if _ _ _ _ R Al); [| | |exact Kc].
  - intros i t N. apply keptb_ok. exact (each_ok _ _ 0 Ks i t N).
  - intros j C. exfalso. destruct (nthread s j) as [x|] eqn:N.
    + rewrite forallb_forall in Kn. exact (idleb_ok _ _ _ N (Kn _ (nth_error_In _ _ N)) C).
    + destruct C as (ch & s' & M). unfold ModelMemchan.mstep in M. rewrite N in M. destruct (ModelMemchan.n_crashed (vnet s)); discriminate M.
  - intros i r N. rewrite forallb_forall in Kr. specialize (Kr _ (nth_error_In _ _ N)). cbn in Kr. destruct (run_step s r); [discriminate Kr|reflexivity].
Qed.
Definition readb (s : stack) : bool :=
  forallb SpecMemchan.finished (ModelMemchan.s_ts (k_net s)) &&
  forallb (fun e => match e with ModelMemchan.LWriter _ _ ModelMemchan.WrEmpty => false | _ => true end) (tlog s).
Lemma readb_ok s : readb s = true -> forall p, ~ unread s p.
Proof.
  unfold readb. rewrite andb_true_iff, !forallb_forall. intros [H1 H2] p [(j & g & b & N & _)|[(j & N & _)|(j & L)]].
  - pose proof (H1 _ (nth_error_In _ _ N)) as Q. discriminate Q.
  - pose proof (H1 _ (nth_error_In _ _ N)) as Q. discriminate Q.
  - pose proof (H2 _ L) as Q. discriminate Q.
Qed.
Definition none_lost (s : stack) : bool :=
  forallb (fun e => match e with ModelDispatch.LShutReply _ _ _ _ => false | _ => true end) (dlog s).
Lemma none_lost_ok s : none_lost s = true -> forall c, ~ SpecSettle.exhausted (k_srv s) c.
Proof.
  unfold none_lost. rewrite forallb_forall. intros H c [E1 E2].
  assert (Z : count (SpecDispatch.leaked c) (dlog s) = 0).
  { apply count_zero. intros x L. specialize (H _ L). destruct x; try reflexivity; discriminate H. }
  cbv beta delta [SpecDispatch.slog] in *. lia.
Qed.
Lemma resting conf es (P : stack -> Prop) : (forall s, kchecked tidyb (new_stack 32 conf) es = Some s -> stillb s = true /\ P s) ->
  (match kchecked tidyb (new_stack 32 conf) es with Some s => true | None => false end) = true ->
  exists s, kreach 32 conf tidy s /\ alive s /\ still s /\ P s.
Proof.
  intros H E. destruct (kchecked tidyb (new_stack 32 conf) es) as [s|] eqn:R; [|discriminate]. exists s.
  assert (K : kreach 32 conf tidy s) by (eapply kchecked_reach; [exact tidyb_ok|exact R]).
  destruct (H s eq_refl) as (A & Ps). split; [exact K|]. destruct (stillb_ok _ _ _ _ K A) as [Al S]. auto.
Qed.
