(* Session calls come to an end. *)
From Coq Require Import List Arith NArith ZArith Lia Bool.
From Verif Require Import BaseBytes BaseConc ModelMessage ModelWrite ModelHandle ModelSession SpecSession SpecCalls ProofSession ProofSession2 ProofSession4.
Import ListNotations.
Open Scope nat_scope.

Definition sum (l : list nat) : nat := fold_right plus 0 l.
(* all connections listed, under any key *)
Definition size (r : registry) : nat := sum (map (fun e => length (snd e)) r).
Lemma size_cons a l r : size ((a, l) :: r) = length l + size r.
Proof. reflexivity. Qed.
Lemma size_del r k : size (map_del bytes_eqb r k) + match lookup r k with Some l => length l | None => 0 end <= size r.
Proof.
  induction r as [|[a l] r IH]; [cbn; lia|]. rewrite map_get_cons. cbn [map_del filter fst]. fold (map_del bytes_eqb r k).
  destruct (bytes_eqb_spec k a) as [->|N]; cbn [negb]; rewrite !size_cons; lia.
Qed.
Lemma size_get r k l : lookup r k = Some l -> length l <= size r.
Proof. intros H. pose proof (size_del r k) as D. rewrite H in D. lia. Qed.
Lemma size_set r k l : size (map_set bytes_eqb r k l) + match lookup r k with Some l0 => length l0 | None => 0 end <= size r + length l.
Proof. pose proof (size_del r k). unfold map_set. rewrite size_cons. lia. Qed.
Lemma size_register max r k c r' b : register max r k c = (r', b) -> size r' <= S (size r).
Proof.
  unfold register. destruct (lookup r k) as [l|] eqn:L; [destruct (_ && _); [intros [= <- _]; lia|]|]; intros [= <- _].
  - pose proof (size_set r k (set_add l c)) as S. rewrite L in S. unfold set_add in *. destruct (existsb _ l); cbn [length] in *; lia.
  - pose proof (size_set r k [c]) as S. rewrite L in S. cbn [length] in *. lia.
Qed.
Lemma del_length l c : length (set_del l c) <= length l.
Proof. unfold set_del. induction l; cbn; [lia|]. destruct (negb _); cbn; lia. Qed.
Lemma size_deregister r k c r' n : deregister r k c = (r', n) -> size r' <= size r.
Proof.
  unfold deregister. destruct (lookup r k) as [l|] eqn:L; [|intros [= <- _]; lia]. destruct (_ <? 2); intros [= <- _].
  - pose proof (size_del r k). lia.
  - pose proof (size_set r k (set_del l c)) as S. rewrite L in S. pose proof (del_length l c). lia.
Qed.

(* ----- what a call has still to do ----- *)
Definition may_join (t : thread) : nat :=
  match t with
  | TCreate _ _ (CErr | CHook | CDone _) | TRestore _ _ (RRep _ | RDone) => 0
  | TCreate _ _ _ | TRestore _ _ _ => 1
  | _ => 0
  end.
Definition dw (d : dstate) : nat := match d with D0 => 5 | D1 => 4 | D2 => 3 end.
Definition qw (q : lstate) : nat := match q with QStart => 7 | QLock => 6 | QDereg d => dw d | QNil => 2 | QNote => 1 | QDone _ => 0 end.
Definition weight (p : nat) (t : thread) : nat :=
  match t with
  | TCreate _ _ s => match s with CStart => 7 | CLock => 6 | CErr => 1 | CNew => 5 | CNote _ => 4 | CSet _ => 3 | CReg => 2 | CHook => 1 | CDone _ => 0 end
  | TClose _ q => qw q
  | TRestore _ _ s => match s with RStart => 6 | RCount => 5 | RLook => 4 | RSet _ _ => 3 | RReg _ => 2 | RRep _ => 1 | RDone => 0 end
  | TClosure _ _ s => match s with XStart => 7 | XHas => 6 | XDereg d => dw d | XNil => 2 | XRep _ => 1 | XDone => 0 end
  | TUnlink _ s => match s with UDereg d => dw d | UNil => 2 | UClose => 1 | UDone => 0 end
  | TServer _ s => match s with SList => 2 + 8 * p | SLoop _ l => 1 + 8 * length l | SIn _ _ q l => qw q + 1 + 8 * length l | SDone _ _ _ => 0 end
  end.
Definition total (w : thread -> nat) (ts : list thread) : nat := sum (map w ts).
Lemma total_cons w t ts : total w (t :: ts) = w t + total w ts.
Proof. reflexivity. Qed.
Lemma total_set w ts i t t' : nth_error ts i = Some t -> total w (set_nth ts i t') + w t = total w ts + w t'.
Proof.
  revert i. induction ts as [|u ts IH]; intros [|i]; cbn [nth_error set_nth]; try discriminate; rewrite !total_cons.
  - intros [= ->]. lia.
  - intros H. apply IH in H. lia.
Qed.
Lemma total_ge w ts i t : nth_error ts i = Some t -> w t <= total w ts.
Proof. revert i. induction ts as [|u ts IH]; intros [|i]; cbn [nth_error]; try discriminate; rewrite total_cons; [intros [= ->]; lia|]. intros H. apply IH in H. lia. Qed.
Lemma total_app w ts t : total w (ts ++ [t]) = total w ts + w t.
Proof. induction ts; cbn [app]; rewrite ?total_cons in *; [unfold total; cbn; lia|lia]. Qed.
Lemma weight_mono p p' t : p <= p' -> weight p t <= weight p' t.
Proof. intros H. destruct t as [| | | | |k []]; cbn; lia. Qed.
Lemma total_mono p p' ts : p <= p' -> total (weight p) ts <= total (weight p') ts.
Proof. intros H. induction ts as [|t ts IH]; [reflexivity|]. rewrite !total_cons. pose proof (weight_mono p p' t H). lia. Qed.
Definition room (s : sys) : nat := size (reg s) + total may_join (s_ts s).
Definition work (s : sys) : nat := if g_crashed (s_srv s) then 0 else total (weight (room s)) (s_ts s).

Lemma tstep_less f i g t ch g' t' p : tcase f i g t ch g' t' -> g_crashed g = false -> size (g_reg g) <= p ->
  size (g_reg g') + may_join t' <= size (g_reg g) + may_join t /\
  (if g_crashed g' then 0 else weight p t') < weight p t.
Proof.
  intros H C P. tcases H; cbn [g_reg g_crashed set_lock set_sess set_reg log crash may_join weight qw dw]; rewrite ?C;
    try match goal with R : register _ _ _ _ = _ |- _ => apply size_register in R end;
    try match goal with R : deregister _ _ _ = _ |- _ => apply size_deregister in R end; try (split; lia).
  - (* the connections are listed *)
    unfold sessionConnections in *. match goal with L : lookup _ _ = Some _ |- _ => apply size_get in L end.
    unfold same_elements in *. match goal with E : _ && _ && _ = true |- _ => apply andb_true_iff in E as [E _]; apply andb_true_iff in E as [E _]; apply Nat.eqb_eq in E end. split; lia.
  - cbn [length]. split; lia.
Qed.
Lemma step_less f s i ch s' : sstep f s (EvStep i ch) = Some s' -> room s' <= room s /\ work s' < work s.
Proof.
  intros H. apply step_inv in H as [C [(t & B & _)|(j & ch' & t & g' & t' & E & N & T & ->)]]; [discriminate B|]. injection E as <- <-.
  apply tstep_inv in T. pose proof (tstep_less _ _ _ _ _ _ _ (room s) T C) as [J W]; [unfold room; lia|].
  pose proof (total_set may_join _ _ _ t' N) as TJ. 
  assert (RM : room (MkSys g' (set_nth (s_ts s) i t')) <= room s) by (unfold room; cbn [s_srv s_ts]; lia).
  split; [exact RM|]. unfold work at 1. cbn [s_srv s_ts].
  pose proof (total_mono _ _ (set_nth (s_ts s) i t') RM) as TM. pose proof (total_set (weight (room s)) _ _ _ t' N) as TW. pose proof (total_ge (weight (room s)) _ _ _ N) as TG.
  unfold work. rewrite C. destruct (g_crashed g'); lia.
Qed.
Lemma ends f s es s' : forallb own es = true -> srun f s es = Some s' -> length es <= work s.
Proof.
  revert s. induction es as [|e es IH]; intros s O H; cbn in *; [lia|]. apply andb_true_iff in O as [O1 O2].
  destruct (sstep f s e) as [s1|] eqn:E; [|discriminate]. destruct e; try discriminate O1. apply step_less in E as [_ E]. specialize (IH _ O2 H). lia.
Qed.
Lemma weight_begin e t p : begin e = Some t -> weight p t <= 7 + 8 * p /\ (p = 0 \/ weight p t <= 2 + 8 * p) /\ may_join t <= 1.
Proof. destruct e; cbn; intros [= <-]; cbn; lia. Qed.
Lemma run_less f n es : forall s s', room s + calls es <= n -> srun f s es = Some s' ->
  steps es <= (if g_crashed (s_srv s) then 0 else total (weight n) (s_ts s)) + calls es * (8 * n + 2).
Proof.
  induction es as [|e es IH]; intros s s' RM H; cbn [srun] in H; [cbn; lia|].
  destruct (sstep f s e) as [s1|] eqn:E; [|discriminate]. unfold steps, calls in *. cbn [filter] in *.
  pose proof E as ST. apply step_inv in E as [C [(t & B & ->)|(j & ch' & t & g' & t' & -> & N & T & ->)]].
  - assert (O : own e = false) by (destruct e; [reflexivity..|discriminate B]). rewrite O in *. cbn [negb length] in *.
    destruct (weight_begin _ _ n B) as (_ & W & J).
    assert (R1 : room (MkSys (s_srv s) (s_ts s ++ [t])) <= S (room s)) by (unfold room; cbn [s_srv s_ts]; rewrite total_app; lia).
    assert (R2 : room (MkSys (s_srv s) (s_ts s ++ [t])) + length (filter (fun e => negb (own e)) es) <= n) by lia.
    specialize (IH _ _ R2 H). cbn [s_srv s_ts] in IH. rewrite total_app in IH. rewrite Nat.mul_succ_l, C in *. destruct W; lia.
  - cbn [own negb length] in *. apply step_less in ST as [R1 _]. apply tstep_inv in T.
    pose proof (tstep_less _ _ _ _ _ _ _ n T C) as [_ W]; [unfold room in RM; lia|].
    pose proof (total_set (weight n) _ _ _ t' N) as TW. pose proof (total_ge (weight n) _ _ _ N) as TG. 
    assert (R2 : room (MkSys g' (set_nth (s_ts s) j t')) + length (filter (fun e => negb (own e)) es) <= n) by lia.
    specialize (IH _ _ R2 H). cbn [s_srv s_ts] in IH. rewrite C. destruct (g_crashed g'); lia.
Qed.
Lemma run_bounded f es s : srun f new_server es = Some s -> steps es <= calls es * (8 * calls es + 2).
Proof. intros H. pose proof (run_less f (calls es) es new_server s) as B. cbn in B. specialize (B (le_n _) H). lia. Qed.

Lemma reach_free f ok s : sreach f ok s -> sreach f anything s.
Proof. intros R. induction R; [constructor|]. eapply SR_step; eauto. exact Logic.I. Qed.
Lemma rest_quiet f ok s : sreach f ok s -> g_crashed (s_srv s) = false -> (at_rest f s <-> quiet s).
Proof.
  intros R C. split.
  - intros A t I. destruct (finished t) eqn:F; [reflexivity|]. exfalso. apply In_nth_error in I as [i N].
    destruct (progress f ok s i t R C N F) as [(ch & s' & X & _)|(j & u & c & _ & _ & _ & _ & ch & s' & X & _)]; rewrite A in X; discriminate X.
  - intros Q i ch. destruct (sstep f s (EvStep i ch)) as [s'|] eqn:E; [|reflexivity]. exfalso.
    apply step_inv in E as [_ [(t & B & _)|(j & ch' & t & g' & t' & X & N & T & _)]]; [discriminate B|]. injection X as <- <-.
    apply nth_error_In in N. apply Q in N. apply tstep_inv in T. tcases T; discriminate N.
Qed.
Lemma finish f s : sreach f anything s -> exists es s', forallb own es = true /\ (forall e, In e es -> ~ fatal e) /\ srun f s es = Some s' /\
  (g_crashed (s_srv s') = true \/ quiet s').
Proof.
  remember (work s) as n eqn:E. revert s E. induction n as [n IH] using lt_wf_ind. intros s -> R.
  destruct (g_crashed (s_srv s)) eqn:C; [exists [], s; cbn; tauto|].
  destruct (forallb finished (s_ts s)) eqn:Q.
  { exists [], s. cbn. split; [reflexivity|]. split; [tauto|]. split; [reflexivity|]. right. intros t I. rewrite forallb_forall in Q. auto. }
  assert (X : exists t, In t (s_ts s) /\ finished t = false).
  { clear - Q. induction (s_ts s) as [|t ts IH]; [discriminate|]. cbn in Q. destruct (finished t) eqn:F; [|exists t; cbn; auto]. destruct (IH Q) as (u & I & G). exists u. cbn. auto. }
  destruct X as (t & I & F). apply In_nth_error in I as [i N].
  assert (Y : exists j, can_step f s j) by (destruct (progress f _ s i t R C N F) as [Y|(j & u & c & _ & _ & _ & _ & Y)]; eauto).
  destruct Y as (j & ch & s1 & ST & NF). pose proof (step_less _ _ _ _ _ ST) as [_ L].
  destruct (IH _ L s1 eq_refl) as (es & s' & O & G & RU & D); [eapply SR_step; eauto; exact Logic.I|].
  exists (EvStep j ch :: es), s'. split; [exact O|]. split; [intros e [<-|K]; auto|]. cbn. rewrite ST. auto.
Qed.
Lemma quiet_unlocked f ok s c : sreach f ok s -> quiet s -> g_lock (s_srv s) c = None.
Proof.
  intros R Q. destruct (g_lock (s_srv s) c) as [i|] eqn:L; [|reflexivity]. exfalso. apply (locks _ _ _ R) in L as (t & N & H).
  apply nth_error_In, Q in N. destruct t as [? ? p|? p|? ? p|? ? p|? p|? p]; destruct p; cbn in N, H; try discriminate; rewrite andb_false_r in H; discriminate.
Qed.
Lemma weight_single t p : single t = true -> weight p t <= 7.
Proof.
  assert (D : forall d, dw d <= 7) by (intros []; cbn; lia). assert (Q : forall q, qw q <= 7) by (intros []; cbn; try lia; apply D).
  destruct t as [? ? s|? s|? ? s|? ? s|? s|? s]; cbn; try discriminate; intros _; try apply Q; destruct s; try lia; apply D.
Qed.
Lemma own_steps f i es : forall s s' t, srun f s es = Some s' -> nth_error (s_ts s) i = Some t -> single t = true ->
  steps_of i es <= (if g_crashed (s_srv s) then 0 else weight 0 t).
Proof.
  induction es as [|e es IH]; intros s s' t H N S; cbn [srun] in H; [cbn; lia|].
  destruct (sstep f s e) as [s1|] eqn:E; [|discriminate]. unfold steps_of in *. cbn [filter].
  apply step_inv in E as [C [(u & B & ->)|(j & ch & u & g' & u' & -> & N0 & T & ->)]].
  - specialize (IH _ _ t H). cbn [s_ts s_srv] in IH. rewrite C in *. destruct e; try discriminate B; apply IH; auto; apply nth_error_snoc_some; auto.
  - destruct (Nat.eqb_spec j i) as [->|NE].
    + rewrite N in N0. injection N0 as <-. apply tstep_inv in T.
      assert (W : (if g_crashed g' then 0 else weight 0 u') < weight 0 t /\ single u' = true).
      { clear - T C S. tcases T; cbn in S |- *; try discriminate S; rewrite ?C; split; (lia || reflexivity). }
      destruct W as [W S']. specialize (IH _ _ u' H). cbn [s_ts s_srv] in IH.
      specialize (IH (proj2 (set_nth_some _ _ _ _ N i u') (or_introl (conj eq_refl eq_refl))) S'). rewrite C. cbn [length]. lia.
    + specialize (IH _ _ t H). cbn [s_ts s_srv] in IH.
      assert (N1 : nth_error (set_nth (s_ts s) j u') i = Some t) by (apply (set_nth_some _ _ _ _ N0); auto).
      specialize (IH N1 S). rewrite C. destruct (g_crashed g'); lia.
Qed.
Lemma single_bounded f s es s' i t : srun f s es = Some s' -> nth_error (s_ts s) i = Some t -> single t = true -> steps_of i es <= 7.
Proof. intros H N S. pose proof (own_steps f i es s s' t H N S). pose proof (weight_single t 0 S). destruct (g_crashed (s_srv s)); lia. Qed.
