(* Timed reading: what Read returns. *)
From Coq Require Import List ZArith Bool Lia.
From Verif Require Import BaseBytes ModelTimer SpecTimer ProofTimer.
Import ListNotations.
Open Scope Z_scope.

Definition right_event (e : tevent) (l : list tevent) : Prop :=
  match e with
  | LRes _ (TData b) => arrived l = Some b
  | LRes _ TClosed => shut l = true /\ arrived l = None
  | LRet _ r => outcome l = Some r
  | LPut _ _ => shut l = false
  | _ => True
  end.
Fixpoint all_right (l : list tevent) : Prop := match l with [] => True | e :: l' => right_event e l' /\ all_right l' end.
Lemma all_right_at l2 e l1 : all_right (l2 ++ e :: l1) -> right_event e l1.
Proof. induction l2 as [|x l2 IH]; cbn; [tauto|]. intros [_ H]. exact (IH H). Qed.

Record tinv2 (s : tsock) : Prop := MkTinv2 {
  tj_closed : t_closed s = shut (t_log s);
  tj_on : t_on s = negb (shut (t_log s));
  tj_res : forall r, (exists d, t_ph s = PHave d r) \/ t_ph s = PEnd r -> outcome (t_log s) = Some r;
  tj_right : all_right (t_log s) }.

Ltac tsimp2 := cbn [t_now t_when t_tick t_on t_in t_closed t_ph t_log t_say t_to t_timer t_chan t_status t_clock t_done
  reading arrived shut outcome all_right right_event negb] in *.
Ltac res := let r := fresh in let d := fresh in let Q := fresh in
  intros r [[d Q]|Q]; first [discriminate Q|injection Q; intros; subst; first [reflexivity|eauto]|eauto].

Lemma tinv2_close s : (forall d, t_ph s = PPark d -> arrived (t_log s) = None) -> tinv2 s -> tinv2 (t_close s).
Proof.
  intros I [J1 J2 J3 J4]. unfold t_close. destruct (t_on s) eqn:O; [|constructor; rewrite ?O; assumption].
  tsimp2. destruct (t_ph s) as [|d u|d|d|d r|r] eqn:P.
  4:{ pose proof (I d eq_refl) as N.
      constructor; tsimp2; try reflexivity; [res|]. auto. }
  all: constructor; tsimp2; rewrite ?P; try reflexivity; try (split; [exact Logic.I|exact J4]); res.
Qed.

Lemma tinv2_step fixed s e s' : tinv fixed s -> tinv2 s -> timer_step fixed s e = Some s' -> tinv2 s'.
Proof.
  intros I Inv H. pose proof Inv as [J1 J2 J3 J4]. destruct e as [n| |b| | |dl| |k| |]; cbn [timer_step] in H.
  - destruct (0 <=? n); [|discriminate]. injection H as <-. constructor; tsimp2; assumption.
  - destruct (t_when s) as [w|]; [|destruct (t_ph s); discriminate].
    destruct (w <=? t_now s); [|destruct (t_ph s); discriminate].
    destruct (t_ph s) as [|d u|[d|]|[d|]|[d|] r|r] eqn:P; injection H as <-; constructor; tsimp2; rewrite ?P; auto; try res.
  - destruct (t_closed s) eqn:C; [destruct (t_ph s); discriminate|].
    destruct (t_ph s) as [|d u|d|d|d r|r] eqn:P; try (destruct (t_in s); [discriminate|]); injection H as <-;
      constructor; tsimp2; rewrite ?P, ?C; auto; try res.
  - destruct (t_on s) eqn:O; [|destruct (t_ph s); discriminate]. assert (t_close s = s') as <- by (destruct (t_ph s); injection H as <-; reflexivity).
    apply tinv2_close; [|exact Inv]. intros d P. destruct (ti_park _ _ I d P) as (_ & N & _). rewrite (ti_in _ _ I) in N. exact N.
  - destruct (t_on s) eqn:O; [destruct (t_ph s); discriminate|].
    assert (s' = t_say (LDial (t_now s)) (t_chan None false (t_status true s))) as -> by (destruct (t_ph s); injection H as <-; reflexivity).
    constructor; tsimp2; auto.
  - destruct (t_ph s) eqn:P; try discriminate. destruct (t_on s) eqn:O; injection H as <-; [|constructor; rewrite ?P, ?O; assumption].
    constructor; tsimp2; rewrite ?O; auto; try (intros r [[d Q]|Q]; destruct dl; discriminate).
  - destruct (t_ph s) as [|d u|d|d|d r|r] eqn:P; try discriminate. injection H as <-. constructor; tsimp2; auto; try res.
  - destruct (t_ph s) as [|d u|d|d|d r|r] eqn:P; try (destruct k; discriminate). destruct k.
    + destruct d as [d|]; [|discriminate]. destruct (t_tick s); [|discriminate]. injection H as <-. constructor; tsimp2; auto; try res.
    + destruct (t_in s) as [b|] eqn:N.
      * injection H as <-. constructor; tsimp2; auto; [res|]. rewrite (ti_in _ _ I) in N. auto.
      * destruct (t_closed s) eqn:C; [|discriminate]. injection H as <-. rewrite (ti_in _ _ I) in N. constructor; tsimp2; rewrite ?C; auto; try res.
    + destruct (_ || _ || _) eqn:B in H; [discriminate|]. injection H as <-. constructor; tsimp2; auto; try res.
  - destruct (t_ph s) as [|d u|d|d|[d|] r|r] eqn:P; try discriminate; injection H as <-; constructor; tsimp2; auto;
      intros r0 [[d0 Q]|Q]; try discriminate; injection Q as <-; eauto.
  - destruct (t_ph s) as [|d u|d|d|d r|r] eqn:P; try discriminate. injection H as <-.
    assert (G : tinv2 (t_to PIdle (t_say (LRet (t_now s) r) s))).
    { constructor; tsimp2; auto; try res. }
    destruct r; [exact G|apply tinv2_close; [discriminate|exact G]|apply tinv2_close; [discriminate|exact G]].
Qed.

Lemma treach_inv2 fixed s : treach fixed s -> tinv2 s.
Proof.
  induction 1 as [now|s e s' R IH H].
  - constructor; cbn; try reflexivity; try exact Logic.I. intros r [[d Q]|Q]; discriminate.
  - exact (tinv2_step fixed s e s' (treach_inv _ _ R) IH H).
Qed.

Theorem gets_message fixed s l2 t b l1 : treach fixed s -> t_log s = l2 ++ LRes t (TData b) :: l1 -> arrived l1 = Some b.
Proof. intros R E. pose proof (tj_right _ (treach_inv2 _ _ R)) as A. rewrite E in A. exact (all_right_at _ _ _ A). Qed.
Theorem gets_closed fixed s l2 t l1 : treach fixed s -> t_log s = l2 ++ LRes t TClosed :: l1 -> shut l1 = true /\ arrived l1 = None.
Proof. intros R E. pose proof (tj_right _ (treach_inv2 _ _ R)) as A. rewrite E in A. exact (all_right_at _ _ _ A). Qed.
Theorem returns_outcome fixed s l2 t r l1 : treach fixed s -> t_log s = l2 ++ LRet t r :: l1 -> outcome l1 = Some r.
Proof. intros R E. pose proof (tj_right _ (treach_inv2 _ _ R)) as A. rewrite E in A. exact (all_right_at _ _ _ A). Qed.
(* a failed Read leaves the socket closed *)
Theorem failed_closes fixed s r s' : t_ph s = PEnd r -> (forall b, r <> TData b) -> timer_step fixed s TRet = Some s' ->
  t_on s' = false /\ forall d s2, timer_step fixed s' (TRead d) = Some s2 -> s2 = s'.
Proof.
  intros P N H. cbn in H. rewrite P in H. injection H as <-.
  assert (O : forall x, t_ph x = PIdle -> t_on (t_close x) = false).
  { intros x Px. unfold t_close. destruct (t_on x) eqn:O; [cbn; rewrite Px; reflexivity|exact O]. }
  assert (O1 : t_on (match r with TData _ => t_to PIdle (t_say (LRet (t_now s) r) s) | _ => t_close (t_to PIdle (t_say (LRet (t_now s) r) s)) end) = false).
  { destruct r; [destruct (N b eq_refl)| |]; apply O; reflexivity. }
  split; [exact O1|]. revert O1. generalize (match r with TData _ => t_to PIdle (t_say (LRet (t_now s) r) s) | _ => t_close (t_to PIdle (t_say (LRet (t_now s) r) s)) end).
  intros x Ox d s2 Q. cbn in Q. rewrite Ox in Q. destruct (t_ph x); try discriminate. injection Q as <-. reflexivity.
Qed.
