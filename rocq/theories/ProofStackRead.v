(* Facts about reading from the in-memory transport that the stack needs. *)
From Coq Require Import List Arith ZArith Lia Bool.
From Verif Require Import BaseBytes BaseConc ModelMessage ModelWrite ModelMemchan SpecMemchan.
From Verif Require ModelStack.
From Verif Require Import ProofMemchan ProofMemchan2 ProofMemchan3 ProofMemchan4 ProofMemchan5 ProofMemchan6 ProofMemchan7 ProofMemchan8 ProofStackNet.
Import ListNotations.
Open Scope nat_scope.
Notation read_by := ModelStack.read_by.

Definition reads_nothing (x : event) : Prop := match x with LRead _ _ _ _ => False | _ => True end.
Lemma got_snoc k g l x : got k g (l ++ [x]) = got k g l ++ match x with LRead _ k' g' b => if sock_eqb k' k && (g' =? g) then [b] else [] | _ => [] end.
Proof. unfold got. rewrite flat_map_app. cbn. rewrite app_nil_r. reflexivity. Qed.
Lemma read_by_snoc j l x : read_by j (l ++ [x]) = match read_by j l with Some b => Some b | None =>
  match x with LRead i _ _ b => if i =? j then Some b else None | _ => None end end.
Proof.
  induction l as [|y l IH]; cbn.
  - destruct x; try reflexivity.
  - destruct y; try exact IH. destruct (i =? j); [reflexivity|exact IH].
Qed.
(* a step reads nothing, or is a reader's step from RdParse to RdAck *)
Definition silent (l l' : list event) : Prop := (forall k g, got k g l' = got k g l) /\ (forall j, read_by j l' = read_by j l).
Lemma silent_refl l : silent l l.
Proof. split; reflexivity. Qed.
Lemma silent_snoc l x : reads_nothing x -> silent l (l ++ [x]).
Proof.
  intros N. split; intros; rewrite ?got_snoc, ?read_by_snoc; destruct x; try destruct N; rewrite ?app_nil_r; try reflexivity;
    destruct (read_by j l); reflexivity.
Qed.
Lemma silent_trans l l1 l2 : silent l l1 -> silent l1 l2 -> silent l l2.
Proof. intros [A B] [C D]. split; intros; congruence. Qed.
Lemma trel_silent ts i n t n' t' w : trel ts i n t n' t' w ->
  silent (n_log n) (n_log n') \/
  exists k m d g l b r, t = TRead k m d (RdParse g l) /\ t' = TRead k m d (RdAck r) /\ n_log n' = n_log n ++ [LRead i k g b].
Proof.
  intros T. tcases T k st n1 s1 H1 H0.
  - left. inversion H1; subst; netu; netc; try apply silent_refl; apply silent_snoc; exact Logic.I.
  - inversion H1; subst; netu; netc; try (left; apply silent_refl); try (left; apply silent_snoc; exact Logic.I).
    right. do 7 eexists. repeat split; reflexivity.
  - left. assert (Q : n_log n1 = n_log n) by (destruct H0; reflexivity).
    destruct t as [| ? ? ? []| | |[]]; try discriminate H1; destruct s1; cbn [end_close to_close]; netu; netc; rewrite ?Q; try apply silent_refl; apply silent_snoc; exact Logic.I.
  - left. inversion H1; subst; netu; netc; try apply silent_refl; try (apply silent_snoc; exact Logic.I).
    eapply silent_trans; apply silent_snoc; exact Logic.I.
  - left. inversion H1; subst; netu; netc; try apply silent_refl; apply silent_snoc; exact Logic.I.
Qed.
Lemma read_cases s e s' : srel_ s e s' ->
  silent (mlog s) (mlog s') \/
  exists j ch k m d g l b r, e = EvStep j ch /\ at_ s j (TRead k m d (RdParse g l)) /\ at_ s' j (TRead k m d (RdAck r)) /\ mlog s' = mlog s ++ [LRead j k g b].
Proof.
  intros [e0 t B|i ch t n' t' I T|i ch t n' t' x v k0 I T Ne V J]; cbn [s_net]; [left; apply silent_refl| |].
  - destruct (trel_silent _ _ _ _ _ _ _ T) as [S|(k & m & d & g & l & b & r & -> & -> & E)]; [auto|right].
    do 9 eexists. split; [reflexivity|]. split; [exact I|]. split; [exact (set_nth_eq _ _ _ _ I)|exact E].
  - left. change (n_log (set_wlk k0 None n')) with (n_log n').
    destruct (trel_silent _ _ _ _ _ _ _ T) as [S|(k & m & d & g & l & b & r & -> & -> & E)]; [exact S|exfalso].
    inversion T; subst; try discriminate; try (match goal with H : rrel _ _ _ _ _ _ _ _ _ _ |- _ => inversion H end).
Qed.

(* reader channels are replaced by dials only *)
Lemma trel_gen ts i n t n' t' w k : trel ts i n t n' t' w ->
  u_gen (n_sock n' k) = u_gen (n_sock n k) \/
  (u_gen (n_sock n' k) = S (u_gen (n_sock n k)) /\
   match snd k with
   | Clt => t = TDial (fst k) DlReset1 /\ t' = TDial (fst k) DlReset2
   | Srv => t = TDial (fst k) DlReset2 /\ t' = TDial (fst k) DlShut
   end).
Proof.
  intros T. tcases T k1 st n1 s1 H1 H0.
  - left. inversion H1; subst; netu; netc; caseq; netc; auto.
  - left. inversion H1; subst; netu; netc; caseq; netc; auto.
  - left. assert (Q : forall k, u_gen (n_sock n1 k) = u_gen (n_sock n k)) by (intros; destruct H0; netu; netc; caseq; netc; auto).
    destruct t as [| ? ? ? []| | |[]]; try discriminate H1; destruct s1; cbn [end_close to_close]; netu; netc; caseq; netc; auto.
  - inversion H1; subst; netu; netc; caseq; netc; auto; right; subst; cbn; auto.
  - left. inversion H1; subst; netu; netc; caseq; netc; auto.
Qed.
Lemma gen_cases s e s' k : srel_ s e s' ->
  u_gen (n_sock (s_net s') k) = u_gen (n_sock (s_net s) k) \/
  (u_gen (n_sock (s_net s') k) = S (u_gen (n_sock (s_net s) k)) /\ exists j ch, e = EvStep j ch /\
   match snd k with
   | Clt => at_ s j (TDial (fst k) DlReset1) /\ at_ s' j (TDial (fst k) DlReset2)
   | Srv => at_ s j (TDial (fst k) DlReset2) /\ at_ s' j (TDial (fst k) DlShut)
   end).
Proof.
  intros [e0 t B|i ch t n' t' I T|i ch t n' t' x v k0 I T Ne V J]; cbn [s_net]; [auto| |].
  - destruct (trel_gen _ _ _ _ _ _ _ k T) as [E|[E M]]; [auto|right]. split; [exact E|]. exists i, ch. split; [reflexivity|].
    unfold at_. cbn [s_ts]. destruct (snd k); destruct M as [-> ->]; (split; [exact I|exact (set_nth_eq _ _ _ _ I)]).
  - left. assert (G : u_gen (n_sock (set_wlk k0 None n') k) = u_gen (n_sock n' k)) by (netu; netc; caseq; netc; subst; reflexivity).
    rewrite G. destruct (trel_gen _ _ _ _ _ _ _ k T) as [E|[E M]]; [exact E|exfalso].
    inversion T; subst; destruct (snd k); destruct M as [M1 M2]; try discriminate; destruct t; try discriminate M1; subst; discriminate.
Qed.

(* readers never run ahead of the channels; each reads once *)
Definition rgen (st : rdstate) : option nat := match st with RdWait g | RdParse g _ => Some g | _ => None end.
Definition before_read (st : rdstate) : bool := match st with RdStart | RdGet | RdWait _ | RdParse _ _ => true | _ => false end.
(* the steps of a reader's state *)
Lemma reader_steps s e s' j k m d st' : srel_ s e s' -> at_ s' j (TRead k m d st') ->
  (j = length (s_ts s) /\ begin e = Some (TRead k m d st') /\ st' = RdStart) \/
  exists st, at_ s j (TRead k m d st) /\
    (st' = st \/ (exists ch, e = EvStep j ch) /\
      (before_read st' = true -> before_read st = true) /\
      (forall g, rgen st' = Some g -> rgen st = Some g \/ (st = RdGet /\ g = u_gen (n_sock (s_net s) k)))).
Proof.
  unfold at_. intros [e0 t B|i ch t n' t' I T|i ch t n' t' x v k0 I T Ne V J] A; cbn [s_ts] in A.
  - apply nth_error_snoc_some in A as [A|[-> <-]]; [right; exists st'; auto|]. left. split; [reflexivity|]. split; [exact B|].
    destruct e0; try discriminate B. injection B as _ _ _ <-. reflexivity.
  - right. apply set_nth_lookup in A as [[-> <-]|[_ A]]; [|exists st'; auto].
    inversion T; subst.
    + eexists. split; [exact I|]. right. split; [eauto|].
      match goal with H : rrel _ _ _ _ _ _ _ _ _ _ |- _ => inversion H; subst; cbn; split; try (intros; congruence); intros g0 Hg; try discriminate Hg; injection Hg as <-; auto end.
    + match goal with H : to_close ?t ?s = _, C : closing ?t = Some _ |- _ => destruct t as [| ? ? ? []| | |[]]; try discriminate C; cbn in H, C; try (destruct s; discriminate H); try discriminate H end.
      match goal with H : (match ?s with _ => _ end) = TRead _ _ _ _ |- _ => destruct s; injection H as <- <- <- <- end;
        eexists; (split; [exact I|]); right; (split; [eauto|]); cbn; split; intros; discriminate.
  - right. apply set_nth_lookup in A as [[-> A]|[_ A]]; [discriminate A|].
    apply set_nth_lookup in A as [[-> <-]|[_ A]]; [|exists st'; auto].
    inversion T; subst.
    + eexists. split; [exact I|]. right. split; [eauto|].
      match goal with H : rrel _ _ _ _ _ _ _ _ _ _ |- _ => inversion H; subst; cbn; split; try (intros; congruence); intros g0 Hg; try discriminate Hg; injection Hg as <-; auto end.
    + match goal with H : to_close ?t ?s = _, C : closing ?t = Some _ |- _ => destruct t as [| ? ? ? []| | |[]]; try discriminate C; cbn in H, C; try (destruct s; discriminate H); try discriminate H end.
      match goal with H : (match ?s with _ => _ end) = TRead _ _ _ _ |- _ => destruct s; injection H as <- <- <- <- end;
        eexists; (split; [exact I|]); right; (split; [eauto|]); cbn; split; intros; discriminate.
Qed.
Lemma gen_mono s e s' k : srel_ s e s' -> u_gen (n_sock (s_net s) k) <= u_gen (n_sock (s_net s') k).
Proof. intros R. destruct (gen_cases _ _ _ k R) as [->|[-> _]]; lia. Qed.
Lemma readers_behind size ok s : mreach size ok s ->
  (forall j k m d st g, at_ s j (TRead k m d st) -> rgen st = Some g -> g <= u_gen (n_sock (s_net s) k)) /\
  (forall k g, u_gen (n_sock (s_net s) k) < g -> got k g (mlog s) = []) /\
  (forall j k m d st, at_ s j (TRead k m d st) -> before_read st = true -> read_by j (mlog s) = None) /\
  (forall j, length (s_ts s) <= j -> read_by j (mlog s) = None).
Proof.
  induction 1 as [|s e s' R IH H Ok].
  { repeat split; intros; try reflexivity; try (destruct j; discriminate). }
  destruct IH as (I1 & I2 & I3 & I4). destruct (mstep_rel _ _ _ H) as [_ Q].
  assert (GM : forall k, u_gen (n_sock (s_net s) k) <= u_gen (n_sock (s_net s') k)) by (intros; eapply gen_mono; eauto).
  pose proof (threads_grow _ _ _ Q) as TG.
  split; [|split; [|split]].
  - intros j k m d st g A Rg. destruct (reader_steps _ _ _ _ _ _ _ _ Q A) as [(_ & _ & ->)|(st0 & A0 & [->|(_ & _ & P)])]; [discriminate Rg| |].
    + specialize (I1 _ _ _ _ _ _ A0 Rg). specialize (GM k). lia.
    + destruct (P _ Rg) as [Rg0|[-> ->]]; [|apply GM]. specialize (I1 _ _ _ _ _ _ A0 Rg0). specialize (GM k). lia.
  - intros k g L. specialize (GM k). destruct (read_cases _ _ _ Q) as [[S _]|(j & ch & k0 & m & d & g0 & l & b & r & -> & A & A' & E)].
    + rewrite S. apply I2. lia.
    + rewrite E, got_snoc, I2 by lia. destruct (sock_eqb_spec k0 k) as [->|]; [|reflexivity]. destruct (Nat.eqb_spec g0 g) as [->|]; [|reflexivity].
      specialize (I1 _ _ _ _ _ _ A eq_refl). lia.
  - intros j k m d st A Bf.
    assert (Old : read_by j (mlog s) = None).
    { destruct (reader_steps _ _ _ _ _ _ _ _ Q A) as [(-> & _)|(st0 & A0 & [->|(_ & P & _)])]; [apply I4; lia|eauto|eauto]. }
    destruct (read_cases _ _ _ Q) as [[_ S]|(j0 & ch & k0 & m0 & d0 & g0 & l & b & r & -> & A0 & A' & E)]; [congruence|].
    rewrite E, read_by_snoc, Old. destruct (Nat.eqb_spec j0 j) as [->|]; [|reflexivity].
    unfold at_ in *. rewrite A in A'. injection A' as _ _ _ ->. discriminate Bf.
  - intros j L. destruct (read_cases _ _ _ Q) as [[_ S]|(j0 & ch & k0 & m0 & d0 & g0 & l & b & r & -> & A0 & A' & E)]; [rewrite S; apply I4; lia|].
    rewrite E, read_by_snoc, I4 by lia. destruct (Nat.eqb_spec j0 j) as [->|]; [|reflexivity].
    assert (j < length (s_ts s')) by (apply nth_error_Some; unfold at_ in A'; congruence). lia.
Qed.
(* dials that have replaced both channels *)
Definition dialed_both (st : dlstate) : bool := match st with DlShut | DlActive | DlAdd => true | _ => false end.
Lemma dialer_before s e s' j p st' : srel_ s e s' -> at_ s' j (TDial p st') -> dialed_both st' = true ->
  exists st, at_ s j (TDial p st) /\
    (dialed_both st = true \/ (st = DlReset2 /\ u_gen (n_sock (s_net s') (p, Srv)) = S (u_gen (n_sock (s_net s) (p, Srv))))).
Proof.
  unfold at_. intros [e0 t B|i ch t n' t' I T|i ch t n' t' x v k0 I T Ne V J] A D; cbn [s_ts s_net] in *.
  - apply nth_error_snoc_some in A as [A|[-> <-]]; [eauto|]. destruct e0; try discriminate B. injection B as _ <-. discriminate D.
  - apply set_nth_lookup in A as [[-> <-]|[_ A]]; [|eauto]. inversion T; subst.
    + match goal with H : to_close ?t ?s = _, C : closing ?t = Some _ |- _ => destruct t as [| ? ? ? []| | |[]]; try discriminate C; destruct s; discriminate H end.
    + eexists. split; [exact I|]. match goal with H : drel _ _ _ _ _ _ |- _ => inversion H; subst; try discriminate D; cbn; auto end.
      right. split; [reflexivity|]. netu; netc; caseq; netc; auto; congruence.
  - apply set_nth_lookup in A as [[-> A]|[_ A]]; [discriminate A|].
    apply set_nth_lookup in A as [[-> <-]|[_ A]]; [|eauto]. inversion T; subst.
    match goal with H : to_close ?t ?s = _, C : closing ?t = Some _ |- _ => destruct t as [| ? ? ? []| | |[]]; try discriminate C; destruct s; discriminate H end.
Qed.
