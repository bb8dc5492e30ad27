(* Requests answered over the in-memory transport. *)
From Coq Require Import Strings.String.
From Coq Require Import List Arith NArith ZArith Lia Bool.
From Verif Require Import BaseBytes ModelMessage ModelHandle ModelErrors SpecWire SpecWrite ModelReport SpecReport ModelLog SpecLog
  ModelSend SpecSend SpecAnswer SpecInTurn ProofReport ProofSend ProofAnswer.
Import ListNotations.
Open Scope list_scope.
Open Scope nat_scope.

Section Requests.
Variables (broken brokenv : err -> bytes) (con : bytes) (verdict : bytes -> option err).
Lemma answer_step r b cap sent w : proper r -> answer r b -> taken cap sent w ->
  exists w', o_res (handleRequest broken brokenv con (wire_ops true verdict) (inl w) (fst r) (snd r)) = Some (Some w') /\
    (length b <= cap -> ready cap (sent ++ [b]) w') /\ (cap < length b -> wedged sent w').
Proof.
  intros (Q & G & _ & Gc) A T.
  assert (K : forall frame line l res, carries true verdict cap sent frame line l res -> exists w', res = Some (Some w') /\
    (length frame <= cap -> ready cap (sent ++ [frame]) w') /\ (cap < length frame -> wedged sent w')).
  { intros frame line l res (w' & E & B1 & _ & B3). exists w'. split; [exact E|]. split; intros L; [apply (B1 L eq_refl)|apply (B3 L)]. }
  destruct A as [m p U|m p e c t O V|m p x N]; cbn [fst snd] in *.
  - destruct (request_wire broken brokenv con true verdict cap sent w T m p None Q G) as (H & _). exact (K _ _ _ _ (H eq_refl U)).
  - destruct (request_wire broken brokenv con true verdict cap sent w T m p e Q G) as (_ & _ & H & _). destruct (H c t O (Gc c t O)) as [H1 _]. exact (K _ _ _ _ (H1 V)).
  - destruct (request_wire broken brokenv con true verdict cap sent w T m p (Some x) Q G) as (_ & _ & _ & H).
    destruct (H x eq_refl N) as (s & l & _ & _ & H1). exact (K _ _ _ _ H1).
Qed.
Lemma bad_step r cap sent w : proper r -> unanswerable r -> taken cap sent w ->
  exists w', o_res (handleRequest broken brokenv con (wire_ops true verdict) (inl w) (fst r) (snd r)) = Some (Some w') /\ wedged sent w'.
Proof.
  intros (Q & G & _ & Gc) A T. destruct A as [m p U|m p e c t x O V]; cbn [fst snd] in *.
  - destruct (request_wire broken brokenv con true verdict cap sent w T m p None Q G) as (_ & H & _).
    destruct (H eq_refl _ U (pct_d_number _ G)) as (w' & E & Wd & _). exists w'. auto.
  - destruct (request_wire broken brokenv con true verdict cap sent w T m p e Q G) as (_ & _ & H & _). destruct (H c t O (Gc c t O)) as [_ H1].
    destruct (H1 x V) as (w' & E & Wd & _). exists w'. auto.
Qed.
Lemma request_cases r : proper r -> (exists b, answer r b) \/ unanswerable r.
Proof.
  destruct r as [m [p e]]. intros (_ & G & NN & Gc). cbn [fst snd] in *.
  assert (O : (exists c t, own_error e c t) \/ ~ exists c t, own_error e c t).
  { destruct e as [[]|]; try (right; intros (c' & t' & X); inversion X; fail); [left; do 2 eexists; constructor|].
    match goal with |- context [Pointer ?y] => destruct y end; try (right; intros (c' & t' & X); inversion X; fail). left; do 2 eexists; constructor. }
  destruct O as [(c & t & O)|O].
  - destruct (code_cases c true (Gc c t O)) as [V|[x V]]; [left; eexists; eapply A_error; eassumption|right; eapply U_code; eassumption].
  - destruct e as [x|].
    + left. eexists. apply A_internal. intros [X|X]; auto.
    + destruct ((fst p =? Utf16)%Z && negb (length (snd p) mod 2 =? 0)) eqn:E.
      * right. constructor. apply check16; exact E.
      * left. eexists. constructor. apply ProofWrite.utf16_check. exact E.
Qed.
Lemma answers_exist cap rs : Forall proper rs -> exists bs hs, answers cap rs bs hs.
Proof.
  induction 1 as [|r rs P _ (bs & hs & IH)]; [do 2 eexists; constructor|].
  destruct (request_cases r P) as [[b A]|U]; [|do 2 eexists; apply AS_bad; exact U].
  destruct (Nat.le_gt_cases (length b) cap); do 2 eexists; [eapply AS_sent|eapply AS_large]; eassumption.
Qed.
Lemma waiting_all sent rs w : wedged sent w -> answer_all broken brokenv con verdict rs w = (w, map (fun _ => Waiting) rs).
Proof. intros (_ & _ & _ & G). induction rs as [|[m r] rs IH]; [reflexivity|]. cbn [answer_all map]. rewrite G, IH. reflexivity. Qed.
Lemma answers_right cap rs bs hs : answers cap rs bs hs -> Forall proper rs -> forall sent w, ready cap sent w ->
  exists w', answer_all broken brokenv con verdict rs w = (w', hs) /\ w_sent w' = sent ++ bs /\
    (length bs = length rs -> ready cap (sent ++ bs) w') /\ (length bs <> length rs -> wedged (sent ++ bs) w').
Proof.
  induction 1 as [|r rs b bs hs A L _ IH|r rs b A L|r rs U]; intros P sent w R;
    [|inversion_clear P as [|? ? P1 P2]; destruct (getwriter_spec _ _ _ R) as [(w1 & G & T & _) _]; destruct r as [m r]; cbn [answer_all]; rewrite G ..].
  - exists w. rewrite app_nil_r. split; [reflexivity|]. split; [apply R|]. split; [intros _; exact R|intros []; reflexivity].
  - destruct (answer_step _ _ _ _ _ P1 A T) as (w2 & Q & B & _). cbn [fst snd] in Q. rewrite Q.
    destruct (IH P2 _ _ (B L)) as (w' & E & X & Y & Z). rewrite E. exists w'. split; [reflexivity|].
    rewrite <- app_assoc in X, Y, Z. split; [exact X|]. cbn [length]. split; intros K; [apply Y|apply Z]; congruence.
  - destruct (answer_step _ _ _ _ _ P1 A T) as (w2 & Q & _ & B). cbn [fst snd] in Q. rewrite Q. specialize (B L).
    rewrite (waiting_all sent rs w2 B). exists w2. rewrite app_nil_r. split; [reflexivity|]. split; [apply B|]. split; [discriminate|intros _; exact B].
  - destruct (bad_step _ _ _ _ P1 U T) as (w2 & Q & B). cbn [fst snd] in Q. rewrite Q.
    rewrite (waiting_all sent rs w2 B). exists w2. rewrite app_nil_r. split; [reflexivity|]. split; [apply B|]. split; [discriminate|intros _; exact B].
Qed.
End Requests.
