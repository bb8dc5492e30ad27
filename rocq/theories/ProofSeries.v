(* Series of messages over the in-memory transport. *)
From Coq Require Import Strings.String.
From Coq Require Import List Arith NArith ZArith Lia Bool.
From Verif Require Import BaseBytes ModelMessage ModelErrors SpecWire SpecWrite ModelSend SpecSend SpecReport SpecSeries ProofReport ProofSend.
From Verif Require ModelReport ModelMemchan ModelWrite.
Import ListNotations.
Open Scope list_scope.
Open Scope nat_scope.

Section Series.
Variable broken : err -> bytes.
Lemma framed_delivers l b : framed l b -> delivers (fun W ops w => function broken l W ops w) b.
Proof.
  destruct 1; cbn [function]; try (apply (sequence_delivers broken); [|discriminate]).
  - apply signal_seq; assumption.
  - apply request_seq; assumption.
  - apply reply_seq; assumption.
  - apply code_seq; assumption.
  - apply special_seq; assumption.
  - apply (others_seq broken [] [] []).
  - apply (others_seq broken [] [] []).
  - apply (others_seq broken [] [] info).
  - apply (others_seq broken i p []).
  - apply (others_seq broken i p []).
Qed.
Lemma faulty_withholds l t : faulty l t -> withholds (fun W ops w => function broken l W ops w) t.
Proof.
  destruct 1; cbn [function]; apply (refusal_withholds broken).
  - apply signal_rej; assumption.
  - apply request_rej; assumption.
  - apply reply_rej; assumption.
  - apply code_rej; assumption.
  - apply special_rej; assumption.
Qed.
Lemma letter_cases l : sensible l -> (exists b, framed l b) \/ exists t, faulty l t.
Proof.
  destruct l as [name e p safe|i name e p safe|i e p|i c m safe|t i| | |info|i p|i p]; cbn [sensible]; intros S;
    try (left; eexists; constructor; fail).
  - destruct S as [A B]. destruct (signal_cases name e p safe A B) as [V|[t V]]; [left|right]; eexists; constructor; eassumption.
  - destruct S as [A B]. destruct (request_cases name e p safe A B) as [V|[t V]]; [left|right]; eexists; constructor; eassumption.
  - destruct ((e =? Utf16)%Z && negb (length p mod 2 =? 0)) eqn:E.
    + right. eexists. constructor; [exact S|apply check16; exact E|apply pct_d_number, S].
    + left. eexists. constructor. apply ProofWrite.utf16_check. exact E.
  - destruct S as [A B]. destruct (code_cases c safe A) as [V|[t V]].
    + left. eexists. constructor; [|exact V]. destruct safe; [destruct (V eq_refl); lia|auto].
    + right. eexists. constructor; eassumption.
  - destruct (N.le_gt_cases 1 (b2N t)) as [L1|L1]; [destruct (N.le_gt_cases (b2N t) 5) as [L2|L2]|].
    + left. exists (t :: i). rewrite <- (n2b_b2N t). constructor. auto.
    + right. eexists. constructor; [lia|apply byte_number].
    + right. eexists. constructor; [lia|apply byte_number].
Qed.
Lemma series_exists cap verdict ls : Forall sensible ls -> exists bs rs, series cap verdict ls bs rs.
Proof.
  induction 1 as [|l ls S _ (bs & rs & IH)]; [do 2 eexists; constructor|].
  destruct (letter_cases l S) as [[b F]|[t F]]; [|do 2 eexists; eapply S_faulty; exact F].
  destruct (Nat.le_gt_cases (length b) cap); do 2 eexists; [eapply S_sent|eapply S_large]; eassumption.
Qed.
Lemma blocked_all verdict sent ls w : wedged sent w -> send_all broken true verdict ls w = (w, map (fun _ => Blocked) ls).
Proof. intros (_ & _ & _ & G). induction ls as [|l ls IH]; [reflexivity|]. cbn [send_all map]. rewrite G, IH. reflexivity. Qed.
Lemma series_right cap verdict ls bs rs : series cap verdict ls bs rs -> forall sent w, ready cap sent w ->
  exists w', send_all broken true verdict ls w = (w', rs) /\ w_sent w' = sent ++ bs /\
    (length bs = length ls -> ready cap (sent ++ bs) w') /\ (length bs <> length ls -> wedged (sent ++ bs) w').
Proof.
  induction 1 as [|l ls b bs rs F L _ IH|l ls b F L|l ls t F]; intros sent w R.
  - exists w. rewrite app_nil_r. split; [reflexivity|]. split; [apply R|]. split; [intros _; exact R|intros []; reflexivity].
  - destruct (getwriter_spec _ _ _ R) as [(w1 & G & T & _) _]. cbn [send_all]. rewrite G.
    destruct (framed_delivers _ _ F cap sent w1 T true verdict) as (w2 & e & Q & A & _). destruct (A L eq_refl) as [R2 ->].
    cbv beta in Q. rewrite Q. destruct (IH _ _ R2) as (w' & E & X & Y & Z). rewrite E. exists w'. split; [reflexivity|].
    rewrite <- app_assoc in X, Y, Z. split; [exact X|]. cbn [length]. split; intros K; [apply Y|apply Z]; congruence.
  - destruct (getwriter_spec _ _ _ R) as [(w1 & G & T & _) _]. cbn [send_all]. rewrite G.
    destruct (framed_delivers _ _ F cap sent w1 T true verdict) as (w2 & e & Q & _ & _ & A). destruct (A L) as [R2 ->].
    cbv beta in Q. rewrite Q, (blocked_all verdict sent ls w2 R2). exists w2. rewrite app_nil_r. split; [reflexivity|]. split; [apply R2|]. split; [discriminate|intros _; exact R2].
  - destruct (getwriter_spec _ _ _ R) as [(w1 & G & T & _) _]. cbn [send_all]. rewrite G.
    destruct (faulty_withholds _ _ F cap sent w1 T true verdict) as (w2 & Q & R2).
    cbv beta in Q. rewrite Q, (blocked_all verdict sent ls w2 R2). exists w2. rewrite app_nil_r. split; [reflexivity|]. split; [apply R2|]. split; [discriminate|intros _; exact R2].
Qed.
Lemma series_off cap verdict sent w ls : ready cap sent w ->
  send_all broken false verdict ls w = (w, map (fun _ => Returned (Some (ErrDisconnected (Some (Foreign (Some t$"can't write to a closed socket")))))) ls).
Proof.
  intros R. destruct (getwriter_spec _ _ _ R) as [_ G]. induction ls as [|l ls IH]; [reflexivity|]. cbn [send_all map]. rewrite G, IH. reflexivity.
Qed.

Lemma blocked_each verdict sent ls w : wedged sent w -> send_each broken verdict ls w = (w, map (fun _ => Blocked) ls).
Proof. intros (_ & _ & _ & G). induction ls as [|[[l o] c] ls IH]; [reflexivity|]. cbn [send_each map]. rewrite G, IH. reflexivity. Qed.
Lemma interrupted_exists cap verdict ls : Forall (fun x => sensible (fst (fst x))) ls -> exists bs rs, interrupted cap verdict ls bs rs.
Proof.
  induction 1 as [|[[l o] c] ls S _ (bs & rs & IH)]; [do 2 eexists; constructor|]. cbn [fst] in S.
  destruct o; [|do 2 eexists; apply I_closed; exact IH].
  destruct (letter_cases l S) as [[b F]|[t F]]; [|do 2 eexists; eapply I_faulty; exact F].
  destruct (Nat.le_gt_cases (length b) cap); [|do 2 eexists; eapply I_large; eassumption].
  destruct c; do 2 eexists; [eapply I_sent|eapply I_late]; eassumption.
Qed.
Lemma framed_fun l b b' : framed l b -> framed l b' -> b = b'.
Proof. destruct 1; inversion 1; subst; congruence. Qed.
Lemma framed_faulty l b t : framed l b -> faulty l t -> False.
Proof.
  intros F Y. pose (w0 := MkWire (ModelMemchan.new_buffer (length b)) false false [] false).
  assert (R : ready (length b) [] w0) by (constructor; try reflexivity; apply repeat_length).
  destruct (getwriter_spec _ _ _ R) as [(w1 & _ & T & _) _].
  destruct (framed_delivers _ _ F _ _ _ T true (fun _ => None)) as (w2 & e & Q & A & _). destruct (A (le_n _) eq_refl) as [R2 _].
  destruct (faulty_withholds _ _ Y _ _ _ T true (fun _ => None)) as (w3 & Q' & _ & _ & _ & G).
  rewrite Q in Q'. injection Q' as <- _. destruct (getwriter_spec _ _ _ R2) as [_ G2]. rewrite G in G2. discriminate G2.
Qed.
Lemma harmless_cons cap x ls : (snd (fst x) = true -> exists b, framed (fst (fst x)) b /\ length b <= cap) -> harmless cap (x :: ls) <-> harmless cap ls.
Proof. intros H. unfold harmless. rewrite Forall_cons_iff. tauto. Qed.
Lemma interrupted_right cap verdict ls bs rs : interrupted cap verdict ls bs rs -> forall sent w, ready cap sent w ->
  exists w', send_each broken verdict ls w = (w', rs) /\ w_sent w' = sent ++ bs /\ (harmless cap ls -> ready cap (sent ++ bs) w') /\ (~ harmless cap ls -> wedged (sent ++ bs) w').
Proof.
  induction 1 as [|l ls b bs rs F L _ IH|l c ls bs rs _ IH|l ls b bs rs F L _ IH|l c ls b F L|l c ls t F]; intros sent w R;
    try (destruct (getwriter_spec _ _ _ R) as [(w1 & G & T & _) G0]; cbn [send_each]; rewrite ?G, ?G0).
  - exists w. rewrite app_nil_r. split; [reflexivity|]. split; [apply R|]. split; [intros _; exact R|intros []; constructor].
  - destruct (framed_delivers _ _ F cap sent w1 T true verdict) as (w2 & e & Q & A & _). destruct (A L eq_refl) as [R2 ->].
    cbv beta in Q. rewrite Q. destruct (IH _ _ R2) as (w' & E & X & Y). rewrite E. exists w'. split; [reflexivity|].
    rewrite <- app_assoc in X, Y. rewrite harmless_cons by (intros _; exists b; auto). split; [exact X|exact Y].
  - destruct (IH _ _ R) as (w' & E & X & Y). rewrite E. exists w'. split; [reflexivity|]. rewrite harmless_cons by (cbn; discriminate). split; [exact X|exact Y].
  - destruct (framed_delivers _ _ F cap sent w1 T false verdict) as (w2 & e & Q & _ & A & _). destruct (A L eq_refl) as [R2 ->].
    cbv beta in Q. rewrite Q. destruct (IH _ _ R2) as (w' & E & X & Y). rewrite E. exists w'. split; [reflexivity|]. rewrite harmless_cons by (intros _; exists b; auto). split; [exact X|exact Y].
  - destruct (framed_delivers _ _ F cap sent w1 T c verdict) as (w2 & e & Q & _ & _ & A). destruct (A L) as [R2 ->].
    cbv beta in Q. rewrite Q, (blocked_each verdict sent ls w2 R2). exists w2. rewrite app_nil_r. split; [reflexivity|]. split; [apply R2|]. split; [|intros _; exact R2].
    intros H. inversion_clear H as [|? ? K _]. destruct (K eq_refl) as (b' & K1 & K2). cbn [fst] in K1. rewrite (framed_fun _ _ _ F K1) in L. lia.
  - destruct (faulty_withholds _ _ F cap sent w1 T c verdict) as (w2 & Q & R2).
    cbv beta in Q. rewrite Q, (blocked_each verdict sent ls w2 R2). exists w2. rewrite app_nil_r. split; [reflexivity|]. split; [apply R2|]. split; [|intros _; exact R2].
    intros H. inversion_clear H as [|? ? K _]. destruct (K eq_refl) as (b' & K1 & _). destruct (framed_faulty _ _ _ K1 F).
Qed.
(* the one message that panics *)
Lemma long_code connected verdict cap sent w i c m : taken cap sent w -> 255 < length c ->
  (1 + length i <= cap -> function broken (LError i c m false) _ (wire_ops connected verdict) w = None) /\
  (cap < 1 + length i -> exists w', function broken (LError i c m false) _ (wire_ops connected verdict) w =
     Some (w', Some (Foreign (Some t$"message buffer overflow: no data written"))) /\ wedged sent w').
Proof.
  intros T L. apply taken_filled in T. cbn [function]. unfold ModelReport.WriteMsgReplyError, ModelReport.try_write. cbn [wire_ops ModelReport.t_write].
  assert (N : ModelWrite.name_len_flag (length c) = None).
  { unfold ModelWrite.name_len_flag. replace (length ModelWrite.msgNameLenBytes) with 256 by reflexivity.
    destruct (Nat.leb_spec (length c + 1) 256); [lia|reflexivity]. }
  split; intros K.
  - destruct (write_fits verdict cap sent [] w [ModelMessage.MsgReplyError] T) as (w1 & -> & F1); [cbn; lia|].
    destruct (write_fits verdict cap sent _ w1 i F1) as (w2 & -> & F2); [cbn; lia|]. rewrite N. reflexivity.
  - destruct cap as [|cap].
    + destruct (write_over connected verdict 0 sent [] w [ModelMessage.MsgReplyError] T) as (w1 & w2 & -> & Q & Wd); [cbn; lia|].
      unfold ModelReport.close_with. cbn [wire_ops ModelReport.t_close]. rewrite Q. exists w2. split; [reflexivity|exact Wd].
    + destruct (write_fits verdict (S cap) sent [] w [ModelMessage.MsgReplyError] T) as (w1 & -> & F1); [cbn; lia|].
      destruct (write_over connected verdict (S cap) sent _ w1 i F1) as (w2 & w3 & -> & Q & Wd); [cbn; lia|].
      unfold ModelReport.close_with. cbn [wire_ops ModelReport.t_close]. rewrite Q. exists w3. split; [reflexivity|exact Wd].
Qed.
End Series.
