(* Writing messages to a socket of the in-memory transport. *)
From Coq Require Import Strings.String.
From Coq Require Import List Arith NArith ZArith Lia Bool.
From Verif Require Import BaseBytes ModelErrors ModelReport ModelSend SpecWire SpecWrite SpecReport SpecSend ProofReport.
From Verif Require ModelMemchan ModelWrite ModelFault ProofReport3.
Import ListNotations.
Open Scope list_scope.
Open Scope nat_scope.

(* data has been written, not flushed *)
Record filled (cap : nat) (sent : list bytes) (data : bytes) (w : wire) : Prop := MkFilled {
  f_size : length (ModelMemchan.b_data (w_buf w)) = cap;
  f_len : ModelMemchan.b_len (w_buf w) = length data;
  f_data : firstn (length data) (ModelMemchan.b_data (w_buf w)) = data;
  f_fits : length data <= cap;
  f_buffer : w_locked w = false;
  f_writer : w_writer w = true;
  f_sent : w_sent w = sent;
  f_going : w_stuck w = false }.

Lemma taken_filled cap sent w : taken cap sent w -> filled cap sent [] w.
Proof.
  intros (w0 & [A B C D E F] & G). unfold GetWriter in G. rewrite D in G. cbn [negb] in G.
  injection G as G. subst w. constructor; cbn; auto. lia.
Qed.
Lemma overwrite_spec d i p : i + length p <= length d ->
  length (ModelMemchan.overwrite d i p) = length d /\ firstn (i + length p) (ModelMemchan.overwrite d i p) = firstn i d ++ p.
Proof.
  intros H. unfold ModelMemchan.overwrite. split.
  - rewrite !app_length, firstn_length, skipn_length. lia.
  - rewrite app_assoc, firstn_app. assert (L : length (firstn i d ++ p) = i + length p) by (rewrite app_length, firstn_length; lia).
    rewrite L, Nat.sub_diag, firstn_O, app_nil_r. apply firstn_all2. lia.
Qed.
Lemma wedge_of sent w : w_sent w = sent -> w_locked w = true -> w_writer w = true -> w_stuck w = false -> wedged sent w.
Proof. intros A B C D. repeat split; auto. intros c. unfold GetWriter. rewrite C. reflexivity. Qed.

Section Writing.
Variables (connected : bool) (verdict : bytes -> option err).
Local Notation ops := (wire_ops connected verdict).
Lemma write_fits cap sent data w p : filled cap sent data w -> length data + length p <= cap ->
  exists w', write w p = (w', None) /\ filled cap sent (data ++ p) w'.
Proof.
  intros [A B C D E F G H] L. unfold write. rewrite E. unfold ModelMemchan.buf_write. rewrite A, B.
  destruct (Nat.ltb_spec (cap - length data) (length p)); [lia|]. eexists. split; [reflexivity|].
  destruct (overwrite_spec (ModelMemchan.b_data (w_buf w)) (length data) p) as [L1 L2]; [lia|].
  constructor; cbn [w_buf w_locked w_writer w_sent w_stuck ModelMemchan.b_data ModelMemchan.b_len]; rewrite ?app_length; auto; try lia.
  rewrite L2, C. reflexivity.
Qed.
(* the buffer is emptied, and Close keeps its lock *)
Lemma write_over cap sent data w p : filled cap sent data w -> cap < length data + length p ->
  exists w1 w2, write w p = (w1, Some ErrBufferOverflow) /\
    close connected verdict w1 = (w2, Some (text "no data written")) /\ wedged sent w2.
Proof.
  intros [A B C D E F G H] L. unfold write. rewrite E. unfold ModelMemchan.buf_write. rewrite A, B.
  destruct (Nat.ltb_spec (cap - length data) (length p)); [|lia]. eexists. eexists. split; [reflexivity|]. split; [reflexivity|].
  apply wedge_of; cbn; auto.
Qed.
Lemma close_filled cap sent data w : filled cap sent data w -> data <> [] ->
  exists w' e, close connected verdict w = (w', e) /\
    (connected = true -> ready cap (sent ++ [data]) w' /\ e = verdict data) /\
    (connected = false -> ready cap sent w' /\ e = Some (text "can't write to a closed socket")).
Proof.
  intros [A B C D E F G H] N. unfold close. rewrite E, B. destruct data as [|x data]; [congruence|].
  destruct (Nat.ltb_spec (length (x :: data)) 1) as [X|_]; [cbn in X; lia|]. unfold ModelMemchan.slice. rewrite C. unfold onBufferFlush.
  destruct connected; cbn [negb]; eexists; eexists; (split; [reflexivity|]); split; intros Q; try discriminate Q;
    (split; [constructor; cbn; congruence|reflexivity]).
Qed.
Lemma close_empty cap sent w : filled cap sent [] w ->
  exists w', close connected verdict w = (w', Some (text "no data written")) /\ wedged sent w'.
Proof.
  intros [A B C D E F G H]. unfold close. rewrite E, B. eexists. split; [reflexivity|]. apply wedge_of; cbn; auto.
Qed.
Lemma tseq_wire broken chunks : forall cap sent data w, filled cap sent data w -> data ++ concat chunks <> [] ->
  exists w' e, tseq broken ops chunks w = Some (w', e) /\
    (length (data ++ concat chunks) <= cap -> connected = true -> ready cap (sent ++ [data ++ concat chunks]) w' /\ e = verdict (data ++ concat chunks)) /\
    (length (data ++ concat chunks) <= cap -> connected = false -> ready cap sent w' /\ e = Some (Foreign (Some (t$"can't write to a closed socket")))) /\
    (cap < length (data ++ concat chunks) -> wedged sent w' /\ e = Some (Foreign (Some (t$"message buffer overflow: no data written")))).
Proof.
  induction chunks as [|c cs IH]; intros cap sent data w F N.
  - cbn [concat] in *. rewrite app_nil_r in *. destruct (close_filled _ _ _ _ F N) as (w' & e & C & U & D).
    exists w', e. cbn [tseq]. unfold close_end. cbn [wire_ops t_close]. rewrite C. split; [reflexivity|]. split; [auto|]. split; [exact (fun _ => D)|].
    intros L. pose proof (f_fits _ _ _ _ F). lia.
  - cbn [concat tseq] in *. rewrite app_assoc in *. unfold try_write. cbn [wire_ops t_write].
    destruct (Nat.le_gt_cases (length data + length c) cap) as [L|L].
    + destruct (write_fits _ _ _ _ _ F L) as (w1 & -> & F1). exact (IH _ _ _ _ F1 N).
    + destruct (write_over _ _ _ _ _ F L) as (w1 & w2 & -> & C & Wd). unfold close_with. cbn [wire_ops t_close]. rewrite C.
      exists w2. eexists. split; [reflexivity|].
      split; [intros Q; rewrite !app_length in Q; lia|]. split; [intros Q; rewrite !app_length in Q; lia|].
      intros _. split; [exact Wd|]. reflexivity.
Qed.
End Writing.

Lemma sequence_delivers broken f frame : sequence broken f frame -> frame <> [] -> delivers f frame.
Proof.
  intros (chunks & <- & H) N cap sent w T connected verdict. rewrite H.
  exact (tseq_wire connected verdict broken chunks cap sent [] w (taken_filled _ _ _ T) N).
Qed.
Lemma refusal_withholds broken f t : refusal broken f t -> withholds f t.
Proof.
  intros H cap sent w T connected verdict. rewrite H. unfold reject, close_with. cbn [wire_ops t_close].
  destruct (close_empty connected verdict cap sent w (taken_filled _ _ _ T)) as (w' & -> & Wd). exists w'. split; [|exact Wd].
  unfold joined, Errorf, pct_s, text. cbn [shown Error]. reflexivity.
Qed.

Section Functions.
Variable broken : err -> bytes.
Lemma signal_sent name e p safe : go_length name -> go_length p ->
  (forall t, wrong_signal name e p safe t -> withholds (fun W ops w => WriteMsgSignal broken ops w name e p safe) t) /\
  (valid_signal name e p safe -> delivers (fun W ops w => WriteMsgSignal broken ops w name e p safe) (signal_frame name e p)).
Proof.
  intros Gn Gp. split; [intros t H; exact (refusal_withholds _ _ _ (signal_rej broken _ _ _ _ _ Gn Gp H))|].
  intros H. apply (sequence_delivers broken); [exact (signal_seq broken _ _ _ _ H)|discriminate].
Qed.
Lemma request_sent i name e p safe : go_length name -> go_length p ->
  (forall t, wrong_request name e p safe t -> withholds (fun W ops w => WriteMsgRequest broken ops w i name e p safe) t) /\
  (valid_request name e p safe -> delivers (fun W ops w => WriteMsgRequest broken ops w i name e p safe) (request_frame i name e p)).
Proof.
  intros Gn Gp. split; [intros t H; exact (refusal_withholds _ _ _ (request_rej broken _ _ _ _ _ _ Gn Gp H))|].
  intros H. apply (sequence_delivers broken); [exact (request_seq broken _ _ _ _ _ H)|discriminate].
Qed.
Lemma reply_sent i e p : go_length p ->
  (forall n, odd16 e p -> number (length p) n ->
     withholds (fun W ops w => WriteMsgReply broken ops w i e p) (t$"invalid UTF16 reply payload data length: " ++ n)) /\
  (utf16_ok e p -> delivers (fun W ops w => WriteMsgReply broken ops w i e p) (reply_frame i e p)).
Proof.
  intros Gp. split; [intros n O N; exact (refusal_withholds _ _ _ (reply_rej broken _ _ _ _ Gp O N))|].
  intros H. apply (sequence_delivers broken); [exact (reply_seq broken _ _ _ H)|discriminate].
Qed.
Lemma error_sent i c m safe : go_length c ->
  (forall t, wrong_code c safe t -> withholds (fun W ops w => WriteMsgReplyError broken ops w i c m safe) t) /\
  (length c <= 255 -> valid_code c safe -> delivers (fun W ops w => WriteMsgReplyError broken ops w i c m safe) (error_frame i c m)).
Proof.
  intros Gp. split; [intros t H; exact (refusal_withholds _ _ _ (code_rej broken _ _ m _ _ Gp H))|].
  intros L H. apply (sequence_delivers broken); [exact (code_seq broken _ _ m _ L H)|discriminate].
Qed.
Lemma special_sent i :
  (forall t n, ~ (1 <= b2N t <= 5)%N -> number (b2n t) n ->
     withholds (fun W ops w => WriteMsgSpecialRequestReply broken ops w t i) (t$"message type (" ++ n ++ t$") doesn't represent a special reply message")) /\
  (forall t, (1 <= t <= 5)%N -> delivers (fun W ops w => WriteMsgSpecialRequestReply broken ops w (n2b t) i) (n2b t :: i)).
Proof.
  split; [intros t n H N; exact (refusal_withholds _ _ _ (special_rej broken _ i _ H N))|].
  intros t H. apply (sequence_delivers broken); [exact (special_seq broken _ i H)|discriminate].
Qed.
Lemma others_sent i p info :
  delivers (fun W ops w => WriteMsgHeartbeat broken ops w) [n2b 33] /\
  delivers (fun W ops w => WriteMsgNotifySessionClosed broken ops w) [n2b 22] /\
  delivers (fun W ops w => WriteMsgNotifySessionCreated broken ops w info) (n2b 21 :: info) /\
  delivers (fun W ops w => WriteMsgNamelessRequest broken ops w (n2b 32) i p) (n2b 32 :: i ++ p) /\
  delivers (fun W ops w => WriteMsgNamelessRequest broken ops w (n2b 31) i p) (n2b 31 :: i ++ p).
Proof.
  destruct (others_seq broken i p info) as (A & B & C & D & E).
  split; [|split; [|split; [|split]]]; (apply (sequence_delivers broken); [assumption|discriminate]).
Qed.
Lemma getwriter_spec cap sent w : ready cap sent w ->
  (exists w', GetWriter w true = Some (w', inl w') /\ taken cap sent w' /\ forall c, GetWriter w' c = None) /\
  GetWriter w false = Some (w, inr (ErrDisconnected (Some (Foreign (Some t$"can't write to a closed socket"))))).
Proof.
  intros R. destruct (R) as [A B C D E F]. unfold GetWriter at 1 3. rewrite D. cbn [negb]. split; [|reflexivity].
  eexists. split; [reflexivity|]. split; [exists w; split; [exact R|unfold GetWriter; rewrite D; reflexivity]|]. intros c. reflexivity.
Qed.
(* Connection.Signal: checks the length first *)
Lemma conn_signal cap sent w connected verdict name e p : taken cap sent w -> go_length name -> go_length p -> name ++ p <> [] ->
  (N.of_nat (length (signal_frame name e p)) < 2 ^ 32)%N ->
  exists w' r, Signal broken (wire_ops connected verdict) (inl w) (N.of_nat cap) name e p = Some (inl w', r) /\
    (cap < length (signal_frame name e p) -> w' = w /\ r = Some ErrBufferOverflow) /\
    (length (signal_frame name e p) <= cap -> valid_signal name e p true ->
       (connected = true -> ready cap (sent ++ [signal_frame name e p]) w' /\ r = verdict (signal_frame name e p)) /\
       (connected = false -> ready cap sent w' /\ r = Some (Foreign (Some t$"can't write to a closed socket")))) /\
    (length (signal_frame name e p) <= cap -> forall t, wrong_signal name e p true t ->
       wedged sent w' /\ r = Some (Foreign (Some (t ++ t$": no data written")))).
Proof.
  intros T Gn Gp N B. destruct (ProofReport3.signal_error broken (wire_ops connected verdict) (inl w) (N.of_nat cap) name e p) as (_ & X & Y).
  rewrite N.mod_small in X, Y by exact B. destruct (Nat.le_gt_cases (length (signal_frame name e p)) cap) as [L|L].
  - destruct (Y N) as [_ Z]; [lia|]. rewrite (Z w eq_refl). clear X Y Z. destruct (signal_sent name e p true Gn Gp) as [Wr Ri].
    destruct (signal_cases name e p true Gn Gp) as [V|[t V]].
    + destruct (Ri V cap sent w T connected verdict) as (w' & r & -> & P1 & P2 & _). exists w', r. split; [reflexivity|].
      split; [intros Q; lia|]. split; [intros _ _; split; auto|].
      intros _ t V'. exfalso. clear - V V'. destruct V as (V1 & V2 & V3). destruct V' as [n H|n H O|c t H U S F]; [lia|exact (O V2)|].
      exact (first_bad_not _ _ F (V3 S)).
    + destruct (Wr t V cap sent w T connected verdict) as (w' & -> & Wd). exists w'. eexists. split; [reflexivity|].
      split; [intros Q; lia|]. split.
      * intros _ V'. exfalso. clear - V V'. destruct V' as (V1 & V2 & V3). destruct V as [n H|n H O|c t H U S F]; [lia|exact (O V2)|].
        exact (first_bad_not _ _ F (V3 S)).
      * intros _ t' V'. split; [exact Wd|].
        assert (t' = t) as ->; [|reflexivity].
        pose proof (signal_rej broken _ _ _ _ _ Gn Gp V _ (reporter (fun _ => None)) []) as E1.
        pose proof (signal_rej broken _ _ _ _ _ Gn Gp V' _ (reporter (fun _ => None)) []) as E2.
        cbv beta in E1, E2. rewrite E1 in E2. cbn in E2. injection E2 as E2. auto.
  - rewrite X by (auto; lia). exists w. eexists. split; [reflexivity|]. split; [auto|]. split; intros Q; lia.
Qed.
(* CreateSession does not *)
Lemma create_over cap sent w connected verdict key info hook : taken cap sent w -> cap <= length info ->
  exists w', ModelFault.CreateSession broken (wire_ops connected verdict) true true None key (inl info) hook (inl w) =
    Some (ModelFault.MkEnd (inl w') None false [] (Some (Foreign (Some
      (t$"Couldn't notify client about the session creation: message buffer overflow: no data written"))))) /\ wedged sent w'.
Proof.
  intros T L. destruct (others_sent [] [] info) as (_ & _ & H & _). destruct (H cap sent w T connected verdict) as (w' & e & Q & _ & _ & O).
  destruct O as [Wd ->]; [cbn; lia|]. exists w'. split; [|exact Wd].
  unfold ModelFault.CreateSession, ModelFault.notifySessionCreated. cbn [negb]. rewrite Q. reflexivity.
Qed.
(* and the session is the client's only if the notification went out *)
Lemma create_fits cap sent w connected verdict key info hook : taken cap sent w -> length info < cap ->
  exists w' s h l r, ModelFault.CreateSession broken (wire_ops connected verdict) true true None key (inl info) hook (inl w) =
    Some (ModelFault.MkEnd (inl w') s h l r) /\
    (connected = true -> ready cap (sent ++ [n2b 21 :: info]) w' /\
       (verdict (n2b 21 :: info) = None -> s = Some key /\ h = true /\ r = None) /\
       (forall x, verdict (n2b 21 :: info) = Some x -> s = None /\ h = false /\
          r = Some (Foreign (Some (t$"Couldn't notify client about the session creation: " ++ printed broken x))))) /\
    (connected = false -> ready cap sent w' /\ s = None /\ h = false /\
       r = Some (Foreign (Some t$"Couldn't notify client about the session creation: can't write to a closed socket"))).
Proof.
  intros T L. destruct (others_sent [] [] info) as (_ & _ & H & _). destruct (H cap sent w T connected verdict) as (w' & e & Q & P1 & P2 & _).
  assert (L' : length (n2b 21 :: info) <= cap) by (cbn [length]; lia). specialize (P1 L'). specialize (P2 L').
  unfold ModelFault.CreateSession, ModelFault.notifySessionCreated. cbn [negb]. rewrite Q.
  destruct connected.
  - destruct (P1 eq_refl) as [R ->]. destruct (verdict (n2b 21 :: info)) as [x|]; do 5 eexists; (split; [reflexivity|]); (split; [|discriminate]);
      intros _; (split; [exact R|]); (split; [intros E|intros y E]); try discriminate E; auto.
    injection E as ->. split; [reflexivity|]. split; [reflexivity|]. rewrite pct_s_printed. reflexivity.
  - destruct (P2 eq_refl) as [R ->]. do 5 eexists. split; [reflexivity|]. split; [discriminate|]. intros _. auto.
Qed.
End Functions.

Lemma any_socket w connected verdict :
  (w_writer w = true -> forall c, GetWriter w c = None) /\
  (w_writer w = false -> exists w', GetWriter w true = Some (w', inl w') /\ w_writer w' = true /\ but_writer w w') /\
  (w_writer w = false -> GetWriter w false = Some (w, inr (ErrDisconnected (Some (Foreign (Some t$"can't write to a closed socket")))))) /\
  (w_locked w = true -> forall p, exists w', t_write (wire_ops connected verdict) w p = (w', None) /\ w_stuck w' = true /\ but_stuck w w') /\
  (w_locked w = true -> exists w', t_close (wire_ops connected verdict) w = (w', None) /\ w_stuck w' = true /\ but_stuck w w') /\
  (w_locked w = false -> forall p, w_stuck (fst (t_write (wire_ops connected verdict) w p)) = w_stuck w) /\
  (w_locked w = false -> w_stuck (fst (t_close (wire_ops connected verdict) w)) = w_stuck w).
Proof.
  unfold GetWriter, wire_ops, t_write, t_close, write, close, waiting, onBufferFlush, but_writer, but_stuck.
  split; [intros ->; reflexivity|]. split; [intros ->; eexists; split; [reflexivity|]; repeat split|].
  split; [intros ->; reflexivity|]. split; [intros H p; rewrite H; eexists; split; [reflexivity|]; repeat split; cbn; auto|].
  split; [intros H; rewrite H; eexists; split; [reflexivity|]; repeat split; cbn; auto|].
  split; [intros -> p; destruct (ModelMemchan.buf_write _ _); reflexivity|].
  intros ->. destruct (_ <? 1); [reflexivity|]. destruct connected; reflexivity.
Qed.
