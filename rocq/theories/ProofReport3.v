(* The writers with error values do what those of ModelWrite do; Connection.Signal. *)
From Coq Require Import Strings.String.
From Coq Require Import List Arith NArith ZArith Bool Lia.
From Coq Require Import ZifyBool ZifyNat ZifyN.
From Verif Require Import BaseBytes ModelMessage ModelErrors SpecWire SpecWrite ModelReport SpecReport ProofReport.
From Verif Require ModelWrite ProofWrite ProofWire.
Import ListNotations.
Open Scope list_scope.
Open Scope nat_scope.

Section Same.
Variable broken : err -> bytes.
Context {W : Type} (ops : text_ops W).
Notation ops' := (forget ops).
Definition agree (k : W -> tresult) (k' : W -> option (W * option ModelWrite.werr)) : Prop := forall w, same_but_text (k w) (k' w).
Lemma agree_close_with w e e1 e2 : same_but_text (close_with broken ops w e) (ModelWrite.close_with ops' w e1 e2).
Proof. unfold close_with, ModelWrite.close_with, same_but_text. cbn [forget ModelWrite.w_close]. destruct (t_close ops w) as [w1 c]. split; reflexivity. Qed.
Lemma agree_reject t : agree (reject broken ops t) (ModelWrite.reject ops').
Proof. intros w. apply agree_close_with. Qed.
Lemma agree_end : agree (close_end ops) (ModelWrite.close_end ops').
Proof.
  intros w. unfold close_end, ModelWrite.close_end, same_but_text. cbn [forget ModelWrite.w_close]. destruct (t_close ops w) as [w1 [c|]]; split; reflexivity.
Qed.
Lemma agree_write c k k' : agree k k' -> agree (try_write broken ops c k) (ModelWrite.try_write ops' c k').
Proof.
  intros H w. unfold try_write, ModelWrite.try_write. cbn [forget ModelWrite.w_write]. destruct (t_write ops w c) as [w1 [e|]]; cbn [is_some].
  - apply agree_close_with.
  - apply H.
Qed.
Lemma find_exists l : existsb ModelWrite.bad_char l = is_some (find ModelWrite.bad_char l).
Proof. induction l as [|x l IH]; [reflexivity|]. cbn. destruct (ModelWrite.bad_char x); [reflexivity|exact IH]. Qed.

Ltac agrees := repeat first
  [ apply agree_reject | apply agree_end | apply agree_write
  | match goal with |- agree (fun w => let? fl := ModelWrite.name_len_flag ?n in _) _ => destruct (ModelWrite.name_len_flag n); [|intros ?; exact I] end
  | match goal with |- agree (fun w => if ?c then _ else _) _ => destruct c end
  | match goal with |- agree (fun w => try_write _ _ _ _ w) _ => intros ?w; apply agree_write | |- agree (fun w => close_end _ w) _ => intros ?w; apply agree_end end ].

Lemma same_reply_error w i c m safe : same_but_text (WriteMsgReplyError broken ops w i c m safe) (ModelWrite.WriteMsgReplyError ops' w i c m safe).
Proof.
  unfold WriteMsgReplyError, ModelWrite.WriteMsgReplyError. destruct safe; cbn [andb].
  - destruct (length c <? 1); [apply agree_reject|]. destruct (255 <? length c); [apply agree_reject|]. rewrite find_exists.
    destruct (find ModelWrite.bad_char c); cbn [is_some]; [apply agree_reject|]. agrees.
  - agrees.
Qed.
Lemma same_reply w i e p : same_but_text (WriteMsgReply broken ops w i e p) (ModelWrite.WriteMsgReply ops' w i e p).
Proof.
  unfold WriteMsgReply, ModelWrite.WriteMsgReply. destruct ((e =? Utf16)%Z && _); [apply agree_reject|]. destruct (e =? Utf16)%Z; agrees.
Qed.
Lemma same_request w i n e p s : same_but_text (WriteMsgRequest broken ops w i n e p s) (ModelWrite.WriteMsgRequest ops' w i n e p s).
Proof.
  unfold WriteMsgRequest, ModelWrite.WriteMsgRequest. destruct ((length n <? 1) && _); [apply agree_reject|]. destruct (255 <? length n); [apply agree_reject|].
  destruct ((e =? Utf16)%Z && negb (length p mod 2 =? 0)); [apply agree_reject|]. rewrite find_exists.
  destruct s; cbn [andb]; [destruct (find ModelWrite.bad_char n); cbn [is_some]; [apply agree_reject|]|];
    destruct ((e =? Utf16)%Z && negb (length n mod 2 =? 0)); agrees.
Qed.
Lemma same_signal w n e p s : same_but_text (WriteMsgSignal broken ops w n e p s) (ModelWrite.WriteMsgSignal ops' w n e p s).
Proof.
  unfold WriteMsgSignal, ModelWrite.WriteMsgSignal. destruct (255 <? length n); [apply agree_reject|].
  destruct ((e =? Utf16)%Z && negb (length p mod 2 =? 0)); [apply agree_reject|]. rewrite find_exists.
  destruct s; cbn [andb]; [destruct (find ModelWrite.bad_char n); cbn [is_some]; [apply agree_reject|]|];
    destruct ((e =? Utf16)%Z && negb (length n mod 2 =? 0)); destruct (0 <? length n); agrees.
Qed.
Lemma same_special w t i : same_but_text (WriteMsgSpecialRequestReply broken ops w t i) (ModelWrite.WriteMsgSpecialRequestReply ops' w t i).
Proof.
  unfold WriteMsgSpecialRequestReply, ModelWrite.WriteMsgSpecialRequestReply.
  destruct (if beq t MsgReplyInternalError then _ else _); agrees.
Qed.
Lemma same_nameless w t i p : same_but_text (WriteMsgNamelessRequest broken ops w t i p) (ModelWrite.WriteMsgNamelessRequest ops' w t i p).
Proof.
  unfold WriteMsgNamelessRequest, ModelWrite.WriteMsgNamelessRequest.
  destruct (if beq t MsgRequestRestoreSession then _ else _); [|exact I]. destruct (0 <? length p); agrees.
Qed.
Lemma same_heartbeat w : same_but_text (WriteMsgHeartbeat broken ops w) (ModelWrite.WriteMsgHeartbeat ops' w).
Proof. unfold WriteMsgHeartbeat, ModelWrite.WriteMsgHeartbeat. agrees. Qed.
Lemma same_closed w : same_but_text (WriteMsgNotifySessionClosed broken ops w) (ModelWrite.WriteMsgNotifySessionClosed ops' w).
Proof. unfold WriteMsgNotifySessionClosed, ModelWrite.WriteMsgNotifySessionClosed. agrees. Qed.
Lemma same_created w info : same_but_text (WriteMsgNotifySessionCreated broken ops w info) (ModelWrite.WriteMsgNotifySessionCreated ops' w info).
Proof. unfold WriteMsgNotifySessionCreated, ModelWrite.WriteMsgNotifySessionCreated. agrees. Qed.
End Same.

Lemma frame_len name e p : length (signal_frame name e p) = ModelWrite.CalcMsgLenSignal name e p.
Proof.
  unfold signal_frame, ModelWrite.CalcMsgLenSignal, pad_of, enc_of. cbn [length]. rewrite !app_length.
  destruct (Z.eqb_spec e 1) as [->|N1].
  - cbn. lia.
  - destruct (Z.eqb_spec e 2) as [->|N2].
    + change (2 =? Utf16)%Z with true. cbn [andb]. rewrite repeat_length. pose proof (Nat.mod_upper_bound (length name) 2).
      destruct (Nat.eqb_spec (length name mod 2) 0); cbn [negb]; lia.
    + assert ((e =? Utf16)%Z = false) as -> by (apply Z.eqb_neq; exact N2). cbn [andb length]. lia.
Qed.
Lemma signal_error broken {W} (ops : text_ops W) gw buf name e p :
  (name ++ p = [] -> Signal broken ops gw buf name e p = Some (gw, Some (ErrProtocol (Some (Foreign (Some t$"missing both name and payload")))))) /\
  (name ++ p <> [] -> (buf < N.of_nat (length (signal_frame name e p)) mod 2 ^ 32)%N -> Signal broken ops gw buf name e p = Some (gw, Some ErrBufferOverflow)) /\
  (name ++ p <> [] -> (N.of_nat (length (signal_frame name e p)) mod 2 ^ 32 <= buf)%N ->
     (forall er, gw = inr er -> Signal broken ops gw buf name e p = Some (gw, Some er)) /\
     (forall w, gw = inl w -> Signal broken ops gw buf name e p =
        option_map (fun r => (inl (fst r), snd r)) (WriteMsgSignal broken ops w name e p true))).
Proof.
  unfold Signal. rewrite frame_len. split; [|split].
  - intros E. apply app_eq_nil in E as [-> ->]. reflexivity.
  - intros NE L. assert ((length name <? 1) && (length p <? 1) = false) as -> by (pose proof (ProofWire.nil_app_len _ _ NE); lia).
    apply N.ltb_lt in L. rewrite L. reflexivity.
  - intros NE L. assert ((length name <? 1) && (length p <? 1) = false) as -> by (pose proof (ProofWire.nil_app_len _ _ NE); lia).
    apply N.ltb_ge in L. rewrite L. split; intros x ->; [reflexivity|]. destruct (WriteMsgSignal broken ops x name e p true) as [[w1 o]|]; reflexivity.
Qed.
