(* Proofs about the writing side of package message. *)
From Coq Require Import List Arith NArith ZArith Lia Bool.
From Coq Require Import ZifyBool ZifyNat ZifyN.
From Verif Require Import BaseBytes ModelMessage ModelWrite SpecWire SpecMessage SpecWrite ProofMessage ProofWire.
Import ListNotations.
Open Scope nat_scope.
Ltac Zify.zify_post_hook ::= Z.div_mod_to_equations.

Section Seq.
Context {W : Type} (ops : writer_ops W).
Fixpoint write_seq (chunks : list bytes) : W -> wresult (W:=W) :=
  match chunks with
  | [] => close_end ops
  | c :: cs => try_write ops c (write_seq cs)
  end.

Lemma try_write_ext c k1 k2 w : (forall x, k1 x = k2 x) -> try_write ops c k1 w = try_write ops c k2 w.
Proof. intros H. unfold try_write. destruct (w_write ops w c) as [w1 [|]]; [reflexivity|apply H]. Qed.
End Seq.

Lemma name_len_flag_ok (l : bytes) : length l <= 255 -> name_len_flag (length l) = Some [flag l].
Proof.
  intros H. unfold name_len_flag, msgNameLenBytes. rewrite map_length, seq_length. brk.
  f_equal. rewrite skipn_map, firstn_map.
  replace 256 with (length l + S (255 - length l)) by lia.
  rewrite seq_app. rewrite skipn_app_exact by (rewrite seq_length; reflexivity).
  cbn [seq firstn map Nat.add]. reflexivity.
Qed.

(* what each writer does for accepted / rejected arguments, on any writer *)
Definition nonempty (l : bytes) : list bytes := match l with [] => [] | _ => [l] end.
Lemma concat_nonempty l r : concat (nonempty l ++ r) = l ++ concat r.
Proof. destruct l; reflexivity. Qed.

Lemma bad_char_spec c : bad_char c = false <-> 32 <= b2n c <= 126.
Proof. unfold bad_char, b2n. lia. Qed.
Lemma bad_chars l : existsb bad_char l = false <-> printable l.
Proof.
  unfold printable. induction l; cbn [existsb].
  - split; [constructor|reflexivity].
  - rewrite orb_false_iff, bad_char_spec, IHl. split.
    + intros [? ?]; constructor; assumption.
    + intros H; inversion H; auto.
Qed.

Lemma enc_of_cases e :
  (e = 1%Z /\ enc_of e = EU8) \/ (e = 2%Z /\ enc_of e = EU16) \/
  (e <> 1%Z /\ e <> 2%Z /\ enc_of e = EBin).
Proof.
  unfold enc_of. destruct (Z.eqb_spec e 1); [auto|]. destruct (Z.eqb_spec e 2); auto.
Qed.

Lemma utf16_check e (p : bytes) :
  ((e =? Utf16)%Z && negb (length p mod 2 =? 0)) = false <-> utf16_ok e p.
Proof. unfold utf16_ok, Utf16, even_len. lia. Qed.

Definition pad_chunk (e : encoding) (name : bytes) : list bytes :=
  if (e =? Utf16)%Z && negb (length name mod 2 =? 0) then [msgHeaderPadding] else [].
Lemma pad_chunk_concat e name r : concat (pad_chunk e name ++ r) = pad_of e name ++ concat r.
Proof.
  unfold pad_chunk, pad_of, Utf16.
  destruct (enc_of_cases e) as [[-> ->]|[[-> ->]|(H1 & H2 & ->)]]; cbn [andb Z.eqb]; try reflexivity.
  - cbn [Pos.eqb]. destruct (Nat.eqb_spec (length name mod 2) 0) as [E|E]; cbn [negb].
    + rewrite E. reflexivity.
    + assert (length name mod 2 = 1) as -> by lia. reflexivity.
  - destruct (Z.eqb_spec e 2); [contradiction|]. reflexivity.
Qed.

Definition sig_type (e : encoding) : bytes := if (e =? Utf8)%Z then [MsgSignalUtf8] else if (e =? Utf16)%Z then [MsgSignalUtf16] else [MsgSignalBinary].
Definition req_type (e : encoding) : bytes := if (e =? Utf8)%Z then [MsgRequestUtf8] else if (e =? Utf16)%Z then [MsgRequestUtf16] else [MsgRequestBinary].
Definition rep_type (e : encoding) : bytes := if (e =? Utf8)%Z then [MsgReplyUtf8] else if (e =? Utf16)%Z then [MsgReplyUtf16] else [MsgReplyBinary].
Lemma sig_type_ok e : sig_type e = [n2b (sig_tag (enc_of e))].
Proof. unfold sig_type, enc_of, Utf8, Utf16. destruct (Z.eqb e 1), (Z.eqb e 2); reflexivity. Qed.
Lemma req_type_ok e : req_type e = [n2b (req_tag (enc_of e))].
Proof. unfold req_type, enc_of, Utf8, Utf16. destruct (Z.eqb e 1), (Z.eqb e 2); reflexivity. Qed.
Lemma rep_type_ok e : rep_type e = [n2b (rep_tag (enc_of e))].
Proof. unfold rep_type, enc_of, Utf8, Utf16. destruct (Z.eqb e 1), (Z.eqb e 2); reflexivity. Qed.

Definition chunks_signal name e p := sig_type e :: [flag name] :: nonempty name ++ pad_chunk e name ++ [p].
Definition chunks_request i name e p := req_type e :: i :: [flag name] :: name :: pad_chunk e name ++ [p].
Definition chunks_reply i e p := rep_type e :: i :: (if (e =? Utf16)%Z then [msgHeaderPadding] else []) ++ [p].
Definition chunks_error i c m := [MsgReplyError] :: i :: [flag c] :: c :: [m].

Section Any.
Context {W : Type} (ops : writer_ops W).

Lemma signal_seq w name e p safe : valid_signal name e p safe ->
  WriteMsgSignal ops w name e p safe = write_seq ops (chunks_signal name e p) w.
Proof.
  intros (Hn & Hu & Hs). unfold WriteMsgSignal. destruct (Nat.ltb_spec 255 (length name)); [lia|].
  rewrite (proj2 (utf16_check e p) Hu).
  assert (safe && existsb bad_char name = false) as ->.
  { destruct safe; [|reflexivity]. apply bad_chars. auto. }
  unfold chunks_signal. cbn [write_seq]. apply try_write_ext. intros x.
  rewrite name_len_flag_ok by assumption. apply try_write_ext. intros y.
  unfold pad_chunk. destruct name as [|a name]; cbn [nonempty app length Nat.ltb Nat.leb].
  - destruct ((e =? Utf16)%Z && _); reflexivity.
  - cbn [write_seq]. apply try_write_ext. intros z.
    destruct ((e =? Utf16)%Z && _); reflexivity.
Qed.
Lemma signal_rej w name e p safe : ~ valid_signal name e p safe ->
  WriteMsgSignal ops w name e p safe = reject ops w.
Proof.
  intros H. unfold WriteMsgSignal. destruct (Nat.ltb_spec 255 (length name)); [reflexivity|].
  destruct ((e =? Utf16)%Z && _) eqn:E; [reflexivity|]. apply utf16_check in E.
  destruct safe; cbn [andb].
  - destruct (existsb bad_char name) eqn:B; [reflexivity|]. apply bad_chars in B.
    exfalso; apply H; repeat split; auto.
  - exfalso; apply H; repeat split; auto. discriminate.
Qed.

Lemma request_seq w i name e p safe : valid_request name e p safe ->
  WriteMsgRequest ops w i name e p safe = write_seq ops (chunks_request i name e p) w.
Proof.
  intros (Hne & Hn & Hu & Hs). unfold WriteMsgRequest.
  pose proof (nil_app_len _ _ Hne).
  assert ((length name <? 1) && (length p <? 1) = false) as -> by (brk; reflexivity).
  destruct (Nat.ltb_spec 255 (length name)); [lia|]. rewrite (proj2 (utf16_check e p) Hu).
  assert (safe && existsb bad_char name = false) as ->.
  { destruct safe; [|reflexivity]. apply bad_chars. auto. }
  unfold chunks_request. cbn [write_seq]. apply try_write_ext. intros x.
  apply try_write_ext. intros y.
  rewrite name_len_flag_ok by assumption. apply try_write_ext. intros z. apply try_write_ext. intros v.
  unfold pad_chunk. destruct ((e =? Utf16)%Z && _); reflexivity.
Qed.
Lemma request_rej w i name e p safe : ~ valid_request name e p safe ->
  WriteMsgRequest ops w i name e p safe = reject ops w.
Proof.
  intros H. unfold WriteMsgRequest.
  destruct ((length name <? 1) && (length p <? 1)) eqn:A; [reflexivity|].
  assert (name ++ p <> []).
  { intros C. apply app_eq_nil in C as [-> ->]. discriminate. }
  destruct (Nat.ltb_spec 255 (length name)); [reflexivity|].
  destruct ((e =? Utf16)%Z && _) eqn:E; [reflexivity|]. apply utf16_check in E.
  destruct safe; cbn [andb].
  - destruct (existsb bad_char name) eqn:B; [reflexivity|]. apply bad_chars in B.
    exfalso; apply H; repeat split; auto.
  - exfalso; apply H; repeat split; auto. discriminate.
Qed.

Lemma reply_seq w i e p : utf16_ok e p ->
  WriteMsgReply ops w i e p = write_seq ops (chunks_reply i e p) w.
Proof.
  intros Hu. unfold WriteMsgReply. rewrite (proj2 (utf16_check e p) Hu).
  unfold chunks_reply. cbn [write_seq]. apply try_write_ext. intros x.
  apply try_write_ext. intros y. destruct (e =? Utf16)%Z; reflexivity.
Qed.
Lemma reply_rej w i e p : ~ utf16_ok e p -> WriteMsgReply ops w i e p = reject ops w.
Proof.
  intros H. unfold WriteMsgReply. destruct ((e =? Utf16)%Z && _) eqn:E; [reflexivity|].
  apply utf16_check in E. contradiction.
Qed.

Lemma error_seq w i c m safe : length c <= 255 -> valid_code c safe ->
  WriteMsgReplyError ops w i c m safe = write_seq ops (chunks_error i c m) w.
Proof.
  intros H1 H2. unfold WriteMsgReplyError.
  assert (safe && (length c <? 1) = false) as ->.
  { destruct safe; [|reflexivity]. destruct (H2 eq_refl). cbn [andb]. apply Nat.ltb_ge. lia. }
  assert (safe && (255 <? length c) = false) as ->.
  { destruct safe; [|reflexivity]. cbn [andb]. apply Nat.ltb_ge. lia. }
  assert (safe && existsb bad_char c = false) as ->.
  { destruct safe; [|reflexivity]. apply bad_chars. apply H2. reflexivity. }
  unfold chunks_error. cbn [write_seq]. apply try_write_ext. intros x. apply try_write_ext. intros y.
  rewrite name_len_flag_ok by assumption. reflexivity.
Qed.
Lemma error_rej w i c m safe : ~ valid_code c safe ->
  WriteMsgReplyError ops w i c m safe = reject ops w.
Proof.
  intros H. unfold WriteMsgReplyError. destruct safe; [cbn [andb]|exfalso; apply H; intros X; discriminate].
  destruct (Nat.ltb_spec (length c) 1); [reflexivity|].
  destruct (Nat.ltb_spec 255 (length c)); [reflexivity|].
  destruct (existsb bad_char c) eqn:B; [reflexivity|]. apply bad_chars in B.
  exfalso; apply H; intros _. split; [lia|assumption].
Qed.
End Any.

(* a function that performs a fixed sequence of writes *)
Definition is_seq (f : forall W, writer_ops W -> W -> option (W * option werr)) chunks : Prop :=
  forall W (ops : writer_ops W) w, f W ops w = write_seq ops chunks w.

Lemma write_seq_log fails chunks log0 :
  exists e, write_seq (log_writer fails) chunks log0 =
     Some (log0 ++ fst (run_calls fails (length log0) chunks), e) /\
     (e <> None <-> snd (run_calls fails (length log0) chunks) = true) /\
     e = run_error fails (length log0) chunks.
Proof.
  revert log0; induction chunks as [|c cs IH]; intros log0; cbn [write_seq run_calls run_error].
  - unfold close_end; cbn. eexists; split; [reflexivity|]. destruct (fails (length log0)); repeat split; congruence.
  - unfold try_write, close_with; cbn. destruct (fails (length log0)).
    + eexists; split; [rewrite <- app_assoc; reflexivity|]. cbn. split; [split; [reflexivity|]; destruct (fails _); congruence|].
      rewrite app_length, Nat.add_1_r. reflexivity.
    + destruct (IH (log0 ++ [CWrite c])) as (e & H1 & H2). exists e.
      assert (L : length (log0 ++ [CWrite c]) = S (length log0)) by (rewrite app_length; cbn; lia).
      rewrite L in H1, H2. destruct (run_calls fails (S (length log0)) cs) as [l b]; cbn [fst snd] in *.
      split; [|exact H2]. rewrite H1, <- app_assoc. reflexivity.
Qed.

Lemma seq_writes f chunks : is_seq f chunks -> writes f (concat chunks).
Proof.
  intros H. exists chunks. split; [reflexivity|]. intros fails log0. rewrite H. apply write_seq_log.
Qed.

Lemma rej_rejects (f : forall W, writer_ops W -> W -> option (W * option werr)) :
  (forall W (ops : writer_ops W) w, f W ops w = reject ops w) -> rejects f.
Proof.
  intros H fails log0. rewrite H. unfold reject, close_with; cbn. eexists. split; reflexivity.
Qed.

(* sink: what a writer that never fails has received *)
Lemma write_seq_sink chunks s :
  write_seq sink_writer chunks s = Some (MkSink (s_bytes s ++ concat chunks) (S (s_closed s)), None).
Proof.
  revert s; induction chunks as [|c cs IH]; intros s; cbn [write_seq concat].
  - rewrite app_nil_r. reflexivity.
  - unfold try_write; cbn. rewrite IH; cbn. rewrite app_assoc. reflexivity.
Qed.

Lemma concat_signal name e p : concat (chunks_signal name e p) = signal_frame name e p.
Proof.
  unfold chunks_signal, signal_frame. rewrite sig_type_ok. cbn [concat app].
  rewrite concat_nonempty, pad_chunk_concat. cbn [concat]. rewrite app_nil_r. reflexivity.
Qed.
Lemma concat_request i name e p : concat (chunks_request i name e p) = request_frame i name e p.
Proof.
  unfold chunks_request, request_frame. rewrite req_type_ok. cbn [concat app].
  rewrite pad_chunk_concat. cbn [concat]. rewrite app_nil_r. reflexivity.
Qed.
Lemma concat_reply i e p : concat (chunks_reply i e p) = reply_frame i e p.
Proof.
  unfold chunks_reply, reply_frame. rewrite rep_type_ok. cbn [concat app].
  unfold Utf16. destruct (enc_of_cases e) as [[-> ->]|[[-> ->]|(H1 & H2 & ->)]]; cbn [Z.eqb Pos.eqb app concat];
    rewrite ?app_nil_r; try reflexivity.
  destruct (Z.eqb_spec e 2); [contradiction|]. cbn [app concat]. rewrite app_nil_r. reflexivity.
Qed.
Lemma concat_error i c m : concat (chunks_error i c m) = error_frame i c m.
Proof. unfold chunks_error, error_frame. cbn [concat app]. rewrite app_nil_r. reflexivity. Qed.

(* ----- C11/C13 statements ----- *)
Lemma signal_writes name e p safe : valid_signal name e p safe ->
  writes (fun W ops w => WriteMsgSignal ops w name e p safe) (signal_frame name e p).
Proof. intros H. rewrite <- concat_signal. apply seq_writes. intros W ops w. apply signal_seq, H. Qed.
Lemma signal_rejects name e p safe : ~ valid_signal name e p safe ->
  rejects (fun W ops w => WriteMsgSignal ops w name e p safe).
Proof. intros H. apply rej_rejects. intros. apply signal_rej, H. Qed.
Lemma request_writes i name e p safe : valid_request name e p safe ->
  writes (fun W ops w => WriteMsgRequest ops w i name e p safe) (request_frame i name e p).
Proof. intros H. rewrite <- concat_request. apply seq_writes. intros W ops w. apply request_seq, H. Qed.
Lemma request_rejects i name e p safe : ~ valid_request name e p safe ->
  rejects (fun W ops w => WriteMsgRequest ops w i name e p safe).
Proof. intros H. apply rej_rejects. intros. apply request_rej, H. Qed.
Lemma reply_writes i e p : utf16_ok e p ->
  writes (fun W ops w => WriteMsgReply ops w i e p) (reply_frame i e p).
Proof. intros H. rewrite <- concat_reply. apply seq_writes. intros W ops w. apply reply_seq, H. Qed.
Lemma reply_rejects i e p : ~ utf16_ok e p ->
  rejects (fun W ops w => WriteMsgReply ops w i e p).
Proof. intros H. apply rej_rejects. intros. apply reply_rej, H. Qed.
Lemma error_writes i c m safe : length c <= 255 -> valid_code c safe ->
  writes (fun W ops w => WriteMsgReplyError ops w i c m safe) (error_frame i c m).
Proof. intros H H'. rewrite <- concat_error. apply seq_writes. intros W ops w. apply error_seq; assumption. Qed.
Lemma error_rejects i c m safe : ~ valid_code c safe ->
  rejects (fun W ops w => WriteMsgReplyError ops w i c m safe).
Proof. intros H. apply rej_rejects. intros. apply error_rej, H. Qed.

Lemma heartbeat_writes : writes (fun W ops w => WriteMsgHeartbeat ops w) [n2b 33].
Proof. apply (seq_writes _ [[MsgHeartbeat]]). intros W ops w. reflexivity. Qed.
Lemma closed_writes : writes (fun W ops w => WriteMsgNotifySessionClosed ops w) [n2b 22].
Proof. apply (seq_writes _ [[MsgNotifySessionClosed]]). intros W ops w. reflexivity. Qed.
Lemma created_writes info : writes (fun W ops w => WriteMsgNotifySessionCreated ops w info) (n2b 21 :: info).
Proof.
  replace (n2b 21 :: info) with (concat [[MsgNotifySessionCreated]; info]) by (cbn; rewrite app_nil_r; reflexivity).
  apply seq_writes. intros W ops w. reflexivity.
Qed.
Lemma special_writes t i : (1 <= t <= 5)%N ->
  writes (fun W ops w => WriteMsgSpecialRequestReply ops w (n2b t) i) (n2b t :: i).
Proof.
  intros H. replace (n2b t :: i) with (concat [[n2b t]; i]) by (cbn; rewrite app_nil_r; reflexivity).
  apply seq_writes. intros W ops w.
  assert (t = 1 \/ t = 2 \/ t = 3 \/ t = 4 \/ t = 5)%N as [->|[->|[->|[->| ->]]]] by lia; reflexivity.
Qed.
Lemma special_rejects t i : ~ (1 <= b2N t <= 5)%N ->
  rejects (fun W ops w => WriteMsgSpecialRequestReply ops w t i).
Proof.
  intros H. apply rej_rejects. intros. unfold WriteMsgSpecialRequestReply.
  repeat match goal with |- context [beq t ?x] =>
     destruct (beq_spec t x) as [->|];
     [exfalso; apply H; match goal with |- context [b2N ?y] => let v := eval vm_compute in (b2N y) in change (b2N y) with v end; lia|] end.
  reflexivity.
Qed.
Lemma nameless_restore_writes i p :
  writes (fun W ops w => WriteMsgNamelessRequest ops w (n2b 32) i p) (n2b 32 :: i ++ p).
Proof.
  replace (n2b 32 :: i ++ p) with (concat ([n2b 32] :: i :: nonempty p)).
  - apply seq_writes. intros W ops w. unfold WriteMsgNamelessRequest. rewrite beq_refl.
    destruct p; reflexivity.
  - cbn [concat app]. rewrite <- (app_nil_r (nonempty p)), concat_nonempty. cbn [concat].
    rewrite app_nil_r. reflexivity.
Qed.
Lemma nameless_close_writes i p :
  writes (fun W ops w => WriteMsgNamelessRequest ops w (n2b 31) i p) (n2b 31 :: i ++ p).
Proof.
  replace (n2b 31 :: i ++ p) with (concat ([n2b 31] :: i :: nonempty p)).
  - apply seq_writes. intros W ops w. destruct p; reflexivity.
  - cbn [concat app]. rewrite <- (app_nil_r (nonempty p)), concat_nonempty. cbn [concat].
    rewrite app_nil_r. reflexivity.
Qed.

(* [writes] implies what a sink receives *)
Lemma writes_sink_signal name e p safe : valid_signal name e p safe ->
  WriteMsgSignal sink_writer empty_sink name e p safe = Some (MkSink (signal_frame name e p) 1, None).
Proof. intros H. rewrite signal_seq by assumption. rewrite write_seq_sink, concat_signal. reflexivity. Qed.

(* ----- frames written are frames of the grammar ----- *)
Lemma repeat0_pad name : padding name (repeat x00 (length name mod 2)).
Proof. unfold padding. apply repeat_length. Qed.

Lemma signal_in_grammar name e p safe :
  valid_signal name e p safe -> name ++ p <> [] -> (e = 2%Z -> p <> []) ->
  frame (signal_frame name e p) (MkContent (sig_tag (enc_of e)) no_ident name p (enc_of e) None).
Proof.
  intros (Hn & Hu & _) Hne H16. unfold signal_frame, pad_of.
  destruct (enc_of_cases e) as [[-> ->]|[[-> ->]|(H1 & H2 & ->)]]; cbn [app].
  - apply (F_signal EU8); [discriminate|assumption..].
  - apply F_signal16; auto. apply repeat0_pad.
  - apply (F_signal EBin); [discriminate|assumption..].
Qed.
Lemma request_in_grammar i name e p safe :
  length i = 8 -> valid_request name e p safe ->
  frame (request_frame i name e p) (MkContent (req_tag (enc_of e)) i name p (enc_of e) None).
Proof.
  intros Hi (Hne & Hn & Hu & _). unfold request_frame, pad_of.
  destruct (enc_of_cases e) as [[-> ->]|[[-> ->]|(H1 & H2 & ->)]]; cbn [app].
  - apply (F_request EU8); [discriminate|assumption..].
  - apply F_request16; auto. apply repeat0_pad.
  - apply (F_request EBin); [discriminate|assumption..].
Qed.
Lemma reply_in_grammar i e p :
  length i = 8 -> utf16_ok e p ->
  frame (reply_frame i e p) (MkContent (rep_tag (enc_of e)) i [] p (enc_of e) None).
Proof.
  intros Hi Hu. unfold reply_frame.
  destruct (enc_of_cases e) as [[-> ->]|[[-> ->]|(H1 & H2 & ->)]]; cbn [app].
  - apply (F_reply EU8); [discriminate|assumption].
  - apply F_reply16; auto.
  - apply (F_reply EBin); [discriminate|assumption].
Qed.
Lemma error_in_grammar i c m :
  length i = 8 -> 1 <= length c <= 255 ->
  frame (error_frame i c m) (MkContent 0 i c m EU8 None).
Proof. intros. apply F_error; assumption. Qed.

(* reading a frame of the grammar into any blank message of sufficient size *)

Lemma frame_reads b c : frame b c -> reads_as b c.
Proof.
  intros F m Hm Hl.
  assert (1 <= length b).
  { destruct F; cbn [length]; lia. }
  destruct (ReadBytes_frame m b Hm (conj H Hl)) as (m' & ok & e & R & _ & [_ B] & C).
  destruct B as [-> ->]; [eauto|]. exists m'. auto.
Qed.

Lemma frame_rejected b m :
  blank m -> 1 <= length b <= length (m_buf m) -> (forall c, ~ frame b c) ->
  exists m' ok e, ReadBytes m b = Some (m', ok, e) /\ (ok = false \/ e <> None).
Proof.
  intros Hm Hl N. destruct (ReadBytes_frame m b Hm Hl) as (m' & ok & e & R & _ & [B _] & _).
  exists m', ok, e. split; [assumption|]. destruct ok; [|auto]. right. intros ->.
  destruct B as [c F]; [auto|]. exact (N c F).
Qed.

(* ----- C12 ----- *)
Lemma pad_of_length e name : length (pad_of e name) = if (e =? 2)%Z then length name mod 2 else 0.
Proof.
  unfold pad_of. destruct (enc_of_cases e) as [[-> ->]|[[-> ->]|(H1 & H2 & ->)]]; try reflexivity.
  - cbn [Z.eqb Pos.eqb]. apply repeat_length.
  - destruct (Z.eqb_spec e 2); [contradiction|reflexivity].
Qed.
Lemma len_signal name e p : length (signal_frame name e p) = CalcMsgLenSignal name e p.
Proof.
  unfold signal_frame, CalcMsgLenSignal, Utf16. lensimp. rewrite pad_of_length.
  destruct (e =? 2)%Z; cbn [andb]; brk.
Qed.
Lemma len_request i name e p : length i = 8 -> length (request_frame i name e p) = CalcMsgLenRequest name e p.
Proof.
  intros Hi. unfold request_frame, CalcMsgLenRequest, Utf16. lensimp. rewrite Hi, pad_of_length.
  destruct (e =? 2)%Z; cbn [andb]; brk.
Qed.

(* ----- C10 ----- *)
Lemma conf_message major minor t s sub :
  NewAcceptConfMessage major minor t s sub =
  if (0 <=? Z.quot t 1000000)%Z && (Z.quot t 1000000 <? 2 ^ 32)%Z
  then Some (n2b 23 :: major :: minor :: le_put 4 (Z.to_N (Z.quot t 1000000)) ++ le_put 4 s ++ sub)
  else None.
Proof.
  unfold NewAcceptConfMessage. set (q := Z.quot t 1000000).
  destruct (Z.ltb_spec 4294967295 q), (Z.ltb_spec q 0), (Z.leb_spec 0 q), (Z.ltb_spec q (2 ^ 32)); cbn [andb]; try lia; reflexivity.
Qed.
Lemma conf_in_grammar major minor t s sub b :
  (s < 2 ^ 32)%N -> NewAcceptConfMessage major minor t s sub = Some b ->
  frame b (MkContent 23 no_ident [] [] EBin
    (Some (MkWConf (b2N major) (b2N minor) (Z.to_N (Z.quot t 1000000)) s sub))).
Proof.
  intros Hs. rewrite conf_message. destruct (_ && _) eqn:E; [|discriminate].
  intros H; injection H as <-.
  pose proof (F_conf (MkWConf (b2N major) (b2N minor) (Z.to_N (Z.quot t 1000000)) s sub)) as F.
  cbn [w_major w_minor w_timeout_ms w_bufsize w_sub] in F. rewrite !n2b_b2N in F.
  apply F; try apply b2N_lt; try assumption. lia.
Qed.
