(* Lemmas in the exact form of the property theorems of PropsCodec. *)
From Coq Require Import List Arith NArith ZArith Lia Bool ZifyBool ZifyNat ZifyN.
From Verif Require Import BaseBytes ModelMessage ModelWrite ModelStream ModelPool ModelPayload.
From Verif Require Import SpecWire SpecMessage SpecWrite SpecStream SpecText SpecPool.
From Verif Require Import ProofMessage ProofWire ProofWrite ProofStream ProofText ProofPool.
Import ListNotations.
Open Scope nat_scope.
Ltac Zify.zify_post_hook ::= Z.div_mod_to_equations.

(* ---------- C01 ---------- *)
Lemma ReadBytes_total m b : length (m_ident m) = 8 ->
  exists m' ok e, ReadBytes m b = Some (m', ok, e) /\ length (m_ident m') = 8.
Proof.
  intros Hwf. destruct (Nat.ltb_spec (length b) 1) as [L1|L1].
  { unfold ReadBytes. rewrite (proj2 (Nat.ltb_lt _ _) L1). eauto. }
  destruct (Nat.ltb_spec (length (m_buf m)) (length b)) as [L2|L2].
  { unfold ReadBytes. rewrite (proj2 (Nat.ltb_ge _ _) L1), (proj2 (Nat.ltb_lt _ _) L2). eauto. }
  destruct (ReadBytes_load m b L1 L2) as (m1 & R & [Hl Hf] & Hbl & T & I & IB & Nm & E & P & C & PL).
  destruct (no_panic_parse m1) as (m2 & ok2 & e2 & H2 & W & _).
  { unfold wf in *; congruence. }
  { lia. }
  rewrite R, H2. eauto 6.
Qed.

Lemma buffer_read_total s : forall fuel buf cursor,
  length s + 2 <= fuel -> cursor <= length buf ->
  exists buf' len err rest, buffer_read fuel buf cursor s = MkRead buf' len err rest /\
    length buf' = length buf /\ len <= length buf.
Proof.
  assert (FULL : forall s fuel buf, 1 <= fuel -> exists buf' len err rest,
    buffer_read fuel buf (length buf) s = MkRead buf' len err rest /\
    length buf' = length buf /\ len <= length buf).
  { intros s0 [|fuel] buf Hf; [lia|]. cbn [buffer_read]. rewrite Nat.leb_refl.
    destruct (r_read s0 (length buf)) as [[c e] s'].
    destruct e as [[|]|]; do 4 eexists; (split; [reflexivity|rewrite copy_length; lia]). }
  induction s as [|[c e] s IH]; intros fuel buf cursor Hf Hc.
  - destruct (Nat.eq_dec cursor (length buf)) as [->|N]; [apply FULL; lia|].
    destruct fuel as [|fuel]; [cbn [length] in Hf; lia|]. cbn [buffer_read].
    destruct (Nat.leb_spec (length buf) cursor); [lia|]. cbn [r_read].
    do 4 eexists; split; [reflexivity|].
    rewrite app_length, copy_length, firstn_length, skipn_length. cbn [length]. lia.
  - destruct (Nat.eq_dec cursor (length buf)) as [->|N]; [apply FULL; lia|].
    destruct fuel as [|fuel]; [cbn [length] in Hf; lia|]. cbn [length] in Hf. cbn [buffer_read].
    destruct (Nat.leb_spec (length buf) cursor); [lia|]. cbn [r_read].
    destruct (Nat.leb_spec (length c) (length buf - cursor)) as [L|L].
    + set (buf' := firstn cursor buf ++ copy (skipn cursor buf) c).
      assert (Lb : length buf' = length buf).
      { unfold buf'. rewrite app_length, copy_length, firstn_length, skipn_length. lia. }
      destruct e as [[|]|]; try (do 4 eexists; split; [reflexivity|lia]).
      destruct (IH fuel buf' (cursor + length c)) as (b2 & l2 & e2 & r2 & -> & H1 & H2); [lia|lia|].
      do 4 eexists; split; [reflexivity|lia].
    + set (buf' := firstn cursor buf ++ _).
      assert (Lb : length buf' = length buf).
      { unfold buf'. rewrite app_length, copy_length, firstn_length, skipn_length. lia. }
      replace (cursor + length (firstn (length buf - cursor) c)) with (length buf')
        by (rewrite firstn_length; lia).
      destruct (FULL ((skipn (length buf - cursor) c, e) :: s) fuel buf') as (b2 & l2 & e2 & r2 & -> & H1 & H2); [lia|].
      do 4 eexists; split; [reflexivity|lia].
Qed.

Lemma MsgRead_total fuel m s : length (m_ident m) = 8 -> length s + 2 <= fuel ->
  exists m' ok e rest, MsgRead fuel m s = Some (m', ok, e, rest) /\ length (m_ident m') = 8.
Proof.
  intros Hwf Hf. unfold MsgRead.
  destruct (buffer_read_total s fuel (m_buf m) 0 Hf (Nat.le_0_l _)) as (buf' & len & err & rest & -> & H1 & H2).
  destruct err as [e|]; [do 4 eexists; split; [reflexivity|exact Hwf]|].
  destruct (no_panic_parse (set_len len (set_buf buf' m))) as (m2 & ok2 & e2 & -> & W & _).
  { exact Hwf. }
  { cbn. lia. }
  do 4 eexists; split; [reflexivity|exact W].
Qed.

(* ---------- C02 ---------- *)
Lemma piece_nil b : piece [] b.
Proof. exists [], b. reflexivity. Qed.
Lemma piece_sub b o n : piece (sub b o n) b.
Proof.
  unfold sub. exists (firstn o b), (skipn n (skipn o b)). rewrite firstn_skipn. symmetry. apply firstn_skipn.
Qed.
Lemma piece_skipn b o : piece (skipn o b) b.
Proof. exists (firstn o b), []. rewrite app_nil_r. symmetry. apply firstn_skipn. Qed.

Lemma dec_pieces b ok e o : dec b = (ok, e, o) -> pieces_of o b.
Proof.
  unfold dec. destruct (dec_switch (at_ b 0)) as [[d en]|] eqn:E.
  2:{ intros H; injection H as <- <- <-. unfold pieces_of; cbn. auto using piece_nil. }
  apply dec_switch_inv in E. unfold table in E. cbn [In] in E.
  destruct (d b) as [f e'] eqn:Ed. intros H; injection H as <- <- <-.
  unfold pieces_of, obs_of; cbn [o_ident o_identB o_name o_pld o_sub].
  assert (G : (f_ident f = repeat x00 8 \/ piece (f_ident f) b) /\ piece (f_identB f) b /\ piece (f_name f) b /\
    piece (f_pld f) b /\ piece (f_sub f) b); [|exact G].
  repeat (destruct E as [E|E]; [injection E as _ <- _|]); try contradiction;
  unfold dec_one, dec_conf, dec_err, dec_created, dec_close, dec_signal, dec_signal16, dec_request,
    dec_request16, dec_reply, dec_reply16, dec_restore, dec_special in Ed; cbv zeta in Ed;
  repeat match type of Ed with (if ?c then _ else _) = _ => destruct c end;
  apply (f_equal fst) in Ed; cbn [fst] in Ed; subst f; cbn [f_ident f_identB f_name f_pld f_sub F0 Fid Fpl Fnp Finp Fconf];
  (split; [try (left; reflexivity); right; apply piece_sub|]); auto 6 using piece_nil, piece_sub, piece_skipn.
Qed.

Lemma same_obs m1 m2 b : blank m1 -> blank m2 -> 1 <= length b ->
  length b <= length (m_buf m1) -> length b <= length (m_buf m2) ->
  exists m1' m2' ok e, ReadBytes m1 b = Some (m1', ok, e) /\ ReadBytes m2 b = Some (m2', ok, e) /\
    observe m1' = observe m2' /\ pieces_of (observe m1') b.
Proof.
  intros B1 B2 L L1 L2. destruct (dec b) as [[ok e] o] eqn:D.
  destruct (ReadBytes_dec m1 b ok e o L L1 B1 D) as (m1' & R1 & O1 & _).
  destruct (ReadBytes_dec m2 b ok e o L L2 B2 D) as (m2' & R2 & O2 & _).
  exists m1', m2', ok, e. repeat split; try assumption; try congruence;
  rewrite O1; apply (dec_pieces _ _ _ _ D).
Qed.

(* ---------- C03 ---------- *)
Lemma ReadBytes_spec m b : blank m ->
  exists m' ok e, ReadBytes m b = Some (m', ok, e) /\
    (ok = true /\ e = None <-> length b <= length (m_buf m) /\ exists c, frame b c) /\
    (b = [] -> m' = m /\ ok = false /\ e = None) /\
    (length (m_buf m) < length b -> m' = m /\ ok = false /\ e = Some POverflow) /\
    (1 <= length b <= length (m_buf m) -> (ok = true <-> In (b2N (nth 0 b x00)) known_types)) /\
    (forall c, length b <= length (m_buf m) -> frame b c -> shows (observe m') c).
Proof.
  intros B. destruct (Nat.ltb_spec (length b) 1) as [L1|L1].
  { destruct b; [|cbn in L1; lia]. exists m, false, None. split; [reflexivity|].
    split; [|split; [auto|split; [cbn; lia|split; [cbn; lia|intros c _ F; inversion F]]]].
    split; [intros [? _]; discriminate|]. intros [_ [c F]]. inversion F. }
  destruct (Nat.ltb_spec (length (m_buf m)) (length b)) as [L2|L2].
  { exists m, false, (Some POverflow). unfold ReadBytes.
    rewrite (proj2 (Nat.ltb_ge _ _) L1), (proj2 (Nat.ltb_lt _ _) L2). split; [reflexivity|].
    split; [|split; [intros ->; cbn in L1; lia|split; [auto|split; [lia|intros; lia]]]].
    split; [intros [? _]; discriminate|lia]. }
  destruct (ReadBytes_frame m b B (conj L1 L2)) as (m' & ok & e & R & K & A & S).
  exists m', ok, e. split; [exact R|]. split; [rewrite A; intuition|].
  split; [intros ->; cbn in L1; lia|]. split; [lia|]. split; auto.
Qed.

(* ---------- C04 .. C10 ---------- *)
Lemma signal_roundtrip name e p safe :
  valid_signal name e p safe -> name ++ p <> [] -> (e = 2%Z -> p <> []) ->
  exists b, WriteMsgSignal sink_writer empty_sink name e p safe = Some (MkSink b 1, None) /\
    reads_as b (MkContent (sig_tag (enc_of e)) no_ident name p (enc_of e) None).
Proof.
  intros V H1 H2. exists (signal_frame name e p). split; [apply writes_sink_signal; assumption|].
  apply frame_reads. eapply signal_in_grammar; eassumption.
Qed.

Lemma sink_ok chunks s : exists e, write_seq sink_writer chunks s = Some (MkSink (s_bytes s ++ concat chunks) (S (s_closed s)), e) /\ e = None.
Proof. rewrite write_seq_sink. eauto. Qed.

Lemma request_roundtrip i name e p safe :
  length i = 8 -> valid_request name e p safe ->
  exists b, WriteMsgRequest sink_writer empty_sink i name e p safe = Some (MkSink b 1, None) /\
    reads_as b (MkContent (req_tag (enc_of e)) i name p (enc_of e) None).
Proof.
  intros L V. exists (request_frame i name e p). split.
  - rewrite request_seq by assumption. rewrite write_seq_sink, concat_request. reflexivity.
  - apply frame_reads. eapply request_in_grammar; eassumption.
Qed.
Lemma reply_roundtrip i e p :
  length i = 8 -> utf16_ok e p ->
  exists b, WriteMsgReply sink_writer empty_sink i e p = Some (MkSink b 1, None) /\
    reads_as b (MkContent (rep_tag (enc_of e)) i [] p (enc_of e) None).
Proof.
  intros L V. exists (reply_frame i e p). split.
  - rewrite reply_seq by assumption. rewrite write_seq_sink, concat_reply. reflexivity.
  - apply frame_reads. eapply reply_in_grammar; eassumption.
Qed.
Lemma error_roundtrip i c msg safe :
  length i = 8 -> 1 <= length c <= 255 -> valid_code c safe ->
  exists b, WriteMsgReplyError sink_writer empty_sink i c msg safe = Some (MkSink b 1, None) /\
    reads_as b (MkContent 0 i c msg EU8 None).
Proof.
  intros L LC V. exists (error_frame i c msg). split.
  - rewrite error_seq by (assumption || lia). rewrite write_seq_sink, concat_error. reflexivity.
  - apply frame_reads. apply error_in_grammar; assumption.
Qed.
(* every error reply is presented as binary *)
Lemma error_encoding b m c m' ok e : blank m -> length b <= length (m_buf m) ->
  frame b c -> k_type c = 0%N -> ReadBytes m b = Some (m', ok, e) -> m_enc m' = Binary.
Proof.
  intros B L F K R.
  assert (L1 : 1 <= length b) by (destruct F; cbn [length]; lia).
  destruct (dec b) as [[ok' e'] o] eqn:D.
  destruct (ReadBytes_dec m b ok' e' o L1 L B D) as (m1 & R1 & O1 & _).
  rewrite R in R1. injection R1 as <- <- <-.
  change (m_enc m') with (o_enc (observe m')). rewrite O1.
  inversion F; subst; cbn [k_type] in K; try discriminate; try (destruct e0; discriminate); try (subst; lia).
  unfold dec in D. rewrite at_0 in D.
  assert (E : dec_switch (n2b 0) = Some (dec_err, Binary)) by reflexivity. rewrite E in D.
  destruct (dec_err _) as [f x]. apply (f_equal snd) in D. cbn [snd] in D. rewrite <- D. reflexivity.
Qed.

Lemma special_roundtrip t i : (1 <= t <= 5)%N -> length i = 8 ->
  exists b, WriteMsgSpecialRequestReply sink_writer empty_sink (n2b t) i = Some (MkSink b 1, None) /\
    reads_as b (MkContent t i [] [] EBin None).
Proof.
  intros T L. exists (n2b t :: i). split.
  - assert (t = 1 \/ t = 2 \/ t = 3 \/ t = 4 \/ t = 5)%N as [->|[->|[->|[->| ->]]]] by lia; reflexivity.
  - apply frame_reads. rewrite <- (app_nil_r i) at 1. apply F_special; assumption.
Qed.
Lemma nameless_roundtrip i key : length i = 8 -> key <> [] ->
  exists b, WriteMsgNamelessRequest sink_writer empty_sink (n2b 32) i key = Some (MkSink b 1, None) /\
    reads_as b (MkContent 32 i [] key EBin None).
Proof.
  intros L K. exists (n2b 32 :: i ++ key). split.
  - destruct key; [congruence|]. reflexivity.
  - apply frame_reads, F_restore; assumption.
Qed.
Lemma close_roundtrip i : length i = 8 ->
  exists b, WriteMsgNamelessRequest sink_writer empty_sink (n2b 31) i [] = Some (MkSink b 1, None) /\
    reads_as b (MkContent 31 i [] [] EBin None).
Proof.
  intros L. exists (n2b 31 :: i). split; [reflexivity|]. apply frame_reads, F_close_session; assumption.
Qed.
Lemma created_roundtrip info : info <> [] ->
  exists b, WriteMsgNotifySessionCreated sink_writer empty_sink info = Some (MkSink b 1, None) /\
    reads_as b (MkContent 21 no_ident [] info EBin None).
Proof.
  intros L. exists (n2b 21 :: info). split; [reflexivity|]. apply frame_reads, F_created; assumption.
Qed.
Lemma closed_roundtrip :
  exists b, WriteMsgNotifySessionClosed sink_writer empty_sink = Some (MkSink b 1, None) /\
    reads_as b (MkContent 22 no_ident [] [] EBin None).
Proof. exists [n2b 22]. split; [reflexivity|]. apply frame_reads, F_closed. Qed.
Lemma heartbeat_roundtrip :
  exists b, WriteMsgHeartbeat sink_writer empty_sink = Some (MkSink b 1, None) /\
    reads_as b (MkContent 33 no_ident [] [] EBin None).
Proof. exists [n2b 33]. split; [reflexivity|]. apply frame_reads, F_heartbeat. Qed.

Lemma conf_roundtrip major minor t s sub : (s < 2 ^ 32)%N ->
  (NewAcceptConfMessage major minor t s sub = None <-> (Z.quot t 1000000 < 0 \/ 2 ^ 32 <= Z.quot t 1000000)%Z) /\
  (forall b, NewAcceptConfMessage major minor t s sub = Some b ->
     length b = 11 + length sub /\
     reads_as b (MkContent 23 no_ident [] [] EBin
       (Some (MkWConf (b2N major) (b2N minor) (Z.to_N (Z.quot t 1000000)) s sub)))).
Proof.
  intros S. split.
  - rewrite conf_message.
    destruct (Z.leb_spec 0 (Z.quot t 1000000)), (Z.ltb_spec (Z.quot t 1000000) (2 ^ 32)); cbn [andb];
      split; intros H'; try discriminate; try reflexivity; try (left; assumption); try (right; assumption);
      destruct H'; exfalso; try (eapply Z.lt_irrefl, Z.lt_le_trans; eassumption);
      eapply Z.lt_irrefl, Z.le_lt_trans; eassumption.
  - intros b H. split.
    + rewrite conf_message in H. destruct (_ && _); [|discriminate].
      apply (f_equal (fun o => match o with Some x => length x | None => 0 end)) in H. rewrite <- H.
      cbn [length]. rewrite !app_length, !le_put_length. lia.
    + apply frame_reads, conf_in_grammar; assumption.
Qed.

(* ---------- C05 ---------- *)
Lemma conn_signal_spec bufSize name e p :
  (name ++ p <> [] /\ (N.of_nat (CalcMsgLenSignal name e p) mod 2 ^ 32 <= bufSize)%N /\ valid_signal name e p true ->
   ConnSignal sink_writer (Some empty_sink) bufSize name e p = Some (Some (MkSink (signal_frame name e p) 1), None)) /\
  (~ (name ++ p <> [] /\ (N.of_nat (CalcMsgLenSignal name e p) mod 2 ^ 32 <= bufSize)%N /\ valid_signal name e p true) ->
   exists s err, ConnSignal sink_writer (Some empty_sink) bufSize name e p = Some (Some s, Some err) /\ s_bytes s = []).
Proof.
  unfold ConnSignal. split.
  - intros (H1 & H2 & H3). apply nil_app_len in H1.
    replace ((length name <? 1) && (length p <? 1)) with false by lia.
    replace (bufSize <? _)%N with false by lia.
    rewrite writes_sink_signal by assumption. reflexivity.
  - intros H. destruct ((length name <? 1) && (length p <? 1)) eqn:E1; [do 2 eexists; split; reflexivity|].
    destruct (bufSize <? _)%N eqn:E2; [do 2 eexists; split; reflexivity|].
    rewrite signal_rej; [do 2 eexists; split; reflexivity|].
    intros V. apply H. split; [|split; [lia|exact V]].
    destruct name, p; cbn in E1; try discriminate; intros C; discriminate.
Qed.
(* which error, and what happens to the writer, whatever the writer does *)
Lemma conn_signal_calls fails bufSize name e p :
  (name ++ p = [] -> forall gw, ConnSignal (log_writer fails) gw bufSize name e p = Some (gw, Some SProtocol)) /\
  (name ++ p <> [] ->
   ((bufSize < N.of_nat (length (signal_frame name e p)) mod 2 ^ 32)%N -> forall gw,
    ConnSignal (log_writer fails) gw bufSize name e p = Some (gw, Some SOverflow)) /\
   ((N.of_nat (length (signal_frame name e p)) mod 2 ^ 32 <= bufSize)%N ->
    ConnSignal (log_writer fails) None bufSize name e p = Some (None, Some SNoWriter) /\
    (valid_signal name e p true -> exists chunks, concat chunks = signal_frame name e p /\ forall calls,
     ConnSignal (log_writer fails) (Some calls) bufSize name e p =
       Some (Some (calls ++ fst (run_calls fails (length calls) chunks)), option_map SWrite (run_error fails (length calls) chunks))) /\
    (~ valid_signal name e p true -> forall calls,
     ConnSignal (log_writer fails) (Some calls) bufSize name e p =
       Some (Some (calls ++ [CClose]), Some (SWrite (if fails (length calls) then WInvalidClose else WInvalid)))))).
Proof.
  unfold ConnSignal. rewrite len_signal. split.
  - intros H. apply app_eq_nil in H as [-> ->]. reflexivity.
  - intros H1. apply nil_app_len in H1. replace ((length name <? 1) && (length p <? 1)) with false by lia. split.
    + intros H2 gw. replace (bufSize <? _)%N with true by lia. reflexivity.
    + intros H2. replace (bufSize <? _)%N with false by lia. split; [reflexivity|]. split.
      * intros V. destruct (signal_writes _ _ _ _ V) as (chunks & C & W). exists chunks. split; [exact C|]. intros calls.
        destruct (W fails calls) as (er & Q & _ & ->). rewrite Q. reflexivity.
      * intros V calls. destruct (signal_rejects _ _ _ _ V fails calls) as (er & Q & ->). rewrite Q. reflexivity.
Qed.

Lemma conn_signal_delivered bufSize name e p s :
  ConnSignal sink_writer (Some empty_sink) bufSize name e p = Some (Some s, None) ->
  (e = 2%Z -> p <> []) ->
  s_closed s = 1 /\ reads_as (s_bytes s) (MkContent (sig_tag (enc_of e)) no_ident name p (enc_of e) None) /\
  ((N.of_nat (length (s_bytes s)) < 2 ^ 32)%N -> (N.of_nat (length (s_bytes s)) <= bufSize)%N).
Proof.
  intros H He. destruct (conn_signal_spec bufSize name e p) as [A B].
  assert (D : (name ++ p <> [] /\ (N.of_nat (CalcMsgLenSignal name e p) mod 2 ^ 32 <= bufSize)%N /\ valid_signal name e p true)
    \/ ~ (name ++ p <> [] /\ (N.of_nat (CalcMsgLenSignal name e p) mod 2 ^ 32 <= bufSize)%N /\ valid_signal name e p true)).
  { unfold ConnSignal in H. destruct ((length name <? 1) && (length p <? 1)) eqn:E1; [discriminate|].
    destruct (bufSize <? _)%N eqn:E2; [discriminate|]. unfold WriteMsgSignal in H.
    destruct (255 <? length name) eqn:E3; [discriminate|].
    destruct ((e =? Utf16)%Z && negb (length p mod 2 =? 0)) eqn:E4; [discriminate|].
    destruct (true && existsb bad_char name) eqn:E5; [discriminate|].
    left. split; [|split; [lia|split; [lia|split]]].
    - destruct name, p; cbn in E1; try discriminate; intros C; discriminate.
    - apply utf16_check. exact E4.
    - intros _. apply bad_chars. exact E5. }
  destruct D as [D|D].
  - specialize (A D). rewrite A in H. injection H as <-. cbn [s_bytes s_closed]. split; [reflexivity|].
    destruct D as (D1 & D2 & D3). split.
    + apply frame_reads. eapply signal_in_grammar; eassumption.
    + rewrite len_signal. intros. lia.
  - destruct (B D) as (s' & err & E & _). rewrite E in H. discriminate.
Qed.

(* UTF-16 signal without payload: accepted by Connection.Signal, refused by every reader *)
Lemma not_frame_dec b o e : dec b = (true, Some e, o) -> forall c, ~ frame b c.
Proof. intros D c F. destruct (frame_complete _ _ F) as (o' & D' & _). rewrite D in D'. discriminate. Qed.
Lemma nameonly_unreadable name : length name <= 255 ->
  forall c, ~ frame (signal_frame name 2%Z []) c.
Proof.
  intros L. destruct (dec (signal_frame name 2%Z [])) as [[ok e] o] eqn:D.
  assert (D' := D). unfold signal_frame in D. rewrite (dec_tag 65 dec_signal16 Utf16) in D.
  2:{ unfold table. repeat (first [left; reflexivity | right]). }
  unfold dec_signal16 in D. change (at_ (n2b 65 :: flag name :: name ++ pad_of 2%Z name ++ []) 1) with (flag name) in D.
  rewrite flag_val in D by assumption. cbv zeta in D. rewrite app_nil_r in D.
  assert (LL : length (n2b 65 :: flag name :: name ++ pad_of 2%Z name) = 2 + length name + length name mod 2).
  { cbn [length]. rewrite app_length, pad_of_length. cbn [Z.eqb Pos.eqb]. lia. }
  rewrite LL in D.
  assert (exists x, e = Some x /\ ok = true) as (x & -> & ->).
  { destruct (2 + length name + length name mod 2 <? 4) eqn:E1.
    { injection D as <- <- _. eauto. }
    destruct (negb _) eqn:E2; [injection D as <- <- _; eauto|].
    replace (2 + length name + length name mod 2 <? 4 + length name + length name mod 2) with true in D by lia.
    injection D as <- <- _. eauto. }
  exact (not_frame_dec _ _ _ D').
Qed.
Lemma conn_signal_unreadable name bufSize m :
  name <> [] -> length name <= 255 -> printable name -> (258 <= bufSize)%N ->
  blank m -> 258 <= length (m_buf m) ->
  exists s m' ok e, ConnSignal sink_writer (Some empty_sink) bufSize name 2%Z [] = Some (Some s, None) /\
    ReadBytes m (s_bytes s) = Some (m', ok, e) /\ (ok = false \/ e <> None).
Proof.
  intros N L P B Hb Hm. destruct (conn_signal_spec bufSize name 2%Z []) as [A _].
  exists (MkSink (signal_frame name 2%Z []) 1).
  assert (LL : length (signal_frame name 2%Z []) <= 258 /\ 1 <= length (signal_frame name 2%Z [])).
  { rewrite len_signal. unfold CalcMsgLenSignal. destruct (_ && _); cbn [length]; lia. }
  destruct (frame_rejected (signal_frame name 2%Z []) m Hb) as (m' & ok & e & R & X).
  - lia.
  - apply nameonly_unreadable; assumption.
  - exists m', ok, e. split; [|split; assumption]. apply A. split; [rewrite app_nil_r; assumption|].
    split; [rewrite <- len_signal; lia|]. split; [assumption|]. split; [|auto].
    intros _. reflexivity.
Qed.

(* ---------- C11, C13 ---------- *)
Lemma request_accepts i name e p :
  (exists s, WriteMsgRequest sink_writer empty_sink i name e p true = Some (s, None)) <-> valid_request name e p true.
Proof.
  split.
  - intros [s H]. unfold WriteMsgRequest in H.
    destruct (_ && _) eqn:E1; [discriminate|].
    destruct (255 <? length name) eqn:E3; [discriminate|].
    destruct ((e =? Utf16)%Z && negb (length p mod 2 =? 0)) eqn:E4; [discriminate|].
    destruct (true && existsb bad_char name) eqn:E5; [discriminate|].
    split; [|split; [lia|split]].
    + destruct name, p; cbn in E1; try discriminate; intros C; discriminate.
    + apply utf16_check. exact E4.
    + intros _. apply bad_chars. exact E5.
  - intros V. rewrite request_seq by assumption. rewrite write_seq_sink. eauto.
Qed.
Lemma signal_accepts name e p :
  (exists s, WriteMsgSignal sink_writer empty_sink name e p true = Some (s, None)) <-> valid_signal name e p true.
Proof.
  split.
  - intros [s H]. unfold WriteMsgSignal in H.
    destruct (255 <? length name) eqn:E3; [discriminate|].
    destruct ((e =? Utf16)%Z && negb (length p mod 2 =? 0)) eqn:E4; [discriminate|].
    destruct (true && existsb bad_char name) eqn:E5; [discriminate|].
    split; [lia|split].
    + apply utf16_check. exact E4.
    + intros _. apply bad_chars. exact E5.
  - intros V. rewrite signal_seq by assumption. rewrite write_seq_sink. eauto.
Qed.
Lemma reply_accepts i e p :
  (exists s, WriteMsgReply sink_writer empty_sink i e p = Some (s, None)) <-> utf16_ok e p.
Proof.
  split.
  - intros [s H]. unfold WriteMsgReply in H.
    destruct ((e =? Utf16)%Z && negb (length p mod 2 =? 0)) eqn:E4; [discriminate|].
    apply utf16_check. exact E4.
  - intros V. rewrite reply_seq by assumption. rewrite write_seq_sink. eauto.
Qed.
Lemma error_accepts i c msg :
  (exists s, WriteMsgReplyError sink_writer empty_sink i c msg true = Some (s, None)) <->
  1 <= length c <= 255 /\ printable c.
Proof.
  split.
  - intros [s H]. unfold WriteMsgReplyError in H. cbn [andb] in H.
    destruct (length c <? 1) eqn:E3; [discriminate|].
    destruct (255 <? length c) eqn:E4; [discriminate|].
    destruct (existsb bad_char c) eqn:E5; [discriminate|].
    split; [lia|]. apply bad_chars. exact E5.
  - intros [V1 V2]. rewrite error_seq; [|lia|intros _; auto]. rewrite write_seq_sink. eauto.
Qed.

(* ---------- C14 ---------- *)
Lemma history p h k p' a b m :
  pool_reach p h -> Get p k = (p', a) -> nth_error (p_heap p') a = Some m ->
  1 <= length b <= p_size p ->
  exists m1 m2 ok e, ReadBytes m b = Some (m1, ok, e) /\
    ReadBytes (NewMessage (p_size p)) b = Some (m2, ok, e) /\ observe m1 = observe m2.
Proof.
  intros R G Hm [L1 L2]. destruct (pool_get_spec _ _ _ _ _ R G) as (_ & m' & Hm' & B & Lb).
  rewrite Hm in Hm'. injection Hm' as <-.
  destruct (same_obs m (NewMessage (p_size p)) b) as (m1 & m2 & ok & e & R1 & R2 & O & _).
  - exact B.
  - apply NewMessage_blank.
  - exact L1.
  - lia.
  - cbn. rewrite repeat_length. exact L2.
  - exists m1, m2, ok, e. auto.
Qed.
(* re-reading after Close *)
Lemma close_reread m m1 b : MsgClose m = Some (m1, true) -> 1 <= length b <= length (m_buf m) ->
  exists r1 r2 ok e, ReadBytes m1 b = Some (r1, ok, e) /\
    ReadBytes (NewMessage (length (m_buf m))) b = Some (r2, ok, e) /\ observe r1 = observe r2.
Proof.
  intros C [L1 L2]. pose proof (MsgClose_blank _ _ _ C eq_refl) as B.
  assert (Lm : length (m_buf m1) = length (m_buf m)).
  { unfold MsgClose in C. destruct (IsEmpty m); [discriminate|]. cbn in C.
    destruct (m_pooled m); [|discriminate]. injection C as <-. reflexivity. }
  destruct (same_obs m1 (NewMessage (length (m_buf m))) b) as (r1 & r2 & ok & e & R1 & R2 & O & _).
  - exact B.
  - apply NewMessage_blank.
  - exact L1.
  - lia.
  - cbn. rewrite repeat_length. exact L2.
  - exists r1, r2, ok, e. auto.
Qed.

(* ---------- C15 ---------- *)
Lemma read_chunks m s fuel d rest :
  length s + 2 <= fuel -> blank m -> stream s = (d, REof, rest) -> d <> [] ->
  length d <= length (m_buf m) -> (length d < length (m_buf m) \/ polite s) ->
  exists m1 m2 ok e, ReadBytes m d = Some (m1, ok, e) /\ MsgRead fuel m s = Some (m2, ok, e, rest) /\
    observe m1 = observe m2.
Proof.
  intros F B S D L P. apply nonnil_len in D. destruct (dec d) as [[ok e] o] eqn:E.
  destruct (ReadBytes_dec m d ok e o D L B E) as (m1 & R1 & O1 & _).
  destruct (MsgRead_fits m s fuel d rest ok e o F B S L P D E) as (m2 & R2 & O2).
  exists m1, m2, ok, e. repeat split; try assumption. congruence.
Qed.

Definition ex_id : bytes := map n2b [1; 2; 3; 4; 5; 6; 7; 8]%N.
Definition ex_abc : bytes := map n2b [97; 98; 99]%N.
Lemma unclosed_reuse : exists m1 m2 m3,
  ReadBytes (NewMessage 64) (n2b 191 :: ex_id ++ ex_abc) = Some (m1, true, None) /\
  ReadBytes m1 (n2b 191 :: ex_id) = Some (m2, true, None) /\
  ReadBytes (NewMessage 64) (n2b 191 :: ex_id) = Some (m3, true, None) /\
  acc_Payload m2 = Some ex_abc /\ acc_Payload m3 = Some [].
Proof. do 3 eexists. repeat (split; [vm_compute; reflexivity|]). reflexivity. Qed.

Lemma overflow_accepted : exists m s d, blank m /\ stream s = (d, REof, []) /\ polite s /\
  length (m_buf m) < length d /\
  exists m', MsgRead (length s + 2) m s = Some (m', true, None, []) /\
  acc_Payload m' <> Some (firstn 3 (skipn 9 d)).
Proof.
  exists (NewMessage 12), [(n2b 191 :: ex_id ++ ex_abc, None); (n2b 192 :: ex_id ++ rev ex_abc, Some REof)].
  eexists. split; [apply NewMessage_blank|]. split; [reflexivity|]. split; [cbn; split; [discriminate|auto]|].
  split; [cbn; lia|]. eexists. split; [vm_compute; reflexivity|]. vm_compute. discriminate.
Qed.

Lemma double_close : exists p1 p2 p3 p4 p5 p6 p7 r1 r2,
  Get (NewSyncPool 32) None = (p1, 0) /\ pool_read p1 0 r1 = Some (p2, true, None) /\
  pool_close p2 0 = Some p3 /\ Get p3 (Some 0) = (p4, 0) /\ pool_read p4 0 r2 = Some (p5, true, None) /\
  pool_close p5 0 = Some p6 /\ Get p6 (Some 0) = (p7, 0).
Proof.
  do 7 eexists. exists (n2b 191 :: ex_id ++ ex_abc), (n2b 191 :: ex_id).
  repeat (split; [vm_compute; reflexivity|]). reflexivity.
Qed.

Lemma astral : exists text, Forall scalar text /\ Payload_Utf8 2%Z (utf16le text) <> Some (utf8 text).
Proof.
  exists [0x1F600%N]. split; [constructor; [unfold scalar; right; lia|constructor]|]. vm_compute. discriminate.
Qed.

(* ---------- C12 ---------- *)
Lemma signal_length name e p safe b :
  WriteMsgSignal sink_writer empty_sink name e p safe = Some (MkSink b 1, None) ->
  length b = CalcMsgLenSignal name e p.
Proof.
  intros H. assert (V : valid_signal name e p safe).
  { unfold WriteMsgSignal in H.
    destruct (255 <? length name) eqn:E3; [discriminate|].
    destruct ((e =? Utf16)%Z && negb (length p mod 2 =? 0)) eqn:E4; [discriminate|].
    destruct (safe && existsb bad_char name) eqn:E5; [discriminate|].
    split; [lia|split].
    - apply utf16_check. exact E4.
    - intros ->. apply bad_chars. exact E5. }
  rewrite writes_sink_signal in H by assumption. injection H as <-. apply len_signal.
Qed.
Lemma request_length i name e p safe b : length i = 8 ->
  WriteMsgRequest sink_writer empty_sink i name e p safe = Some (MkSink b 1, None) ->
  length b = CalcMsgLenRequest name e p.
Proof.
  intros L H. assert (V : valid_request name e p safe).
  { unfold WriteMsgRequest in H.
    destruct ((length name <? 1) && (length p <? 1)) eqn:E1; [discriminate|].
    destruct (255 <? length name) eqn:E3; [discriminate|].
    destruct ((e =? Utf16)%Z && negb (length p mod 2 =? 0)) eqn:E4; [discriminate|].
    destruct (safe && existsb bad_char name) eqn:E5; [discriminate|].
    split; [|split; [lia|split]].
    - destruct name, p; cbn in E1; try discriminate; intros C; discriminate.
    - apply utf16_check. exact E4.
    - intros ->. apply bad_chars. exact E5. }
  rewrite request_seq in H by assumption. rewrite write_seq_sink, concat_request in H.
  cbn [s_bytes empty_sink app s_closed] in H.
  assert (b = request_frame i name e p) as -> by congruence.
  apply len_request, L.
Qed.
