(* Proofs about the reply functions *)
From Coq Require Import List Arith NArith ZArith Lia Bool.
From Verif Require Import BaseBytes ModelMessage ModelWrite ModelHandle.
From Verif Require Import SpecWire SpecMessage SpecWrite SpecHandle.
From Verif Require Import ProofMessage ProofWire ProofWrite ProofCodec.
Import ListNotations.
Open Scope nat_scope.

Lemma frame_ident b c : frame b c -> has_ident (k_type c) = true -> length (k_ident c) = 8.
Proof. intros F. destruct F; cbn; intros Hi; try reflexivity; try assumption; discriminate Hi. Qed.

Lemma beq_n2b t k : (k < 256)%N -> beq t (n2b k) = (b2N t =? k)%N.
Proof.
  intros L. destruct (beq_spec t (n2b k)) as [->|N].
  - rewrite b2N_n2b_small by exact L. symmetry. apply N.eqb_refl.
  - symmetry. apply N.eqb_neq. intros E. apply N. rewrite <- E. symmetry. apply n2b_b2N.
Qed.

Lemma received_type m b c : received m b c -> b2N (m_type m) = k_type c.
Proof.
  intros (m0 & Bl & L & F & R).
  destruct (ReadBytes_spec m0 b Bl) as (m' & ok & e & R' & _ & _ & _ & _ & S).
  rewrite R in R'. injection R' as <- <- <-. destruct (S c L F) as (T & _). exact T.
Qed.

Lemma received_ident m b c : received m b c -> has_ident (k_type c) = true ->
  ident_of m = k_ident c /\ length (ident_of m) = 8.
Proof.
  intros (m0 & Bl & L & F & R) Hi.
  destruct (ReadBytes_spec m0 b Bl) as (m' & ok & e & R' & _ & _ & _ & _ & S).
  rewrite R in R'. injection R' as <- <- <-. destruct (S c L F) as (_ & _ & I & _).
  pose proof (frame_ident b c F Hi) as L8. rewrite Hi in I.
  assert (ident_of m = k_ident c) as E.
  { unfold observe, ident_bytes in I. cbn [o_identB] in I. unfold ident_of.
    destruct (m_identB m); cbn [g_get] in *; try assumption; rewrite <- I in L8; discriminate L8. }
  split; [exact E|]. rewrite E. exact L8.
Qed.

Lemma wants_has_ident t : wants_reply t -> has_ident t = true.
Proof.
  unfold wants_reply, app_request. intros H.
  assert (t = 127 \/ t = 128 \/ t = 129 \/ t = 31 \/ t = 32)%N as D by lia.
  destruct D as [->|[->|[->|[->| ->]]]]; reflexivity.
Qed.

Lemma RequiresReply_type m : RequiresReply m = true <-> wants_reply (b2N (m_type m)).
Proof.
  unfold RequiresReply, wants_reply, app_request,
    MsgRequestCloseSession, MsgRequestRestoreSession, MsgRequestBinary, MsgRequestUtf8, MsgRequestUtf16.
  rewrite !beq_n2b by lia. rewrite !orb_true_iff, !N.eqb_eq. lia.
Qed.

Lemma writes_ext f g b : (forall W ops w, f W ops w = g W ops w) -> writes g b -> writes f b.
Proof.
  intros E (ch & C & H). exists ch. split; [exact C|]. intros fails log0. rewrite E. apply H.
Qed.
Lemma rejects_ext f g : (forall W ops w, f W ops w = g W ops w) -> rejects g -> rejects f.
Proof. intros E H fails log0. rewrite E. apply H. Qed.

(* a reply function that is a WriteMsg* call on the writer it gets *)
Lemma sends_of (f : forall W, writer_ops W -> option W -> option (sent W)) g c :
  (forall W ops w, f W ops (Some w) = used (g W ops w)) ->
  (forall W ops, f W ops None = Some NoWriter) ->
  (exists b, writes g b /\ g _ sink_writer empty_sink = Some (MkSink b 1, None) /\ reads_as b c) ->
  sends f c.
Proof.
  intros E N (b & Wr & S & R). split; [|exact N]. exists b. split; [|split].
  - eapply writes_ext; [|exact Wr]. intros W ops w. unfold on_writer. rewrite E.
    destruct (g W ops w) as [[? ?]|]; reflexivity.
  - exact R.
  - rewrite E, S. reflexivity.
Qed.
Lemma nothing_of (f : forall W, writer_ops W -> option W -> option (sent W)) g :
  (forall W ops w, f W ops (Some w) = used (g W ops w)) -> rejects g -> sends_nothing f.
Proof.
  intros E R. eapply rejects_ext; [|exact R]. intros W ops w. unfold on_writer. rewrite E.
  destruct (g W ops w) as [[? ?]|]; reflexivity.
Qed.

Lemma reply_ok i e p : length i = 8 -> utf16_ok e p ->
  exists b, writes (fun W ops w => WriteMsgReply ops w i e p) b /\
    WriteMsgReply sink_writer empty_sink i e p = Some (MkSink b 1, None) /\
    reads_as b (MkContent (rep_tag (enc_of e)) i [] p (enc_of e) None).
Proof.
  intros L U. exists (reply_frame i e p). split; [apply reply_writes, U|]. split.
  - rewrite (reply_seq _ _ _ _ _ U), write_seq_sink, concat_reply. reflexivity.
  - apply frame_reads, reply_in_grammar; assumption.
Qed.
Lemma error_ok i c m : length i = 8 -> valid_code c true ->
  exists b, writes (fun W ops w => WriteMsgReplyError ops w i c m true) b /\
    WriteMsgReplyError sink_writer empty_sink i c m true = Some (MkSink b 1, None) /\
    reads_as b (MkContent 0 i c m EU8 None).
Proof.
  intros L V. destruct (V eq_refl) as [LC _]. exists (error_frame i c m).
  split; [apply error_writes; [lia|exact V]|]. split.
  - rewrite (error_seq _ _ _ _ _ true) by (try lia; exact V). rewrite write_seq_sink, concat_error. reflexivity.
  - apply frame_reads, error_in_grammar; assumption.
Qed.
Lemma special_ok t i : (1 <= t <= 5)%N -> length i = 8 ->
  exists b, writes (fun W ops w => WriteMsgSpecialRequestReply ops w (n2b t) i) b /\
    WriteMsgSpecialRequestReply sink_writer empty_sink (n2b t) i = Some (MkSink b 1, None) /\
    reads_as b (special_content t i).
Proof.
  intros T L. exists (n2b t :: i). split; [apply special_writes, T|].
  assert (t = 1 \/ t = 2 \/ t = 3 \/ t = 4 \/ t = 5)%N as D by lia.
  split.
  - destruct D as [->|[->|[->|[->| ->]]]]; cbn; rewrite ?app_nil_r; reflexivity.
  - apply frame_reads. replace (n2b t :: i) with (n2b t :: i ++ []) by (now rewrite app_nil_r).
    apply F_special; assumption.
Qed.

Lemma app_wants t : app_request t -> wants_reply t. Proof. now left. Qed.

(* ---- failMsg ---- *)
Definition err_content (i : bytes) (e : goerr) : content :=
  match e with
  | EReq code text | EReqPtr (Some (code, text)) => MkContent 0 i code text EU8 None
  | EMaxSessConns => special_content 4 i
  | ESessNotFound => special_content 3 i
  | ESessDisabled => special_content 5 i
  | _ => special_content 2 i
  end.
Definition err_ok (e : goerr) : Prop :=
  match e with EReq code _ | EReqPtr (Some (code, _)) => valid_code code true | EReqPtr None => False | _ => True end.

Lemma failMsg_sends m b c e : received m b c -> wants_reply (k_type c) -> err_ok e ->
  sends (fun W ops gw => failMsg ops gw m e) (err_content (k_ident c) e).
Proof.
  intros R Wt Ok. destruct (received_ident m b c R (wants_has_ident _ Wt)) as [I L]. rewrite <- I.
  assert (RequiresReply m = true) as RR by (apply RequiresReply_type; rewrite (received_type m b c R); exact Wt).
  destruct e as [|code text|[[code text]|]| | | |text]; cbn [err_content err_ok] in *; try contradiction.
  1,4,5,6,7: (eapply sends_of; [intros W ops w; unfold failMsg; rewrite RR; cbn [negb]; reflexivity
    | intros W ops; unfold failMsg; rewrite RR; reflexivity
    | apply special_ok; [lia|exact L]]).
  all: (eapply sends_of; [intros W ops w; unfold failMsg; rewrite RR; cbn [negb]; reflexivity
    | intros W ops; unfold failMsg; rewrite RR; reflexivity | apply error_ok; [exact L|exact Ok]]).
Qed.
Lemma failMsg_silent m b c e : received m b c -> ~ wants_reply (k_type c) ->
  forall W ops gw, @failMsg W ops gw m e = Some NotAsked.
Proof.
  intros R N W ops gw. unfold failMsg. destruct (RequiresReply m) eqn:RR; [|reflexivity].
  exfalso. apply N. rewrite <- (received_type m b c R). apply RequiresReply_type, RR.
Qed.
Lemma failMsg_nothing m b c code text : received m b c -> wants_reply (k_type c) -> ~ valid_code code true ->
  sends_nothing (fun W ops gw => failMsg ops gw m (EReq code text)) /\
  sends_nothing (fun W ops gw => failMsg ops gw m (EReqPtr (Some (code, text)))).
Proof.
  intros R Wt V.
  assert (RequiresReply m = true) as RR by (apply RequiresReply_type; rewrite (received_type m b c R); exact Wt).
  split; (eapply nothing_of; [intros W ops w; unfold failMsg; rewrite RR; cbn [negb]; reflexivity
    | apply error_rejects, V]).
Qed.
Lemma failMsg_typed_nil m b c : received m b c -> wants_reply (k_type c) ->
  forall W ops w, @failMsg W ops (Some w) m (EReqPtr None) = None.
Proof.
  intros R Wt W ops w.
  assert (RequiresReply m = true) as RR by (apply RequiresReply_type; rewrite (received_type m b c R); exact Wt).
  unfold failMsg. rewrite RR. reflexivity.
Qed.

Lemma fulfillMsg_sends m b c p : received m b c -> wants_reply (k_type c) -> utf16_ok (fst p) (snd p) ->
  sends (fun W ops gw => fulfillMsg ops gw m p)
        (MkContent (rep_tag (enc_of (fst p))) (k_ident c) [] (snd p) (enc_of (fst p)) None).
Proof.
  intros R Wt U. destruct (received_ident m b c R (wants_has_ident _ Wt)) as [I L]. rewrite <- I.
  eapply sends_of; [reflexivity|reflexivity|]. apply reply_ok; assumption.
Qed.

(* ---- handleRequest ---- *)
Lemma handle_request_sends m b c r : received m b c -> app_request (k_type c) -> sendable r ->
  sends (fun W ops gw => handleRequest ops gw m r) (reply_content (k_ident c) r).
Proof.
  intros R A S. apply app_wants in A. destruct r as [p e].
  destruct e as [|code text|[[code text]|]| | | |text];
    unfold sendable, reply_content, handleRequest in *; cbn [fst snd] in *.
  - apply (fulfillMsg_sends m b c p R A S).
  - apply (failMsg_sends m b c (EReq code text) R A S).
  - apply (failMsg_sends m b c (EReqPtr (Some (code, text))) R A S).
  - contradiction.
  - apply (failMsg_sends m b c ENil R A I).
  - apply (failMsg_sends m b c ENil R A I).
  - apply (failMsg_sends m b c ENil R A I).
  - apply (failMsg_sends m b c ENil R A I).
Qed.

Lemma handle_request_unsendable m b c r : received m b c -> app_request (k_type c) -> ~ sendable r ->
  (snd r = EReqPtr None /\ forall W ops w, @handleRequest W ops (Some w) m r = None) \/
  (snd r <> EReqPtr None /\ sends_nothing (fun W ops gw => handleRequest ops gw m r)).
Proof.
  intros R A S. apply app_wants in A. destruct r as [p e].
  destruct e as [|code text|[[code text]|]| | | |text];
    unfold sendable, handleRequest in *; cbn [fst snd] in *; try (exfalso; apply S; exact I).
  - right. split; [discriminate|]. eapply nothing_of; [reflexivity|]. apply reply_rejects, S.
  - right. split; [discriminate|]. apply (failMsg_nothing m b c code text R A S).
  - right. split; [discriminate|]. apply (failMsg_nothing m b c code text R A S).
  - left. split; [reflexivity|]. apply (failMsg_typed_nil m b c R A).
Qed.

Lemma foreign_error m p1 p2 e1 e2 : 
  ~ (exists c t, e1 = EReq c t) -> ~ (exists q, e1 = EReqPtr q) -> e1 <> ENil ->
  ~ (exists c t, e2 = EReq c t) -> ~ (exists q, e2 = EReqPtr q) -> e2 <> ENil ->
  forall W ops gw, @handleRequest W ops gw m (p1, e1) = @handleRequest W ops gw m (p2, e2).
Proof.
  intros A1 B1 C1 A2 B2 C2 W ops gw.
  destruct e1; try (now exfalso; eauto); destruct e2; try (now exfalso; eauto); reflexivity.
Qed.

Lemma failMsgShutdown_sends m b c : received m b c -> wants_reply (k_type c) ->
  exists f, writes (on_writer (fun W ops gw => failMsgShutdown ops gw m)) f /\
    reads_as f (special_content 1 (k_ident c)) /\
    failMsgShutdown sink_writer (Some empty_sink) m = Some (Used (MkSink f 1) None).
Proof.
  intros R Wt. destruct (received_ident m b c R (wants_has_ident _ Wt)) as [I L]. rewrite <- I.
  destruct (special_ok 1 (ident_of m)) as (f & Wr & S & Rd); [lia|exact L|].
  exists f. split; [|split; [exact Rd|]].
  - eapply writes_ext; [|exact Wr]. intros W ops w. unfold on_writer, failMsgShutdown.
    change MsgReplyShutdown with (n2b 1). 
    destruct (WriteMsgSpecialRequestReply ops w (n2b 1) (ident_of m)) as [[? ?]|]; reflexivity.
  - unfold failMsgShutdown. change MsgReplyShutdown with (n2b 1). rewrite S. reflexivity.
Qed.

Lemma route_table t :
  route_of t = if (b2N t =? 33)%N then RtSkip
               else if ((63 <=? b2N t) && (b2N t <=? 65))%N then RtSignal
               else if ((127 <=? b2N t) && (b2N t <=? 129))%N then RtRequest
               else if (b2N t =? 32)%N then RtRestore
               else if (b2N t =? 31)%N then RtClosure else RtNone.
Proof.
  unfold route_of, MsgHeartbeat, MsgSignalBinary, MsgSignalUtf8, MsgSignalUtf16, MsgRequestBinary,
    MsgRequestUtf8, MsgRequestUtf16, MsgRequestRestoreSession, MsgRequestCloseSession.
  rewrite !beq_n2b by lia. 
  assert ((b2N t =? 63) || (b2N t =? 64) || (b2N t =? 65) = (63 <=? b2N t) && (b2N t <=? 65))%N as ->.
  { apply eq_true_iff_eq. rewrite !orb_true_iff, andb_true_iff, !N.eqb_eq, !N.leb_le. lia. }
  assert ((b2N t =? 127) || (b2N t =? 128) || (b2N t =? 129) = (127 <=? b2N t) && (b2N t <=? 129))%N as ->.
  { apply eq_true_iff_eq. rewrite !orb_true_iff, andb_true_iff, !N.eqb_eq, !N.leb_le. lia. }
  reflexivity.
Qed.

Lemma routing m b c : received m b c ->
  (route_of (m_type m) = RtSkip <-> k_type c = 33%N) /\
  (route_of (m_type m) = RtSignal <-> app_signal (k_type c)) /\
  (route_of (m_type m) = RtRequest <-> app_request (k_type c)) /\
  (route_of (m_type m) = RtRestore <-> k_type c = 32%N) /\
  (route_of (m_type m) = RtClosure <-> k_type c = 31%N).
Proof.
  intros R. rewrite route_table, (received_type m b c R). unfold app_signal, app_request.
  generalize (k_type c) as t. intros t.
  destruct (t =? 33)%N eqn:E33; [apply N.eqb_eq in E33; repeat split; try discriminate; lia|].
  apply N.eqb_neq in E33.
  destruct ((63 <=? t) && (t <=? 65))%N eqn:Es.
  { apply andb_true_iff in Es. rewrite !N.leb_le in Es. repeat split; try discriminate; lia. }
  apply andb_false_iff in Es. rewrite !N.leb_gt in Es.
  destruct ((127 <=? t) && (t <=? 129))%N eqn:Er.
  { apply andb_true_iff in Er. rewrite !N.leb_le in Er. repeat split; try discriminate; lia. }
  apply andb_false_iff in Er. rewrite !N.leb_gt in Er.
  destruct (t =? 32)%N eqn:E32; [apply N.eqb_eq in E32; repeat split; try discriminate; lia|].
  apply N.eqb_neq in E32.
  destruct (t =? 31)%N eqn:E31; [apply N.eqb_eq in E31|apply N.eqb_neq in E31]; repeat split; try discriminate; lia.
Qed.

Lemma error_replies m b c p code text other :
  received m b c -> app_request (k_type c) -> valid_code code true ->
  sends (fun W ops gw => handleRequest ops gw m (p, EOther other)) (MkContent 2 (k_ident c) [] [] EBin None) /\
  sends (fun W ops gw => handleRequest ops gw m (p, EReq code text)) (MkContent 0 (k_ident c) code text EU8 None) /\
  sends (fun W ops gw => handleRequest ops gw m (p, EReqPtr (Some (code, text))))
        (MkContent 0 (k_ident c) code text EU8 None).
Proof.
  intros R A V. split; [|split].
  - exact (handle_request_sends m b c (p, EOther other) R A I).
  - exact (handle_request_sends m b c (p, EReq code text) R A V).
  - exact (handle_request_sends m b c (p, EReqPtr (Some (code, text))) R A V).
Qed.
