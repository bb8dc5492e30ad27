(* Reading a frame into a message that was used before and not closed: what of it is right. *)
From Coq Require Import List Arith NArith ZArith Bool Lia.
From Verif Require Import BaseBytes ModelMessage SpecWire SpecMessage ProofMessage ProofCodec.
Import ListNotations.
Open Scope nat_scope.

(* the message as if it had not been used, but for its buffer *)
Definition fresh (m : message) : message := MkMsg (m_buf m) (m_len m) x00 (repeat x00 8) GNil GNil Binary GNil zero_conf (m_pooled m).
(* what a parser leaves of m (m1), compared to what it leaves of [fresh m] (m0) *)
Definition over (m0 m1 : message) : Prop :=
  m_buf m1 = m_buf m0 /\
  ((m_ident m1 = m_ident m0 /\ m_identB m1 = m_identB m0) \/ m_identB m0 = GNil) /\
  (m_name m1 = m_name m0 \/ m_name m0 = GNil) /\ (m_pld m1 = m_pld m0 \/ m_pld m0 = GNil).
(* [a]: the parser always sets the payload when it succeeds; [d]: the configuration *)
Definition overlays (a d : bool) (p : message -> presult) : Prop := forall m m0, length (m_ident m) = 8 ->
  p (fresh m) = Some (m0, None) -> exists m1, p m = Some (m1, None) /\ over m0 m1 /\ (a = true -> m_pld m1 = m_pld m0) /\ (d = true -> m_conf m1 = m_conf m0).
Lemma Data_fresh m : Data (fresh m) = Data m. Proof. reflexivity. Qed.
Lemma ident_over m dat m0 : length (m_ident m) = 8 -> Data m = Some dat -> read_ident (fresh m) dat = Some m0 ->
  exists iv, m0 = set_ident (v_get (m_buf m) iv) (set_identB (GView iv) (fresh m)) /\
    read_ident m dat = Some (set_ident (v_get (m_buf m) iv) (set_identB (GView iv) m)).
Proof.
  intros L D R. unfold Data, v_slice in D. destruct (_ && _) eqn:E in D; [|discriminate].
  injection D as <-. unfold read_ident, v_slice in *. cbn [v_cap v_off fresh m_buf m_ident] in *.
  destruct (_ && _) eqn:E2 in R; [|discriminate]. rewrite E2. injection R as <-.
  apply andb_true_iff in E2. destruct E2 as [_ E2]. apply Nat.leb_le in E2.
  set (iv := MkView _ _ _).
  assert (K : forall l, length l = 8 -> copy l (v_get (m_buf m) iv) = v_get (m_buf m) iv).
  { intros l Hl. apply copy_same_len. unfold v_get, iv. cbn [v_len v_off]. rewrite firstn_length, skipn_length. lia. }
  exists iv. rewrite (K (m_ident m) L). split; [|reflexivity]. f_equal. apply K. reflexivity.
Qed.
Ltac lay1 := match goal with
  | H : Some _ = Some _ |- _ => injection H; clear H; intros; subst
  | H : (Some ?x, _) = (_, _) |- _ => discriminate H
  | H : None = Some _ |- _ => discriminate H
  | H : Some (_, Some _) = Some (_, None) |- _ => discriminate H
  | H : (match ?x with _ => _ end) = Some _ |- _ => let E := fresh "E" in destruct x eqn:E
  end.
Lemma over_conf : overlays false true parseAcceptConf.
Proof.
  intros m m0 L H. unfold parseAcceptConf in *. rewrite Data_fresh in H. cbn [fresh m_len m_buf] in H.
  repeat lay1; try discriminate; eexists; (split; [reflexivity|]); unfold over; cbn; intuition discriminate.
Qed.
Lemma over_beat : overlays false false parseHeartbeat.
Proof. intros m m0 L H. unfold parseHeartbeat in *. cbn [fresh m_len m_buf] in H.
  repeat lay1; try discriminate; eexists; (split; [reflexivity|]); unfold over; cbn; intuition discriminate. Qed.
Lemma over_closed : overlays false false parseSessionClosed.
Proof. intros m m0 L H. unfold parseSessionClosed in *. cbn [fresh m_len m_buf] in H.
  repeat lay1; try discriminate; eexists; (split; [reflexivity|]); unfold over; cbn; intuition discriminate. Qed.
Lemma over_created : overlays true false parseSessionCreated.
Proof. intros m m0 L H. unfold parseSessionCreated in *. rewrite Data_fresh in H. cbn [fresh m_len m_buf] in H.
  repeat lay1; try discriminate; eexists; (split; [reflexivity|]); unfold over; cbn; intuition discriminate. Qed.
Lemma over_signal : overlays true false parseSignal.
Proof. intros m m0 L H. unfold parseSignal in *. rewrite Data_fresh in H. cbn [fresh m_len m_buf] in H.
  repeat lay1; try discriminate; eexists; (split; [reflexivity|]); unfold over; cbn; intuition discriminate. Qed.
Lemma over_signal16 : overlays true false parseSignalUtf16.
Proof. intros m m0 L H. unfold parseSignalUtf16 in *. rewrite Data_fresh in H. cbn [fresh m_len m_buf] in H.
  repeat lay1; try discriminate; eexists; (split; [reflexivity|]); unfold over; cbn; intuition discriminate. Qed.

Ltac withid m L H := rewrite Data_fresh in H; cbn [fresh m_len] in H; change (MkMsg (m_buf m) (m_len m) x00 (repeat x00 8) GNil GNil Binary GNil zero_conf (m_pooled m)) with (fresh m) in H;
  repeat match type of H with (if ?c then _ else _) = _ => destruct c; [discriminate H|] end;
  let D := fresh "D" in destruct (Data m) as [dat|] eqn:D; [|discriminate H];
  let R := fresh "R" in destruct (read_ident (fresh m) dat) eqn:R; [|discriminate H];
  let iv := fresh "iv" in destruct (ident_over m dat _ L D R) as (iv & -> & ->); clear R;
  cbn [m_buf m_len set_ident set_identB fresh set_name] in H |- *.
Ltac fin := repeat lay1; try discriminate; eexists; (split; [reflexivity|]); unfold over; cbn; intuition discriminate.
Lemma over_error : overlays true false parseErrorReply.
Proof. intros m m0 L H. unfold parseErrorReply in *. withid m L H. fin. Qed.
Lemma over_close : overlays false false parseCloseSession.
Proof. intros m m0 L H. unfold parseCloseSession in *. withid m L H. fin. Qed.
Lemma over_request : overlays false false parseRequest.
Proof. intros m m0 L H. unfold parseRequest in *. withid m L H. fin. Qed.
Lemma over_request16 : overlays false false parseRequestUtf16.
Proof. intros m m0 L H. unfold parseRequestUtf16 in *. withid m L H. fin. Qed.
Lemma over_reply : overlays false false parseReply.
Proof. intros m m0 L H. unfold parseReply in *. withid m L H. fin. Qed.
Lemma over_reply16 : overlays true false parseReplyUtf16.
Proof. intros m m0 L H. unfold parseReplyUtf16 in *. withid m L H. fin. Qed.
Lemma over_restore : overlays true false parseRestoreSession.
Proof. intros m m0 L H. unfold parseRestoreSession in *. withid m L H. fin. Qed.
Lemma over_special : overlays false false parseSpecialReplyMessage.
Proof. intros m m0 L H. unfold parseSpecialReplyMessage in *. withid m L H. fin. Qed.

(* messages whose parser always sets the payload *)
Definition sets_payload (t : N) : bool := existsb (N.eqb t) [0; 21; 32; 63; 64; 65; 193]%N.
Lemma switch_over t p e : parse_switch t = Some (p, e) -> overlays (sets_payload (b2N t)) (N.eqb (b2N t) 23) p.
Proof.
  unfold parse_switch. intros H.
  repeat match type of H with
  | (if beq t ?x then _ else _) = _ => destruct (beq t x) eqn:E; [apply beq_eq in E; subst t; injection H as <- <-|clear E]
  end; [..|discriminate]; match goal with |- overlays ?x ?y _ => let v := eval vm_compute in x in change x with v; let w := eval vm_compute in y in change y with w end;
  first [exact over_conf|exact over_beat|exact over_closed|exact over_created|exact over_signal|exact over_signal16|exact over_error|exact over_close|exact over_request|exact over_request16|exact over_reply|exact over_reply16|exact over_restore|exact over_special].
Qed.
Lemma parse_over m m0 : length (m_ident m) = 8 -> parse (fresh m) = Some (m0, true, None) ->
  exists m1, parse m = Some (m1, true, None) /\ over m0 m1 /\ m_type m1 = m_type m0 /\ m_enc m1 = m_enc m0 /\
    (sets_payload (b2N (m_type m0)) = true -> m_pld m1 = m_pld m0) /\ (N.eqb (b2N (m_type m0)) 23 = true -> m_conf m1 = m_conf m0).
Proof.
  intros L H. unfold parse in *. unfold IsEmpty in *. cbn [fresh m_len m_buf] in H.
  destruct (m_len m <? 1); [discriminate|].
  destruct (v_slice _ 0 1) as [s|]; [|discriminate]. destruct (v_idx _ s 0) as [t|]; [|discriminate].
  destruct (parse_switch t) as [[p e]|] eqn:S; [|discriminate].
  change (MkMsg (m_buf m) (m_len m) x00 (repeat x00 8) GNil GNil Binary GNil zero_conf (m_pooled m)) with (fresh m) in H.
  destruct (p (fresh m)) as [[a er]|] eqn:P; [|discriminate]. injection H as <- ->.
  destruct (switch_over _ _ _ S m a L P) as (m1 & -> & O & A). eexists; split; [reflexivity|]. cbn.
  split; [exact O|]. auto.
Qed.
Lemma reread m b c : length (m_ident m) = 8 -> frame b c -> length b <= length (m_buf m) ->
  exists m', ReadBytes m b = Some (m', true, None) /\ b2N (m_type m') = k_type c /\
    (k_type c <> 0%N -> m_enc m' = enc_no (k_enc c)) /\
    (has_ident (k_type c) = true -> m_ident m' = k_ident c /\ ident_bytes m' = k_ident c) /\
    (k_name c <> [] -> g_get (m_buf m') (m_name m') = k_name c) /\
    (k_payload c <> [] \/ In (k_type c) [0; 21; 32; 63; 64; 65; 193]%N -> g_get (m_buf m') (m_pld m') = k_payload c) /\
    (forall w, k_conf c = Some w -> b2N (c_major (m_conf m')) = w_major w /\ b2N (c_minor (m_conf m')) = w_minor w /\
       c_timeout (m_conf m') = (Z.of_N (w_timeout_ms w) * 1000000)%Z /\ c_bufsize (m_conf m') = w_bufsize w /\
       g_get (m_buf m') (c_sub (m_conf m')) = w_sub w).
Proof.
  intros L F B.
  assert (L1 : 1 <= length b) by (inversion F; cbn; lia).
  destruct (ReadBytes_load m b L1 B) as (m1 & -> & Ld & Lb & _ & Hi & _ & _ & _ & _ & _ & _).
  destruct (dec b) as [[ok e] o] eqn:D.
  pose proof (NewMessage_blank (length b)) as NB.
  assert (NL : length b <= length (m_buf (NewMessage (length b)))) by (cbn; rewrite repeat_length; lia).
  destruct (ReadBytes_dec _ b ok e o L1 NL NB D) as (x & Rx & Ox & _).
  destruct (ReadBytes_spec _ b NB) as (y & ok' & e' & Ry & A & _ & _ & _ & Sh).
  rewrite Rx in Ry. injection Ry as <- <- <-.
  destruct (proj2 A (conj NL (ex_intro _ c F))) as [-> ->]. specialize (Sh c NL F). rewrite Ox in Sh. clear x Rx Ox A.
  destruct (parse_dec (fresh m1) b true None o L1 Ld) as (m0 & P0 & O0 & _ & _); try reflexivity; try assumption.
  { unfold blankf. cbn. intuition discriminate. }
  rewrite <- Hi in L. destruct (parse_over m1 m0 L P0) as (m' & P & (Ob & Oi & On & Op) & Ot & Oe & Os & Oc).
  exists m'. split; [exact P|]. subst o. destruct Sh as (S1 & S2 & S3 & S4 & S5 & S6 & S7). cbn [observe o_type o_ident o_identB o_name o_pld o_enc o_major o_minor o_timeout o_bufsize o_sub] in *.
  rewrite Ob. rewrite Ot. split; [exact S1|]. rewrite Oe. split; [exact S6|].
  split; [|split; [|split]].
  - intros h. rewrite h in S3. unfold ident_bytes in *. rewrite Ob. destruct Oi as [[-> ->]|Oi]; [auto|]. rewrite Oi in S3.
    exfalso. assert (K : length (k_ident c) = 8) by (inversion F; subst; cbn in *; try assumption; try discriminate). rewrite <- S3 in K. discriminate.
  - intros h. destruct On as [->|On]; [exact S4|]. rewrite On in S4. cbn in S4. congruence.
  - intros h. rewrite S1 in Os. destruct h as [h|h]; [|rewrite Os; [exact S5|]; unfold sets_payload; apply existsb_exists; exists (k_type c); split; [exact h|apply N.eqb_refl]]. destruct Op as [->|Op]; [exact S5|]. rewrite Op in S5. cbn in S5. congruence.
  - intros w h. rewrite h in S7. rewrite Oc; [exact S7|]. rewrite S1. inversion F; subst; try discriminate h; reflexivity.
Qed.

(* ---------- the two forms of the identifier agree ---------- *)
Definition twin (m : message) : Prop := length (m_ident m) = 8 /\ g_get (m_buf m) (m_identB m) = m_ident m.
Definition twins (p : message -> presult) : Prop := forall m m' e, twin m -> p m = Some (m', e) -> twin m'.
Lemma ident_twin m dat m' : length (m_ident m) = 8 -> Data m = Some dat -> read_ident m dat = Some m' -> twin m' /\ m_buf m' = m_buf m.
Proof.
  intros L D R. unfold Data, v_slice in D. destruct (_ && _) eqn:E in D; [|discriminate].
  injection D as <-. unfold read_ident, v_slice in *. cbn [v_cap v_off] in *.
  destruct (_ && _) eqn:E2 in R; [|discriminate]. injection R as <-.
  apply andb_true_iff in E2. destruct E2 as [_ E2]. apply Nat.leb_le in E2. unfold twin. cbn [m_ident m_identB m_buf set_ident set_identB g_get].
  match goal with |- context [copy _ ?x] => assert (K : length x = 8); [|rewrite copy_same_len by (rewrite K; lia); rewrite K; auto] end.
  unfold v_get. cbn [v_len v_off]. rewrite firstn_length, skipn_length. lia.
Qed.
Ltac tw := repeat lay1; try discriminate; try assumption;
  try match goal with L : length (m_ident ?m) = 8, D : Data ?m = Some _, R : read_ident ?m _ = Some _ |- _ => destruct (ident_twin m _ _ L D R) as [? ?] end;
  unfold twin in *; cbn [m_ident m_identB m_buf set_ident set_identB set_pld set_name set_conf]; assumption.
Lemma switch_twin t p e : parse_switch t = Some (p, e) -> twins p.
Proof.
  unfold parse_switch. intros H.
  repeat match type of H with
  | (if beq t ?x then _ else _) = _ => destruct (beq t x); [injection H as <- <-|]
  end; [..|discriminate]; intros m m' er T P; pose proof (proj1 T) as L;
  unfold parseAcceptConf, parseHeartbeat, parseErrorReply, parseSessionCreated, parseSessionClosed, parseCloseSession, parseSignal, parseSignalUtf16, parseRequest, parseRequestUtf16, parseReply, parseReplyUtf16, parseRestoreSession, parseSpecialReplyMessage in P; tw.
Qed.
Lemma new_ident n b m ok e : ReadBytes (NewMessage n) b = Some (m, ok, e) ->
  length (m_ident m) = 8 /\ g_get (m_buf m) (m_identB m) = m_ident m.
Proof.
  intros R. destruct (Nat.ltb_spec (length b) 1) as [L1|L1].
  { unfold ReadBytes in R. rewrite (proj2 (Nat.ltb_lt _ _) L1) in R. injection R as <- _ _. split; reflexivity. }
  destruct (Nat.ltb_spec (length (m_buf (NewMessage n))) (length b)) as [L2|L2].
  { unfold ReadBytes in R. rewrite (proj2 (Nat.ltb_ge _ _) L1), (proj2 (Nat.ltb_lt _ _) L2) in R. injection R as <- _ _. split; reflexivity. }
  destruct (ReadBytes_load _ b L1 L2) as (m1 & E & _ & _ & _ & Hi & HiB & _). rewrite E in R.
  assert (T : twin m1) by (unfold twin; rewrite Hi, HiB; split; reflexivity).
  unfold parse in R. destruct (IsEmpty m1); [injection R as <- _ _; exact T|].
  destruct (v_slice _ 0 1) as [s|]; [|discriminate]. destruct (v_idx _ s 0) as [t|]; [|discriminate].
  destruct (parse_switch t) as [[p en]|] eqn:S; [|injection R as <- _ _; exact T].
  destruct (p m1) as [[a er]|] eqn:P; [|discriminate]. injection R as <- _ _.
  exact (switch_twin _ _ _ S _ _ _ T P).
Qed.
