(* Proofs about Buffer.Read / Message.Read *)
From Coq Require Import List Arith NArith ZArith Lia Bool.
From Verif Require Import BaseBytes ModelMessage ModelStream SpecStream SpecWire SpecMessage ProofMessage.
Import ListNotations.
Open Scope nat_scope.

Lemma copy_length d s : length (copy d s) = length d.
Proof. unfold copy. rewrite app_length, firstn_length, skipn_length. lia. Qed.
Lemma copy_short d s : length s <= length d -> copy d s = s ++ skipn (length s) d.
Proof. intros. unfold copy. rewrite (firstn_all2 s) by assumption. reflexivity. Qed.

(* one successful read into the rest of the buffer *)
Lemma place buf cursor c done_ :
  firstn cursor buf = done_ -> cursor + length c <= length buf ->
  let buf' := firstn cursor buf ++ copy (skipn cursor buf) c in
  length buf' = length buf /\ firstn (cursor + length c) buf' = done_ ++ c.
Proof.
  intros H1 H2 buf'. assert (L : length (firstn cursor buf) = cursor) by (rewrite firstn_length; lia).
  split.
  - unfold buf'. rewrite app_length, copy_length, skipn_length, L. lia.
  - unfold buf'. rewrite copy_short by (rewrite skipn_length; lia).
    rewrite app_assoc. rewrite H1 in *. apply firstn_app_exact. rewrite app_length. lia.
Qed.

Lemma buffer_read_fits s : forall fuel buf cursor done_ d rest,
  length s + 2 <= fuel ->
  stream s = (d, REof, rest) -> firstn cursor buf = done_ -> cursor + length d <= length buf ->
  (cursor + length d < length buf \/ polite s) ->
  exists buf', buffer_read fuel buf cursor s = MkRead buf' (cursor + length d) None rest /\
    length buf' = length buf /\ firstn (cursor + length d) buf' = done_ ++ d.
Proof.
  induction s as [|[c e] s IH]; intros fuel buf cursor done_ d rest Hf Hs Hd Hle Hp.
  - cbn in Hs. injection Hs as <- <-. destruct fuel; [lia|]. cbn [buffer_read r_read].
    cbn [length] in *. rewrite Nat.add_0_r in *. rewrite app_nil_r.
    assert (forall l : bytes, copy l [] = l) as CN by (intros; unfold copy; rewrite firstn_nil; reflexivity).
    rewrite !CN.
    destruct (Nat.leb_spec (length buf) cursor).
    + eexists; split; [reflexivity|]. auto.
    + cbn [length]. rewrite ?Nat.add_0_r, ?firstn_skipn. eexists; split; [reflexivity|]. auto.
  - destruct fuel as [|fuel]; [cbn in Hf; lia|]. cbn [buffer_read r_read].
    destruct e as [e|].
    + cbn in Hs. injection Hs as <- -> <-.
      destruct (Nat.leb_spec (length buf) cursor).
      * assert (length c = 0) by lia. destruct c; [|cbn in *; lia]. cbn [length Nat.leb].
        rewrite Nat.add_0_r. eexists; split; [reflexivity|]. cbn [app].
        unfold copy; rewrite firstn_nil; cbn [length skipn app]. rewrite app_nil_r. auto.
      * destruct (Nat.leb_spec (length c) (length buf - cursor)); [|lia].
        destruct (place buf cursor c done_ Hd) as [P1 P2]; [lia|].
        eexists; split; [reflexivity|]. auto.
    + cbn [stream] in Hs. destruct (stream s) as [[d' e'] r'] eqn:Es. injection Hs as <- -> <-.
      rewrite app_length in *.
      destruct (Nat.leb_spec (length buf) cursor).
      * (* full, yet another event without error: only an empty chunk, excluded by polite *)
        destruct Hp as [Hp|Hp]; [lia|]. destruct Hp as [Hp _].
        destruct c; [congruence|cbn in *; lia].
      * destruct (Nat.leb_spec (length c) (length buf - cursor)); [|lia].
        destruct (place buf cursor c done_ Hd) as [P1 P2]; [lia|].
        cbn [length] in Hf.
        edestruct (IH fuel _ (cursor + length c) (done_ ++ c) d' r' ltac:(lia) eq_refl P2) as (buf' & B1 & B2 & B3).
        -- rewrite P1. lia.
        -- rewrite P1. destruct Hp as [Hp|[_ Hp]]; [left; lia|right; assumption].
        -- exists buf'. rewrite Nat.add_assoc in *. rewrite B1. split; [reflexivity|].
           split; [congruence|]. rewrite B3, app_assoc. reflexivity.
Qed.

Lemma buffer_read_error s : forall fuel buf cursor d rest,
  length s + 2 <= fuel ->
  stream s = (d, ROther, rest) -> cursor + length d < length buf ->
  exists buf', buffer_read fuel buf cursor s = MkRead buf' 0 (Some PReader) rest /\ length buf' = length buf.
Proof.
  induction s as [|[c e] s IH]; intros fuel buf cursor d rest Hf Hs Hle.
  - discriminate.
  - destruct fuel as [|fuel]; [cbn in Hf; lia|]. cbn [buffer_read r_read].
    destruct (Nat.leb_spec (length buf) cursor); [lia|].
    assert (LB : forall c', length (firstn cursor buf ++ copy (skipn cursor buf) c') = length buf).
    { intros. rewrite app_length, copy_length, skipn_length, firstn_length. lia. }
    destruct e as [e|].
    + cbn in Hs. injection Hs as <- -> <-.
      destruct (Nat.leb_spec (length c) (length buf - cursor)); [|lia].
      eexists; split; [reflexivity|]. apply LB.
    + cbn [stream] in Hs. destruct (stream s) as [[d' e'] r'] eqn:Es. injection Hs as <- -> <-.
      rewrite app_length in *. destruct (Nat.leb_spec (length c) (length buf - cursor)); [|lia].
      cbn [length] in Hf.
      edestruct (IH fuel (firstn cursor buf ++ copy (skipn cursor buf) c) (cursor + length c) d' r') as (buf' & B1 & B2); try lia.
      * reflexivity.
      * rewrite LB; lia.
      * exists buf'. rewrite B1, B2. auto.
Qed.

Lemma discard_stream s d rest : stream s = (d, REof, rest) -> discard s = rest.
Proof.
  revert d rest; induction s as [|[c [e|]] s IH]; intros d rest; cbn.
  - intros H; injection H as <- <-; reflexivity.
  - intros H; injection H as <- -> <-; reflexivity.
  - destruct (stream s) as [[d' e'] r'] eqn:E. intros H; injection H as <- -> <-. eapply IH; reflexivity.
Qed.

(* on a full buffer, with data left over *)
Lemma full_overflow fuel buf s d rest :
  1 <= fuel -> stream s = (d, REof, rest) -> d <> [] -> eof_alone s ->
  exists buf', buffer_read fuel buf (length buf) s = MkRead buf' 0 (Some POverflow) rest /\ length buf' = length buf.
Proof.
  intros Hf Hs Hd He. destruct fuel; [lia|]. cbn [buffer_read].
  destruct (Nat.leb_spec (length buf) (length buf)); [|lia].
  destruct s as [|[c e] s]; [cbn in Hs; congruence|]. cbn [r_read].
  assert (D := discard_stream _ _ _ Hs).
  destruct (Nat.leb_spec (length c) (length buf)).
  - destruct e as [[|]|].
    + cbn in Hs, He. congruence.
    + discriminate.
    + eexists; split; [|apply copy_length]. cbn in D. rewrite D. reflexivity.
  - eexists; split; [|apply copy_length]. f_equal. destruct e; exact D.
Qed.

Lemma buffer_read_overflow s : forall fuel buf cursor d rest,
  length s + 2 <= fuel -> cursor <= length buf ->
  stream s = (d, REof, rest) -> length buf < cursor + length d -> eof_alone s ->
  exists buf', buffer_read fuel buf cursor s = MkRead buf' 0 (Some POverflow) rest /\ length buf' = length buf.
Proof.
  induction s as [|[c e] s IH]; intros fuel buf cursor d rest Hf Hc Hs Hle Ha.
  - cbn in Hs. injection Hs as <- <-. cbn in Hle. lia.
  - destruct (Nat.eq_dec cursor (length buf)) as [->|Hne].
    { apply (full_overflow fuel buf ((c, e) :: s) d); try assumption; [cbn in Hf; lia|].
      intros ->. cbn in Hle. lia. }
    destruct fuel as [|fuel]; [cbn in Hf; lia|]. cbn [buffer_read r_read].
    destruct (Nat.leb_spec (length buf) cursor); [lia|].
    assert (LB : forall c', length (firstn cursor buf ++ copy (skipn cursor buf) c') = length buf).
    { intros. rewrite app_length, copy_length, skipn_length, firstn_length. lia. }
    destruct (Nat.leb_spec (length c) (length buf - cursor)).
    + destruct e as [e|].
      * cbn in Hs. injection Hs as <- -> <-. lia.
      * cbn [stream] in Hs. destruct (stream s) as [[d' e'] r'] eqn:Es. injection Hs as <- -> <-.
        rewrite app_length in *. cbn [length] in Hf. cbn in Ha.
        edestruct (IH fuel (firstn cursor buf ++ copy (skipn cursor buf) c) (cursor + length c) d' r') as (buf' & B1 & B2);
          try (rewrite ?LB; lia); [reflexivity|assumption|].
        exists buf'. rewrite B1, B2. auto.
    + rewrite firstn_length, Nat.min_l by lia.
      replace (cursor + (length buf - cursor)) with (length buf) by lia.
      set (buf2 := firstn cursor buf ++ copy (skipn cursor buf) (firstn (length buf - cursor) c)).
      assert (L2 : length buf2 = length buf) by apply LB.
      assert (S2 : exists d2, stream ((skipn (length buf - cursor) c, e) :: s) = (d2, REof, rest) /\ d2 <> []).
      { assert (skipn (length buf - cursor) c <> []).
        { intros E. apply (f_equal (@length byte)) in E. rewrite skipn_length in E. cbn in E. lia. }
        destruct e as [e|]; cbn [stream] in *.
        - injection Hs as <- -> <-. eauto.
        - destruct (stream s) as [[d' e'] r']. injection Hs as <- -> <-.
          eexists; split; [reflexivity|]. destruct (skipn (length buf - cursor) c); [congruence|discriminate]. }
      destruct S2 as (d2 & S2 & Hd2).
      assert (FO := full_overflow fuel buf2 _ d2 rest ltac:(cbn in Hf; lia) S2 Hd2). rewrite L2 in FO. apply FO.
      destruct e as [[|]|]; cbn in *; try exact I; [|assumption]. subst c. cbn in *. lia.
Qed.

(* ----- Message.Read ----- *)
Lemma MsgRead_fits m s fuel d rest ok e o :
  length s + 2 <= fuel -> blank m ->
  stream s = (d, REof, rest) -> length d <= length (m_buf m) ->
  (length d < length (m_buf m) \/ polite s) -> 1 <= length d -> dec d = (ok, e, o) ->
  exists m', MsgRead fuel m s = Some (m', ok, e, rest) /\ observe m' = o.
Proof.
  intros Hf (B1 & B2 & B3 & B3' & B4 & B5 & B6 & B7) Hs Hl Hp H1 Hd.
  destruct (buffer_read_fits s fuel (m_buf m) 0 [] d rest Hf Hs eq_refl Hl Hp) as (buf' & R1 & R2 & R3).
  unfold MsgRead. rewrite R1. cbn [Nat.add app] in *.
  destruct (parse_dec (set_len (length d) (set_buf buf' m)) d ok e o) as (m' & P1 & P2 & _ & _); try assumption.
  - split; [reflexivity|exact R3].
  - repeat split; try assumption. unfold ident_bytes. cbn [m_identB set_len set_buf].
    destruct (m_identB m) as [| |v]; try reflexivity. destruct (B3' v eq_refl).
  - rewrite P1. eauto.
Qed.
Lemma MsgRead_empty m s fuel rest :
  length s + 2 <= fuel ->
  stream s = ([], REof, rest) -> (0 < length (m_buf m) \/ polite s) ->
  exists m', MsgRead fuel m s = Some (m', false, None, rest).
Proof.
  intros Hf Hs Hp.
  destruct (buffer_read_fits s fuel (m_buf m) 0 [] [] rest Hf Hs eq_refl) as (buf' & R1 & R2 & R3); cbn; try lia; try assumption.
  unfold MsgRead. rewrite R1. cbn [length Nat.add]. unfold parse, IsEmpty. cbn. eauto.
Qed.
Lemma MsgRead_overflow m s fuel d rest :
  length s + 2 <= fuel ->
  stream s = (d, REof, rest) -> length (m_buf m) < length d -> eof_alone s ->
  exists m', MsgRead fuel m s = Some (m', false, Some POverflow, rest) /\ m_len m' = 0.
Proof.
  intros Hf Hs Hl Ha.
  destruct (buffer_read_overflow s fuel (m_buf m) 0 d rest Hf ltac:(lia) Hs ltac:(lia) Ha) as (buf' & R1 & R2).
  unfold MsgRead. rewrite R1. eexists; split; reflexivity.
Qed.
Lemma MsgRead_error m s fuel d rest :
  length s + 2 <= fuel ->
  stream s = (d, ROther, rest) -> length d < length (m_buf m) ->
  exists m', MsgRead fuel m s = Some (m', false, Some PReader, rest) /\ m_len m' = 0.
Proof.
  intros Hf Hs Hl.
  destruct (buffer_read_error s fuel (m_buf m) 0 d rest Hf Hs ltac:(lia)) as (buf' & R1 & R2).
  unfold MsgRead. rewrite R1. eexists; split; reflexivity.
Qed.
