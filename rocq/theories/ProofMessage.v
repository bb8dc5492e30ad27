(* Proofs about the reading side of package message. *)
From Coq Require Import List Arith NArith ZArith Lia Bool.
From Coq Require Import ZifyBool ZifyNat ZifyN.
From Verif Require Import BaseBytes ModelMessage SpecWire SpecMessage.
Import ListNotations.
Open Scope nat_scope.
Ltac Zify.zify_post_hook ::= Z.div_mod_to_equations.

Definition sub (b : bytes) (o n : nat) : bytes := firstn n (skipn o b).

Lemma NewMessage_blank n : blank (NewMessage n).
Proof. unfold blank, NewMessage; cbn. intuition discriminate. Qed.

Lemma MsgClose_blank m m' put : MsgClose m = Some (m', put) -> put = true -> blank m'.
Proof.
  unfold MsgClose. destruct (IsEmpty m) eqn:E; [intros H; inversion H; congruence|].
  cbn. destruct (m_pooled m); [|discriminate].
  intros H _; inversion H; subst; clear H. unfold blank; cbn. intuition discriminate.
Qed.

(* ----- the pure decoding function: result of ReadBytes on a blank message ----- *)
Record fields := MkF { f_ident : bytes; f_identB : bytes; f_name : bytes; f_pld : bytes;
                       f_major : byte; f_minor : byte; f_timeout : Z; f_bufsize : N; f_sub : bytes }.
Definition F0 := MkF (repeat x00 8) [] [] [] x00 x00 0 0 [].
Definition Fid i := MkF i i [] [] x00 x00 0 0 [].
Definition Fpl p := MkF (repeat x00 8) [] [] p x00 x00 0 0 [].
Definition Fnp n p := MkF (repeat x00 8) [] n p x00 x00 0 0 [].
Definition Finp i n p := MkF i i n p x00 x00 0 0 [].
Definition Fconf a b t s n := MkF (repeat x00 8) [] [] [] a b t s n.
Definition at_ (b : bytes) i := nth i b x00.

Definition dec_conf b :=
  if length b <? 11 then (F0, Some PTooShort) else
  (Fconf (at_ b 1) (at_ b 2) (Z.of_N (le_get (sub b 3 4)) * 1000000) (le_get (sub b 7 4))
         (skipn 11 b), None).
Definition dec_one (b : bytes) : fields * option perr :=
  if length b =? 1 then (F0, None) else (F0, Some PTooShort).
Definition dec_err b :=
  if length b <? 11 then (F0, Some PTooShort) else
  let n := b2n (at_ b 9) in
  if n <? 1 then (Fid (sub b 1 8), Some PZeroCode) else
  if length b <? 10 + n then (Fid (sub b 1 8), Some PBadNameLen) else
  (Finp (sub b 1 8) (sub b 10 n) (skipn (10 + n) b), None).
Definition dec_created (b : bytes) :=
  if length b <? 2 then (F0, Some PTooShort) else (Fpl (skipn 1 b), None).
Definition dec_close (b : bytes) :=
  if length b =? 9 then (Fid (sub b 1 8), None) else (F0, Some PTooShort).
Definition dec_signal (b : bytes) :=
  if length b <? 3 then (F0, Some PTooShort) else
  let n := b2n (at_ b 1) in
  if length b <? 2 + n then (F0, Some PBadNameLen) else
  (Fnp (sub b 2 n) (skipn (2 + n) b), None).
Definition dec_signal16 (b : bytes) :=
  if length b <? 4 then (F0, Some PTooShort) else
  if negb (length b mod 2 =? 0) then (F0, Some PUnaligned) else
  let n := b2n (at_ b 1) in
  if length b <? 4 + n + n mod 2 then (F0, Some PBadNameLen) else
  (Fnp (sub b 2 n) (skipn (2 + n + n mod 2) b), None).
Definition dec_request (b : bytes) :=
  if length b <? 11 then (F0, Some PTooShort) else
  let n := b2n (at_ b 9) in
  if length b <? 10 + n then (Fid (sub b 1 8), Some PBadNameLen) else
  (Finp (sub b 1 8) (sub b 10 n) (skipn (10 + n) b), None).
Definition dec_request16 (b : bytes) :=
  if length b <? 11 then (F0, Some PTooShort) else
  if negb (length b mod 2 =? 0) then (F0, Some PUnaligned) else
  let n := b2n (at_ b 9) in
  if length b <? 10 + n + n mod 2 then (Fid (sub b 1 8), Some PBadNameLen) else
  (Finp (sub b 1 8) (sub b 10 n) (skipn (10 + n + n mod 2) b), None).
Definition dec_reply (b : bytes) :=
  if length b <? 9 then (F0, Some PTooShort) else (Finp (sub b 1 8) [] (skipn 9 b), None).
Definition dec_reply16 (b : bytes) :=
  if length b <? 10 then (F0, Some PTooShort) else
  if negb (length b mod 2 =? 0) then (F0, Some PUnaligned) else
  (Finp (sub b 1 8) [] (skipn 10 b), None).
Definition dec_restore (b : bytes) :=
  if length b <? 10 then (F0, Some PTooShort) else (Finp (sub b 1 8) [] (skipn 9 b), None).
Definition dec_special (b : bytes) :=
  if length b <? 9 then (F0, Some PTooShort) else (Fid (sub b 1 8), None).

Definition dec_switch (t : byte) : option ((bytes -> fields * option perr) * encoding) :=
  match b2N t with
  | 0 => Some (dec_err, Binary)
  | 1 | 2 | 3 | 4 | 5 => Some (dec_special, Binary)
  | 21 => Some (dec_created, Binary)
  | 22 => Some (dec_one, Binary)
  | 23 => Some (dec_conf, Binary)
  | 31 => Some (dec_close, Binary)
  | 32 => Some (dec_restore, Binary)
  | 33 => Some (dec_one, Binary)
  | 63 => Some (dec_signal, Binary)
  | 64 => Some (dec_signal, Utf8)
  | 65 => Some (dec_signal16, Utf16)
  | 127 => Some (dec_request, Binary)
  | 128 => Some (dec_request, Utf8)
  | 129 => Some (dec_request16, Utf16)
  | 191 => Some (dec_reply, Binary)
  | 192 => Some (dec_reply, Utf8)
  | 193 => Some (dec_reply16, Utf16)
  | _ => None
  end%N.

Definition obs_of (t : byte) (e : encoding) (f : fields) : obs :=
  MkObs t (f_ident f) (f_identB f) (f_name f) (f_pld f) e (f_major f) (f_minor f) (f_timeout f)
        (f_bufsize f) (f_sub f).

Definition dec (b : bytes) : bool * option perr * obs :=
  match dec_switch (at_ b 0) with
  | None => (false, Some PBadType, obs_of x00 Binary F0)
  | Some (d, enc) => let '(f, e) := d b in (true, e, obs_of (at_ b 0) enc f)
  end.

(* ----- symbolic execution ----- *)
(* the situation in which the parsers run *)
Definition loaded (m : message) (b : bytes) : Prop :=
  m_len m = length b /\ firstn (length b) (m_buf m) = b.

Definition fields_of (m : message) : fields :=
  MkF (m_ident m) (ident_bytes m) (g_get (m_buf m) (m_name m)) (g_get (m_buf m) (m_pld m))
      (c_major (m_conf m)) (c_minor (m_conf m)) (c_timeout (m_conf m))
      (c_bufsize (m_conf m)) (g_get (m_buf m) (c_sub (m_conf m))).
Definition blankf (m : message) : Prop :=
  m_ident m = repeat x00 8 /\ ident_bytes m = [] /\ m_name m = GNil /\ m_pld m = GNil /\ m_conf m = zero_conf.

Lemma loaded_app m b : loaded m b -> exists r, m_buf m = b ++ r.
Proof.
  intros [H1 H2]. exists (skipn (length b) (m_buf m)).
  rewrite <- H2 at 1. symmetry. apply firstn_skipn.
Qed.

Lemma sub_app b r o n : o + n <= length b -> firstn n (skipn o (b ++ r)) = sub b o n.
Proof.
  intros H. unfold sub. rewrite skipn_app, firstn_app.
  rewrite skipn_length. replace (n - (length b - o)) with 0 by lia.
  rewrite firstn_O, app_nil_r. reflexivity.
Qed.
Lemma sub_all b o n : n = length b - o -> sub b o n = skipn o b.
Proof. intros ->. unfold sub. apply firstn_all2. rewrite skipn_length. lia. Qed.
Lemma sub_length b o n : o + n <= length b -> length (sub b o n) = n.
Proof. intros. unfold sub. rewrite firstn_length, skipn_length. lia. Qed.
Lemma nth_at b r i : i < length b -> nth_error (b ++ r) i = Some (at_ b i).
Proof. intros. rewrite nth_error_app1 by assumption. apply nth_error_nth'. assumption. Qed.

Lemma copy_same_len d s : length d = length s -> copy d s = s.
Proof.
  intros H. unfold copy. rewrite H, firstn_all, <- H, skipn_all, app_nil_r. reflexivity.
Qed.

Ltac brk := repeat match goal with
  | |- context [Nat.ltb ?a ?b] => destruct (Nat.ltb_spec a b)
  | |- context [Nat.leb ?a ?b] => destruct (Nat.leb_spec a b)
  | |- context [Nat.eqb ?a ?b] => destruct (Nat.eqb_spec a b)
  end; cbn [andb negb orb] in *; try lia.

Lemma v_slice_ok s a b : a <= b -> b <= v_cap s ->
  v_slice s a b = Some (MkView (v_off s + a) (b - a) (v_cap s - a)).
Proof. intros. unfold v_slice. brk. reflexivity. Qed.
Lemma v_slice0_ok l c a b : a <= b -> b <= c ->
  v_slice (MkView 0 l c) a b = Some (MkView a (b - a) (c - a)).
Proof. intros. rewrite v_slice_ok by assumption. reflexivity. Qed.
Lemma Data_ok m b : loaded m b -> Data m = Some (MkView 0 (length b) (length (m_buf m))).
Proof.
  intros H. pose proof (loaded_app _ _ H) as [r Hr]. destruct H as [H1 H2]. unfold Data.
  assert (length (m_buf m) = length b + length r) by (rewrite Hr, app_length; lia).
  rewrite v_slice_ok; cbn; [|lia|lia]. rewrite H1, !Nat.sub_0_r. reflexivity.
Qed.

Lemma read_ident_ok m b r :
  m_buf m = b ++ r -> 9 <= length b -> length (m_ident m) = 8 ->
  read_ident m (MkView 0 (length b) (length (m_buf m))) =
  Some (set_ident (sub b 1 8) (set_identB (GView (MkView 1 8 (length (m_buf m) - 1))) m)).
Proof.
  intros Hb Hl Hi. unfold read_ident.
  assert (length (m_buf m) = length b + length r) by (rewrite Hb, app_length; lia).
  rewrite v_slice_ok; cbn [v_off v_len v_cap Nat.add Nat.sub]; [|lia|lia].
  unfold v_get; cbn [v_off v_len]. rewrite Hb at 1. rewrite sub_app by lia.
  rewrite copy_same_len; [reflexivity|]. rewrite sub_length by lia. exact Hi.
Qed.

Lemma v_idx_ok m b r i :
  m_buf m = b ++ r -> i < length b ->
  v_idx (m_buf m) (MkView 0 (length b) (length (m_buf m))) i = Some (at_ b i).
Proof.
  intros Hb Hi. unfold v_idx; cbn [v_off v_len Nat.add]. brk. rewrite Hb. apply nth_at; assumption.
Qed.

(* one-byte slice followed by [0] *)
Lemma v_idx1_ok m b r i n c :
  m_buf m = b ++ r -> i < length b -> 0 < n ->
  v_idx (m_buf m) (MkView i n c) 0 = Some (at_ b i).
Proof.
  intros Hb Hi Hn. unfold v_idx; cbn [v_off v_len]. brk. rewrite Nat.add_0_r, Hb.
  apply nth_at; assumption.
Qed.

Definition sees (m : message) (p : message -> presult) (d : fields * option perr) : Prop :=
  exists m', p m = Some (m', snd d) /\ fields_of m' = fst d /\
             m_buf m' = m_buf m /\ m_len m' = m_len m.

Ltac start :=
  intros Hl (Hi & HiB & Hn & Hp & Hc); unfold ident_bytes in HiB;
  pose proof (loaded_app _ _ Hl) as [r Hr];
  pose proof (Data_ok _ _ Hl) as HD;
  destruct Hl as [Hlen Hfst];
  assert (Hcap : length (m_buf _) = length _ + length r) by (rewrite Hr, app_length; reflexivity);
  assert (Hi8 : length (m_ident _) = 8) by (rewrite Hi; apply repeat_length).

Ltac fin_fields Hr :=
  unfold F0, Fid, Fpl, Fnp, Finp, Fconf;
  cbn [m_ident m_name m_pld m_conf m_buf set_ident set_identB set_name set_pld set_conf
       c_major c_minor c_timeout c_bufsize c_sub g_get zero_conf];
  unfold v_get; cbn [v_off v_len]; rewrite ?Hr; rewrite ?sub_app by lia.

Ltac blk Hi HiB Hn Hp Hc Hlen :=
  eexists; split; [reflexivity|]; split; [|split; [reflexivity|exact Hlen]];
  unfold fields_of, F0, ident_bytes; rewrite Hi, HiB, Hn, Hp, Hc; reflexivity.

(* unfold-and-run helper: all run time checks are discharged by arithmetic *)
Ltac run Hr HD Hlen :=
  cbv beta zeta;
  repeat (
    match goal with
    | |- context [Data _] => rewrite HD
    | |- context [read_ident _ _] => rewrite (read_ident_ok _ _ _ Hr) by (try lia; assumption)
    | |- context [v_from ?s ?a] => unfold v_from
    | |- context [v_slice ?s ?a ?b] => rewrite v_slice0_ok by lia
    | |- context [v_idx _ _ _] => first [ rewrite (v_idx_ok _ _ _ _ Hr) by lia
                                        | rewrite (v_idx1_ok _ _ _ _ _ _ Hr) by lia ]
    end; cbn [v_off v_len v_cap m_len m_buf set_ident set_identB set_name set_pld set_conf fst snd]).

Ltac done Hr Hi HiB Hn Hp Hc :=
  eexists; split; [reflexivity|]; split; [|split; [reflexivity|assumption]];
  unfold fields_of, ident_bytes;
  cbn [m_identB m_buf set_ident set_identB set_name set_pld set_conf]; rewrite ?HiB;
  fin_fields Hr; rewrite ?Hi, ?Hn, ?Hp, ?Hc; cbn [g_get zero_conf c_major c_minor c_timeout c_bufsize c_sub fst];
  rewrite ?Nat.add_0_r; try reflexivity;
  try (f_equal; rewrite ?sub_all by lia; try reflexivity; try (f_equal; lia)).

Lemma sees_conf m b : loaded m b -> blankf m -> sees m parseAcceptConf (dec_conf b).
Proof.
  start. unfold sees, parseAcceptConf, dec_conf, MinLenAcceptConf. rewrite Hlen.
  destruct (Nat.ltb_spec (length b) 11); [blk Hi HiB Hn Hp Hc Hlen|].
  destruct (Nat.ltb_spec 11 (length b)).
  - run Hr HD Hlen. done Hr Hi HiB Hn Hp Hc.
  - run Hr HD Hlen. done Hr Hi HiB Hn Hp Hc. rewrite skipn_all2 by lia. reflexivity.
Qed.

Lemma sees_heartbeat m b : loaded m b -> blankf m -> sees m parseHeartbeat (dec_one b).
Proof.
  intros [Hlen _] (Hi & HiB & Hn & Hp & Hc). unfold ident_bytes in HiB. unfold parseHeartbeat, dec_one, sees. rewrite Hlen.
  destruct (Nat.eqb_spec (length b) 1); cbn [negb]; blk Hi HiB Hn Hp Hc Hlen.
Qed.
Lemma sees_closed m b : loaded m b -> blankf m -> sees m parseSessionClosed (dec_one b).
Proof.
  intros [Hlen _] (Hi & HiB & Hn & Hp & Hc). unfold ident_bytes in HiB. unfold parseSessionClosed, dec_one, sees, MinLenNotifySessionClosed. rewrite Hlen.
  destruct (Nat.eqb_spec (length b) 1); cbn [negb]; blk Hi HiB Hn Hp Hc Hlen.
Qed.

Lemma sees_err m b : loaded m b -> blankf m -> sees m parseErrorReply (dec_err b).
Proof.
  start. unfold sees, parseErrorReply, dec_err, MinLenReplyError. rewrite Hlen.
  destruct (Nat.ltb_spec (length b) 11); [blk Hi HiB Hn Hp Hc Hlen|].
  run Hr HD Hlen. rewrite ?Hlen. set (n := b2n (at_ b 9)).
  destruct (Nat.ltb_spec n 1); [done Hr Hi HiB Hn Hp Hc|].
  replace (11 + n - 1) with (10 + n) by lia.
  destruct (Nat.ltb_spec (length b) (10 + n)); [done Hr Hi HiB Hn Hp Hc|].
  run Hr HD Hlen. done Hr Hi HiB Hn Hp Hc.
Qed.

Lemma sees_created m b : loaded m b -> blankf m -> sees m parseSessionCreated (dec_created b).
Proof.
  start. unfold sees, parseSessionCreated, dec_created, MinLenNotifySessionCreated. rewrite Hlen.
  destruct (Nat.ltb_spec (length b) 2); [blk Hi HiB Hn Hp Hc Hlen|].
  run Hr HD Hlen. done Hr Hi HiB Hn Hp Hc.
Qed.

Lemma sees_close m b : loaded m b -> blankf m -> sees m parseCloseSession (dec_close b).
Proof.
  start. unfold sees, parseCloseSession, dec_close, MinLenDoCloseSession. rewrite Hlen.
  destruct (Nat.eqb_spec (length b) 9); cbn [negb]; [|blk Hi HiB Hn Hp Hc Hlen].
  run Hr HD Hlen. done Hr Hi HiB Hn Hp Hc.
Qed.

Lemma sees_signal m b : loaded m b -> blankf m -> sees m parseSignal (dec_signal b).
Proof.
  start. unfold sees, parseSignal, dec_signal, MinLenSignal. rewrite Hlen.
  destruct (Nat.ltb_spec (length b) 3); [blk Hi HiB Hn Hp Hc Hlen|].
  run Hr HD Hlen. rewrite ?Hlen. set (n := b2n (at_ b 1)).
  destruct (Nat.ltb_spec (length b) (2 + n)); [blk Hi HiB Hn Hp Hc Hlen|].
  destruct (Nat.ltb_spec 0 n).
  - run Hr HD Hlen. done Hr Hi HiB Hn Hp Hc.
  - assert (n = 0) as -> by lia. run Hr HD Hlen. done Hr Hi HiB Hn Hp Hc.
Qed.

Lemma sees_signal16 m b : loaded m b -> blankf m -> sees m parseSignalUtf16 (dec_signal16 b).
Proof.
  start. unfold sees, parseSignalUtf16, dec_signal16, MinLenSignalUtf16. rewrite Hlen.
  destruct (Nat.ltb_spec (length b) 4); [blk Hi HiB Hn Hp Hc Hlen|].
  destruct (Nat.eqb_spec (length b mod 2) 0); cbn [negb]; [|blk Hi HiB Hn Hp Hc Hlen].
  run Hr HD Hlen. rewrite ?Hlen. set (n := b2n (at_ b 1)).
  destruct (Nat.eqb_spec (n mod 2) 0) as [E|E]; cbn [negb].
  - rewrite E, Nat.add_0_r.
    destruct (Nat.ltb_spec (length b) (4 + n)); [blk Hi HiB Hn Hp Hc Hlen|].
    destruct (Nat.ltb_spec 0 n).
    + run Hr HD Hlen. done Hr Hi HiB Hn Hp Hc.
    + assert (n = 0) as -> by lia. run Hr HD Hlen. done Hr Hi HiB Hn Hp Hc.
  - assert (n mod 2 = 1) as -> by lia.
    destruct (Nat.ltb_spec (length b) (4 + n + 1)); [blk Hi HiB Hn Hp Hc Hlen|].
    destruct (Nat.ltb_spec 0 n).
    + run Hr HD Hlen. done Hr Hi HiB Hn Hp Hc.
    + assert (n = 0) as -> by lia. cbn in E. lia.
Qed.

Lemma sees_request m b : loaded m b -> blankf m -> sees m parseRequest (dec_request b).
Proof.
  start. unfold sees, parseRequest, dec_request, MinLenRequest. rewrite Hlen.
  destruct (Nat.ltb_spec (length b) 11); [blk Hi HiB Hn Hp Hc Hlen|].
  run Hr HD Hlen. rewrite ?Hlen. set (n := b2n (at_ b 9)).
  destruct (Nat.ltb_spec 0 n).
  - replace (11 + n - 1) with (10 + n) by lia.
    destruct (Nat.ltb_spec (length b) (10 + n)); [done Hr Hi HiB Hn Hp Hc|].
    destruct (Nat.ltb_spec (10 + n) (length b)).
    + run Hr HD Hlen. done Hr Hi HiB Hn Hp Hc.
    + run Hr HD Hlen. done Hr Hi HiB Hn Hp Hc. rewrite skipn_all2 by lia. reflexivity.
  - assert (n = 0) as -> by lia.
    destruct (Nat.ltb_spec (length b) (10 + 0)); [lia|].
    run Hr HD Hlen. done Hr Hi HiB Hn Hp Hc.
Qed.

Lemma sees_request16 m b : loaded m b -> blankf m -> sees m parseRequestUtf16 (dec_request16 b).
Proof.
  start. unfold sees, parseRequestUtf16, dec_request16, MinLenRequestUtf16. rewrite Hlen.
  destruct (Nat.ltb_spec (length b) 11); [blk Hi HiB Hn Hp Hc Hlen|].
  destruct (Nat.eqb_spec (length b mod 2) 0) as [Eb|]; cbn [negb]; [|blk Hi HiB Hn Hp Hc Hlen].
  run Hr HD Hlen. rewrite ?Hlen. set (n := b2n (at_ b 9)).
  destruct (Nat.ltb_spec 0 n).
  - destruct (Nat.eqb_spec (n mod 2) 0) as [E|E]; cbn [negb]; rewrite ?andb_true_r, ?andb_false_r.
    + rewrite E, Nat.add_0_r.
      destruct (Nat.ltb_spec (length b) (10 + n)); [done Hr Hi HiB Hn Hp Hc|].
      run Hr HD Hlen. rewrite ?Hlen.
      destruct (Nat.ltb_spec (10 + n) (length b)).
      * run Hr HD Hlen. done Hr Hi HiB Hn Hp Hc.
      * run Hr HD Hlen. done Hr Hi HiB Hn Hp Hc. rewrite skipn_all2 by lia. reflexivity.
    + assert (n mod 2 = 1) as -> by lia.
      destruct (Nat.ltb_spec (10 + n) (length b)) as [L|L].
      * destruct (Nat.ltb_spec (length b) (10 + n + 1)); [done Hr Hi HiB Hn Hp Hc|].
        run Hr HD Hlen. rewrite ?Hlen.
        destruct (Nat.ltb_spec (10 + n + 1) (length b)).
        -- run Hr HD Hlen. done Hr Hi HiB Hn Hp Hc.
        -- run Hr HD Hlen. done Hr Hi HiB Hn Hp Hc. rewrite skipn_all2 by lia. reflexivity.
      * destruct (Nat.ltb_spec (length b) (10 + n + 1)); [|lia].
        destruct (Nat.ltb_spec (length b) (10 + n)); [done Hr Hi HiB Hn Hp Hc|]. exfalso. lia.
  - assert (n = 0) as -> by lia. change (0 mod 2) with 0. cbn [Nat.eqb negb]. rewrite andb_false_r.
    destruct (Nat.ltb_spec (length b) (10 + 0 + 0)); [lia|].
    run Hr HD Hlen. done Hr Hi HiB Hn Hp Hc.
Qed.

Lemma sees_reply m b : loaded m b -> blankf m -> sees m parseReply (dec_reply b).
Proof.
  start. unfold sees, parseReply, dec_reply, MinLenReply. rewrite Hlen.
  destruct (Nat.ltb_spec (length b) 9); [blk Hi HiB Hn Hp Hc Hlen|].
  run Hr HD Hlen. rewrite ?Hlen. destruct (Nat.eqb_spec (length b) 9).
  - done Hr Hi HiB Hn Hp Hc. rewrite skipn_all2 by lia. reflexivity.
  - run Hr HD Hlen. done Hr Hi HiB Hn Hp Hc.
Qed.

Lemma sees_reply16 m b : loaded m b -> blankf m -> sees m parseReplyUtf16 (dec_reply16 b).
Proof.
  start. unfold sees, parseReplyUtf16, dec_reply16, MinLenReplyUtf16. rewrite Hlen.
  destruct (Nat.ltb_spec (length b) 10); [blk Hi HiB Hn Hp Hc Hlen|].
  destruct (Nat.eqb_spec (length b mod 2) 0) as [Eb|]; cbn [negb]; [|blk Hi HiB Hn Hp Hc Hlen].
  run Hr HD Hlen. rewrite ?Hlen. destruct (Nat.eqb_spec (length b) 10).
  - done Hr Hi HiB Hn Hp Hc. rewrite skipn_all2 by lia. reflexivity.
  - run Hr HD Hlen. done Hr Hi HiB Hn Hp Hc.
Qed.

Lemma sees_restore m b : loaded m b -> blankf m -> sees m parseRestoreSession (dec_restore b).
Proof.
  start. unfold sees, parseRestoreSession, dec_restore, MinLenRequestRestoreSession. rewrite Hlen.
  destruct (Nat.ltb_spec (length b) 10); [blk Hi HiB Hn Hp Hc Hlen|].
  run Hr HD Hlen. done Hr Hi HiB Hn Hp Hc.
Qed.

Lemma sees_special m b : loaded m b -> blankf m -> sees m parseSpecialReplyMessage (dec_special b).
Proof.
  start. unfold sees, parseSpecialReplyMessage, dec_special. rewrite Hlen.
  destruct (Nat.ltb_spec (length b) 9); [blk Hi HiB Hn Hp Hc Hlen|].
  run Hr HD Hlen. done Hr Hi HiB Hn Hp Hc.
Qed.

Lemma switch_ok t :
  match parse_switch t, dec_switch t with
  | None, None => True
  | Some (p, e), Some (d, e') =>
      e = e' /\ forall m b, loaded m b -> blankf m -> sees m p (d b)
  | _, _ => False
  end.
Proof.
  unfold parse_switch.
  repeat match goal with
  | |- context [beq t ?x] => destruct (beq_spec t x) as [->|];
      [ match goal with |- context [dec_switch ?y] =>
          let v := eval vm_compute in (b2N y) in
          assert (Hy : b2N y = v) by reflexivity; unfold dec_switch; rewrite Hy; clear Hy end;
        split; [reflexivity|];
        first [ exact sees_conf | exact sees_heartbeat | exact sees_err | exact sees_created
              | exact sees_closed | exact sees_close | exact sees_signal | exact sees_signal16
              | exact sees_request | exact sees_request16 | exact sees_reply | exact sees_reply16
              | exact sees_restore | exact sees_special ] | ]
  end.
  assert (dec_switch t = None) as ->; [|exact I].
  destruct t; try reflexivity; exfalso;
    match goal with H : ?x <> ?x |- _ => apply H; reflexivity
                  | H : ?x <> ?y |- _ => apply H; reflexivity end.
Qed.

Lemma parse_dec m b ok e o :
  1 <= length b -> loaded m b -> blankf m -> m_type m = x00 -> m_enc m = Binary ->
  dec b = (ok, e, o) ->
  exists m', parse m = Some (m', ok, e) /\ observe m' = o /\
             m_buf m' = m_buf m /\ m_len m' = length b.
Proof.
  intros Hb Hl Hbl Ht He Hd. unfold parse.
  pose proof (loaded_app _ _ Hl) as [r Hr].
  assert (Hcap : length (m_buf m) = length b + length r) by (rewrite Hr, app_length; reflexivity).
  destruct Hl as [Hlen Hfst]. unfold IsEmpty. rewrite Hlen. brk.
  rewrite v_slice0_ok by lia. rewrite (v_idx1_ok _ _ _ _ _ _ Hr) by lia.
  unfold dec in Hd. pose proof (switch_ok (at_ b 0)) as S.
  destruct (parse_switch (at_ b 0)) as [[p en]|], (dec_switch (at_ b 0)) as [[d en']|]; try contradiction.
  - destruct S as [<- S]. specialize (S m b (conj Hlen Hfst) Hbl).
    destruct S as (m' & Hp & Hf & Hb' & Hl'). rewrite Hp.
    destruct (d b) as [f e'] eqn:Ed. injection Hd as <- <- <-. cbn [snd] in *.
    eexists; split; [reflexivity|]. cbn [set_enc set_type m_buf m_len]. rewrite Hl', Hlen, Hb'.
    repeat split. unfold observe; cbn [set_enc set_type m_buf m_type m_ident m_name m_pld m_enc m_conf].
    unfold obs_of. cbn [fst] in Hf. rewrite <- Hf. unfold fields_of. cbn. reflexivity.
  - injection Hd as <- <- <-. eexists; split; [reflexivity|]. split; [|split; [reflexivity|assumption]].
    destruct Hbl as (Hi & HiB & Hn & Hp & Hc). unfold observe, obs_of, F0. rewrite Ht, Hi, HiB, Hn, Hp, Hc, He. reflexivity.
Qed.

Lemma copy_prefix b buf : length b <= length buf ->
  copy (firstn (length b) (skipn 0 buf)) b = b.
Proof.
  intros. apply copy_same_len. rewrite skipn_O, firstn_length. lia.
Qed.

Lemma ReadBytes_load m b :
  1 <= length b -> length b <= length (m_buf m) ->
  exists m1, ReadBytes m b = parse m1 /\ loaded m1 b /\
    length (m_buf m1) = length (m_buf m) /\
    m_type m1 = m_type m /\ m_ident m1 = m_ident m /\ m_identB m1 = m_identB m /\
    m_name m1 = m_name m /\ m_enc m1 = m_enc m /\ m_pld m1 = m_pld m /\
    m_conf m1 = m_conf m /\ m_pooled m1 = m_pooled m.
Proof.
  intros H1 H2. unfold ReadBytes. brk.
  set (m1 := if negb (IsEmpty m) then BufClose m else m).
  assert (Hb : m_buf m1 = m_buf m) by (unfold m1; destruct (IsEmpty m); reflexivity).
  rewrite v_slice0_ok by (rewrite ?Hb; lia).
  eexists; split; [reflexivity|]. rewrite Nat.sub_0_r. unfold v_get; cbn [v_len v_off].
  rewrite copy_prefix by (rewrite ?Hb; lia).
  split; [|split].
  - split; [reflexivity|]. cbn [set_len set_buf m_buf]. apply firstn_app_exact. reflexivity.
  - cbn [set_len set_buf m_buf]. rewrite app_length, skipn_length, Hb. lia.
  - unfold m1; destruct (IsEmpty m); repeat split.
Qed.

(* main functional characterisation of ReadBytes on blank messages *)
Lemma ReadBytes_dec m b ok e o :
  1 <= length b -> length b <= length (m_buf m) -> blank m -> dec b = (ok, e, o) ->
  exists m', ReadBytes m b = Some (m', ok, e) /\ observe m' = o /\
             length (m_buf m') = length (m_buf m) /\ m_len m' = length b.
Proof.
  intros H1 H2 (B1 & B2 & B3 & B3' & B4 & B5 & B6 & B7) Hd.
  destruct (ReadBytes_load m b H1 H2) as (m1 & Hr & Hl & Hbl & T & I & IB & Nm & E & P & C & PL).
  rewrite Hr. destruct (parse_dec m1 b ok e o) as (m' & A1 & A2 & A3 & A4); try assumption; try congruence.
  - repeat split; try congruence. unfold ident_bytes. rewrite IB.
    destruct (m_identB m) as [| |v]; try reflexivity. specialize (B3' v). congruence.
  - exists m'. repeat split; try assumption. congruence.
Qed.

(* ----- no panics, whatever the message was used for before ----- *)
(* The identifier array has 8 elements (Go type [8]byte). *)
Definition wf (m : message) : Prop := length (m_ident m) = 8.

Lemma no_panic_parse m :
  wf m -> m_len m <= length (m_buf m) ->
  exists m' ok e, parse m = Some (m', ok, e) /\ wf m' /\ m_len m' = m_len m /\ m_buf m' = m_buf m.
Proof.
  intros Hwf Hle. set (b := firstn (m_len m) (m_buf m)).
  assert (Hbl : length b = m_len m) by (unfold b; rewrite firstn_length; lia).
  assert (Hl : loaded m b).
  { split; [lia|]. rewrite Hbl. reflexivity. }
  pose proof (loaded_app _ _ Hl) as [r Hr].
  assert (Hcap : length (m_buf m) = length b + length r) by (rewrite Hr, app_length; reflexivity).
  pose proof (Data_ok _ _ Hl) as HD. destruct Hl as [Hlen Hfst]. clearbody b.
  unfold parse, IsEmpty. destruct (Nat.ltb_spec (m_len m) 1).
  { exists m, false, None. repeat split; assumption. }
  rewrite v_slice0_ok by lia. rewrite (v_idx1_ok _ _ _ _ _ _ Hr) by lia.
  assert (G : forall p en, parse_switch (at_ b 0) = Some (p, en) ->
     exists m' e, p m = Some (m', e) /\ wf m' /\ m_len m' = m_len m /\ m_buf m' = m_buf m).
  2:{ destruct (parse_switch (at_ b 0)) as [[p en]|].
      - destruct (G p en eq_refl) as (m' & e & Hp & Hw & Hl' & Hb'). rewrite Hp.
        eexists _, true, e. split; [reflexivity|]. repeat split; assumption.
      - exists m, false, (Some PBadType). repeat split; assumption. }
  unfold wf in *.
  intros p en Hsel.
  assert (Hp : In p [parseAcceptConf; parseHeartbeat; parseErrorReply; parseSessionCreated;
    parseSessionClosed; parseCloseSession; parseSignal; parseSignalUtf16; parseRequest;
    parseRequestUtf16; parseReply; parseReplyUtf16; parseRestoreSession; parseSpecialReplyMessage]).
  { unfold parse_switch in Hsel. cbn [In].
    repeat match type of Hsel with (if ?c then _ else _) = _ =>
       destruct c; [injection Hsel as <- _; tauto|] end. discriminate. }
  clear Hsel. cbn [In] in Hp.
  repeat (destruct Hp as [<-|Hp]); [..|contradiction];
  unfold parseAcceptConf, parseHeartbeat, parseErrorReply, parseSessionCreated,
    parseSessionClosed, parseCloseSession, parseSignal, parseSignalUtf16, parseRequest,
    parseRequestUtf16, parseReply, parseReplyUtf16, parseRestoreSession, parseSpecialReplyMessage,
    MinLenAcceptConf, MinLenReplyError, MinLenNotifySessionCreated, MinLenNotifySessionClosed,
    MinLenDoCloseSession, MinLenSignal, MinLenSignalUtf16, MinLenRequest, MinLenRequestUtf16,
    MinLenReply, MinLenReplyUtf16, MinLenRequestRestoreSession;
  rewrite ?Hlen;
  repeat (first
    [ match goal with |- exists _ _, Some _ = Some _ /\ _ =>
        eexists _, _; split; [reflexivity|];
        cbn [m_ident m_len m_buf set_ident set_identB set_name set_pld set_conf];
        rewrite ?sub_length by lia; repeat split; assumption || reflexivity end
    | match goal with
      | |- context [if (?a <? ?b) then _ else _] => destruct (Nat.ltb_spec a b)
      | |- context [if (?a =? ?b) then _ else _] => destruct (Nat.eqb_spec a b)
      | |- context [if negb (?a =? ?b) then _ else _] => destruct (Nat.eqb_spec a b); cbn [negb]
      | |- context [(?a <? ?b) && _] => destruct (Nat.ltb_spec a b); cbn [andb]
      end
    | progress (run Hr HD Hlen) | progress (rewrite ?Hlen) ]).
Qed.
