(* Errors returned by the writers and readers of messages. *)
From Coq Require Import Strings.String.
From Coq Require Import List Arith NArith ZArith Bool Lia.
From Coq Require Import ZifyBool ZifyNat ZifyN.
From Verif Require Import BaseBytes ModelMessage ModelErrors SpecWire SpecMessage SpecWrite ProofMessage ProofWire ModelReport SpecReport.
From Verif Require ModelWrite ProofWrite ModelJson SpecJson SpecText ProofJson4.
Import ListNotations.
Open Scope list_scope.
Open Scope nat_scope.
Ltac Zify.zify_post_hook ::= Z.div_mod_to_equations.

Lemma small_int n : (Z.of_nat n < 2 ^ 63)%Z -> ModelJson.is_int (Z.of_nat n) = true.
Proof. intros H. unfold ModelJson.is_int. apply andb_true_iff. split; [apply Z.leb_le|apply Z.ltb_lt]; lia. Qed.
Lemma pct_d_number n : (Z.of_nat n < 2 ^ 63)%Z -> number n (pct_d n).
Proof. intros H. apply ProofJson4.dec_spells, small_int, H. Qed.
Lemma byte_number c : number (b2n c) (pct_d (b2n c)).
Proof. apply pct_d_number. pose proof (b2n_lt c). lia. Qed.

(* spellings are unique *)
Lemma digits_inj (a b : bytes) : Forall (fun d => 48 <= b2N d <= 57)%N a -> Forall (fun d => 48 <= b2N d <= 57)%N b -> length a = length b ->
  forall x y, fold_left (fun n d => 10 * n + (Z.of_N (b2N d) - 48))%Z a x = fold_left (fun n d => 10 * n + (Z.of_N (b2N d) - 48))%Z b y -> a = b /\ x = y.
Proof.
  revert b; induction a as [|d a IH] using rev_ind; intros b Ha Hb L x y; destruct b as [|e b] using rev_ind; rewrite ?app_length in L; cbn in L; try lia.
  - auto.
  - clear IHb. rewrite !fold_left_app. cbn [fold_left]. intros H. apply Forall_app in Ha as [Ha Hd]. apply Forall_app in Hb as [Hb He].
    apply Forall_inv in Hd. apply Forall_inv in He. cbv beta in Hd, He.
    set (u := fold_left _ a x) in *. set (v := fold_left _ b y) in *.
    assert (u = v /\ b2N d = b2N e) as [E D] by lia. destruct (IH b Ha Hb ltac:(lia) x y E) as [-> ->].
    split; [|reflexivity]. f_equal. f_equal. apply b2N_inj. exact D.
Qed.

Local Open Scope Z_scope.
Notation val := (fold_left (fun n d => 10 * n + (Z.of_N (b2N d) - 48))).
Lemma val_range ds : Forall SpecJson.is_digit ds -> forall x, x * 10 ^ Z.of_nat (length ds) <= val ds x < (x + 1) * 10 ^ Z.of_nat (length ds).
Proof.
  induction ds as [|d ds IH]; intros H x; [cbn; lia|].
  inversion H as [|? ? D R]; subst. cbn [fold_left]. specialize (IH R (10 * x + (Z.of_N (b2N d) - 48))).
  unfold SpecJson.is_digit, SpecText.between in D. cbn [length]. rewrite Nat2Z.inj_succ, Z.pow_succ_r by lia.
  set (p := 10 ^ Z.of_nat (length ds)) in *. assert (0 < p) by (apply Z.pow_pos_nonneg; lia).
  nia.
Qed.
Lemma whole_val ds : SpecJson.whole ds -> ds = [n2b 48] /\ val ds 0 = 0 \/ Forall SpecJson.is_digit ds /\ exists k, length ds = S k /\ 10 ^ Z.of_nat k <= val ds 0 < 10 ^ Z.of_nat (S k).
Proof.
  intros [->|(d & r & -> & D & R)]; [left; split; reflexivity|right].
  unfold SpecText.between in D. split; [constructor; [unfold SpecJson.is_digit, SpecText.between; lia|exact R]|].
  exists (length r). split; [reflexivity|]. cbn [fold_left]. pose proof (val_range r R (10 * 0 + (Z.of_N (b2N d) - 48))) as V.
  rewrite Nat2Z.inj_succ, Z.pow_succ_r by lia. set (p := 10 ^ Z.of_nat (length r)) in *. assert (0 < p) by (apply Z.pow_pos_nonneg; lia). nia.
Qed.
Lemma whole_inj a b : SpecJson.whole a -> SpecJson.whole b -> val a 0 = val b 0 -> a = b.
Proof.
  intros A B E. destruct (whole_val a A) as [(-> & Va)|(Da & k & La & Va)]; destruct (whole_val b B) as [(-> & Vb)|(Db & j & Lb & Vb)].
  - reflexivity.
  - exfalso. assert (0 < 10 ^ Z.of_nat j) by (apply Z.pow_pos_nonneg; lia). lia.
  - exfalso. assert (0 < 10 ^ Z.of_nat k) by (apply Z.pow_pos_nonneg; lia). lia.
  - assert (k = j).
    { destruct (Nat.lt_trichotomy k j) as [L|[L|L]]; [|exact L|]; exfalso.
      - assert (10 ^ Z.of_nat (S k) <= 10 ^ Z.of_nat j) by (apply Z.pow_le_mono_r; lia). lia.
      - assert (10 ^ Z.of_nat (S j) <= 10 ^ Z.of_nat k) by (apply Z.pow_le_mono_r; lia). lia. }
    subst j. refine (proj1 (digits_inj a b Da Db _ 0 0 E)). congruence.
Qed.
Lemma spells_inj a b z : SpecJson.spells a z -> SpecJson.spells b z -> a = b.
Proof.
  intros (s & ds & -> & Wa & A) (s' & ds' & -> & Wb & B). cbv zeta in A, B.
  assert (P : forall l, SpecJson.whole l -> 0 <= val l 0).
  { intros l W. destruct (whole_val l W) as [(_ & ->)|(_ & k & _ & V)]; [lia|]. assert (0 < 10 ^ Z.of_nat k) by (apply Z.pow_pos_nonneg; lia). lia. }
  pose proof (P ds Wa). pose proof (P ds' Wb).
  destruct A as [(-> & A)|(-> & A & A')]; destruct B as [(-> & B)|(-> & B & B')]; try (exfalso; lia); f_equal; apply whole_inj; auto; lia.
Qed.
Close Scope Z_scope.
Lemma number_inj n a b : number n a -> number n b -> a = b.
Proof. apply spells_inj. Qed.

(* ----- writers ----- *)
Lemma pct_s_printed broken e : pct_s broken e = printed broken e.
Proof. unfold pct_s, shown, printed. destruct e; reflexivity. Qed.
Lemma joined_both broken e c : joined broken e c = both broken e c.
Proof. unfold joined, both, Errorf. rewrite !pct_s_printed. reflexivity. Qed.

Section Seq.
Variable broken : err -> bytes.
Fixpoint tseq {W} (ops : text_ops W) (chunks : list bytes) : W -> tresult :=
  match chunks with [] => close_end ops | c :: cs => try_write broken ops c (tseq ops cs) end.
Lemma try_write_ext {W} (ops : text_ops W) c k1 k2 w : (forall x, k1 x = k2 x) -> try_write broken ops c k1 w = try_write broken ops c k2 w.
Proof. intros H. unfold try_write. destruct (t_write ops w c) as [w1 [e|]]; [reflexivity|apply H]. Qed.
Lemma tseq_reporter errs chunks log0 :
  tseq (reporter errs) chunks log0 = Some (log0 ++ fst (run_calls (failing errs) (length log0) chunks), outcome broken errs (length log0) chunks).
Proof.
  revert log0; induction chunks as [|c cs IH]; intros log0; [reflexivity|].
  cbn [tseq run_calls outcome]. unfold try_write at 1. cbn [reporter t_write]. unfold failing at 1.
  destruct (errs (length log0)) as [e|].
  - unfold close_with. cbn [reporter t_close]. rewrite app_length, Nat.add_1_r, <- app_assoc. cbn [fst app]. unfold and_close.
    destruct (errs (S (length log0))); rewrite ?joined_both; reflexivity.
  - rewrite IH, app_length, Nat.add_1_r, <- app_assoc. destruct (run_calls (failing errs) (S (length log0)) cs) as [l b]. reflexivity.
Qed.
Lemma seq_text (f : forall W, text_ops W -> W -> option (W * option err)) chunks :
  (forall W (ops : text_ops W) w, f W ops w = tseq ops chunks w) -> writes_text broken f (concat chunks).
Proof. intros H. exists chunks. split; [reflexivity|]. intros errs log0. rewrite H. apply tseq_reporter. Qed.
Lemma rej_text (f : forall W, text_ops W -> W -> option (W * option err)) t :
  (forall W (ops : text_ops W) w, f W ops w = reject broken ops t w) -> rejects_text broken f t.
Proof.
  intros H errs log0. rewrite H. unfold reject, close_with. cbn. unfold and_close, Errorf. destruct (errs (length log0)); rewrite ?joined_both; reflexivity.
Qed.
End Seq.

Lemma string_of_char c : character c (string_of c).
Proof.
  unfold character, string_of, SpecText.utf8_of. pose proof (b2N_lt c).
  destruct (N.ltb_spec (b2N c) 128) as [L|L].
  - rewrite n2b_b2N. reflexivity.
  - assert (b2N c <? 0x800 = true)%N as -> by (apply N.ltb_lt; lia). reflexivity.
Qed.
Lemma character_inj c a b : character c a -> character c b -> a = b.
Proof. unfold character. congruence. Qed.

Lemma bad_not c : ModelWrite.bad_char c = true <-> ~ printable [c].
Proof.
  split; intros H.
  - intros P. apply Forall_inv in P. apply ProofWrite.bad_char_spec in P. congruence.
  - destruct (ModelWrite.bad_char c) eqn:E; [reflexivity|]. exfalso; apply H. constructor; [apply ProofWrite.bad_char_spec, E|constructor].
Qed.
Lemma find_bad l : match find ModelWrite.bad_char l with Some c => first_bad l c | None => printable l end.
Proof.
  induction l as [|x l IH]; [constructor|]. cbn [find]. destruct (ModelWrite.bad_char x) eqn:E.
  - exists [], l. split; [reflexivity|]. split; [constructor|apply bad_not, E].
  - destruct (find ModelWrite.bad_char l) as [c|].
    + destruct IH as (a & b & -> & P & Q). exists (x :: a), b. split; [reflexivity|]. split; [constructor; [apply ProofWrite.bad_char_spec, E|exact P]|exact Q].
    + constructor; [apply ProofWrite.bad_char_spec, E|exact IH].
Qed.
Lemma first_bad_fun l c : first_bad l c -> find ModelWrite.bad_char l = Some c.
Proof.
  intros (a & b & -> & P & Q). apply bad_not in Q. induction a as [|x a IH]; cbn [find app].
  - rewrite Q. reflexivity.
  - inversion P as [|? ? P1 P2]; subst. apply ProofWrite.bad_char_spec in P1. rewrite P1. apply IH, P2.
Qed.
Lemma first_bad_not l c : first_bad l c -> ~ printable l.
Proof. intros (a & b & -> & _ & Q) P. apply Q. apply Forall_app in P as [_ P]. inversion P; subst. constructor; [assumption|constructor]. Qed.
Lemma printable_find l : printable l -> find ModelWrite.bad_char l = None.
Proof. intros P. pose proof (find_bad l) as F. destruct (find ModelWrite.bad_char l); [|reflexivity]. destruct (first_bad_not _ _ F P). Qed.
Lemma check16 e (p : bytes) : (e =? Utf16)%Z && negb (length p mod 2 =? 0) = true <-> odd16 e p.
Proof.
  unfold odd16. rewrite <- (ProofWrite.utf16_check e p). destruct ((e =? Utf16)%Z && negb (length p mod 2 =? 0)); split; congruence.
Qed.


Ltac exact_text := repeat match goal with
  | A : number ?n ?t, H : go_length ?l |- _ => rewrite <- (number_inj _ _ _ (pct_d_number (length l) H) A); clear A
  | A : character ?c ?t |- _ => rewrite <- (character_inj _ _ _ (string_of_char c) A); clear A
  end.

(* the calls made, for any writer *)
Definition sequence (broken : err -> bytes) (f : forall W, text_ops W -> W -> option (W * option err)) (frame : bytes) : Prop :=
  exists chunks, concat chunks = frame /\ forall W (ops : text_ops W) w, f W ops w = tseq broken ops chunks w.
Lemma sequence_of broken (f : forall W, text_ops W -> W -> option (W * option err)) chunks :
  (forall W (ops : text_ops W) w, f W ops w = tseq broken ops chunks w) -> sequence broken f (concat chunks).
Proof. intros H. exists chunks. auto. Qed.
Lemma sequence_text broken f frame : sequence broken f frame -> writes_text broken f frame.
Proof. intros (chunks & <- & H). apply seq_text, H. Qed.
Definition refusal (broken : err -> bytes) (f : forall W, text_ops W -> W -> option (W * option err)) (t : bytes) : Prop :=
  forall W (ops : text_ops W) w, f W ops w = reject broken ops t w.
Lemma refusal_of broken (f : forall W, text_ops W -> W -> option (W * option err)) t :
  (forall W (ops : text_ops W) w, f W ops w = reject broken ops t w) -> refusal broken f t.
Proof. auto. Qed.
Lemma refusal_text broken f t : refusal broken f t -> rejects_text broken f t.
Proof. apply rej_text. Qed.

Section Signal.
Variable broken : err -> bytes.
Lemma signal_rej name e p safe t : go_length name -> go_length p -> wrong_signal name e p safe t ->
  refusal broken (fun W ops w => WriteMsgSignal broken ops w name e p safe) t.
Proof.
  intros Gn Gp H. apply refusal_of. intros W ops w. unfold WriteMsgSignal.
  destruct H as [n L N|n L O N|c t L U S B C]; exact_text.
  - apply Nat.ltb_lt in L. rewrite L. reflexivity.
  - apply Nat.ltb_ge in L. rewrite L. apply check16 in O. rewrite O. reflexivity.
  - apply Nat.ltb_ge in L. rewrite L. rewrite (proj2 (ProofWrite.utf16_check e p) U), S, (first_bad_fun _ _ B). reflexivity.
Qed.
Lemma signal_wrong name e p safe t : go_length name -> go_length p -> wrong_signal name e p safe t ->
  rejects_text broken (fun W ops w => WriteMsgSignal broken ops w name e p safe) t.
Proof. intros. apply refusal_text, signal_rej; assumption. Qed.
Lemma signal_seq name e p safe : valid_signal name e p safe ->
  sequence broken (fun W ops w => WriteMsgSignal broken ops w name e p safe) (signal_frame name e p).
Proof.
  intros (Hn & Hu & Hs). rewrite <- ProofWrite.concat_signal. apply sequence_of. intros W ops w.
  unfold WriteMsgSignal. destruct (Nat.ltb_spec 255 (length name)); [lia|]. rewrite (proj2 (ProofWrite.utf16_check e p) Hu).
  assert ((if safe then find ModelWrite.bad_char name else None) = None) as -> by (destruct safe; [apply printable_find; auto|reflexivity]).
  unfold ProofWrite.chunks_signal. cbn [tseq]. apply try_write_ext. intros x.
  rewrite ProofWrite.name_len_flag_ok by assumption. apply try_write_ext. intros y.
  unfold ProofWrite.pad_chunk. destruct name as [|a name]; cbn [ProofWrite.nonempty app length Nat.ltb Nat.leb].
  - destruct ((e =? Utf16)%Z && _); reflexivity.
  - cbn [tseq]. apply try_write_ext. intros z. destruct ((e =? Utf16)%Z && _); reflexivity.
Qed.
Lemma signal_right name e p safe : valid_signal name e p safe ->
  writes_text broken (fun W ops w => WriteMsgSignal broken ops w name e p safe) (signal_frame name e p).
Proof. intros. apply sequence_text, signal_seq; assumption. Qed.
Lemma signal_cases name e p safe : go_length name -> go_length p -> valid_signal name e p safe \/ exists t, wrong_signal name e p safe t.
Proof.
  intros Gn Gp. destruct (Nat.le_gt_cases (length name) 255) as [L|L]; [|right; eexists; apply WS_long; [exact L|apply pct_d_number, Gn]].
  destruct ((e =? Utf16)%Z && negb (length p mod 2 =? 0)) eqn:O.
  - right. eexists. apply WS_odd; [exact L|apply check16, O|apply pct_d_number, Gp].
  - apply ProofWrite.utf16_check in O. destruct safe; [|left; repeat split; auto; discriminate].
    pose proof (find_bad name) as F. destruct (find ModelWrite.bad_char name) as [c|].
    + right. eexists. apply WS_char with c; auto. apply string_of_char.
    + left. repeat split; auto.
Qed.

Lemma request_rej i name e p safe t : go_length name -> go_length p -> wrong_request name e p safe t ->
  refusal broken (fun W ops w => WriteMsgRequest broken ops w i name e p safe) t.
Proof.
  intros Gn Gp H. apply refusal_of. intros W ops w. unfold WriteMsgRequest.
  destruct H as [E|n L N|n NE L O N|c t NE L U S B C]; exact_text.
  - apply app_eq_nil in E as [-> ->]. reflexivity.
  - assert ((length name <? 1) && (length p <? 1) = false) as -> by (apply andb_false_iff; left; apply Nat.ltb_ge; lia).
    apply Nat.ltb_lt in L. rewrite L. reflexivity.
  - assert ((length name <? 1) && (length p <? 1) = false) as -> by (pose proof (nil_app_len _ _ NE); lia).
    apply Nat.ltb_ge in L. rewrite L. apply check16 in O. rewrite O. reflexivity.
  - assert ((length name <? 1) && (length p <? 1) = false) as -> by (pose proof (nil_app_len _ _ NE); lia).
    apply Nat.ltb_ge in L. rewrite L. rewrite (proj2 (ProofWrite.utf16_check e p) U), S, (first_bad_fun _ _ B). reflexivity.
Qed.
Lemma request_wrong i name e p safe t : go_length name -> go_length p -> wrong_request name e p safe t ->
  rejects_text broken (fun W ops w => WriteMsgRequest broken ops w i name e p safe) t.
Proof. intros. apply refusal_text, request_rej; assumption. Qed.
Lemma request_seq i name e p safe : valid_request name e p safe ->
  sequence broken (fun W ops w => WriteMsgRequest broken ops w i name e p safe) (request_frame i name e p).
Proof.
  intros (NE & Hn & Hu & Hs). rewrite <- ProofWrite.concat_request. apply sequence_of. intros W ops w. unfold WriteMsgRequest.
  assert ((length name <? 1) && (length p <? 1) = false) as -> by (pose proof (nil_app_len _ _ NE); lia).
  destruct (Nat.ltb_spec 255 (length name)); [lia|]. rewrite (proj2 (ProofWrite.utf16_check e p) Hu).
  assert ((if safe then find ModelWrite.bad_char name else None) = None) as -> by (destruct safe; [apply printable_find; auto|reflexivity]).
  unfold ProofWrite.chunks_request. cbn [tseq]. apply try_write_ext. intros x. apply try_write_ext. intros y.
  rewrite ProofWrite.name_len_flag_ok by assumption. apply try_write_ext. intros z. apply try_write_ext. intros v.
  unfold ProofWrite.pad_chunk. destruct ((e =? Utf16)%Z && _); reflexivity.
Qed.
Lemma request_right i name e p safe : valid_request name e p safe ->
  writes_text broken (fun W ops w => WriteMsgRequest broken ops w i name e p safe) (request_frame i name e p).
Proof. intros. apply sequence_text, request_seq; assumption. Qed.
Lemma request_cases name e p safe : go_length name -> go_length p -> valid_request name e p safe \/ exists t, wrong_request name e p safe t.
Proof.
  intros Gn Gp. destruct (name ++ p) as [|x l] eqn:E0; [right; eexists; apply WR_empty; exact E0|].
  assert (NE : name ++ p <> []) by congruence.
  destruct (Nat.le_gt_cases (length name) 255) as [L|L]; [|right; eexists; apply WR_long; [exact L|apply pct_d_number, Gn]].
  destruct ((e =? Utf16)%Z && negb (length p mod 2 =? 0)) eqn:O.
  - right. eexists. apply WR_odd; [exact NE|exact L|apply check16, O|apply pct_d_number, Gp].
  - apply ProofWrite.utf16_check in O. destruct safe; [|left; repeat split; auto; discriminate].
    pose proof (find_bad name) as F. destruct (find ModelWrite.bad_char name) as [c|].
    + right. eexists. apply WR_char with c; auto. apply string_of_char.
    + left. repeat split; auto.
Qed.

Lemma reply_rej i e p n : go_length p -> odd16 e p -> number (length p) n ->
  refusal broken (fun W ops w => WriteMsgReply broken ops w i e p) (txt "invalid UTF16 reply payload data length: " ++ n).
Proof.
  intros Gp O N. exact_text. apply refusal_of. intros W ops w. unfold WriteMsgReply. apply check16 in O. rewrite O. reflexivity.
Qed.
Lemma reply_wrong i e p n : go_length p -> odd16 e p -> number (length p) n ->
  rejects_text broken (fun W ops w => WriteMsgReply broken ops w i e p) (txt "invalid UTF16 reply payload data length: " ++ n).
Proof. intros. apply refusal_text, reply_rej; assumption. Qed.
Lemma reply_seq i e p : utf16_ok e p ->
  sequence broken (fun W ops w => WriteMsgReply broken ops w i e p) (reply_frame i e p).
Proof.
  intros Hu. rewrite <- ProofWrite.concat_reply. apply sequence_of. intros W ops w. unfold WriteMsgReply.
  rewrite (proj2 (ProofWrite.utf16_check e p) Hu). unfold ProofWrite.chunks_reply. cbn [tseq]. apply try_write_ext. intros x.
  apply try_write_ext. intros y. destruct (e =? Utf16)%Z; reflexivity.
Qed.

Lemma reply_right i e p : utf16_ok e p ->
  writes_text broken (fun W ops w => WriteMsgReply broken ops w i e p) (reply_frame i e p).
Proof. intros. apply sequence_text, reply_seq; assumption. Qed.
Lemma code_rej i c m safe t : go_length c -> wrong_code c safe t ->
  refusal broken (fun W ops w => WriteMsgReplyError broken ops w i c m safe) t.
Proof.
  intros Gc H. apply refusal_of. intros W ops w. unfold WriteMsgReplyError.
  destruct H as [-> ->|n -> L N|d t -> L B C]; exact_text.
  - reflexivity.
  - assert (length c <? 1 = false) as -> by (apply Nat.ltb_ge; lia). apply Nat.ltb_lt in L. rewrite L. reflexivity.
  - assert (length c <? 1 = false) as ->. { apply Nat.ltb_ge. destruct B as (a & b & -> & _). rewrite app_length. cbn. lia. }
    apply Nat.ltb_ge in L. rewrite L, (first_bad_fun _ _ B). reflexivity.
Qed.
Lemma code_wrong i c m safe t : go_length c -> wrong_code c safe t ->
  rejects_text broken (fun W ops w => WriteMsgReplyError broken ops w i c m safe) t.
Proof. intros. apply refusal_text, code_rej; assumption. Qed.
Lemma code_seq i c m safe : length c <= 255 -> valid_code c safe ->
  sequence broken (fun W ops w => WriteMsgReplyError broken ops w i c m safe) (error_frame i c m).
Proof.
  intros H1 H2. rewrite <- ProofWrite.concat_error. apply sequence_of. intros W ops w. unfold WriteMsgReplyError.
  assert (G : try_write broken ops [MsgReplyError] (try_write broken ops i (fun w0 => let? fl := ModelWrite.name_len_flag (length c) in
     try_write broken ops fl (try_write broken ops c (try_write broken ops m (close_end ops))) w0)) w = tseq broken ops (ProofWrite.chunks_error i c m) w).
  { unfold ProofWrite.chunks_error. cbn [tseq]. apply try_write_ext. intros x. apply try_write_ext. intros y.
    rewrite ProofWrite.name_len_flag_ok by assumption. reflexivity. }
  destruct safe; [|exact G]. destruct (H2 eq_refl) as [L P].
  assert (length c <? 1 = false) as -> by (apply Nat.ltb_ge; lia). assert (255 <? length c = false) as -> by (apply Nat.ltb_ge; lia).
  rewrite (printable_find _ P). exact G.
Qed.
Lemma code_right i c m safe : length c <= 255 -> valid_code c safe ->
  writes_text broken (fun W ops w => WriteMsgReplyError broken ops w i c m safe) (error_frame i c m).
Proof. intros. apply sequence_text, code_seq; assumption. Qed.
Lemma code_cases c safe : go_length c -> valid_code c safe \/ exists t, wrong_code c safe t.
Proof.
  intros Gc. destruct safe; [|left; intros ?; discriminate].
  destruct c as [|x c']; [right; eexists; apply WC_empty; reflexivity|]. set (c := x :: c') in *. assert (1 <= length c) by (cbn; lia).
  destruct (Nat.le_gt_cases (length c) 255) as [L|L]; [|right; eexists; apply WC_long; [reflexivity|exact L|apply pct_d_number, Gc]].
  pose proof (find_bad c) as F. destruct (find ModelWrite.bad_char c) as [d|].
  - right. eexists. apply WC_char with d; auto. apply string_of_char.
  - left. intros _. split; [lia|exact F].
Qed.

Lemma special_rej t i n : ~ (1 <= b2N t <= 5)%N -> number (b2n t) n ->
  refusal broken (fun W ops w => WriteMsgSpecialRequestReply broken ops w t i) (txt "message type (" ++ n ++ txt ") doesn't represent a special reply message").
Proof.
  intros H N. rewrite <- (number_inj _ _ _ (byte_number t) N). apply refusal_of. intros W ops w. unfold WriteMsgSpecialRequestReply.
  destruct t; try reflexivity; exfalso; apply H; cbv; split; discriminate.
Qed.
Lemma special_wrong t i n : ~ (1 <= b2N t <= 5)%N -> number (b2n t) n ->
  rejects_text broken (fun W ops w => WriteMsgSpecialRequestReply broken ops w t i) (txt "message type (" ++ n ++ txt ") doesn't represent a special reply message").
Proof. intros. apply refusal_text, special_rej; assumption. Qed.
Lemma special_seq t i : (1 <= t <= 5)%N ->
  sequence broken (fun W ops w => WriteMsgSpecialRequestReply broken ops w (n2b t) i) (n2b t :: i).
Proof.
  intros H. replace (n2b t :: i) with (concat [[n2b t]; i]) by (cbn; rewrite app_nil_r; reflexivity). apply sequence_of. intros W ops w.
  assert (t = 1 \/ t = 2 \/ t = 3 \/ t = 4 \/ t = 5)%N as [E|[E|[E|[E|E]]]] by lia; subst t; reflexivity.
Qed.
Lemma special_right t i : (1 <= t <= 5)%N ->
  writes_text broken (fun W ops w => WriteMsgSpecialRequestReply broken ops w (n2b t) i) (n2b t :: i).
Proof. intros. apply sequence_text, special_seq; assumption. Qed.
Lemma others_seq i p info :
  sequence broken (fun W ops w => WriteMsgHeartbeat broken ops w) [n2b 33] /\
  sequence broken (fun W ops w => WriteMsgNotifySessionClosed broken ops w) [n2b 22] /\
  sequence broken (fun W ops w => WriteMsgNotifySessionCreated broken ops w info) (n2b 21 :: info) /\
  sequence broken (fun W ops w => WriteMsgNamelessRequest broken ops w (n2b 32) i p) (n2b 32 :: i ++ p) /\
  sequence broken (fun W ops w => WriteMsgNamelessRequest broken ops w (n2b 31) i p) (n2b 31 :: i ++ p).
Proof.
  split; [|split; [|split; [|split]]].
  - exact (sequence_of broken _ [[n2b 33]] (fun _ _ _ => eq_refl)).
  - exact (sequence_of broken _ [[n2b 22]] (fun _ _ _ => eq_refl)).
  - replace (n2b 21 :: info) with (concat [[n2b 21]; info]) by (cbn; rewrite app_nil_r; reflexivity). exact (sequence_of broken _ _ (fun _ _ _ => eq_refl)).
  - destruct p as [|x p].
    + replace (n2b 32 :: i ++ []) with (concat [[n2b 32]; i]) by (cbn; rewrite !app_nil_r; reflexivity). exact (sequence_of broken _ _ (fun _ _ _ => eq_refl)).
    + replace (n2b 32 :: i ++ x :: p) with (concat [[n2b 32]; i; x :: p]) by (cbn; rewrite !app_nil_r; reflexivity). exact (sequence_of broken _ _ (fun _ _ _ => eq_refl)).
  - destruct p as [|x p].
    + replace (n2b 31 :: i ++ []) with (concat [[n2b 31]; i]) by (cbn; rewrite !app_nil_r; reflexivity). exact (sequence_of broken _ _ (fun _ _ _ => eq_refl)).
    + replace (n2b 31 :: i ++ x :: p) with (concat [[n2b 31]; i; x :: p]) by (cbn; rewrite !app_nil_r; reflexivity). exact (sequence_of broken _ _ (fun _ _ _ => eq_refl)).
Qed.
Lemma others_right i p info :
  writes_text broken (fun W ops w => WriteMsgHeartbeat broken ops w) [n2b 33] /\
  writes_text broken (fun W ops w => WriteMsgNotifySessionClosed broken ops w) [n2b 22] /\
  writes_text broken (fun W ops w => WriteMsgNotifySessionCreated broken ops w info) (n2b 21 :: info) /\
  writes_text broken (fun W ops w => WriteMsgNamelessRequest broken ops w (n2b 32) i p) (n2b 32 :: i ++ p) /\
  writes_text broken (fun W ops w => WriteMsgNamelessRequest broken ops w (n2b 31) i p) (n2b 31 :: i ++ p).
Proof.
  destruct (others_seq i p info) as (A & B & C & D & E). repeat split; apply sequence_text; assumption.
Qed.
End Signal.
