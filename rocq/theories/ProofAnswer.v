(* Answers over the in-memory transport. *)
From Coq Require Import Strings.String.
From Coq Require Import List Arith NArith ZArith Lia Bool.
From Verif Require Import BaseBytes ModelMessage ModelHandle ModelErrors SpecWire SpecWrite ModelReport SpecReport ModelLog SpecLog
  ModelSend SpecSend SpecAnswer ProofReport ProofLog ProofSend.
Import ListNotations.
Open Scope list_scope.
Open Scope nat_scope.

Section Answers.
Variables (broken brokenv : err -> bytes) (con : bytes) (connected : bool) (verdict : bytes -> option err).
Variables (cap : nat) (sent : list bytes) (w : wire).
Hypothesis T : taken cap sent w.
Local Notation ops := (wire_ops connected verdict).
Local Notation carry := (carries connected verdict cap sent).
Local Notation lineR := (with_connection broken t$"couldn't write reply message for connection " con).
Local Notation lineE s := (with_error broken brokenv s).

Lemma written_carries (f : forall W, text_ops W -> W -> option (W * option err)) frame log line :
  delivers f frame -> (forall e, one [log e] (line e)) ->
  carry frame line (o_log (written (f _ ops w) log)) (o_res (written (f _ ops w) log)).
Proof.
  intros D L. destruct (D cap sent w T connected verdict) as (w' & e & -> & A & B & C). exists w'. unfold written.
  split; [destruct e; reflexivity|]. split; [|split].
  - intros F U. destruct (A F U) as [R ->]. split; [exact R|]. destruct (verdict frame); cbn [o_log]; auto.
  - intros F U. destruct (B F U) as [R ->]. split; [exact R|apply L].
  - intros F. destruct (C F) as [R ->]. split; [exact R|apply L].
Qed.
Lemma written_loses (f : forall W, text_ops W -> W -> option (W * option err)) t log line :
  withholds f t -> (forall e, one [log e] (line e)) ->
  loses sent t line (o_log (written (f _ ops w) log)) (o_res (written (f _ ops w) log)).
Proof.
  intros D L. destruct (D cap sent w T connected verdict) as (w' & -> & B). exists w'. unfold written.
  split; [reflexivity|]. split; [exact B|apply L].
Qed.
Lemma fulfill_wire m (p : payload) : go_length (snd p) ->
  let o := fulfillMsg broken con ops (inl w) m p in
  (utf16_ok (fst p) (snd p) -> carry (reply_frame (ident_of m) (fst p) (snd p)) lineR (o_log o) (o_res o)) /\
  (forall n, odd16 (fst p) (snd p) -> number (length (snd p)) n ->
     loses sent (t$"invalid UTF16 reply payload data length: " ++ n) lineR (o_log o) (o_res o)).
Proof.
  intros G o. subst o. unfold fulfillMsg.
  assert (L : forall e, one [Printf ErrorLog (txt "couldn't write reply message for connection " ++ con ++ txt ": " ++ pct_s broken e)] (lineR e))
    by (intros e; rewrite pct_s_printed; apply one_printf).
  destruct (reply_sent broken (ident_of m) (fst p) (snd p) G) as [Wr Ri]. split.
  - intros U. exact (written_carries _ _ _ _ (Ri U) L).
  - intros n O N. exact (written_loses _ _ _ _ (Wr n O N) L).
Qed.
Lemma fail_own_wire m e c t : RequiresReply m = true -> own_error e c t -> go_length c ->
  let o := failMsg broken brokenv con ops (inl w) m e in
  (valid_code c true -> carry (error_frame (ident_of m) c t) (lineE t$"couldn't write error reply message: ") (o_log o) (o_res o)) /\
  (forall x, wrong_code c true x -> loses sent x (lineE t$"couldn't write error reply message: ") (o_log o) (o_res o)).
Proof.
  intros R O G o.
  assert (o = written (WriteMsgReplyError broken ops w (ident_of m) c t true)
     (fun e => Println ErrorLog (txt "couldn't write error reply message: ") (pct_v broken brokenv e))) as ->
    by (subst o; unfold failMsg; rewrite R; destruct O; reflexivity).
  destruct (error_sent broken (ident_of m) c t true G) as [Wr Ri]. split.
  - intros V. assert (L : length c <= 255) by (destruct (V eq_refl); lia). exact (written_carries _ _ _ _ (Ri L V) (one_println broken brokenv _)).
  - intros x X. exact (written_loses _ _ _ _ (Wr x X) (one_println broken brokenv _)).
Qed.
Lemma fail_special_wire m e k s : RequiresReply m = true -> special_for e k s ->
  let o := failMsg broken brokenv con ops (inl w) m e in carry (n2b k :: ident_of m) (lineE s) (o_log o) (o_res o).
Proof.
  intros R S o.
  assert (o = written (WriteMsgSpecialRequestReply broken ops w (n2b k) (ident_of m))
     (fun e => Println ErrorLog s (pct_v broken brokenv e)) /\ (1 <= k <= 5)%N) as [-> K].
  { subst o. unfold failMsg. rewrite R. destruct S as [| | |e NO N1 N2 N3]; try (split; [reflexivity|lia]). split; [|lia].
    destruct e as [[]|]; try reflexivity; try congruence; try (destruct NO; left; do 2 eexists; constructor).
    - destruct e; try reflexivity. destruct NO; left; do 2 eexists; constructor.
    - destruct e; try reflexivity. destruct NO; right; constructor. }
  exact (written_carries _ _ _ _ (proj2 (special_sent broken (ident_of m)) k K) (one_println broken brokenv _)).
Qed.
Lemma shutdown_wire m : let o := failMsgShutdown broken brokenv con ops (inl w) m in
  carry (n2b 1 :: ident_of m) (lineE t$"failed writing shutdown reply message: ") (o_log o) (o_res o).
Proof. exact (written_carries _ _ _ _ (proj2 (special_sent broken (ident_of m)) 1%N ltac:(lia)) (one_println broken brokenv _)). Qed.

Lemma request_wire m (p : payload) e : RequiresReply m = true -> go_length (snd p) ->
  let o := handleRequest broken brokenv con ops (inl w) m (p, e) in
  (e = None -> utf16_ok (fst p) (snd p) -> carry (reply_frame (ident_of m) (fst p) (snd p)) lineR (o_log o) (o_res o)) /\
  (e = None -> forall n, odd16 (fst p) (snd p) -> number (length (snd p)) n ->
     loses sent (t$"invalid UTF16 reply payload data length: " ++ n) lineR (o_log o) (o_res o)) /\
  (forall c t, own_error e c t -> go_length c ->
     (valid_code c true -> carry (error_frame (ident_of m) c t) (lineE t$"couldn't write error reply message: ") (o_log o) (o_res o)) /\
     (forall x, wrong_code c true x -> loses sent x (lineE t$"couldn't write error reply message: ") (o_log o) (o_res o))) /\
  (forall x, e = Some x -> ~ is_own e -> exists s l, ended (t$"request handler internal error: " ++ printed_v broken brokenv x) s /\
     o_log o = (ErrorLog, s) :: l /\ carry (n2b 2 :: ident_of m) (lineE t$"couldn't write internal error message: ") l (o_res o)).
Proof.
  intros R G o. destruct (request_log broken brokenv con ops (inl w) m p e) as (Q1 & Q2 & Q3). subst o.
  destruct (fulfill_wire m p G) as [F1 F2]. split; [|split; [|split]].
  - intros E. rewrite (Q1 E). exact F1.
  - intros E. rewrite (Q1 E). exact F2.
  - intros c t O Gc. rewrite Q2 by (left; eauto). exact (fail_own_wire m e c t R O Gc).
  - intros x E N. destruct (Q3 x E N) as (s & A & B & C). exists s, (o_log (failMsg broken brokenv con ops (inl w) m None)).
    split; [exact A|]. split; [exact B|]. rewrite C. apply fail_special_wire; [exact R|].
    apply SF_internal; try discriminate. intros [(c & t & O)|O]; inversion O.
Qed.
Lemma utf8_frame i b : reply_frame i Utf8 b = n2b 192 :: i ++ b.
Proof. reflexivity. Qed.
Lemma restore_wire m : RequiresReply m = true ->
  let o r := handleSessionRestore broken brokenv con ops (inl w) m r in
  carry (n2b 5 :: ident_of m) (lineE t$"couldn't write sessions disabled message: ") (o_log (o ResDisabled)) (o_res (o ResDisabled)) /\
  carry (n2b 4 :: ident_of m) (lineE t$"couldn't write max sessions reached message: ") (o_log (o ResFull)) (o_res (o ResFull)) /\
  carry (n2b 3 :: ident_of m) (lineE t$"couldn't write session not found message: ") (o_log (o ResUnknown)) (o_res (o ResUnknown)) /\
  (forall b, go_length b -> carry (n2b 192 :: ident_of m ++ b) lineR (o_log (o (ResOk b))) (o_res (o (ResOk b)))) /\
  (forall r e t, r = ResFailed e /\ t = t$"session search handler failed: " ++ printed broken e \/
     (exists obj, r = ResUncoded obj e /\ t = t$"couldn't encode session object (" ++ obj ++ t$"): " ++ printed broken e) ->
     exists l s, o_log (o r) = l ++ [(ErrorLog, s)] /\ ended t s /\
       carry (n2b 2 :: ident_of m) (lineE t$"couldn't write internal error message: ") l (o_res (o r))).
Proof.
  intros R o. subst o. cbv beta. cbn [handleSessionRestore].
  split; [apply fail_special_wire; [exact R|constructor]|]. split; [apply fail_special_wire; [exact R|constructor]|].
  split; [apply fail_special_wire; [exact R|constructor]|]. split.
  - intros b G. destruct (fulfill_wire m (Utf8, b) G) as [F _]. cbn [fst snd] in F. rewrite utf8_frame in F. apply F. intros X. discriminate X.
  - intros r e t H.
    assert (S : special_for None 2 t$"couldn't write internal error message: ")
      by (apply SF_internal; try discriminate; intros [(c & x & O)|O]; inversion O).
    pose proof (fail_special_wire m None _ _ R S) as F. cbv zeta in F.
    assert (G : handleSessionRestore broken brokenv con ops (inl w) m r = before (failMsg broken brokenv con ops (inl w) m None) [Printf ErrorLog t])
      by (destruct H as [[-> ->]|(obj & -> & ->)]; rewrite <- pct_s_printed; reflexivity).
    rewrite G. unfold before. destruct (o_res (failMsg broken brokenv con ops (inl w) m None)) as [x|] eqn:E.
    + exists (o_log (failMsg broken brokenv con ops (inl w) m None)), (lined t). split; [reflexivity|]. split; [apply lined_ended|].
      cbn [o_res]. exact F.
    + destruct F as (w' & X & _). discriminate.
Qed.
Lemma closure_wire m : RequiresReply m = true ->
  let o c := handleSessionClosure broken brokenv con ops (inl w) m c in
  carry (n2b 5 :: ident_of m) (lineE t$"couldn't write sessions disabled message: ") (o_log (o ClDisabled)) (o_res (o ClDisabled)) /\
  (forall c, c = ClNone \/ c = ClSession None \/ c = ClSession (Some HkDone) ->
     carry (n2b 191 :: ident_of m) lineR (o_log (o c)) (o_res (o c))).
Proof.
  intros R o. subst o. cbv beta. split; [apply fail_special_wire; [exact R|constructor]|].
  assert (F : let o := fulfillMsg broken con ops (inl w) m (Binary, []) in carry (n2b 191 :: ident_of m) lineR (o_log o) (o_res o)).
  { destruct (fulfill_wire m (Binary, []) ltac:(unfold go_length; cbn; lia)) as [F _]. cbn [fst snd] in F.
    replace (n2b 191 :: ident_of m) with (reply_frame (ident_of m) Binary []) by (unfold reply_frame; cbn; rewrite app_nil_r; reflexivity).
    apply F. intros X. discriminate X. }
  intros c [->|[->| ->]]; exact F.
Qed.
End Answers.
