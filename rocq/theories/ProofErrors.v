(* Proofs about error values. *)
From Coq Require Import Strings.String.
From Coq Require Import List Arith NArith Bool Wellfounded Wf_nat.
From Verif Require Import BaseBytes BaseConc ModelMessage ModelRequests ModelWrite ModelHandle ModelErrors SpecWire SpecMessage SpecWrite SpecRequests SpecHandle SpecErrors
  ProofRequests ProofHandle.
Import ListNotations.
Open Scope nat_scope.
Open Scope list_scope.

Fixpoint depth (e : err) : nat :=
  match e with
  | ErrDeadlineExceeded (Some c) | ErrDisconnected (Some c) | ErrProtocol (Some c) | ErrTimeout (Some c) | ErrCanceled (Some c) => S (depth c)
  | Pointer c => S (depth c)
  | _ => 0
  end.
Lemma speaks_depth e c : speaks_for e (Some c) -> depth c < depth e.
Proof. intros H. remember (Some c) as o eqn:Q. destruct H; inversion Q; subst; cbn; auto. Qed.

Section Texts.
Variable broken : err -> bytes.
Lemma speaks_text e c : speaks_for e c -> Error broken e = text_of broken c.
Proof. intros []; reflexivity. Qed.
Lemma reports_text e pre c : reports e pre c -> Error broken e = Some (txt pre ++ shown broken c (text_of broken c)).
Proof. intros []; reflexivity. Qed.
Lemma reports_cause e pre c t : reports e pre (Some c) -> Error broken c = Some t -> Error broken e = Some (txt pre ++ t).
Proof. intros H T. rewrite (reports_text _ _ _ H). cbn. rewrite T. destruct c; try reflexivity. discriminate T. Qed.
Lemma reports_nothing e pre : reports e pre None -> Error broken e = Some (txt pre ++ txt "%!s(<nil>)").
Proof. intros H. apply (reports_text _ _ _ H). Qed.
Lemma error_hollow e : Error broken e = None <-> hollow e.
Proof.
  split.
  - induction e as [e IH] using (well_founded_induction (wf_inverse_image _ _ _ depth lt_wf)).
    assert (K : forall c, speaks_for e c -> Error broken e = None -> hollow e).
    { intros c H T. rewrite (speaks_text _ _ H) in T. destruct c as [c|]; [|apply (Ho_none _ H)].
      apply (Ho_some _ _ H), IH; [apply (speaks_depth _ _ H)|exact T]. }
    clear IH.
    destruct e; try discriminate; intros T; try (eapply K; [constructor|exact T]).
    + destruct cause; [eapply K; [constructor|exact T]|discriminate T].
    + destruct closed; discriminate T.
    + apply Ho_nil.
    + cbn in T. subst. apply Ho_foreign.
  - induction 1 as [e H|e c H _ IH|e|]; try reflexivity; rewrite (speaks_text _ _ H); [reflexivity|exact IH].
Qed.
Lemma translate_all e : exists x, TranslateContextError broken e = Some x /\ Error broken x <> None /\
  (IsErrTimeout (Some x) = true <-> e = Some DeadlineExceeded) /\
  (IsErrCanceled (Some x) = true <-> e = Some Canceled) /\
  (e = Some DeadlineExceeded \/ e = Some Canceled -> speaks_for x e) /\
  (forall c t, e = Some c -> Error broken c = Some t -> exists pre, Error broken x = Some (pre ++ t)).
Proof.
  assert (e = Some DeadlineExceeded \/ e = Some Canceled \/ (e <> Some DeadlineExceeded /\ e <> Some Canceled /\
    TranslateContextError broken e = Some (Foreign (Some (txt "unexpected context error: " ++ shown broken e (text_of broken e)))))) as [->|[->|(N1 & N2 & E)]].
  { destruct e as [[]|]; auto; right; right; repeat split; congruence. }
  - eexists. split; [reflexivity|]. repeat split; try discriminate; [constructor|].
    intros c t Q T. injection Q as <-. exists []. exact T.
  - eexists. split; [reflexivity|]. repeat split; try discriminate; [constructor|].
    intros c t Q T. injection Q as <-. exists []. exact T.
  - eexists. split; [exact E|]. split; [discriminate|]. split; [split; [discriminate|contradiction]|]. split; [split; [discriminate|contradiction]|].
    split; [intros [?|?]; contradiction|]. intros c t Q T. exists (txt "unexpected context error: "). cbn [Error]. rewrite Q. cbn [text_of].
    rewrite T. destruct c; try reflexivity. discriminate T.
Qed.
End Texts.

Lemma is_timeout e : IsErrTimeout e = true <-> exists c, e = Some (ErrTimeout c) \/ e = Some (ErrDeadlineExceeded c).
Proof.
  split; [|intros (c & [->| ->]); reflexivity].
  destruct e as [[]|]; try discriminate; eauto.
Qed.
Lemma is_canceled e : IsErrCanceled e = true <-> exists c, e = Some (ErrCanceled c).
Proof. split; [|intros (c & ->); reflexivity]. destruct e as [[]|]; try discriminate; eauto. Qed.
Lemma made_speaks broken e : made e -> Error broken e <> None.
Proof.
  intros []; try discriminate. subst. destruct c as [[]|]; cbn in H; injection H as <-; discriminate.
Qed.
Lemma made_cause e pre : made e -> ~ reports e pre None /\ ~ speaks_for e None.
Proof.
  intros M. split; intros H; remember None as o eqn:Q; destruct M; inversion H; subst; try discriminate;
    destruct c as [[]|]; cbn in *; congruence.
Qed.
Lemma made_kinds e : made e ->
  (IsErrTimeout (Some e) = true <-> e = ErrDeadlineExceeded (Some DeadlineExceeded)) /\
  (IsErrCanceled (Some e) = true <-> e = ErrCanceled (Some Canceled)).
Proof.
  intros []; cbn; try (split; split; discriminate).
  destruct c as [[]|]; cbn in H; injection H as <-; cbn; (split; split); congruence.
Qed.

Lemma await_error broken s i r c : rreach anything s -> (N.of_nat (creations s) < 2 ^ 64)%N -> nth_error (threads s) i = Some (Aw1 r (ctx_kind c)) ->
  exists s' a x, rstep s (EvStep i ChRun) = Some s' /\ nth_error (threads s') i = Some (AwR r (AwCtx a)) /\
    TranslateContextError broken c = Some x /\
    (a = ModelRequests.ErrDeadlineExceeded <-> IsErrTimeout (Some x) = true) /\ (a = ModelRequests.ErrCanceled <-> IsErrCanceled (Some x) = true).
Proof.
  intros R B H. destruct (context_error_returns _ _ _ _ R B H) as (s' & E & _ & _ & _ & T).
  destruct (translate_all broken c) as (x & X & _ & K1 & K2 & _).
  exists s', (match ctx_kind c with CtxDeadline => ModelRequests.ErrDeadlineExceeded | CtxCanceled => ModelRequests.ErrCanceled | CtxOther => ErrUnexpected end), x.
  split; [exact E|]. split; [exact T|]. split; [exact X|]. rewrite K1, K2. clear. destruct c as [[]|]; cbn; (split; split); congruence.
Qed.

Lemma handle_errors m b c p t e : received m b c -> app_request (k_type c) ->
  (forall code text, e = ErrRequest code text \/ e = Pointer (ErrRequest code text) -> valid_code code true ->
     sends (fun W ops gw => handleRequest ops gw m (p, seen t (Some e))) (MkContent 0 (k_ident c) code text EU8 None)) /\
  ((forall code text, e <> ErrRequest code text /\ e <> Pointer (ErrRequest code text) /\ e <> NilPointer (ErrRequest code text)) ->
     sends (fun W ops gw => handleRequest ops gw m (p, seen t (Some e))) (MkContent 2 (k_ident c) [] [] EBin None)) /\
  (forall code text, e = NilPointer (ErrRequest code text) -> forall W ops w, @handleRequest W ops (Some w) m (p, seen t (Some e)) = None).
Proof.
  intros R A. split; [|split].
  - intros code text H V. destruct H as [-> | ->]; apply (error_replies m b c p code text [] R A V).
  - intros N. assert (sendable (p, seen t (Some e)) /\ reply_content (k_ident c) (p, seen t (Some e)) = MkContent 2 (k_ident c) [] [] EBin None) as [S <-];
      [|apply (handle_request_sends m b c _ R A S)].
    destruct e as [| | | | | | | |code text| | | | | | | | | |[]|[]|]; try (split; [exact Logic.I|reflexivity]);
      match goal with |- context[ErrRequest ?c0 ?m0] => destruct (N c0 m0) as (? & ? & ?); congruence end.
  - intros code text -> W ops w. destruct (handle_request_unsendable m b c (p, EReqPtr None) R A (fun x => x)) as [[_ H]|[H _]]; [apply H|exfalso; apply H; reflexivity].
Qed.

Lemma fail_errors m b c t e : received m b c -> wants_reply (k_type c) ->
  (forall code text, request_error e code text -> valid_code code true ->
     sends (fun W ops gw => failMsg ops gw m (seen t (Some e))) (MkContent 0 (k_ident c) code text EU8 None)) /\
  (forall n, session_error e n -> sends (fun W ops gw => failMsg ops gw m (seen t (Some e))) (special_content n (k_ident c))) /\
  ((forall code text, ~ request_error e code text) -> (forall n, ~ session_error e n) -> (forall code text, e <> NilPointer (ErrRequest code text)) ->
     sends (fun W ops gw => failMsg ops gw m (seen t (Some e))) (special_content 2 (k_ident c))).
Proof.
  intros R A. split; [|split].
  - intros code text H V. destruct H; [apply (failMsg_sends m b c (EReq c0 m0) R A V)|apply (failMsg_sends m b c (EReqPtr (Some (c0, m0))) R A V)].
  - intros n []; [apply (failMsg_sends m b c ESessNotFound R A Logic.I)|apply (failMsg_sends m b c EMaxSessConns R A Logic.I)|apply (failMsg_sends m b c ESessDisabled R A Logic.I)].
  - intros N1 N2 N3. assert (seen t (Some e) = EOther t) as ->; [|apply (failMsg_sends m b c (EOther t) R A Logic.I)].
    destruct e as [| | | | | | | |code text| | | | | | | | | |[]|[]|]; try reflexivity; exfalso;
      first [eapply N1; constructor|eapply N2; constructor|eapply N3; reflexivity].
Qed.
Lemma seen_exact t e :
  (seen t e = ENil <-> e = None) /\ (seen t e = EOther t -> exists x, e = Some x) /\
  (forall c m, seen t e = EReq c m <-> e = Some (ErrRequest c m)) /\
  (forall c m, seen t e = EReqPtr (Some (c, m)) <-> e = Some (Pointer (ErrRequest c m))).
Proof.
  destruct e as [[| | | | | | | |code text| | | | | | | | | |[]|[]|]|]; cbn; (split; [split; congruence|]); (split; [eauto; discriminate|]); (split; split; congruence).
Qed.
