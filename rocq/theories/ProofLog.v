(* The server's logs. *)
From Coq Require Import Strings.String.
From Coq Require Import List Arith NArith ZArith Bool Lia.
From Verif Require Import BaseBytes ModelMessage ModelHandle ModelErrors SpecWire SpecWrite ModelReport SpecReport ProofReport ProofReport3 ModelLog SpecLog.
Import ListNotations.
Open Scope list_scope.
Open Scope nat_scope.

Lemma lined_ended s : ended s (lined s).
Proof.
  unfold lined. destruct (rev s) as [|c r] eqn:E.
  - apply E_add. intros u ->. rewrite rev_app_distr in E. discriminate.
  - assert (S : s = rev r ++ [c]) by (rewrite <- (rev_involutive s), E; reflexivity).
    destruct (Byte.byte_eq_dec c newline) as [->|N].
    + change newline with x0a in *. cbv beta iota. apply (E_has s (rev r)). exact S.
    + assert (A : ended s (s ++ [newline])) by (apply E_add; intros u U; rewrite U in S; apply app_inj_tail in S as [_ S]; congruence).
      clear - A N. destruct c; try exact A. destruct N. reflexivity.
Qed.
Lemma one_printf t : one [Printf ErrorLog t] t.
Proof. eexists. split; [reflexivity|apply lined_ended]. Qed.
Lemma shown_v broken brokenv e : pct_v broken brokenv e = printed_v broken brokenv e.
Proof. destruct e; reflexivity. Qed.
Lemma println_with broken brokenv s e : Println ErrorLog s (pct_v broken brokenv e) = Printf ErrorLog (with_error broken brokenv s e).
Proof. rewrite shown_v. reflexivity. Qed.
Lemma one_println broken brokenv s e : one [Println ErrorLog s (pct_v broken brokenv e)] (with_error broken brokenv s e).
Proof. rewrite println_with. apply one_printf. Qed.

Lemma outcome_none broken errs chunks : forall i, outcome broken errs i chunks = None -> forall k, k <= length chunks -> errs (i + k) = None.
Proof.
  induction chunks as [|c cs IH]; intros i O k L; cbn in *.
  - replace (i + k) with i by lia. exact O.
  - destruct (errs i) eqn:E; [discriminate|]. destruct k as [|k]; [replace (i + 0) with i by lia; exact E|].
    replace (i + S k) with (S i + k) by lia. apply IH; [exact O|lia].
Qed.
Lemma written_replies broken f frame errs log line :
  writes_text broken f frame -> (forall e, one [log e] (line e)) ->
  replies broken errs frame line (o_log (written (f _ (reporter errs) []) log)) (o_res (written (f _ (reporter errs) []) log)).
Proof.
  intros (chunks & C & H) L. exists chunks. split; [exact C|]. rewrite (H errs []). cbn [length app].
  unfold written. destruct (outcome broken errs 0 chunks) as [e|] eqn:O; cbn [o_log o_res].
  - split; [reflexivity|apply L].
  - split; [reflexivity|]. split; [reflexivity|]. intros i I. exact (outcome_none _ _ _ 0 O i I).
Qed.
Lemma written_refuses broken f t errs log line :
  rejects_text broken f t -> (forall e, one [log e] (line e)) ->
  refuses broken errs t line (o_log (written (f _ (reporter errs) []) log)) (o_res (written (f _ (reporter errs) []) log)).
Proof. intros H L. red. rewrite (H errs []). cbn [app length written o_log o_res]. split; [reflexivity|apply L]. Qed.

Section Server.
Variables (broken brokenv : err -> bytes) (con : bytes).
Notation lineR := (with_connection broken t$"couldn't write reply message for connection " con).
Lemma no_writer_one e : no_one broken con e [no_writer broken con e].
Proof. unfold no_one, no_writer. rewrite pct_s_printed. apply one_printf. Qed.

Lemma fulfill_log errs m p : go_length (snd p) ->
  let o := fulfillMsg broken con (reporter errs) (inl []) m p in
  (utf16_ok (fst p) (snd p) -> replies broken errs (reply_frame (ident_of m) (fst p) (snd p)) lineR (o_log o) (o_res o)) /\
  (forall n, odd16 (fst p) (snd p) -> number (length (snd p)) n ->
     refuses broken errs (t$"invalid UTF16 reply payload data length: " ++ n) lineR (o_log o) (o_res o)).
Proof.
  intros G o. subst o. unfold fulfillMsg.
  assert (L : forall e, one [Printf ErrorLog (txt "couldn't write reply message for connection " ++ con ++ txt ": " ++ pct_s broken e)] (lineR e))
    by (intros e; rewrite pct_s_printed; apply one_printf).
  split.
  - intros U. exact (written_replies broken _ _ errs _ _ (reply_right broken (ident_of m) _ _ U) L).
  - intros n O N. exact (written_refuses broken _ _ errs _ _ (reply_wrong broken (ident_of m) _ _ n G O N) L).
Qed.
Lemma fulfill_none {W} (ops : text_ops W) m p e :
  o_res (fulfillMsg broken con ops (inr e) m p) = Some None /\ no_one broken con e (o_log (fulfillMsg broken con ops (inr e) m p)).
Proof. split; [reflexivity|apply no_writer_one]. Qed.

Notation failed errs := (failMsg broken brokenv con (reporter errs) (inl [])).
Notation lineE s := (with_error broken brokenv s).
Lemma fail_own errs m e c t : RequiresReply m = true -> own_error e c t -> go_length c ->
  (valid_code c true -> replies broken errs (error_frame (ident_of m) c t) (lineE t$"couldn't write error reply message: ")
     (o_log (failed errs m e)) (o_res (failed errs m e))) /\
  (forall x, wrong_code c true x -> refuses broken errs x (lineE t$"couldn't write error reply message: ")
     (o_log (failed errs m e)) (o_res (failed errs m e))).
Proof.
  intros R O G.
  assert (failed errs m e = written (WriteMsgReplyError broken (reporter errs) [] (ident_of m) c t true)
     (fun e => Println ErrorLog (txt "couldn't write error reply message: ") (pct_v broken brokenv e))) as ->
    by (unfold failMsg; rewrite R; destruct O; reflexivity).
  split.
  - intros V. assert (L : length c <= 255) by (destruct (V eq_refl); lia).
    exact (written_replies broken _ _ errs _ _ (code_right broken (ident_of m) c t true L V) (one_println broken brokenv _)).
  - intros x X. exact (written_refuses broken _ _ errs _ _ (code_wrong broken (ident_of m) c t true x G X) (one_println broken brokenv _)).
Qed.

Lemma fail_nil {W} (ops : text_ops W) w m e : RequiresReply m = true -> nil_error e -> failMsg broken brokenv con ops (inl w) m e = MkOut [] None.
Proof. intros R []. unfold failMsg. rewrite R. reflexivity. Qed.
Lemma fail_none {W} (ops : text_ops W) m e g : RequiresReply m = true ->
  o_res (failMsg broken brokenv con ops (inr g) m e) = Some None /\ no_one broken con g (o_log (failMsg broken brokenv con ops (inr g) m e)).
Proof. intros R. unfold failMsg. rewrite R. split; [reflexivity|apply no_writer_one]. Qed.
Lemma fail_not {W} (ops : text_ops W) gw m e : RequiresReply m = false -> failMsg broken brokenv con ops gw m e = MkOut [] (Some None).
Proof. intros R. unfold failMsg. rewrite R. reflexivity. Qed.
Lemma fail_special errs m e k s : RequiresReply m = true -> special_for e k s ->
  replies broken errs (n2b k :: ident_of m) (lineE s) (o_log (failed errs m e)) (o_res (failed errs m e)).
Proof.
  intros R S.
  assert (failed errs m e = written (WriteMsgSpecialRequestReply broken (reporter errs) [] (n2b k) (ident_of m))
     (fun e => Println ErrorLog s (pct_v broken brokenv e)) /\ (1 <= k <= 5)%N) as [-> K].
  { unfold failMsg. rewrite R. destruct S as [| | |e NO N1 N2 N3]; try (split; [reflexivity|lia]). split; [|lia].
    destruct e as [[]|]; try reflexivity; try congruence; try (destruct NO; left; do 2 eexists; constructor).
    - destruct e; try reflexivity. destruct NO; left; do 2 eexists; constructor.
    - destruct e; try reflexivity. destruct NO; right; constructor. }
  exact (written_replies broken _ _ errs _ _ (special_right broken k (ident_of m) K) (one_println broken brokenv _)).
Qed.
Lemma special_cases e : is_own e \/ exists k s, special_for e k s.
Proof.
  destruct e as [[]|]; try (right; do 2 eexists; constructor; fail);
    try (left; left; do 2 eexists; constructor; fail);
    try (right; do 2 eexists; apply SF_internal; try discriminate; intros [(c & m & O)|O]; inversion O; fail).
  - destruct e; try (left; left; do 2 eexists; constructor; fail);
      right; do 2 eexists; apply SF_internal; try discriminate; intros [(c & m & O)|O]; inversion O.
  - destruct e; try (left; right; constructor; fail);
      right; do 2 eexists; apply SF_internal; try discriminate; intros [(c & m & O)|O]; inversion O.
Qed.

Lemma shutdown_log errs m : let o := failMsgShutdown broken brokenv con (reporter errs) (inl []) m in
  replies broken errs (n2b 1 :: ident_of m) (lineE t$"failed writing shutdown reply message: ") (o_log o) (o_res o).
Proof. exact (written_replies broken _ _ errs _ _ (special_right broken 1 (ident_of m) ltac:(lia)) (one_println broken brokenv _)). Qed.
Lemma shutdown_none {W} (ops : text_ops W) m g :
  o_res (failMsgShutdown broken brokenv con ops (inr g) m) = None /\ no_one broken con g (o_log (failMsgShutdown broken brokenv con ops (inr g) m)).
Proof. split; [reflexivity|apply no_writer_one]. Qed.

(* what OnRequest returns *)
Lemma request_log {W} (ops : text_ops W) gw m p e :
  (e = None -> handleRequest broken brokenv con ops gw m (p, e) = fulfillMsg broken con ops gw m p) /\
  (is_own e -> handleRequest broken brokenv con ops gw m (p, e) = failMsg broken brokenv con ops gw m e) /\
  (forall x, e = Some x -> ~ is_own e ->
     exists s, ended (t$"request handler internal error: " ++ printed_v broken brokenv x) s /\
       o_log (handleRequest broken brokenv con ops gw m (p, e)) = (ErrorLog, s) :: o_log (failMsg broken brokenv con ops gw m None) /\
       o_res (handleRequest broken brokenv con ops gw m (p, e)) = o_res (failMsg broken brokenv con ops gw m None)).
Proof.
  split; [intros ->; reflexivity|]. split.
  - intros [(c & t & O)|O]; destruct O; reflexivity.
  - intros x -> N. exists (lined (t$"request handler internal error: " ++ printed_v broken brokenv x)). split; [apply lined_ended|].
    rewrite <- shown_v.
    assert (handleRequest broken brokenv con ops gw m (p, Some x) =
      after [Printf ErrorLog (txt "request handler internal error: " ++ pct_v broken brokenv x)] (failMsg broken brokenv con ops gw m None)) as ->.
    { destruct x; try reflexivity; try (destruct N; left; do 2 eexists; constructor).
      - destruct x; try reflexivity. destruct N; left; do 2 eexists; constructor.
      - destruct x; try reflexivity. destruct N; right; constructor. }
    split; reflexivity.
Qed.

(* a session is not restored, or is *)
Notation handled := (handleSessionRestore broken brokenv con).
Lemma restore_log {W} (ops : text_ops W) gw m :
  (handled ops gw m ResDisabled = failMsg broken brokenv con ops gw m (Some ErrSessionsDisabled)) /\
  (handled ops gw m ResFull = failMsg broken brokenv con ops gw m (Some ErrMaxSessConnsReached)) /\
  (handled ops gw m ResUnknown = failMsg broken brokenv con ops gw m (Some ErrSessionNotFound)) /\
  (forall b, handled ops gw m (ResOk b) = fulfillMsg broken con ops gw m (Utf8, b)).
Proof. repeat split. Qed.
Lemma restore_failed errs m r e t : RequiresReply m = true ->
  (r = ResFailed e /\ t = t$"session search handler failed: " ++ printed broken e \/
   exists obj, r = ResUncoded obj e /\ t = t$"couldn't encode session object (" ++ obj ++ t$"): " ++ printed broken e) ->
  let o := handled (reporter errs) (inl []) m r in
  exists l s, o_log o = l ++ [(ErrorLog, s)] /\ ended t s /\
    replies broken errs (n2b 2 :: ident_of m) (lineE t$"couldn't write internal error message: ") l (o_res o).
Proof.
  intros R H o. subst o.
  assert (S : special_for None 2 t$"couldn't write internal error message: ")
    by (apply SF_internal; try discriminate; intros [(c & x & O)|O]; inversion O).
  pose proof (fail_special errs m None _ _ R S) as F.
  assert (G : handled (reporter errs) (inl []) m r = before (failed errs m None) [Printf ErrorLog t])
    by (destruct H as [[-> ->]|(obj & -> & ->)]; rewrite <- pct_s_printed; reflexivity).
  rewrite G. unfold before. destruct (o_res (failed errs m None)) as [x|] eqn:E.
  - exists (o_log (failed errs m None)), (lined t). split; [reflexivity|]. split; [apply lined_ended|]. exact F.
  - destruct F as (ch & _ & X & _). discriminate.
Qed.
Lemma restore_none {W} (ops : text_ops W) m r e t g : RequiresReply m = true ->
  (r = ResFailed e /\ t = t$"session search handler failed: " ++ printed broken e \/
   exists obj, r = ResUncoded obj e /\ t = t$"couldn't encode session object (" ++ obj ++ t$"): " ++ printed broken e) ->
  let o := handled ops (inr g) m r in
  exists l s, o_log o = l ++ [(ErrorLog, s)] /\ ended t s /\ no_one broken con g l /\ o_res o = Some None.
Proof.
  intros R H o. subst o. destruct (fail_none ops m None g R) as [F1 F2].
  assert (G : handled ops (inr g) m r = before (failMsg broken brokenv con ops (inr g) m None) [Printf ErrorLog t])
    by (destruct H as [[-> ->]|(obj & -> & ->)]; rewrite <- pct_s_printed; reflexivity).
  rewrite G. unfold before. rewrite F1. do 2 eexists. split; [reflexivity|]. split; [apply lined_ended|]. split; [exact F2|reflexivity].
Qed.

(* a session is closed *)
Lemma closure_log {W} (ops : text_ops W) gw m c :
  let o := handleSessionClosure broken brokenv con ops gw m c in
  let done := fulfillMsg broken con ops gw m (Binary, []) in
  (c = ClDisabled -> o = failMsg broken brokenv con ops gw m (Some ErrSessionsDisabled)) /\
  (c = ClNone \/ c = ClSession None \/ c = ClSession (Some HkDone) -> o_log o = o_log done /\ o_res o = o_res done) /\
  (forall e, c = ClSession (Some (HkErr e)) -> o_log o = (ErrorLog, t$"session registry " ++ [newline]) :: o_log done /\ o_res o = o_res done) /\
  (c = ClSession (Some HkPanic) -> o_log o = [] /\ o_res o = None).
Proof.
  cbv zeta. split; [intros ->; reflexivity|]. split; [intros [->|[->| ->]]; split; reflexivity|].
  split; [intros e ->; split; reflexivity|]. intros ->. split; reflexivity.
Qed.
(* the same, as seen by the peer and in the log *)
Lemma restore_seen errs m : RequiresReply m = true ->
  let o r := handled (reporter errs) (inl []) m r in
  replies broken errs (n2b 5 :: ident_of m) (lineE t$"couldn't write sessions disabled message: ") (o_log (o ResDisabled)) (o_res (o ResDisabled)) /\
  replies broken errs (n2b 4 :: ident_of m) (lineE t$"couldn't write max sessions reached message: ") (o_log (o ResFull)) (o_res (o ResFull)) /\
  replies broken errs (n2b 3 :: ident_of m) (lineE t$"couldn't write session not found message: ") (o_log (o ResUnknown)) (o_res (o ResUnknown)) /\
  (forall b, replies broken errs (n2b 192 :: ident_of m ++ b) lineR (o_log (o (ResOk b))) (o_res (o (ResOk b)))).
Proof.
  intros R o. subst o. split; [|split; [|split]].
  - apply (fail_special errs m _ _ _ R SF_disabled).
  - apply (fail_special errs m _ _ _ R SF_max).
  - apply (fail_special errs m _ _ _ R SF_unknown).
  - intros b. assert (U : utf16_ok Utf8 b) by (intros X; discriminate X).
    assert (Gen : forall p, utf16_ok (fst p) (snd p) -> let d := fulfillMsg broken con (reporter errs) (inl []) m p in
      replies broken errs (reply_frame (ident_of m) (fst p) (snd p)) lineR (o_log d) (o_res d)).
    { intros p U'. cbv zeta. unfold fulfillMsg.
      assert (L : forall e, one [Printf ErrorLog (txt "couldn't write reply message for connection " ++ con ++ txt ": " ++ pct_s broken e)] (lineR e))
        by (intros e; rewrite pct_s_printed; apply one_printf).
      exact (written_replies broken _ _ errs _ _ (reply_right broken (ident_of m) _ _ U') L). }
    exact (Gen (Utf8, b) U).
Qed.
Lemma closure_seen errs m c : RequiresReply m = true ->
  let o := handleSessionClosure broken brokenv con (reporter errs) (inl []) m c in
  (c = ClDisabled -> replies broken errs (n2b 5 :: ident_of m) (lineE t$"couldn't write sessions disabled message: ") (o_log o) (o_res o)) /\
  (c = ClNone \/ c = ClSession None \/ c = ClSession (Some HkDone) -> replies broken errs (n2b 191 :: ident_of m) lineR (o_log o) (o_res o)) /\
  (forall e, c = ClSession (Some (HkErr e)) -> exists l, o_log o = (ErrorLog, t$"session registry " ++ [newline]) :: l /\
     replies broken errs (n2b 191 :: ident_of m) lineR l (o_res o)) /\
  (c = ClSession (Some HkPanic) -> o_log o = [] /\ o_res o = None).
Proof.
  intros R. destruct (closure_log (reporter errs) (inl []) m c) as (H1 & H2 & H3 & H4). cbv zeta in *.
  assert (F : let d := fulfillMsg broken con (reporter errs) (inl []) m (Binary, []) in replies broken errs (n2b 191 :: ident_of m) lineR (o_log d) (o_res d)).
  { cbv zeta. assert (U : utf16_ok Binary []) by (intros X; discriminate X).
    pose proof (proj1 (fulfill_log errs m (Binary, []) eq_refl) U) as G. cbn [fst snd] in G.
    replace (n2b 191 :: ident_of m) with (reply_frame (ident_of m) Binary []); [exact G|].
    unfold reply_frame. cbn. rewrite ?app_nil_r. reflexivity. }
  cbv zeta in F. split; [intros E; rewrite (H1 E); exact (fail_special errs m _ _ _ R SF_disabled)|].
  split; [intros E; destruct (H2 E) as [-> ->]; exact F|]. split; [|exact H4].
  intros e E. destruct (H3 e E) as [-> ->]. eexists. split; [reflexivity|exact F].
Qed.
Lemma request_seen errs m (p : payload) e : RequiresReply m = true -> go_length (snd p) ->
  let o := handleRequest broken brokenv con (reporter errs) (inl []) m (p, e) in
  (e = None -> utf16_ok (fst p) (snd p) -> replies broken errs (reply_frame (ident_of m) (fst p) (snd p)) lineR (o_log o) (o_res o)) /\
  (e = None -> forall n, odd16 (fst p) (snd p) -> number (length (snd p)) n ->
     refuses broken errs (t$"invalid UTF16 reply payload data length: " ++ n) lineR (o_log o) (o_res o)) /\
  (forall c t, own_error e c t -> go_length c ->
     (valid_code c true -> replies broken errs (error_frame (ident_of m) c t) (lineE t$"couldn't write error reply message: ") (o_log o) (o_res o)) /\
     (forall x, wrong_code c true x -> refuses broken errs x (lineE t$"couldn't write error reply message: ") (o_log o) (o_res o))) /\
  (nil_error e -> o_log o = [] /\ o_res o = None) /\
  (forall x, e = Some x -> ~ is_own e -> exists s l, ended (t$"request handler internal error: " ++ printed_v broken brokenv x) s /\
     o_log o = (ErrorLog, s) :: l /\ replies broken errs (n2b 2 :: ident_of m) (lineE t$"couldn't write internal error message: ") l (o_res o)).
Proof.
  intros R G. destruct (request_log (reporter errs) (inl []) m p e) as (H1 & H2 & H3). cbv zeta.
  split; [intros E; rewrite (H1 E); exact (proj1 (fulfill_log errs m p G))|].
  split; [intros E; rewrite (H1 E); exact (proj2 (fulfill_log errs m p G))|].
  split; [intros c t O; rewrite (H2 (or_introl (ex_intro _ c (ex_intro _ t O)))); exact (fail_own errs m e c t R O)|].
  split; [intros O; rewrite (H2 (or_intror O)), (fail_nil _ _ m e R O); split; reflexivity|].
  intros x E N. destruct (H3 x E N) as (s & S1 & -> & ->). do 2 eexists. split; [exact S1|]. split; [reflexivity|].
  assert (S : special_for None 2 t$"couldn't write internal error message: ")
    by (apply SF_internal; try discriminate; intros [(c & y & O)|O]; inversion O).
  exact (fail_special errs m None _ _ R S).
Qed.
Lemma handlers_none {W} (ops : text_ops W) g m p e r c : RequiresReply m = true ->
  (let o := handleRequest broken brokenv con ops (inr g) m (p, e) in o_res o = Some None /\
     exists a b, o_log o = a ++ b /\ no_one broken con g b /\
       ((e = None \/ is_own e) /\ a = [] \/ exists x, e = Some x /\ ~ is_own e /\ one a (t$"request handler internal error: " ++ printed_v broken brokenv x))) /\
  (let o := handleSessionRestore broken brokenv con ops (inr g) m r in
     (forall x, r <> ResFailed x) -> (forall b x, r <> ResUncoded b x) -> o_res o = Some None /\ no_one broken con g (o_log o)) /\
  (let o := handleSessionClosure broken brokenv con ops (inr g) m c in
     (c <> ClSession (Some HkPanic) -> o_res o = Some None /\
       exists a b, o_log o = a ++ b /\ no_one broken con g b /\
         match c with ClSession (Some (HkErr _)) => one a t$"session registry " | _ => a = [] end)).
Proof.
  intros R. cbv zeta. split; [|split].
  - destruct (request_log ops (inr g) m p e) as (H1 & H2 & H3).
    destruct e as [x|]; [destruct (special_cases (Some x)) as [O|(k & s & S)]|].
    + rewrite (H2 O). destruct (fail_none ops m (Some x) g R) as [-> F]. split; [reflexivity|].
      exists [], (o_log (failMsg broken brokenv con ops (inr g) m (Some x))). split; [reflexivity|]. split; [exact F|]. left. tauto.
    + assert (N : ~ is_own (Some x)) by (destruct S; try assumption; intros [(c' & t & O)|O]; inversion O).
      destruct (H3 x eq_refl N) as (s' & S1 & -> & ->). destruct (fail_none ops m None g R) as [-> F]. split; [reflexivity|].
      exists [(ErrorLog, s')], (o_log (failMsg broken brokenv con ops (inr g) m None)). split; [reflexivity|]. split; [exact F|].
      right. exists x. split; [reflexivity|]. split; [exact N|]. exists s'. split; [reflexivity|exact S1].
    + rewrite (H1 eq_refl). destruct (fulfill_none ops m p g) as [-> F]. split; [reflexivity|].
      exists [], (o_log (fulfillMsg broken con ops (inr g) m p)). split; [reflexivity|]. split; [exact F|]. left. tauto.
  - intros N1 N2. destruct r as [| |x| |obj x|b].
    + exact (fail_none ops m (Some ErrSessionsDisabled) g R).
    + exact (fail_none ops m (Some ErrMaxSessConnsReached) g R).
    + destruct (N1 x). reflexivity.
    + exact (fail_none ops m (Some ErrSessionNotFound) g R).
    + destruct (N2 obj x). reflexivity.
    + exact (fulfill_none ops m (Utf8, b) g).
  - intros N. destruct (fail_none ops m (Some ErrSessionsDisabled) g R) as [F1 F2]. destruct (fulfill_none ops m (Binary, []) g) as [G1 G2].
    destruct c as [| |[[|e'|]|]]; try congruence; (split; [first [exact F1|exact G1]|]);
      try (exists []; eexists; split; [reflexivity|]; split; [first [exact F2|exact G2]|reflexivity]; fail).
    eexists [_], _. split; [reflexivity|]. split; [exact G2|]. apply one_printf.
Qed.
(* CreateSession; reading *)
Lemma created_log e : match e with None => created broken e = [] | Some x => one (created broken e) (t$"OnSessionCreated hook failed: " ++ printed broken x) end.
Proof. destruct e as [e|]; [|reflexivity]. rewrite <- pct_s_printed. apply one_printf. Qed.
Lemma read_log closed e : (closed = true -> read_failed broken closed e = []) /\
  (closed = false -> exists s, read_failed broken closed e = [(WarnLog, s)] /\ ended (t$"abnormal closure error: " ++ printed broken e) s).
Proof.
  split; intros ->; [reflexivity|]. rewrite <- pct_s_printed. eexists. split; [reflexivity|]. apply lined_ended.
Qed.

(* a new connection *)
Lemma config_log errs conf closed :
  let r := start broken brokenv (reporter errs) (inl []) conf closed in
  logs_start broken brokenv (config_text broken errs) closed r /\ snd (fst r) = Some [CWrite conf; CClose].
Proof.
  cbv zeta. unfold start, writeConfMessage, config_text. cbn [reporter t_write t_close app length].
  destruct (errs 0) as [e|], (errs 1) as [c|]; cbn [logs_start fst snd]; split; try reflexivity; try (split; reflexivity);
    (split; [reflexivity|]; rewrite ?pct_s_printed; eexists [_], _; split; [reflexivity|]; split; [apply one_println|];
     destruct closed; [apply one_println|reflexivity]).
Qed.
Lemma config_none {W} (ops : text_ops W) g conf closed :
  let r := start broken brokenv ops (inr g) conf closed in
  snd r = false /\ snd (fst r) = None /\
  exists a b, fst (fst r) = a ++ b /\
    one a (lineE t$"couldn't write config message: " (Foreign (Some (t$"couldn't get writer for configuration message: " ++ printed broken g)))) /\
    match closed with None => b = [] | Some c => one b (lineE t$"couldn't close socket: " c) end.
Proof.
  cbv zeta. unfold start, writeConfMessage. cbn [fst snd]. split; [reflexivity|]. split; [reflexivity|].
  rewrite pct_s_printed. eexists [_], _. split; [reflexivity|]. split; [apply one_println|]. destruct closed; [apply one_println|reflexivity].
Qed.

(* agreement with ModelHandle *)
Lemma written_same {W} (a : option (W * option err)) b log : same_but_text a b ->
  same_sent (o_res (written a log)) (used b) /\ nonempty (o_log (written a log)) = lost (used b).
Proof.
  destruct a as [[w e]|], b as [[w' e']|]; cbn; try tauto. intros [-> E]. destruct e, e'; cbn in *; try discriminate; split; reflexivity.
Qed.
Lemma same_fulfill {W} (ops : text_ops W) gw m p :
  same_sent (o_res (fulfillMsg broken con ops gw m p)) (ModelHandle.fulfillMsg (forget ops) (ok_writer gw) m p) /\
  nonempty (o_log (fulfillMsg broken con ops gw m p)) = lost (ModelHandle.fulfillMsg (forget ops) (ok_writer gw) m p).
Proof. destruct gw as [w|e]; [|split; reflexivity]. apply written_same, same_reply. Qed.
Lemma same_fail {W} (ops : text_ops W) gw m e x :
  same_sent (o_res (failMsg broken brokenv con ops gw m e)) (ModelHandle.failMsg (forget ops) (ok_writer gw) m (seen x e)) /\
  nonempty (o_log (failMsg broken brokenv con ops gw m e)) = lost (ModelHandle.failMsg (forget ops) (ok_writer gw) m (seen x e)).
Proof.
  unfold failMsg, ModelHandle.failMsg. destruct (RequiresReply m); cbn [negb]; [|split; reflexivity].
  destruct gw as [w|g]; cbn [ok_writer]; [|split; reflexivity].
  destruct e as [[]|]; cbn [seen]; try (apply written_same; first [apply same_special|apply same_reply_error]).
  - destruct e; try (apply written_same; first [apply same_special|apply same_reply_error]).
  - destruct e; try (apply written_same; first [apply same_special|apply same_reply_error]). split; reflexivity.
Qed.
Lemma same_shutdown {W} (ops : text_ops W) gw m :
  same_sent (o_res (failMsgShutdown broken brokenv con ops gw m)) (ModelHandle.failMsgShutdown (forget ops) (ok_writer gw) m).
Proof. destruct gw as [w|g]; [|reflexivity]. apply (written_same _ _ _ (same_special broken ops w _ _)). Qed.
Lemma same_request {W} (ops : text_ops W) gw m p e x :
  same_sent (o_res (handleRequest broken brokenv con ops gw m (p, e))) (ModelHandle.handleRequest (forget ops) (ok_writer gw) m (p, seen x e)).
Proof.
  destruct (request_log ops gw m p e) as (H1 & H2 & H3).
  destruct e as [y|]; [|rewrite (H1 eq_refl); apply same_fulfill].
  destruct (special_cases (Some y)) as [O|(k & s & S)].
  - rewrite (H2 O). destruct O as [(c & t & O)|O]; inversion O; subst;
      match goal with |- context [failMsg _ _ _ _ _ _ ?e] => exact (proj1 (same_fail ops gw m e x)) end.
  - assert (N : ~ is_own (Some y)).
    { destruct S; try assumption; intros [(c & t & O)|O]; inversion O. }
    destruct (H3 y eq_refl N) as (s' & _ & _ & ->). pose proof (proj1 (same_fail ops gw m None x)) as F.
    assert (ModelHandle.handleRequest (forget ops) (ok_writer gw) m (p, seen x (Some y)) = ModelHandle.failMsg (forget ops) (ok_writer gw) m ENil) as ->; [|exact F].
    destruct y; try reflexivity; try (destruct N; left; do 2 eexists; constructor).
    + destruct y; try reflexivity. destruct N; left; do 2 eexists; constructor.
    + destruct y; try reflexivity. destruct N; right; constructor.
Qed.
End Server.
