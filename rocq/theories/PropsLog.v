(* What the server logs: C83. *)
From Coq Require Import Strings.String.
From Coq Require Import List Arith NArith ZArith Lia Bool.
From Verif Require Import BaseBytes ModelMessage ModelHandle ModelErrors SpecWire SpecWrite ModelReport SpecReport ModelLog SpecLog ProofReport ProofLog.
Import ListNotations.
Open Scope list_scope.
Open Scope nat_scope.

(* ================= C83 ================= *)
(* replies: the error of the call that failed, and nothing if none failed *)
Theorem C83_reply : forall broken con errs m p, go_length (snd p) ->
  let o := fulfillMsg broken con (reporter errs) (inl []) m p in
  let line := with_connection broken t$"couldn't write reply message for connection " con in
  (utf16_ok (fst p) (snd p) -> replies broken errs (reply_frame (ident_of m) (fst p) (snd p)) line (o_log o) (o_res o)) /\
  (forall n, odd16 (fst p) (snd p) -> number (length (snd p)) n ->
     refuses broken errs (t$"invalid UTF16 reply payload data length: " ++ n) line (o_log o) (o_res o)).
Proof. exact fulfill_log. Qed.
Print Assumptions C83_reply.
(* errors of requests *)
Theorem C83_error_reply : forall broken brokenv con errs m e c t, RequiresReply m = true -> own_error e c t -> go_length c ->
  let o := failMsg broken brokenv con (reporter errs) (inl []) m e in
  let line := with_error broken brokenv t$"couldn't write error reply message: " in
  (valid_code c true -> replies broken errs (error_frame (ident_of m) c t) line (o_log o) (o_res o)) /\
  (forall x, wrong_code c true x -> refuses broken errs x line (o_log o) (o_res o)).
Proof. exact fail_own. Qed.
Print Assumptions C83_error_reply.
Theorem C83_special_reply : forall broken brokenv con errs m,
  (forall e k s, RequiresReply m = true -> special_for e k s ->
     let o := failMsg broken brokenv con (reporter errs) (inl []) m e in
     replies broken errs (n2b k :: ident_of m) (with_error broken brokenv s) (o_log o) (o_res o)) /\
  (forall e, is_own e \/ exists k s, special_for e k s) /\
  (let o := failMsgShutdown broken brokenv con (reporter errs) (inl []) m in
   replies broken errs (n2b 1 :: ident_of m) (with_error broken brokenv t$"failed writing shutdown reply message: ") (o_log o) (o_res o)).
Proof.
  exact (fun broken brokenv con errs m => conj (fun e k s R S => fail_special broken brokenv con errs m e k s R S)
    (conj special_cases (shutdown_log broken brokenv con errs m))).
Qed.
Print Assumptions C83_special_reply.
(* no writer; nothing to reply to; a nil pointer *)
Theorem C83_no_writer : forall broken brokenv con W (ops : text_ops W) m g p e,
  (o_res (fulfillMsg broken con ops (inr g) m p) = Some None /\ no_one broken con g (o_log (fulfillMsg broken con ops (inr g) m p))) /\
  (RequiresReply m = true -> o_res (failMsg broken brokenv con ops (inr g) m e) = Some None /\ no_one broken con g (o_log (failMsg broken brokenv con ops (inr g) m e))) /\
  (o_res (failMsgShutdown broken brokenv con ops (inr g) m) = None /\ no_one broken con g (o_log (failMsgShutdown broken brokenv con ops (inr g) m))) /\
  (forall gw, RequiresReply m = false -> failMsg broken brokenv con ops gw m e = MkOut [] (Some None)) /\
  (forall w, RequiresReply m = true -> nil_error e -> failMsg broken brokenv con ops (inl w) m e = MkOut [] None).
Proof.
  exact (fun broken brokenv con W ops m g p e => conj (fulfill_none broken con ops m p g) (conj (fail_none broken brokenv con ops m e g)
    (conj (shutdown_none broken brokenv con ops m g) (conj (fun gw => fail_not broken brokenv con ops gw m e) (fun w => fail_nil broken brokenv con ops w m e))))).
Qed.
Print Assumptions C83_no_writer.
(* OnRequest: an error that is no ErrRequest is logged before the reply, and its text is not sent *)
Theorem C83_request : forall broken brokenv con errs m (p : payload) e, RequiresReply m = true -> go_length (snd p) ->
  let o := handleRequest broken brokenv con (reporter errs) (inl []) m (p, e) in
  (e = None -> utf16_ok (fst p) (snd p) -> replies broken errs (reply_frame (ident_of m) (fst p) (snd p)) (with_connection broken t$"couldn't write reply message for connection " con) (o_log o) (o_res o)) /\
  (e = None -> forall n, odd16 (fst p) (snd p) -> number (length (snd p)) n ->
     refuses broken errs (t$"invalid UTF16 reply payload data length: " ++ n) (with_connection broken t$"couldn't write reply message for connection " con) (o_log o) (o_res o)) /\
  (forall c t, own_error e c t -> go_length c ->
     (valid_code c true -> replies broken errs (error_frame (ident_of m) c t) (with_error broken brokenv t$"couldn't write error reply message: ") (o_log o) (o_res o)) /\
     (forall x, wrong_code c true x -> refuses broken errs x (with_error broken brokenv t$"couldn't write error reply message: ") (o_log o) (o_res o))) /\
  (nil_error e -> o_log o = [] /\ o_res o = None) /\
  (forall x, e = Some x -> ~ is_own e -> exists s l, ended (t$"request handler internal error: " ++ printed_v broken brokenv x) s /\
     o_log o = (ErrorLog, s) :: l /\ replies broken errs (n2b 2 :: ident_of m) (with_error broken brokenv t$"couldn't write internal error message: ") l (o_res o)).
Proof. exact request_seen. Qed.
Print Assumptions C83_request.
(* a session that cannot be looked up or told: behind the reply; the object that cannot be encoded is logged with its key *)
Theorem C83_restore : forall broken brokenv con m r e t, RequiresReply m = true ->
  (r = ResFailed e /\ t = t$"session search handler failed: " ++ printed broken e \/
   exists obj, r = ResUncoded obj e /\ t = t$"couldn't encode session object (" ++ obj ++ t$"): " ++ printed broken e) ->
  (forall errs, let o := handleSessionRestore broken brokenv con (reporter errs) (inl []) m r in
   exists l s, o_log o = l ++ [(ErrorLog, s)] /\ ended t s /\
     replies broken errs (n2b 2 :: ident_of m) (with_error broken brokenv t$"couldn't write internal error message: ") l (o_res o)) /\
  (forall W (ops : text_ops W) g, let o := handleSessionRestore broken brokenv con ops (inr g) m r in
   exists l s, o_log o = l ++ [(ErrorLog, s)] /\ ended t s /\ no_one broken con g l /\ o_res o = Some None).
Proof.
  exact (fun broken brokenv con m r e t R H => conj (fun errs => restore_failed broken brokenv con errs m r e t R H)
    (fun W ops g => restore_none broken brokenv con ops m r e t g R H)).
Qed.
Print Assumptions C83_restore.
Theorem C83_restore_others : forall broken brokenv con errs m, RequiresReply m = true ->
  let o r := handleSessionRestore broken brokenv con (reporter errs) (inl []) m r in
  replies broken errs (n2b 5 :: ident_of m) (with_error broken brokenv t$"couldn't write sessions disabled message: ") (o_log (o ResDisabled)) (o_res (o ResDisabled)) /\
  replies broken errs (n2b 4 :: ident_of m) (with_error broken brokenv t$"couldn't write max sessions reached message: ") (o_log (o ResFull)) (o_res (o ResFull)) /\
  replies broken errs (n2b 3 :: ident_of m) (with_error broken brokenv t$"couldn't write session not found message: ") (o_log (o ResUnknown)) (o_res (o ResUnknown)) /\
  (forall b, replies broken errs (n2b 192 :: ident_of m ++ b) (with_connection broken t$"couldn't write reply message for connection " con) (o_log (o (ResOk b))) (o_res (o (ResOk b)))).
Proof. exact restore_seen. Qed.
Print Assumptions C83_restore_others.
(* the same functions without a writer: the replies are lost, and that is logged behind what else there is to log *)
Theorem C83_no_writer_handlers : forall broken brokenv con W (ops : text_ops W) g m p e r c,
  RequiresReply m = true ->
  (let o := handleRequest broken brokenv con ops (inr g) m (p, e) in o_res o = Some None /\
     exists a b, o_log o = a ++ b /\ no_one broken con g b /\
       ((e = None \/ is_own e) /\ a = [] \/ exists x, e = Some x /\ ~ is_own e /\ one a (t$"request handler internal error: " ++ printed_v broken brokenv x))) /\
  (let o := handleSessionRestore broken brokenv con ops (inr g) m r in
     (forall x, r <> ResFailed x) -> (forall b x, r <> ResUncoded b x) -> o_res o = Some None /\ no_one broken con g (o_log o)) /\
  (let o := handleSessionClosure broken brokenv con ops (inr g) m c in
     (c <> ClSession (Some HkPanic) -> o_res o = Some None /\
       exists a b, o_log o = a ++ b /\ no_one broken con g b /\
         match c with ClSession (Some (HkErr _)) => one a t$"session registry " | _ => a = [] end)).
Proof. exact (fun broken brokenv con W ops g m p e r c => handlers_none broken brokenv con ops g m p e r c). Qed.
Print Assumptions C83_no_writer_handlers.
(* closing a session: that OnSessionClosed failed is logged, but not how; a panic of it is not *)
Theorem C83_closure : forall broken brokenv con errs m c, RequiresReply m = true ->
  let o := handleSessionClosure broken brokenv con (reporter errs) (inl []) m c in
  (c = ClDisabled -> replies broken errs (n2b 5 :: ident_of m) (with_error broken brokenv t$"couldn't write sessions disabled message: ") (o_log o) (o_res o)) /\
  (c = ClNone \/ c = ClSession None \/ c = ClSession (Some HkDone) -> replies broken errs (n2b 191 :: ident_of m) (with_connection broken t$"couldn't write reply message for connection " con) (o_log o) (o_res o)) /\
  (forall e, c = ClSession (Some (HkErr e)) -> exists l, o_log o = (ErrorLog, t$"session registry " ++ [newline]) :: l /\
     replies broken errs (n2b 191 :: ident_of m) (with_connection broken t$"couldn't write reply message for connection " con) l (o_res o)) /\
  (c = ClSession (Some HkPanic) -> o_log o = [] /\ o_res o = None).
Proof. exact closure_seen. Qed.
Print Assumptions C83_closure.
(* that the text of every error of a hook is logged is false *)
Theorem C83_hook_refuted : forall broken brokenv con W (ops : text_ops W) gw m,
  ~ (forall e t, Error broken e = Some t -> exists l s a b,
       In (l, s) (o_log (handleSessionClosure broken brokenv con ops gw m (ClSession (Some (HkErr e))))) /\ s = a ++ t ++ b).
Proof.
  intros broken brokenv con W ops gw m H.
  set (n := S (fold_right (fun x k => length (snd x) + k) 0 (o_log (handleSessionClosure broken brokenv con ops gw m (ClSession (Some (HkErr ErrInternal))))))).
  destruct (H (Foreign (Some (repeat newline n))) _ eq_refl) as (l & s & a & b & I & E).
  assert (L : n <= length s) by (rewrite E, !app_length, repeat_length; lia).
  revert I L. subst n. change (handleSessionClosure broken brokenv con ops gw m (ClSession (Some (HkErr (Foreign (Some (repeat newline _)))))))
    with (handleSessionClosure broken brokenv con ops gw m (ClSession (Some (HkErr ErrInternal)))).
  generalize (o_log (handleSessionClosure broken brokenv con ops gw m (ClSession (Some (HkErr ErrInternal))))). clear.
  intros ls. induction ls as [|x ls IH]; cbn; [tauto|]. intros [->|I] L; [cbn in L; lia|apply IH; [exact I|lia]].
Qed.
Print Assumptions C83_hook_refuted.
(* OnSessionCreated; reading from the socket *)
Theorem C83_created_and_read : forall broken,
  (forall e, match e with None => created broken e = [] | Some x => one (created broken e) (t$"OnSessionCreated hook failed: " ++ printed broken x) end) /\
  (forall closed e, (closed = true -> read_failed broken closed e = []) /\
     (closed = false -> exists s, read_failed broken closed e = [(WarnLog, s)] /\ ended (t$"abnormal closure error: " ++ printed broken e) s)).
Proof. exact (fun broken => conj (created_log broken) (read_log broken)). Qed.
Print Assumptions C83_created_and_read.
(* the configuration message of a new connection *)
Theorem C83_config : forall broken brokenv errs conf closed,
  let r := start broken brokenv (reporter errs) (inl []) conf closed in
  logs_start broken brokenv (config_text broken errs) closed r /\ snd (fst r) = Some [CWrite conf; CClose].
Proof. exact config_log. Qed.
Print Assumptions C83_config.
Theorem C83_config_no_writer : forall broken brokenv W (ops : text_ops W) g conf closed,
  let r := start broken brokenv ops (inr g) conf closed in
  snd r = false /\ snd (fst r) = None /\
  exists a b, fst (fst r) = a ++ b /\
    one a (with_error broken brokenv t$"couldn't write config message: " (Foreign (Some (t$"couldn't get writer for configuration message: " ++ printed broken g)))) /\
    match closed with None => b = [] | Some c => one b (with_error broken brokenv t$"couldn't close socket: " c) end.
Proof. exact (fun broken brokenv W ops => config_none broken brokenv ops). Qed.
Print Assumptions C83_config_no_writer.
(* these are the replies of ModelHandle (C18 and following), and what is logged is that they were lost *)
Theorem C83_same_replies : forall broken brokenv con W (ops : text_ops W) gw m p e x,
  (same_sent (o_res (fulfillMsg broken con ops gw m p)) (ModelHandle.fulfillMsg (forget ops) (ok_writer gw) m p) /\
   nonempty (o_log (fulfillMsg broken con ops gw m p)) = lost (ModelHandle.fulfillMsg (forget ops) (ok_writer gw) m p)) /\
  (same_sent (o_res (failMsg broken brokenv con ops gw m e)) (ModelHandle.failMsg (forget ops) (ok_writer gw) m (seen x e)) /\
   nonempty (o_log (failMsg broken brokenv con ops gw m e)) = lost (ModelHandle.failMsg (forget ops) (ok_writer gw) m (seen x e))) /\
  same_sent (o_res (failMsgShutdown broken brokenv con ops gw m)) (ModelHandle.failMsgShutdown (forget ops) (ok_writer gw) m) /\
  same_sent (o_res (handleRequest broken brokenv con ops gw m (p, e))) (ModelHandle.handleRequest (forget ops) (ok_writer gw) m (p, seen x e)).
Proof.
  exact (fun broken brokenv con W ops gw m p e x => conj (same_fulfill broken con ops gw m p) (conj (same_fail broken brokenv con ops gw m e x)
    (conj (same_shutdown broken brokenv con ops gw m) (same_request broken brokenv con ops gw m p e x)))).
Qed.
Print Assumptions C83_same_replies.

(* a request whose handler fails with a foreign error over a connection whose second write fails: two entries *)
Definition nothing (e : err) : bytes := [].
Definition a_request : message := match ModelMessage.ReadBytes (NewMessage 64) (n2b 127 :: repeat (n2b 9) 8 ++ [n2b 1] ++ t$"q") with Some (m, _, _) => m | None => NewMessage 64 end.
Definition broken_pipe (i : nat) : option err := if i =? 1 then Some (Foreign (Some t$"EPIPE")) else None.
Example C83_case_two_entries : RequiresReply a_request = true /\
  handleRequest nothing nothing t$"0x1" (reporter broken_pipe) (inl []) a_request ((Binary, []), Some (Foreign (Some t$"boom")))
  = MkOut [(ErrorLog, t$"request handler internal error: boom" ++ [newline]);
           (ErrorLog, t$"couldn't write internal error message:  EPIPE" ++ [newline])]
          (Some (Some [CWrite [n2b 2]; CWrite (repeat (n2b 9) 8); CClose])).
Proof. split; vm_compute; reflexivity. Qed.
Example C83_case_not_own : ~ is_own (Some (Foreign (Some t$"boom"))) /\ own_error (Some (ErrRequest t$"E" t$"no")) t$"E" t$"no".
Proof. split; [intros [(c & m & O)|O]; inversion O|constructor]. Qed.
(* a code with a newline: the error reply is refused, the client gets nothing *)
Example C83_case_bad_code :
  failMsg nothing nothing t$"0x1" (reporter (fun _ => None)) (inl []) a_request (Some (ErrRequest (t$"E" ++ [newline]) t$"no"))
  = MkOut [(ErrorLog, t$"couldn't write error reply message:  unsupported character in reply error - error code: " ++ [newline; newline])]
          (Some (Some [CClose])).
Proof. vm_compute. reflexivity. Qed.
(* an error text that ends with a newline: one newline behind Printf, two behind Println *)
Example C83_case_newline : exists s, read_failed nothing false (Foreign (Some (t$"gone" ++ [newline]))) = [(WarnLog, s)] /\
  s = t$"abnormal closure error: gone" ++ [newline].
Proof. eexists. split; vm_compute; reflexivity. Qed.
(* the session key is in the log *)
Example C83_case_key :
  o_log (handleSessionRestore nothing nothing t$"0x1" (reporter (fun _ => None)) (inl []) a_request
    (ResUncoded t$"{sEcReT 0 0 map[f:1]}" (Foreign (Some t$"json: unsupported type: func()")))) =
  [(ErrorLog, t$"couldn't encode session object ({sEcReT 0 0 map[f:1]}): json: unsupported type: func()" ++ [newline])].
Proof. vm_compute. reflexivity. Qed.
