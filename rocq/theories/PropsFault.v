(* Errors of the session functions and of the default session manager: C84. *)
From Coq Require Import Strings.String.
From Coq Require Import List Arith NArith ZArith Lia Bool.
From Verif Require Import BaseBytes ModelMessage ModelErrors SpecWire SpecWrite ModelReport SpecReport ModelLog SpecLog ModelPath ModelFiles ModelFault SpecFault
  ProofReport ProofLog ProofFault PropsLog.
Import ListNotations.
Open Scope list_scope.
Open Scope nat_scope.

(* ================= C84 ================= *)
(* the hooks of the default session manager: which calls they make and which error they return *)
Theorem C84_created : forall I broken (c : jcodec I) st rd wr rm path key cr lo info l t,
  OnSessionCreated broken (recorder st rd wr rm) c [] path key cr lo info = (l, as_error t) <-> saves broken c (filePath path key) wr (MkSfile cr lo info) l t.
Proof. exact @created_says. Qed.
Print Assumptions C84_created.
Theorem C84_lookup : forall I broken (c : jcodec I) st rd wr rm path key now,
  (exists l r, OnSessionLookup broken (recorder st rd wr rm) c [] path key now = (l, as_lookup r)) /\
  (forall l r, OnSessionLookup broken (recorder st rd wr rm) c [] path key now = (l, as_lookup r) <-> looks_up broken c (filePath path key) st rd wr now l r).
Proof.
  exact (fun I broken c st rd wr rm path key now =>
    conj (match lookup_total broken c st rd wr rm path key now with ex_intro _ l (ex_intro _ r (conj _ E)) => ex_intro _ l (ex_intro _ r E) end)
         (lookup_says broken c st rd wr rm path key now)).
Qed.
Print Assumptions C84_lookup.
Theorem C84_closed : forall broken st rd wr rm path key,
  OnSessionClosed broken (recorder st rd wr rm) [] path key =
    ([CRemove (filePath path key)], match rm with None => None | Some e => Some (Foreign (Some (t$"Unexpected error during session destruction: " ++ printed broken e))) end).
Proof. exact closed_says. Qed.
Print Assumptions C84_closed.
Theorem C84_directory : forall broken abs stat mkdir given r,
  NewDefaultSessionManager broken abs stat mkdir given = as_panic r <-> opens_default broken abs stat mkdir given r.
Proof. exact opens_says. Qed.
Print Assumptions C84_directory.
(* over any file system these are the hooks of ModelFiles (C47 to C57) *)
Theorem C84_same_hooks : forall I D broken (c : jcodec I) (ds : disk D) q path key cr lo now info d,
  (replay ds q (ModelFiles.OnSessionCreated (forget_codec c) path key cr lo info) d =
   let (d1, e) := OnSessionCreated broken ds c d path key cr lo info in (d1, forget_done e)) /\
  (replay ds q (ModelFiles.OnSessionLookup (forget_codec c) path key now) d =
   let (d1, r) := OnSessionLookup broken ds c d path key now in (d1, forget_lookup r)) /\
  (replay ds q (ModelFiles.OnSessionClosed (I := I) path key) d =
   let (d1, e) := OnSessionClosed broken ds d path key in (d1, forget_done e)).
Proof.
  exact (fun I D broken c ds q path key cr lo now info d => conj (same_created_hook broken c ds q path key cr lo info d)
    (conj (same_lookup_hook broken c ds q path key now d) (same_closed_hook broken ds q path key d))).
Qed.
Print Assumptions C84_same_hooks.

(* Connection.CreateSession: a failure leaves the connection without a new session, the hook is not called and nothing is logged *)
Theorem C84_create : forall broken W (ops : text_ops W) en conn sess key enc hook gw,
  let r := CreateSession broken ops en conn sess key enc hook gw in
  let fails e := r = Some (MkEnd gw sess false [] (Some e)) in
  (en = false -> fails ErrSessionsDisabled) /\
  (en = true -> conn = false -> fails (ErrDisconnected (Some (Foreign (Some t$"Can't create session on disconnected connection"))))) /\
  (en = true -> conn = true -> forall k, sess = Some k -> fails (Foreign (Some (t$"Another session (" ++ k ++ t$") on this client is already active")))) /\
  (en = true -> conn = true -> sess = None -> forall e, enc = inr e ->
     fails (Foreign (Some (t$"Couldn't notify client about the session creation: Couldn't marshal session object: " ++ printed broken e)))) /\
  (en = true -> conn = true -> sess = None -> forall b e, enc = inl b -> gw = inr e ->
     fails (Foreign (Some (t$"Couldn't notify client about the session creation: " ++ printed broken e)))).
Proof. exact @create_silent. Qed.
Print Assumptions C84_create.
Theorem C84_create_sent : forall broken errs key b hook, exists l e, notified broken errs (n2b 21 :: b) l e /\
  match e with
  | Some e => CreateSession broken (reporter errs) true true None key (inl b) hook (inl []) =
      Some (MkEnd (inl l) None false [] (Some (Foreign (Some (t$"Couldn't notify client about the session creation: " ++ printed broken e)))))
  | None => exists log, CreateSession broken (reporter errs) true true None key (inl b) hook (inl []) = Some (MkEnd (inl l) (Some key) true log None) /\
      match hook with None => log = [] | Some x => one log (t$"OnSessionCreated hook failed: " ++ printed broken x) end
  end.
Proof. exact create_sent. Qed.
Print Assumptions C84_create_sent.
(* Connection.CloseSession: the error is that of the notification, unchanged; the session is gone all the same *)
Theorem C84_close : forall broken W (ops : text_ops W) en sess last hook gw,
  let r := CloseSession broken ops en sess last hook gw in
  (en = false -> r = Some (MkEnd gw sess false [] (Some ErrSessionsDisabled))) /\
  (en = true -> sess = None -> r = Some (MkEnd gw None false [] None)) /\
  (en = true -> forall k, sess = Some k -> last = true -> hook = HkPanic -> r = None) /\
  (en = true -> forall k e, sess = Some k -> (last = true -> hook = HkDone) -> gw = inr e -> r = Some (MkEnd gw None last [] (Some e))) /\
  (en = true -> forall k e x, sess = Some k -> last = true -> hook = HkErr x -> gw = inr e ->
     r = Some (MkEnd gw None true [(ErrorLog, t$"session registry " ++ [newline])] (Some e))).
Proof. exact @close_silent. Qed.
Print Assumptions C84_close.
Theorem C84_close_sent : forall broken errs k last hook, (last = true -> hook <> HkPanic) -> exists l e, notified broken errs [n2b 22] l e /\
  CloseSession broken (reporter errs) true (Some k) last hook (inl []) =
    Some (MkEnd (inl l) None last (match last, hook with true, HkErr _ => [(ErrorLog, t$"session registry " ++ [newline])] | _, _ => [] end) e).
Proof. exact close_sent. Qed.
Print Assumptions C84_close_sent.
(* a file that cannot be read is told in the server's log *)
Theorem C84_disk_to_log : forall I broken brokenv con (c : jcodec I) errs m wr rm path key now x e, RequiresReply m = true ->
  OnSessionLookup broken (recorder SExists (inr x) wr rm) c [] path key now = ([CStat (filePath path key); CRead (filePath path key)], inr e) ->
  let o := handleSessionRestore broken brokenv con (reporter errs) (inl []) m (ResFailed e) in
  exists l s, o_log o = l ++ [(ErrorLog, s)] /\
    ended (t$"session search handler failed: Couldn't parse session file: Couldn't parse session file, failed reading file: " ++ printed broken x) s.
Proof. exact @disk_to_log. Qed.
Print Assumptions C84_disk_to_log.

(* a codec that refuses infos of 3, a full disk, a file that is not JSON *)
Definition a_codec : jcodec nat := MkJ
  (fun f => if sf_info f =? 3 then inr (Foreign (Some t$"json: unsupported type")) else inl t$"{}")
  (fun b => match b with [] => inr (Foreign (Some t$"unexpected end of JSON input")) | _ => inl (MkSfile 5 6 7) end).
Definition full : err := Foreign (Some t$"ENOSPC").
Example C84_case_disk_full :
  OnSessionLookup nothing (recorder SExists (inl t$"{}") (Some full) None) a_codec [] t$"/s" t$"k" 9
  = ([CStat t$"/s/k.wwrsess"; CRead t$"/s/k.wwrsess"; CSave t$"/s/k.wwrsess" t$"{}"],
     inr (Foreign (Some t$"Couldn't update last lookup field, failed writing file: Couldn't write session file: ENOSPC"))).
Proof. vm_compute. reflexivity. Qed.
Example C84_case_empty_file :
  looks_up nothing a_codec (filePath t$"/s" t$"k") SExists (inl []) None 9 [CStat (filePath t$"/s" t$"k"); CRead (filePath t$"/s" t$"k")]
    (inr t$"Couldn't parse session file: unexpected end of JSON input").
Proof. apply (LU_parse nothing a_codec _ _ _ _ _ [] (Foreign (Some t$"unexpected end of JSON input"))); reflexivity. Qed.
Example C84_case_info : saves nothing a_codec t$"/s/k.wwrsess" None (MkSfile 1 2 3) [] (Some t$"Couldn't marshal session file: json: unsupported type").
Proof. apply (SV_code nothing a_codec _ _ _ (Foreign (Some t$"json: unsupported type"))). reflexivity. Qed.
Example C84_case_no_dir :
  NewDefaultSessionManager nothing (t$"/opt/x", None) (fun _ => SNotExist) (fun _ => Some (Foreign (Some t$"EROFS"))) []
  = inr (Foreign (Some t$"Couldn't create default session directory ('/opt/x/wwrsess'): EROFS")).
Proof. vm_compute. reflexivity. Qed.
Example C84_case_lost_notification :
  CreateSession nothing (reporter (fun i => if i =? 1 then Some full else None)) true true None t$"k" (inl t$"{}") None (inl [])
  = Some (MkEnd (inl [CWrite [n2b 21]; CWrite t$"{}"; CClose]) None false [] (Some (Foreign (Some t$"Couldn't notify client about the session creation: ENOSPC")))).
Proof. vm_compute. reflexivity. Qed.
Example C84_case_hooks :
  CloseSession nothing (reporter (fun _ => None)) true (Some t$"k") true (HkErr full) (inl [])
  = Some (MkEnd (inl [CWrite [n2b 22]; CClose]) None true [(ErrorLog, t$"session registry " ++ [newline])] None).
Proof. vm_compute. reflexivity. Qed.
Example C84_case_disk_to_log : RequiresReply a_request = true /\
  exists e, OnSessionLookup nothing (recorder SExists (inr full) None None) a_codec [] t$"/s" t$"k" 9
  = ([CStat (filePath t$"/s" t$"k"); CRead (filePath t$"/s" t$"k")], inr e).
Proof. split; [vm_compute; reflexivity|]. eexists. reflexivity. Qed.
