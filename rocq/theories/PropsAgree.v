(* The models agree: errors of writers (C82) and of the session functions (C84). *)
From Coq Require Import Strings.String.
From Coq Require Import List Arith NArith ZArith Bool.
From Verif Require Import BaseBytes ModelMessage ModelErrors ModelWrite SpecWrite SpecReport SpecLog SpecAgree ProofAgree ProofAgree2.
From Verif Require ModelSession ModelReport ModelLog ModelFault.
Import ListNotations.
Open Scope list_scope.
Open Scope nat_scope.

(* every writer of package message: the class of error ModelWrite gives (C12, C22) is the kind of error ModelReport gives,
   after the same calls *)
Theorem C82_same_kinds : forall broken errs i name c m e p t info safe,
  same_kind broken errs (ModelReport.WriteMsgSignal broken (reporter errs) [] name e p safe) (WriteMsgSignal (log_writer (failing errs)) [] name e p safe) /\
  same_kind broken errs (ModelReport.WriteMsgRequest broken (reporter errs) [] i name e p safe) (WriteMsgRequest (log_writer (failing errs)) [] i name e p safe) /\
  same_kind broken errs (ModelReport.WriteMsgReply broken (reporter errs) [] i e p) (WriteMsgReply (log_writer (failing errs)) [] i e p) /\
  same_kind broken errs (ModelReport.WriteMsgReplyError broken (reporter errs) [] i c m safe) (WriteMsgReplyError (log_writer (failing errs)) [] i c m safe) /\
  same_kind broken errs (ModelReport.WriteMsgSpecialRequestReply broken (reporter errs) [] t i) (WriteMsgSpecialRequestReply (log_writer (failing errs)) [] t i) /\
  same_kind broken errs (ModelReport.WriteMsgNamelessRequest broken (reporter errs) [] t i p) (WriteMsgNamelessRequest (log_writer (failing errs)) [] t i p) /\
  same_kind broken errs (ModelReport.WriteMsgHeartbeat broken (reporter errs) []) (WriteMsgHeartbeat (log_writer (failing errs)) []) /\
  same_kind broken errs (ModelReport.WriteMsgNotifySessionClosed broken (reporter errs) []) (WriteMsgNotifySessionClosed (log_writer (failing errs)) []) /\
  same_kind broken errs (ModelReport.WriteMsgNotifySessionCreated broken (reporter errs) [] info) (WriteMsgNotifySessionCreated (log_writer (failing errs)) [] info).
Proof. exact same_kinds. Qed.
Print Assumptions C82_same_kinds.
(* a thread of ModelSession that calls CreateSession while no other thread runs returns, with the class of result that
   belongs to the error of ModelFault's CreateSession, having set the same session, made the same calls of the writer, and called the
   hook if and only if that does *)
Theorem C84_create_thread : forall broken f i c info connected k now gw enc hook g, ModelSession.g_lock g c = None -> k <> [] ->
  ModelSession.f_json f k now now (if (info =? 0)%N then 0%N else ModelSession.f_vars f info) = match enc with inl b => Some b | inr _ => None end ->
  exists chs g' r e evs,
    (forall ch, In ch chs -> In ch [ModelSession.Go; ModelSession.ChSock connected; ModelSession.ChKey k now; choice_of gw]) /\
    alone (fun g => ModelSession.create_step f i g c info) g ModelSession.CStart chs = Some (g', ModelSession.CDone r) /\
    ModelFault.CreateSession broken (reporter (errs_of gw)) (ModelSession.f_enabled f) connected (key_on g c) k enc hook (writer_of gw) = Some e /\
    ModelSession.g_log g' = ModelSession.g_log g ++ evs /\
    create_means broken gw (length (calls_of evs)) (key_on g c) enc r (ModelFault.en_err e) /\
    key_on g' c = ModelFault.en_session e /\
    ModelFault.en_writer e = (match gw with inl _ => inl (calls_of evs) | inr x => inr x end) /\
    (ModelFault.en_hook e = true <-> In (ModelSession.LCreated i c) evs) /\
    ModelSession.g_lock g' c = None /\ ModelSession.g_crashed g' = ModelSession.g_crashed g.
Proof. exact create_agrees. Qed.
Print Assumptions C84_create_thread.
(* the same of Connection.CloseSession; where ModelFault's panics, the thread crashes the server *)
Theorem C84_close_thread : forall broken f i c gw hook g, ModelSession.g_lock g c = None ->
  let allowed ch := In ch [ModelSession.Go; ModelSession.ChHook (match hook with ModelLog.HkPanic => true | _ => false end); choice_of gw] in
  match ModelFault.CloseSession broken (reporter (errs_of gw)) (ModelSession.f_enabled f) (key_on g c) (last_one c g) hook (writer_of gw) with
  | None => exists chs g' s, Forall allowed chs /\ alone (fun g => ModelSession.close_step f i g c) g ModelSession.QStart chs = Some (g', s) /\ ModelSession.g_crashed g' = true
  | Some e => exists chs g' r evs,
    Forall allowed chs /\
    alone (fun g => ModelSession.close_step f i g c) g ModelSession.QStart chs = Some (g', ModelSession.QDone r) /\
    ModelSession.g_log g' = ModelSession.g_log g ++ evs /\
    close_means broken gw (length (calls_of evs)) r (ModelFault.en_err e) /\
    key_on g' c = ModelFault.en_session e /\
    ModelFault.en_writer e = (match gw with inl _ => inl (calls_of evs) | inr x => inr x end) /\
    (ModelFault.en_hook e = true <-> exists k, In (ModelSession.LDestroy i k) evs) /\
    ModelSession.g_lock g' c = None /\ ModelSession.g_crashed g' = ModelSession.g_crashed g
  end.
Proof. exact close_agrees. Qed.
Print Assumptions C84_close_thread.

(* ----- cases ----- *)
Definition a_config : ModelSession.config := ModelSession.MkConfig true 0 (fun k _ _ _ => Some k) (fun b => b) None.
Definition empty_srv : ModelSession.srv := ModelSession.MkSrv [] (fun _ => None) (fun _ => None) false [].
Definition short : err := Foreign (Some t$"short write").
(* the second write fails, and so does the Close after it *)
Example C84_case_create_thread :
  let gw := inl (fun n => if n =? 0 then None else Some short) in
  exists g', alone (fun g => ModelSession.create_step a_config 7 g 3 0%N) empty_srv ModelSession.CStart
    [ModelSession.ChSock true; ModelSession.Go; ModelSession.ChKey t$"k" 9; choice_of gw] = Some (g', ModelSession.CDone (ModelSession.RWrite WWriteClose)) /\
  option_map ModelFault.en_err (ModelFault.CreateSession (fun _ => []) (reporter (errs_of gw)) true true None t$"k" (inl t$"k") None (writer_of gw)) =
    Some (Some (Foreign (Some t$"Couldn't notify client about the session creation: short write: short write"))).
Proof. eexists. split; reflexivity. Qed.
Definition one_session : ModelSession.srv :=
  ModelSession.MkSrv [(t$"k", [3])] (fun c => if c =? 3 then Some (ModelSession.MkSession t$"k" 1 1 0%N) else None) (fun _ => None) false [].
Example C84_case_close_thread : last_one 3 one_session = true /\
  exists g' evs, alone (fun g => ModelSession.close_step a_config 7 g 3) one_session ModelSession.QStart
    [ModelSession.Go; ModelSession.Go; ModelSession.Go; ModelSession.Go; ModelSession.ChHook false; ModelSession.Go; choice_of (inr short)]
    = Some (g', ModelSession.QDone ModelSession.RNoWriter) /\ ModelSession.g_log g' = evs /\ In (ModelSession.LDestroy 7 t$"k") evs.
Proof. split; [reflexivity|]. do 2 eexists. split; [reflexivity|]. split; [reflexivity|]. cbn. tauto. Qed.
Example C82_case_kind : kind (fun _ => []) (fun n => if n =? 0 then None else Some short) 3 WWriteClose (Foreign (Some t$"short write: short write")).
Proof. exists 1, short, short. repeat split. Qed.
