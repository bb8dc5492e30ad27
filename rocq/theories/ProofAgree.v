(* ModelFault and ModelSession agree; ModelReport and ModelWrite agree on the kinds of errors. *)
From Coq Require Import Strings.String.
From Coq Require Import List Arith NArith ZArith Bool Lia.
From Verif Require Import BaseBytes ModelMessage ModelErrors ModelWrite SpecWrite SpecReport ProofReport SpecLog SpecAgree.
From Verif Require ModelSession ModelReport ModelLog ModelFault.
Import ListNotations.
Open Scope list_scope.
Open Scope nat_scope.

(* ----- writers: the same calls and the same kind of error ----- *)
Section Kinds.
Variables (broken : err -> bytes) (errs : nat -> option err).
Notation ops := (reporter errs).
Notation wops := (log_writer (failing errs)).
Lemma kind_close_end l : (forall i, i < length l -> errs i = None) ->
  same_kind broken errs (ModelReport.close_end ops l) (close_end wops l).
Proof.
  intros H. unfold ModelReport.close_end, close_end. cbn. unfold failing.
  destruct (errs (length l)) eqn:E; cbn; [|reflexivity]. split; [reflexivity|]. exists (length l). rewrite app_length. cbn. repeat split; [lia|assumption|assumption].
Qed.
Lemma kind_try l c k k' : (forall i, i < length l -> errs i = None) ->
  (errs (length l) = None -> same_kind broken errs (k (l ++ [CWrite c])) (k' (l ++ [CWrite c]))) ->
  same_kind broken errs (ModelReport.try_write broken ops c k l) (try_write wops c k' l).
Proof.
  intros H K. unfold ModelReport.try_write, try_write. cbn. unfold failing at 1.
  destruct (errs (length l)) as [e|] eqn:E; [|apply K; reflexivity].
  unfold ModelReport.close_with, close_with. cbn. rewrite !app_length, !Nat.add_1_r. unfold failing.
  destruct (errs (S (length l))) as [e2|] eqn:E2; cbn; (split; [reflexivity|]); rewrite ?app_length; cbn [length]; rewrite ?Nat.add_1_r; exists (length l).
  - exists e, e2. rewrite joined_both. auto.
  - auto.
Qed.
Lemma kind_reject t : same_kind broken errs (ModelReport.reject broken ops t []) (reject wops []).
Proof.
  unfold ModelReport.reject, reject, ModelReport.close_with, close_with. cbn. unfold failing.
  destruct (errs 0) as [e|] eqn:E; cbn; (split; [reflexivity|]); (split; [reflexivity|]).
  - exists t, e. rewrite joined_both. auto.
  - split; [assumption|]. exists t. reflexivity.
Qed.
Definition kinds (k : list call -> ModelReport.tresult) (k' : list call -> option (list call * option werr)) : Prop :=
  forall l, (forall i, i < length l -> errs i = None) -> same_kind broken errs (k l) (k' l).
Lemma kinds_end : kinds (ModelReport.close_end ops) (close_end wops).
Proof. intros l H. apply kind_close_end, H. Qed.
Lemma kinds_write c k k' : kinds k k' -> kinds (ModelReport.try_write broken ops c k) (try_write wops c k').
Proof.
  intros K l H. apply kind_try; [exact H|]. intros E. apply K. intros i L. rewrite app_length, Nat.add_1_r in L.
  destruct (Nat.eq_dec i (length l)) as [->|]; [exact E|apply H; lia].
Qed.
Lemma kinds_start k k' : kinds k k' -> same_kind broken errs (k []) (k' []).
Proof. intros K. apply K. intros i L. cbn in L. lia. Qed.
End Kinds.
Ltac agrees := first [apply kind_reject|apply kinds_start]; repeat first
  [ apply kind_reject | apply kinds_end | apply kinds_write
  | match goal with |- kinds _ _ (fun w => let? fl := name_len_flag ?n in _) _ => destruct (name_len_flag n); [|intros ? ?; exact I] end
  | match goal with |- kinds _ _ (fun w => if ?c then _ else _) _ => destruct c end
  | match goal with |- kinds _ _ (fun w => ModelReport.try_write _ _ _ _ w) _ => intros ?w; apply kinds_write
                  | |- kinds _ _ (fun w => ModelReport.close_end _ w) _ => intros ?w; apply kinds_end end ].
Section Writers.
Variables (broken : err -> bytes) (errs : nat -> option err).
Notation ops := (reporter errs).
Notation wops := (log_writer (failing errs)).
Lemma find_exists l : existsb bad_char l = is_some (find bad_char l).
Proof. induction l as [|x l IH]; [reflexivity|]. cbn. destruct (bad_char x); [reflexivity|exact IH]. Qed.
Lemma kind_reply_error i c m safe : same_kind broken errs (ModelReport.WriteMsgReplyError broken ops [] i c m safe) (WriteMsgReplyError wops [] i c m safe).
Proof.
  unfold ModelReport.WriteMsgReplyError, WriteMsgReplyError. destruct safe; cbn [andb].
  - destruct (length c <? 1); [apply kind_reject|]. destruct (255 <? length c); [apply kind_reject|]. rewrite find_exists.
    destruct (find bad_char c); cbn [is_some]; [apply kind_reject|]. agrees.
  - agrees.
Qed.
Lemma kind_reply i e p : same_kind broken errs (ModelReport.WriteMsgReply broken ops [] i e p) (WriteMsgReply wops [] i e p).
Proof.
  unfold ModelReport.WriteMsgReply, WriteMsgReply. destruct ((e =? Utf16)%Z && _); [apply kind_reject|]. destruct (e =? Utf16)%Z; agrees.
Qed.
Lemma kind_request i n e p s : same_kind broken errs (ModelReport.WriteMsgRequest broken ops [] i n e p s) (WriteMsgRequest wops [] i n e p s).
Proof.
  unfold ModelReport.WriteMsgRequest, WriteMsgRequest. destruct ((length n <? 1) && _); [apply kind_reject|]. destruct (255 <? length n); [apply kind_reject|].
  destruct ((e =? Utf16)%Z && negb (length p mod 2 =? 0)); [apply kind_reject|]. rewrite find_exists.
  destruct s; cbn [andb]; [destruct (find bad_char n); cbn [is_some]; [apply kind_reject|]|];
    destruct ((e =? Utf16)%Z && negb (length n mod 2 =? 0)); agrees.
Qed.
Lemma kind_signal n e p s : same_kind broken errs (ModelReport.WriteMsgSignal broken ops [] n e p s) (WriteMsgSignal wops [] n e p s).
Proof.
  unfold ModelReport.WriteMsgSignal, WriteMsgSignal. destruct (255 <? length n); [apply kind_reject|].
  destruct ((e =? Utf16)%Z && negb (length p mod 2 =? 0)); [apply kind_reject|]. rewrite find_exists.
  destruct s; cbn [andb]; [destruct (find bad_char n); cbn [is_some]; [apply kind_reject|]|];
    destruct ((e =? Utf16)%Z && negb (length n mod 2 =? 0)); destruct (0 <? length n); agrees.
Qed.
Lemma kind_special t i : same_kind broken errs (ModelReport.WriteMsgSpecialRequestReply broken ops [] t i) (WriteMsgSpecialRequestReply wops [] t i).
Proof.
  unfold ModelReport.WriteMsgSpecialRequestReply, WriteMsgSpecialRequestReply.
  destruct (if beq t MsgReplyInternalError then _ else _); agrees.
Qed.
Lemma kind_nameless t i p : same_kind broken errs (ModelReport.WriteMsgNamelessRequest broken ops [] t i p) (WriteMsgNamelessRequest wops [] t i p).
Proof.
  unfold ModelReport.WriteMsgNamelessRequest, WriteMsgNamelessRequest.
  destruct (if beq t MsgRequestRestoreSession then _ else _); [|exact I]. destruct (0 <? length p); agrees.
Qed.
Lemma kind_heartbeat : same_kind broken errs (ModelReport.WriteMsgHeartbeat broken ops []) (WriteMsgHeartbeat wops []).
Proof. unfold ModelReport.WriteMsgHeartbeat, WriteMsgHeartbeat. agrees. Qed.
Lemma kind_closed : same_kind broken errs (ModelReport.WriteMsgNotifySessionClosed broken ops []) (WriteMsgNotifySessionClosed wops []).
Proof. unfold ModelReport.WriteMsgNotifySessionClosed, WriteMsgNotifySessionClosed. agrees. Qed.
Lemma kind_created b : same_kind broken errs (ModelReport.WriteMsgNotifySessionCreated broken ops [] b) (WriteMsgNotifySessionCreated wops [] b).
Proof. unfold ModelReport.WriteMsgNotifySessionCreated, WriteMsgNotifySessionCreated. agrees. Qed.
End Writers.
Theorem same_kinds : forall broken errs i name c m e p t info safe,
  same_kind broken errs (ModelReport.WriteMsgSignal broken (reporter errs) [] name e p safe) (WriteMsgSignal (log_writer (failing errs)) [] name e p safe) /\
  same_kind broken errs (ModelReport.WriteMsgRequest broken (reporter errs) [] i name e p safe) (WriteMsgRequest (log_writer (failing errs)) [] i name e p safe) /\
  same_kind broken errs (ModelReport.WriteMsgReply broken (reporter errs) [] i e p) (WriteMsgReply (log_writer (failing errs)) [] i e p) /\
  same_kind broken errs (ModelReport.WriteMsgReplyError broken (reporter errs) [] i c m safe) (WriteMsgReplyError (log_writer (failing errs)) [] i c m safe) /\
  same_kind broken errs (ModelReport.WriteMsgSpecialRequestReply broken (reporter errs) [] t i) (WriteMsgSpecialRequestReply (log_writer (failing errs)) [] t i) /\
  same_kind broken errs (ModelReport.WriteMsgNamelessRequest broken (reporter errs) [] t i p) (WriteMsgNamelessRequest (log_writer (failing errs)) [] t i p) /\
  same_kind broken errs (ModelReport.WriteMsgHeartbeat broken (reporter errs) []) (WriteMsgHeartbeat (log_writer (failing errs)) []) /\
  same_kind broken errs (ModelReport.WriteMsgNotifySessionClosed broken (reporter errs) []) (WriteMsgNotifySessionClosed (log_writer (failing errs)) []) /\
  same_kind broken errs (ModelReport.WriteMsgNotifySessionCreated broken (reporter errs) [] info) (WriteMsgNotifySessionCreated (log_writer (failing errs)) [] info).
Proof.
  exact (fun broken errs i name c m e p t info safe =>
    conj (kind_signal broken errs name e p safe) (conj (kind_request broken errs i name e p safe) (conj (kind_reply broken errs i e p)
    (conj (kind_reply_error broken errs i c m safe) (conj (kind_special broken errs t i) (conj (kind_nameless broken errs t i p)
    (conj (kind_heartbeat broken errs) (conj (kind_closed broken errs) (kind_created broken errs info))))))))).
Qed.
