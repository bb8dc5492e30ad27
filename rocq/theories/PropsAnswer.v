(* Answers of the server over the in-memory transport: C87. *)
From Coq Require Import Strings.String.
From Coq Require Import List Arith NArith ZArith Lia Bool.
From Verif Require Import BaseBytes ModelMessage ModelHandle ModelErrors SpecWire SpecWrite ModelReport SpecReport ModelLog SpecLog
  ModelSend SpecSend SpecAnswer ProofAnswer.
From Verif Require ModelMemchan.
Import ListNotations.
Open Scope list_scope.
Open Scope nat_scope.

(* ================= C87 ================= *)
Theorem C87_request : forall broken brokenv con connected verdict cap sent w, taken cap sent w ->
  forall m (p : payload) e, RequiresReply m = true -> go_length (snd p) ->
  let o := handleRequest broken brokenv con (wire_ops connected verdict) (inl w) m (p, e) in
  (e = None -> utf16_ok (fst p) (snd p) -> carries connected verdict cap sent (reply_frame (ident_of m) (fst p) (snd p))
     (with_connection broken t$"couldn't write reply message for connection " con) (o_log o) (o_res o)) /\
  (e = None -> forall n, odd16 (fst p) (snd p) -> number (length (snd p)) n ->
     loses sent (t$"invalid UTF16 reply payload data length: " ++ n) (with_connection broken t$"couldn't write reply message for connection " con) (o_log o) (o_res o)) /\
  (forall c t, own_error e c t -> go_length c ->
     (valid_code c true -> carries connected verdict cap sent (error_frame (ident_of m) c t)
        (with_error broken brokenv t$"couldn't write error reply message: ") (o_log o) (o_res o)) /\
     (forall x, wrong_code c true x -> loses sent x (with_error broken brokenv t$"couldn't write error reply message: ") (o_log o) (o_res o))) /\
  (forall x, e = Some x -> ~ is_own e -> exists s l, ended (t$"request handler internal error: " ++ printed_v broken brokenv x) s /\
     o_log o = (ErrorLog, s) :: l /\ carries connected verdict cap sent (n2b 2 :: ident_of m)
       (with_error broken brokenv t$"couldn't write internal error message: ") l (o_res o)).
Proof. exact request_wire. Qed.
Print Assumptions C87_request.
Theorem C87_restore : forall broken brokenv con connected verdict cap sent w, taken cap sent w -> forall m, RequiresReply m = true ->
  let o r := handleSessionRestore broken brokenv con (wire_ops connected verdict) (inl w) m r in
  let carry := carries connected verdict cap sent in
  carry (n2b 5 :: ident_of m) (with_error broken brokenv t$"couldn't write sessions disabled message: ") (o_log (o ResDisabled)) (o_res (o ResDisabled)) /\
  carry (n2b 4 :: ident_of m) (with_error broken brokenv t$"couldn't write max sessions reached message: ") (o_log (o ResFull)) (o_res (o ResFull)) /\
  carry (n2b 3 :: ident_of m) (with_error broken brokenv t$"couldn't write session not found message: ") (o_log (o ResUnknown)) (o_res (o ResUnknown)) /\
  (forall b, go_length b -> carry (n2b 192 :: ident_of m ++ b) (with_connection broken t$"couldn't write reply message for connection " con)
     (o_log (o (ResOk b))) (o_res (o (ResOk b)))) /\
  (forall r e t, r = ResFailed e /\ t = t$"session search handler failed: " ++ printed broken e \/
     (exists obj, r = ResUncoded obj e /\ t = t$"couldn't encode session object (" ++ obj ++ t$"): " ++ printed broken e) ->
     exists l s, o_log (o r) = l ++ [(ErrorLog, s)] /\ ended t s /\
       carry (n2b 2 :: ident_of m) (with_error broken brokenv t$"couldn't write internal error message: ") l (o_res (o r))).
Proof. exact restore_wire. Qed.
Print Assumptions C87_restore.
Theorem C87_closure : forall broken brokenv con connected verdict cap sent w, taken cap sent w -> forall m, RequiresReply m = true ->
  let o c := handleSessionClosure broken brokenv con (wire_ops connected verdict) (inl w) m c in
  let carry := carries connected verdict cap sent in
  carry (n2b 5 :: ident_of m) (with_error broken brokenv t$"couldn't write sessions disabled message: ") (o_log (o ClDisabled)) (o_res (o ClDisabled)) /\
  (forall c, c = ClNone \/ c = ClSession None \/ c = ClSession (Some HkDone) ->
     carry (n2b 191 :: ident_of m) (with_connection broken t$"couldn't write reply message for connection " con) (o_log (o c)) (o_res (o c))).
Proof. exact closure_wire. Qed.
Print Assumptions C87_closure.
Theorem C87_shutdown : forall broken brokenv con connected verdict cap sent w, taken cap sent w -> forall m,
  let o := failMsgShutdown broken brokenv con (wire_ops connected verdict) (inl w) m in
  carries connected verdict cap sent (n2b 1 :: ident_of m) (with_error broken brokenv t$"failed writing shutdown reply message: ") (o_log o) (o_res o).
Proof. exact shutdown_wire. Qed.
Print Assumptions C87_shutdown.

(* ---------- concrete cases ---------- *)
Definition example_request : message :=
  match ModelMessage.ReadBytes (NewMessage 64) (n2b 127 :: repeat (n2b 9) 8 ++ [n2b 1] ++ t$"q") with Some (m, _, _) => m | None => NewMessage 64 end.
Definition example_socket : wire := MkWire (ModelMemchan.new_buffer 32) false false [] false.
Definition example_answer (w : wire) (p : payload) (e : option err) : option (list entry * wire) :=
  match GetWriter w true with
  | Some (_, inl w1) => match handleRequest (fun _ => []) (fun _ => []) t$"0x1" (wire_ops true (fun _ => None)) (inl w1) example_request (p, e) with
                        | MkOut l (Some (Some w2)) => Some (l, w2) | _ => None end
  | _ => None
  end.
Example C87_taken : exists w, GetWriter example_socket true = Some (w, inl w) /\ taken 32 [] w /\ RequiresReply example_request = true.
Proof. eexists. split; [reflexivity|]. split; [exists example_socket; split; [constructor; reflexivity|reflexivity]|reflexivity]. Qed.
(* an answer arrives; an error without a code is logged; after it no answer can be sent *)
Example C87_three : match example_answer example_socket (Binary, t$"hi") None with
  | Some ([], w) => w_sent w = [n2b 191 :: repeat (n2b 9) 8 ++ t$"hi"] /\
      match example_answer w (Binary, []) (Some (ErrRequest [] t$"no")) with
      | Some (l, w') => l = [(ErrorLog, t$"couldn't write error reply message:  missing error code while creating a new error reply message: no data written" ++ [newline])] /\
          w_sent w' = w_sent w /\ example_answer w' (Binary, t$"hi") None = None
      | None => False end
  | _ => False end.
Proof. vm_compute. repeat split. Qed.
