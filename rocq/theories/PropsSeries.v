(* Series of messages over one socket of the in-memory transport: C88. *)
From Coq Require Import Strings.String.
From Coq Require Import List Arith NArith ZArith Lia Bool.
From Verif Require Import BaseBytes ModelMessage ModelErrors SpecWire SpecWrite ModelSend SpecSend SpecReport SpecSeries ProofSeries.
From Verif Require ModelMemchan.
Import ListNotations.
Open Scope list_scope.
Open Scope nat_scope.

(* ================= C88 ================= *)
(* any series has exactly one fate, and this is it *)
Theorem C88_series : forall broken cap verdict ls, Forall sensible ls -> forall sent w, ready cap sent w ->
  exists bs rs w', series cap verdict ls bs rs /\ send_all broken true verdict ls w = (w', rs) /\ w_sent w' = sent ++ bs /\
    (length bs = length ls -> ready cap (sent ++ bs) w') /\ (length bs <> length ls -> wedged (sent ++ bs) w').
Proof.
  intros broken cap verdict ls S sent w R. destruct (series_exists cap verdict ls S) as (bs & rs & F).
  destruct (series_right broken _ _ _ _ _ F _ _ R) as (w' & Q). exists bs, rs, w'. split; [exact F|exact Q].
Qed.
Print Assumptions C88_series.
Theorem C88_only : forall broken cap verdict ls bs rs, series cap verdict ls bs rs -> forall sent w, ready cap sent w ->
  exists w', send_all broken true verdict ls w = (w', rs) /\ w_sent w' = sent ++ bs /\
    (length bs = length ls -> ready cap (sent ++ bs) w') /\ (length bs <> length ls -> wedged (sent ++ bs) w').
Proof. exact series_right. Qed.
Print Assumptions C88_only.
(* a closed socket refuses every message and changes nothing *)
Theorem C88_closed : forall broken cap verdict sent w ls, ready cap sent w ->
  send_all broken false verdict ls w =
    (w, map (fun _ => Returned (Some (ErrDisconnected (Some (Foreign (Some t$"can't write to a closed socket")))))) ls).
Proof. exact series_off. Qed.
Print Assumptions C88_closed.

(* the socket may be closed at any point: a message that meets a closed socket is not sent and does no harm *)
Theorem C88_interrupted : forall broken cap verdict ls, Forall (fun x => sensible (fst (fst x))) ls -> forall sent w, ready cap sent w ->
  exists bs rs w', interrupted cap verdict ls bs rs /\ send_each broken verdict ls w = (w', rs) /\ w_sent w' = sent ++ bs /\
    (harmless cap ls -> ready cap (sent ++ bs) w') /\ (~ harmless cap ls -> wedged (sent ++ bs) w').
Proof.
  intros broken cap verdict ls S sent w R. destruct (interrupted_exists cap verdict ls S) as (bs & rs & F).
  destruct (interrupted_right broken _ _ _ _ _ F _ _ R) as (w' & Q). exists bs, rs, w'. split; [exact F|exact Q].
Qed.
Print Assumptions C88_interrupted.
Theorem C88_interrupted_only : forall broken cap verdict ls bs rs, interrupted cap verdict ls bs rs -> forall sent w, ready cap sent w ->
  exists w', send_each broken verdict ls w = (w', rs) /\ w_sent w' = sent ++ bs /\ (harmless cap ls -> ready cap (sent ++ bs) w') /\ (~ harmless cap ls -> wedged (sent ++ bs) w').
Proof. exact interrupted_right. Qed.
Print Assumptions C88_interrupted_only.

(* the messages left out by sensible: an error code of more than 255 bytes that is not checked panics, unless the
   buffer is too small for what comes before it *)
Theorem C88_long_code : forall broken connected verdict cap sent w i c m, taken cap sent w -> 255 < length c ->
  (1 + length i <= cap -> function broken (LError i c m false) _ (wire_ops connected verdict) w = None) /\
  (cap < 1 + length i -> exists w', function broken (LError i c m false) _ (wire_ops connected verdict) w =
     Some (w', Some (Foreign (Some t$"message buffer overflow: no data written"))) /\ wedged sent w').
Proof. exact long_code. Qed.
Print Assumptions C88_long_code.

(* ---- concrete cases ---- *)
Definition series_wire : wire := MkWire (ModelMemchan.MkBuffer (repeat (n2b 0) 8) 0) false false [] false.
Example C88_ready : ready 8 [] series_wire.
Proof. constructor; reflexivity. Qed.
Definition letters : list letter := [LSignal t$"ab" Utf8 t$"xyz" true; LHeartbeat; LSignal t$"ab" Utf16 t$"xyz" true; LHeartbeat; LClosed].
Example C88_sensible : Forall sensible letters.
Proof. repeat constructor; cbn; lia. Qed.
(* the third has an odd number of bytes of UTF-16; the two behind it block *)
Example C88_case : match send_all (fun _ => []) true (fun _ => None) letters series_wire with
  | (w, rs) => w_sent w = [n2b 64 :: n2b 2 :: t$"abxyz"; [n2b 33]] /\
      rs = [Returned None; Returned None; Returned (Some (Foreign (Some t$"invalid UTF16 signal payload data length: 3: no data written"))); Blocked; Blocked]
  end.
Proof. vm_compute. split; reflexivity. Qed.
(* closed while the second is written, and for the third *)
Example C88_case_closed : match send_each (fun _ => []) (fun _ => None)
    [(LHeartbeat, true, true); (LClosed, true, false); (LHeartbeat, false, false); (LClosed, true, true)] series_wire with
  | (w, rs) => w_sent w = [[n2b 33]; [n2b 22]] /\
      rs = [Returned None; Returned (Some closed_error); Returned (Some (ErrDisconnected (Some closed_error))); Returned None] end.
Proof. vm_compute. split; reflexivity. Qed.
Example C88_case_long : taken 16 [] (MkWire (ModelMemchan.new_buffer 16) false true [] false) /\ 255 < length (repeat (n2b 65) 256).
Proof.
  split; [|rewrite repeat_length; lia].
  exists (MkWire (ModelMemchan.new_buffer 16) false false [] false). split; [constructor; reflexivity|reflexivity].
Qed.
