(* Requests answered one after the other over an in-memory socket: C91. *)
From Coq Require Import Strings.String.
From Coq Require Import List Arith NArith ZArith Lia Bool.
From Verif Require Import BaseBytes ModelMessage ModelHandle ModelErrors SpecWire SpecWrite SpecReport ModelLog SpecLog ModelSend SpecSend SpecInTurn ProofInTurn.
From Verif Require ModelMemchan.
Import ListNotations.
Open Scope list_scope.
Open Scope nat_scope.

(* ================= C91 ================= *)
Theorem C91_requests : forall broken brokenv con verdict cap rs, Forall proper rs -> forall sent w, ready cap sent w ->
  exists bs hs w', answers cap rs bs hs /\ answer_all broken brokenv con verdict rs w = (w', hs) /\ w_sent w' = sent ++ bs /\
    (length bs = length rs -> ready cap (sent ++ bs) w') /\ (length bs <> length rs -> wedged (sent ++ bs) w').
Proof.
  intros broken brokenv con verdict cap rs P sent w R. destruct (answers_exist cap rs P) as (bs & hs & A).
  destruct (answers_right broken brokenv con verdict _ _ _ _ A P _ _ R) as (w' & Q). exists bs, hs, w'. split; [exact A|exact Q].
Qed.
Print Assumptions C91_requests.
Theorem C91_only : forall broken brokenv con verdict cap rs bs hs, answers cap rs bs hs -> Forall proper rs -> forall sent w, ready cap sent w ->
  exists w', answer_all broken brokenv con verdict rs w = (w', hs) /\ w_sent w' = sent ++ bs /\
    (length bs = length rs -> ready cap (sent ++ bs) w') /\ (length bs <> length rs -> wedged (sent ++ bs) w').
Proof. exact answers_right. Qed.
Print Assumptions C91_only.

(* ---- a concrete case ---- *)
Definition asked (b : byte) : message :=
  match ReadBytes (NewMessage 64) (n2b 127 :: repeat b 8 ++ [n2b 1] ++ t$"q") with Some (m, _, _) => m | None => NewMessage 64 end.
Definition requests : list request :=
  [(asked (n2b 7), ((Binary, t$"hi"), None)); (asked (n2b 8), ((Binary, []), Some (Foreign (Some t$"lost"))));
   (asked (n2b 9), ((Binary, []), Some (ErrRequest [] t$"no"))); (asked (n2b 7), ((Binary, t$"hi"), None))].
Example C91_proper : Forall proper requests.
Proof.
  repeat constructor; try (intros H; inversion H; fail); try (intros c t H; inversion H; subst; reflexivity).
Qed.
(* a reply, an internal error, an error without a code, and a request that is never answered *)
Example C91_case : match answer_all (fun _ => []) (fun _ => []) t$"0x1" (fun _ => None) requests (MkWire (ModelMemchan.new_buffer 32) false false [] false) with
  | (w, hs) => w_sent w = [n2b 191 :: repeat (n2b 7) 8 ++ t$"hi"; n2b 2 :: repeat (n2b 8) 8] /\ hs = [Ended; Ended; Ended; Waiting] end.
Proof. vm_compute. split; reflexivity. Qed.
