(* The first message of a connection and the last of a session over the in-memory transport: C89. *)
From Coq Require Import Strings.String.
From Coq Require Import List Arith NArith ZArith Lia Bool.
From Verif Require Import BaseBytes ModelErrors ModelReport SpecReport ModelLog SpecLog ModelSend SpecSend SpecGreet ProofGreet.
From Verif Require ModelFault ModelMemchan.
Import ListNotations.
Open Scope list_scope.
Open Scope nat_scope.

(* ================= C89 ================= *)
Theorem C89_config : forall broken brokenv connected verdict cap sent w conf closed, taken cap sent w -> conf <> [] ->
  exists log w' served, start broken brokenv (wire_ops connected verdict) (inl w) conf closed = (log, Some w', served) /\
    (length conf <= cap -> connected = true -> ready cap (sent ++ [conf]) w' /\
       match verdict conf with
       | None => log = [] /\ served = true
       | Some e => given_up broken brokenv (t$"couldn't close writer: " ++ printed broken e) closed log served
       end) /\
    (length conf <= cap -> connected = false -> ready cap sent w' /\
       given_up broken brokenv t$"couldn't close writer: can't write to a closed socket" closed log served) /\
    (cap < length conf -> wedged sent w' /\
       given_up broken brokenv t$"couldn't close writer after failed conf message write: message buffer overflow: no data written" closed log served).
Proof. exact config_wire. Qed.
Print Assumptions C89_config.
(* the connection has no session afterwards, whatever becomes of the notification *)
Theorem C89_close_session : forall broken connected verdict cap sent w key last hook, taken cap sent w -> (last = true -> hook <> HkPanic) ->
  exists w' l r, ModelFault.CloseSession broken (wire_ops connected verdict) true (Some key) last hook (inl w) =
      Some (ModelFault.MkEnd (inl w') None last l r) /\
    (last = false \/ hook = HkDone -> l = []) /\ (last = true -> forall e, hook = HkErr e -> one l t$"session registry ") /\
    (1 <= cap -> connected = true -> ready cap (sent ++ [[n2b 22]]) w' /\ r = verdict [n2b 22]) /\
    (1 <= cap -> connected = false -> ready cap sent w' /\ r = Some (Foreign (Some t$"can't write to a closed socket"))) /\
    (cap = 0 -> wedged sent w' /\ r = Some (Foreign (Some t$"message buffer overflow: no data written"))).
Proof. exact close_wire. Qed.
Print Assumptions C89_close_session.

(* ---- concrete cases ---- *)
Definition greet_wire (n : nat) : wire := MkWire (ModelMemchan.new_buffer n) false true [] false.
Example C89_taken : taken 8 [] (greet_wire 8).
Proof. exists (MkWire (ModelMemchan.new_buffer 8) false false [] false). split; [constructor; reflexivity|reflexivity]. Qed.
Example C89_case_config : match start (fun _ => []) (fun _ => []) (wire_ops true (fun _ => None)) (inl (greet_wire 8)) t$"settings" None with
  | (log, Some w, served) => log = [] /\ served = true /\ w_sent w = [t$"settings"] /\ w_writer w = false | _ => False end.
Proof. vm_compute. repeat split; reflexivity. Qed.
Example C89_case_large : match start (fun _ => []) (fun _ => []) (wire_ops true (fun _ => None)) (inl (greet_wire 7)) t$"settings" (Some (Foreign (Some t$"gone"))) with
  | (log, Some w, served) => length log = 2 /\ served = false /\ w_sent w = [] /\ w_writer w = true | _ => False end.
Proof. vm_compute. repeat split; reflexivity. Qed.
Example C89_case_close : match ModelFault.CloseSession (fun _ => []) (wire_ops false (fun _ => None)) true (Some t$"key") true (HkErr (Foreign None)) (inl (greet_wire 8)) with
  | Some (ModelFault.MkEnd (inl w) s h l r) => s = None /\ h = true /\ length l = 1 /\ w_sent w = [] /\ r = Some (Foreign (Some t$"can't write to a closed socket"))
  | _ => False end.
Proof. vm_compute. repeat split; reflexivity. Qed.
