(* The configuration message and the closing of a session over the in-memory transport. *)
From Coq Require Import Strings.String.
From Coq Require Import List Arith NArith ZArith Lia Bool.
From Verif Require Import BaseBytes ModelMessage ModelErrors SpecWire SpecWrite ModelReport SpecReport ModelLog SpecLog
  ModelSend SpecSend SpecGreet ProofReport ProofLog ProofSend.
From Verif Require ModelFault.
Import ListNotations.
Open Scope list_scope.
Open Scope nat_scope.

Section Greet.
Variables (broken brokenv : err -> bytes) (connected : bool) (verdict : bytes -> option err).
Local Notation ops := (wire_ops connected verdict).
Lemma given e closed t : e = Foreign (Some t) -> given_up broken brokenv t closed
  (Println ErrorLog (txt "couldn't write config message: ") (pct_v broken brokenv e) ::
   match closed with Some c => [Println ErrorLog (txt "couldn't close socket: ") (pct_v broken brokenv c)] | None => [] end) false.
Proof.
  intros ->. split; [reflexivity|]. eexists [_], _. split; [reflexivity|]. split; [apply one_println|]. destruct closed; [apply one_println|reflexivity].
Qed.
Lemma config_wire cap sent w conf closed : taken cap sent w -> conf <> [] ->
  exists log w' served, start broken brokenv ops (inl w) conf closed = (log, Some w', served) /\
    (length conf <= cap -> connected = true -> ready cap (sent ++ [conf]) w' /\
       match verdict conf with
       | None => log = [] /\ served = true
       | Some e => given_up broken brokenv (t$"couldn't close writer: " ++ printed broken e) closed log served
       end) /\
    (length conf <= cap -> connected = false -> ready cap sent w' /\
       given_up broken brokenv t$"couldn't close writer: can't write to a closed socket" closed log served) /\
    (cap < length conf -> wedged sent w' /\
       given_up broken brokenv t$"couldn't close writer after failed conf message write: message buffer overflow: no data written" closed log served).
Proof.
  intros T N. apply taken_filled in T. unfold start, writeConfMessage. cbn [wire_ops t_write t_close].
  destruct (Nat.le_gt_cases (length conf) cap) as [L|L].
  - destruct (write_fits verdict cap sent [] w conf T) as (w1 & -> & F); [exact L|].
    destruct (close_filled connected verdict cap sent _ w1 F N) as (w2 & e & -> & A & B). cbn [app] in A.
    destruct connected.
    + destruct (A eq_refl) as [R ->]. destruct (verdict conf) as [x|]; do 3 eexists; (split; [reflexivity|]); (split; [|split; [discriminate|lia]]);
        intros _ _; (split; [exact R|]).
      * apply given. unfold Errorf. rewrite pct_s_printed. reflexivity.
      * split; reflexivity.
    + destruct (B eq_refl) as [R ->]. do 3 eexists. split; [reflexivity|]. split; [discriminate|]. split; [|lia].
      intros _ _. split; [exact R|]. apply given. reflexivity.
  - destruct (write_over connected verdict cap sent [] w conf T) as (w1 & w2 & -> & -> & Wd); [exact L|].
    do 3 eexists. split; [reflexivity|]. split; [lia|]. split; [lia|]. intros _. split; [exact Wd|]. apply given. reflexivity.
Qed.

Lemma close_wire cap sent w key last hook : taken cap sent w -> (last = true -> hook <> HkPanic) ->
  exists w' l r, ModelFault.CloseSession broken ops true (Some key) last hook (inl w) = Some (ModelFault.MkEnd (inl w') None last l r) /\
    (last = false \/ hook = HkDone -> l = []) /\ (last = true -> forall e, hook = HkErr e -> one l t$"session registry ") /\
    (1 <= cap -> connected = true -> ready cap (sent ++ [[n2b 22]]) w' /\ r = verdict [n2b 22]) /\
    (1 <= cap -> connected = false -> ready cap sent w' /\ r = Some (Foreign (Some t$"can't write to a closed socket"))) /\
    (cap = 0 -> wedged sent w' /\ r = Some (Foreign (Some t$"message buffer overflow: no data written"))).
Proof.
  intros T P. destruct (others_sent broken [] [] []) as (_ & H & _).
  destruct (H cap sent w T connected verdict) as (w' & e & Q & A & B & C). cbn [length] in A, B, C. cbv beta in Q.
  unfold ModelFault.CloseSession, ModelFault.notifySessionClosed. cbn [negb].
  assert (K : exists l, o_res (if last then destroyed (W:=wire) hook else MkOut [] (Some None)) = Some None /\
    o_log (if last then destroyed (W:=wire) hook else MkOut [] (Some None)) = l /\
    (last = false \/ hook = HkDone -> l = []) /\ (last = true -> forall e, hook = HkErr e -> one l t$"session registry ")).
  { destruct last; [|eexists; repeat split; auto; discriminate]. destruct hook as [|x|]; [| |destruct (P eq_refl eq_refl)]; eexists; (split; [reflexivity|]); (split; [reflexivity|]).
    - split; [reflexivity|discriminate].
    - split; [intros [|]; discriminate|]. intros _ _ _. apply one_printf. }
  destruct K as (l & K1 & K2 & K3 & K4). rewrite K1, K2, Q. exists w', l, e. split; [reflexivity|]. split; [exact K3|]. split; [exact K4|].
  split; [exact A|]. split; [exact B|]. intros Z. apply C. lia.
Qed.
End Greet.
