(* Reading with deadlines (C62). *)
From Coq Require Import List ZArith Bool Lia.
From Verif Require Import BaseBytes ModelTimer SpecTimer ProofTimer ProofTimer2 PropsCodec.
Import ListNotations.
Open Scope Z_scope.

(* ================= C62 ================= *)
(* A Read that times out had a deadline. It began to wait at te and nothing arrived from then on.
   With timers that are drained (fixed) the deadline has passed, and no message was waiting unless
   the wait began after the deadline. With the timers of Go 1.22 and before this holds unless an
   earlier Read stopped its timer after its own deadline. Missing: the same without that exception *)
Theorem C62_timeouts_partial : forall fixed s l2 t l1, treach fixed s -> t_log s = l2 ++ LRes t TTimeout :: l1 ->
  exists la te lb t0 d, l1 = la ++ LEnter te :: lb /\ reading lb = Some (t0, Some d) /\ te <= t /\
    Forall (fun e => ~ wakes e) la /\
    (d <= t \/ fixed = false /\ overdue lb) /\
    (arrived lb = None \/ d <= te \/ fixed = false /\ overdue lb).
Proof. exact timeouts. Qed.
Print Assumptions C62_timeouts_partial.
(* the exception happens: the message arrives just in time, the timer expires before it is stopped,
   and the next Read fails at once although its deadline is far away and its message is there *)
Definition stale_run : list tev :=
  [TRead (Some 10); TArm; TEnter KPark; TPass 10; TPut (bs [63]%N); TFire; TStop; TRet;
   TPut (bs [64]%N); TRead (Some 20); TArm; TEnter KTick; TStop; TRet].
Theorem C62_stale_tick_refuted : exists s l, treach false s /\
  t_log s = LShut 10 :: LRet 10 TTimeout :: LStop 10 :: LRes 10 TTimeout :: LEnter 10 :: LStart 10 (Some 20) ::
            LPut 10 (bs [64]%N) :: l /\ t_on s = false.
Proof.
  destruct (timed_run false (new_tsock 0) stale_run) as [s|] eqn:E; [|vm_compute in E; discriminate].
  assert (R : treach false s).
  { assert (G : forall es x y, treach false x -> timed_run false x es = Some y -> treach false y).
    { induction es as [|e es IH]; cbn; intros x y Rx H; [injection H as <-; exact Rx|].
      destruct (timer_step false x e) eqn:Q; [|discriminate]. eapply IH; [|exact H]. econstructor; eassumption. }
    exact (G stale_run _ _ (TR_new _ 0) E). }
  vm_compute in E. injection E as <-. eexists _, _. split; [exact R|]. split; reflexivity.
Qed.
Print Assumptions C62_stale_tick_refuted.
(* Read returns what ended the wait: the message that was waiting or just arrived; "closed" if the
   socket is closed and no message is left *)
Theorem C62_gets_message : forall fixed s l2 t b l1,
  treach fixed s -> t_log s = l2 ++ LRes t (TData b) :: l1 -> arrived l1 = Some b.
Proof. exact gets_message. Qed.
Print Assumptions C62_gets_message.
Theorem C62_gets_closed : forall fixed s l2 t l1,
  treach fixed s -> t_log s = l2 ++ LRes t TClosed :: l1 -> shut l1 = true /\ arrived l1 = None.
Proof. exact gets_closed. Qed.
Print Assumptions C62_gets_closed.
Theorem C62_returns_outcome : forall fixed s l2 t r l1,
  treach fixed s -> t_log s = l2 ++ LRet t r :: l1 -> outcome l1 = Some r.
Proof. exact returns_outcome. Qed.
Print Assumptions C62_returns_outcome.
(* a failed Read closes the socket, and later Reads fail *)
Theorem C62_failed_closes : forall fixed s r s',
  t_ph s = PEnd r -> (forall b, r <> TData b) -> timer_step fixed s TRet = Some s' ->
  t_on s' = false /\ forall d s2, timer_step fixed s' (TRead d) = Some s2 -> s2 = s'.
Proof. exact failed_closes. Qed.
Print Assumptions C62_failed_closes.
(* a Read called at t0 with deadline d can always return by itself, within d - t0 *)
Theorem C62_ends : forall fixed s t0 d,
  treach fixed s -> limit (t_ph s) = Some d -> reading (t_log s) = Some (t0, Some d) ->
  ends_by fixed s (Z.max 0 (d - t0)).
Proof. exact read_ends. Qed.
Print Assumptions C62_ends.

(* a Read in progress that does not wait in its select can go on by itself, ... *)
Theorem C62_goes : forall fixed s, treach fixed s -> t_ph s <> PIdle -> (forall d, t_ph s <> PPark d) ->
  exists e s', In e [TArm; TEnter KTick; TEnter KData; TEnter KPark; TStop; TRet] /\ timer_step fixed s e = Some s'.
Proof. exact read_goes. Qed.
Print Assumptions C62_goes.
(* ... and one that does is woken by a message, by the closing of the socket, and if it has a deadline by
   its timer, which is set to the deadline or later; by nothing else *)
Theorem C62_parked : forall fixed s d, treach fixed s -> t_ph s = PPark d ->
  (forall b, exists s', timer_step fixed s (TPut b) = Some s' /\ t_ph s' = PHave d (TData b)) /\
  (t_on s = true -> exists s', timer_step fixed s TShut = Some s' /\ t_ph s' = PHave d TClosed) /\
  (forall s', timer_step fixed s TFire = Some s' -> exists x, d = Some x /\ x <= t_now s /\ t_ph s' = PHave d TTimeout) /\
  (forall x, d = Some x -> exists w, t_when s = Some w /\ x <= w /\
     forall n, w <= t_now s + n -> 0 <= n -> exists s1 s', timer_step fixed s (TPass n) = Some s1 /\ timer_step fixed s1 TFire = Some s') /\
  (forall e s', timer_step fixed s e = Some s' -> t_ph s' <> PPark d -> (exists b, e = TPut b) \/ e = TShut \/ e = TFire).
Proof. exact read_parked. Qed.
Print Assumptions C62_parked.
(* a Read without deadline waits, and gets what comes *)
Example C62_parked_case : exists s s', timed_run false (new_tsock 0) [TRead None; TEnter KPark] = Some s /\ t_ph s = PPark None /\ t_on s = true /\
  timed_run false s [TPass 1000; TPut (bs [65]%N)] = Some s' /\ t_ph s' = PHave None (TData (bs [65]%N)).
Proof. eexists _, _. repeat split; reflexivity. Qed.
Example C62_goes_case : exists s, timed_run false (new_tsock 0) [TRead None] = Some s /\ t_ph s = PArmed None.
Proof. eexists. split; reflexivity. Qed.
Example C62_reach_case : forall s, timed_run false (new_tsock 0) [TRead None; TEnter KPark] = Some s -> treach false s.
Proof.
  cbn. intros s [= <-]. eapply TR_step with (e := TEnter KPark); [eapply TR_step with (e := TRead None); [apply (TR_new false 0)|]|]; reflexivity.
Qed.
(* with drained timers the run above does not happen; the same Read gets its message *)
Example C62_case : timed_run true (new_tsock 0) stale_run = None.
Proof. vm_compute. reflexivity. Qed.
Example C62_case2 : exists s l, timed_run true (new_tsock 0)
  (firstn 11 stale_run ++ [TEnter KData; TStop; TRet; TRead (Some 15); TArm; TEnter KPark; TPass 5; TFire; TStop; TRet]) = Some s /\
  t_log s = LShut 15 :: LRet 15 TTimeout :: LStop 15 :: LRes 15 TTimeout :: LEnter 10 :: LStart 10 (Some 15) ::
            LRet 10 (TData (bs [64]%N)) :: l.
Proof. eexists _, _. split; [vm_compute; reflexivity|]. reflexivity. Qed.
