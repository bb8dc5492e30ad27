(* C71: session calls come to an end *)
From Coq Require Import List Arith NArith ZArith Lia Bool.
From Verif Require Import BaseBytes BaseConc ModelMessage ModelHandle ModelSession SpecSession SpecCalls ProofSession9 ProofCalls PropsCodec PropsSession.
Import ListNotations.
Open Scope nat_scope.

(* a call makes at most seven steps, whatever the state, the schedule and the answers of hooks, sockets and
   application ... *)
Theorem C71_call : forall f s es s' i t, srun f s es = Some s' -> nth_error (s_ts s) i = Some t -> single t = true -> steps_of i es <= 7.
Proof. exact single_bounded. Qed.
Print Assumptions C71_call.
(* ... Server.CloseSession at most eight for each connection the session may have, and two *)
Theorem C71_bounded : forall f es s, srun f new_server es = Some s -> steps es <= calls es * (8 * calls es + 2).
Proof. exact run_bounded. Qed.
Print Assumptions C71_bounded.
(* when nothing can be done any more all calls have returned (the server has not panicked) ... *)
Theorem C71_at_rest : forall f ok s, sreach f ok s -> g_crashed (s_srv s) = false -> (at_rest f s <-> quiet s).
Proof. exact rest_quiet. Qed.
Print Assumptions C71_at_rest.
(* ... and no connection's session is locked *)
Theorem C71_unlocked : forall f ok s c, sreach f ok s -> quiet s -> g_lock (s_srv s) c = None.
Proof. exact quiet_unlocked. Qed.
Print Assumptions C71_unlocked.
(* such a state can always be reached, unless the server panics *)
Theorem C71_finishes : forall f ok s, sreach f ok s -> exists es s', forallb own es = true /\ (forall e, In e es -> ~ fatal e) /\
  srun f s es = Some s' /\ (g_crashed (s_srv s') = true \/ quiet s').
Proof. intros f ok s R. exact (finish f s (reach_free f ok s R)). Qed.
Print Assumptions C71_finishes.

(* two connections of one session, closed by Server.CloseSession: 7 + 6 + 2 + 7 + 8 steps *)
Definition run71 : list ev :=
  two_on_A ++ call 2 (EvServerClose keyA) ([ChOrder [0; 1]; Go] ++ closes ++ [Go] ++ closes_last ++ [Go]).
Example C71_case : exists s, srun (cfg 2) new_server run71 = Some s /\ g_crashed (s_srv s) = false /\ quiet s /\ calls run71 = 3 /\ steps run71 = 30 /\
  steps_of 0 run71 = 7 /\ reg s = [] /\ nth_error (s_ts s) 2 = Some (TServer keyA (SDone [0; 1] [RNil; RNil] None)).
Proof.
  eexists. split; [vm_compute; reflexivity|]. split; [reflexivity|]. split; [is_quiet|]. repeat split; reflexivity.
Qed.
(* work left: a call waits for another one, which can go on *)
Example C71_waiting_case : exists s, sreach (cfg 2) anything s /\ g_crashed (s_srv s) = false /\ ~ quiet s /\ ~ at_rest (cfg 2) s /\
  g_lock (s_srv s) 0 = Some 0 /\ sstep (cfg 2) s (EvStep 1 Go) = None.
Proof.
  reached freely (call 0 (EvCreate 0 7%N) [ChSock true; Go] ++ call 1 (EvClose 0) [Go]). split; [reflexivity|]. split.
  - intros Q. specialize (Q _ (or_introl eq_refl)). discriminate Q.
  - split; [|split; reflexivity]. intros A. specialize (A 0 (ChKey keyA 5)). discriminate A.
Qed.
(* the panic is one of the schedule's making (C37): of two restorations of a session for one connection *)
Example C71_panic_case : exists es s, srun (cfg 1) new_server es = Some s /\ (forall e, In e es -> ~ fatal e) /\ g_crashed (s_srv s) = true.
Proof.
  exists (race30 ++ map (EvStep 1) [ChLook (LkFound 1 2 3%N); Go; Go]). eexists. split; [vm_compute; reflexivity|]. split; [|reflexivity].
  intros e I F. assert (X : forallb (fun e => match e with EvStep _ (ChHook true) | EvStep _ (ChKey [] _) => false | _ => true end) (race30 ++ map (EvStep 1) [ChLook (LkFound 1 2 3%N); Go; Go]) = true) by (vm_compute; reflexivity).
  rewrite forallb_forall in X. specialize (X e I). destruct F as [(i & ->)|(i & now & ->)]; discriminate X.
Qed.
