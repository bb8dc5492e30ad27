(* The socket of ModelSend is the socket of ModelMemchan: C86. *)
From Coq Require Import Strings.String.
From Coq Require Import List Arith NArith Lia Bool.
From Verif Require Import BaseBytes ModelErrors ModelMemchan SpecMemchan SpecReport SpecSend2 ProofSend2 ProofSend3.
From Verif Require ModelSend SpecSend.
Import ListNotations.
Open Scope list_scope.
Open Scope nat_scope.

(* GetWriter: the same lock, the same socket after it, the same error *)
Theorem C86_get_thread : forall i n k,
  match write_step i n k WGet Go with
  | None => ModelSend.GetWriter (view k n) (n_on n (fst k)) = None
  | Some (n', WOpen, None) => ModelSend.GetWriter (view k n) (n_on n (fst k)) = Some (view k n', inl (view k n'))
  | Some (n', WDone r, None) => exists e, told r = Some e /\ ModelSend.GetWriter (view k n) (n_on n (fst k)) = Some (view k n', inr e)
  | _ => False
  end.
Proof. exact get_agrees. Qed.
Print Assumptions C86_get_thread.
Theorem C86_write_thread : forall i n k p,
  match write_step i n k WOpen (ChWrite p) with
  | None => ModelSend.w_stuck (fst (ModelSend.write (view k n) p)) = true
  | Some (n', WOpen, None) => exists ok, n_log n' = n_log n ++ [LWrite i k p ok] /\
      ModelSend.write (view k n) p = (view k n', if ok then None else Some ErrBufferOverflow)
  | _ => False
  end.
Proof. exact write_agrees. Qed.
Print Assumptions C86_write_thread.
(* Close, whatever the other goroutines do meanwhile to the rest *)
Theorem C86_flush_thread : forall i k n,
  (write_step i n k WOpen ChClose = None -> forall c v, ModelSend.w_stuck (fst (ModelSend.close c v (view k n))) = true) /\
  (forall n1 s1 o n2 r, write_step i n k WOpen ChClose = Some (n1, s1, o) -> goes_on i k n1 s1 n2 (WDone r) ->
     ModelSend.close (match r with WrClosed => false | _ => true end) (fun _ => told r) (view k n) = (view k n2, told r)).
Proof. exact close_agrees. Qed.
Print Assumptions C86_flush_thread.

(* a message of two bytes over a connected pair, read by the other side *)
Example C86_thread_case : let k := (0, Clt) in
  exists n n1 n2, view k n = ModelSend.MkWire (MkBuffer [n2b 7%N; n2b 8%N; n2b 0%N] 2) false true [] false /\
    write_step 0 n k WOpen ChClose = Some (n1, WFlush, None) /\ goes_on 0 k n1 WFlush n2 (WDone WrRead) /\
    view k n2 = ModelSend.MkWire (MkBuffer [n2b 7%N; n2b 8%N; n2b 0%N] 0) false false [[n2b 7%N; n2b 8%N]] false.
Proof.
  cbv zeta.
  exists (set_wlk (0, Clt) (Some 0) (set_buf (0, Clt) (MkBuffer [n2b 7%N; n2b 8%N; n2b 0%N] 2) (set_on 0 true (set_chan (0, Srv) 0 (MkChan None false) (new_net 3))))).
  eexists. eexists. split; [reflexivity|]. split; [reflexivity|]. split.
  - eapply GO_step with (ch := Go); [reflexivity|]. eapply GO_step with (ch := Go); [reflexivity|]. eapply GO_step with (ch := Go); [reflexivity|].
    apply GO_answer with WrRead; [left; reflexivity|]. eapply GO_step with (ch := Go); [reflexivity|]. apply GO_refl.
  - reflexivity.
Qed.

(* in any run of the transport: when the Close of writer i returns, the socket is as ModelSend says, except that another
   writer may have got hold of it since writerLock was unlocked *)
Theorem C86_any_run : forall size s0 i k s1, mreach size anything s0 -> at_ s0 i (TWrite k WOpen) -> mstep s0 (EvStep i ChClose) = Some s1 ->
  (at_ s1 i (TWrite k (WDone WrEmpty)) /\
     forall c v, ModelSend.close c v (view k (s_net s0)) = (view k (s_net s1), told WrEmpty)) \/
  (forall s2 e s3 r, mfrom anything s1 s2 -> (forall r', ~ at_ s2 i (TWrite k (WDone r'))) -> mstep s2 e = Some s3 -> at_ s3 i (TWrite k (WDone r)) ->
     exists v, ModelSend.close (match r with WrClosed => false | _ => true end) (fun _ => told r) (view k (s_net s0)) = (v, told r) /\
       SpecSend.but_writer v (view k (s_net s3))).
Proof. exact close_in_run. Qed.
Print Assumptions C86_any_run.

(* the socket is closed before the flush, and the next writer waits *)
Definition example_start : list ev :=
  [EvDial 0; EvStep 0 (ChAccept true); EvStep 0 Go; EvStep 0 Go; EvStep 0 Go; EvStep 0 (ChShutting false); EvStep 0 Go; EvStep 0 Go;
   EvWrite (0, Clt); EvStep 1 Go; EvStep 1 (ChWrite [n2b 7%N; n2b 8%N]); EvWrite (0, Clt)].
Example C86_run_case :
  match mrun (new_sys 3) example_start with None => False | Some s0 => nth_error (s_ts s0) 1 = Some (TWrite (0, Clt) WOpen) /\
  match mstep s0 (EvStep 1 ChClose) with None => False | Some s1 =>
  match mrun s1 [EvClose (0, Clt); EvStep 3 Go; EvStep 1 Go] with None => False | Some s2 =>
    nth_error (s_ts s2) 1 = Some (TWrite (0, Clt) (WReset WrClosed)) /\
  match mstep s2 (EvStep 1 Go) with None => False | Some s3 => nth_error (s_ts s3) 1 = Some (TWrite (0, Clt) (WDone WrClosed)) /\
    view (0, Clt) (s_net s3) = ModelSend.MkWire (MkBuffer [n2b 7%N; n2b 8%N; n2b 0%N] 0) false false [] false end end end end.
Proof. vm_compute. repeat split. Qed.
