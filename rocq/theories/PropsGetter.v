(* Property theorems C63: the session getters of a connection (HasSession, Session, SessionKey, SessionCreation,
   SessionInfo), and their use in session hooks. [get_session copy value g c q = None]: getter q of connection c
   waits for con.sessionLock. *)
From Coq Require Import List Arith NArith ZArith Lia Bool.
From Verif Require Import BaseBytes BaseConc ModelMessage ModelWrite ModelHandle ModelSession ModelGetter.
From Verif Require Import SpecWire SpecMessage SpecWrite SpecHandle SpecSession SpecGetter.
From Verif Require Import ProofSession9 ProofGetter.
From Verif Require Import PropsCodec PropsSession.
Import ListNotations.
Open Scope nat_scope.

Notation getters s c := (get_session (fun x => x) (fun x name => (x + N.of_nat (length name))%N) (s_srv s) c).

(* ================= C63 ================= *)
(* in every run the getters tell the same: no session, or one session with a key that is not empty *)
Theorem C63_agree : forall f ok s copy value c, sreach f ok s -> from_frames s ->
  let get := get_session copy value (s_srv s) c in
  waits get \/ tells_none get \/ exists x, x_key x <> [] /\ tells copy value get x.
Proof. exact agreeing. Qed.
Print Assumptions C63_agree.
Lemma framesA s : (forall i c m st, nth_error (s_ts s) i = Some (TRestore c m st) -> m = restoreA) -> from_frames s.
Proof. intros H i c m st N. rewrite (H i c m st N). eexists _, _. split; [apply received_restoreA|reflexivity]. Qed.
Example C63_agree_case : exists s, sreach (cfg 2) (strict (cfg 2)) s /\ from_frames s /\
  tells_none (getters s 3) /\ tells (fun x => x) (fun x name => (x + N.of_nat (length name))%N) (getters s 1) (MkSession keyA 1 2 3%N).
Proof.
  reached strictly two_on_A. split; [|split].
  - apply framesA. cbn. intros [|[|i]] c m st; cbn; [discriminate|intros [= <- <- <-]; reflexivity|destruct i; discriminate].
  - unfold tells_none. repeat split.
  - unfold tells. repeat split; discriminate.
Qed.
(* SessionKey is the key under which the server lists the connection, when no call concerning it is in progress *)
Theorem C63_listed_partial : forall f (ok : sys -> Prop) s copy value c k, (forall s, ok s -> orderly f s) -> sreach f ok s ->
  from_frames s -> idle s c ->
  get_session copy value (s_srv s) c SgKey = Some (SvKey k) /\ k <> [] <-> listed s c k.
Proof. exact getter_listed. Qed.
Print Assumptions C63_listed_partial.
Example C63_listed_case : exists s, sreach (cfg 2) (strict (cfg 2)) s /\ (forall s, strict (cfg 2) s -> orderly (cfg 2) s) /\
  from_frames s /\ idle s 1 /\ listed s 1 keyA.
Proof.
  reached strictly two_on_A. split; [apply strict_orderly|]. split; [|split].
  - apply framesA. cbn. intros [|[|i]] c m st; cbn; [discriminate|intros [= <- <- <-]; reflexivity|destruct i; discriminate].
  - intros t [<-|[<-|[]]]; reflexivity.
  - eexists. split; [vm_compute; reflexivity|]. cbn. auto.
Qed.
(* getters wait exactly while CreateSession or CloseSession are changing the session *)
Theorem C63_waits : forall f ok s copy value c, sreach f ok s ->
  ((exists i t, nth_error (s_ts s) i = Some t /\ changing c t = true) -> waits (get_session copy value (s_srv s) c)) /\
  ((forall i t, nth_error (s_ts s) i = Some t -> changing c t = false) -> forall q, get_session copy value (s_srv s) c q <> None).
Proof. exact getter_waits. Qed.
Print Assumptions C63_waits.
(* connection 0 is in the middle of CreateSession, connection 1 is not *)
Example C63_waits_case : exists s, sreach (cfg 2) (strict (cfg 2)) s /\
  (exists i t, nth_error (s_ts s) i = Some t /\ changing 0 t = true) /\
  (forall i t, nth_error (s_ts s) i = Some t -> changing 1 t = false) /\
  getters s 0 SgHas = None /\ getters s 1 SgHas = Some (SvHas false).
Proof.
  reached strictly (call 0 (EvCreate 0 7%N) [ChSock true; Go; ChKey keyA 5; fine_writer]). split; [|split].
  - exists 0. eexists. split; reflexivity.
  - intros [|i] t; cbn; [intros [= <-]; reflexivity|destruct i; discriminate].
  - split; reflexivity.
Qed.
(* OnSessionCreated may use them, and reads the session of which the client has been notified *)
Theorem C63_created_hook_partial : forall f (ok : sys -> Prop) s copy value i c info,
  (forall s, ok s -> exclusive s) -> sreach f ok s -> in_created s i c info ->
  exists x enc calls, In (LNotifyCreated i c x enc calls) (slog s) /\ x_info x = info /\
    tells copy value (get_session copy value (s_srv s) c) x.
Proof. exact created_hook. Qed.
Print Assumptions C63_created_hook_partial.
Example C63_created_hook_case : exists s, sreach (cfg 2) (strict (cfg 2)) s /\ (forall s, strict (cfg 2) s -> exclusive s) /\
  in_created s 0 0 7%N /\ getters s 0 SgSession = Some (SvSession (Some (MkSession keyA 5 5 7%N))).
Proof.
  reached strictly (call 0 (EvCreate 0 7%N) [ChSock true; Go; ChKey keyA 5; fine_writer; Go; Go]).
  split; [intros s H; apply H|]. split; reflexivity.
Qed.
(* OnSessionClosed may use them when a client asked to close the session, and reads that session *)
Theorem C63_closure_hook_partial : forall f (ok : sys -> Prop) s copy value i c t,
  (forall s, ok s -> exclusive s) -> sreach f ok s -> in_closed s i c t -> unsynced t = true ->
  exists x, tells copy value (get_session copy value (s_srv s) c) x /\
    forall s', sstep f s (EvStep i (ChHook false)) = Some s' -> slog s' = slog s ++ [LDestroy i (x_key x)].
Proof. exact closure_hook. Qed.
Print Assumptions C63_closure_hook_partial.
Definition closing_by_request : list ev :=
  call 0 (EvCreate 0 7%N) (creates keyA) ++ call 1 (EvClosure 0 closure) [Go; Go; Go; Go].
Example C63_closure_hook_case : exists s, sreach (cfg 2) (strict (cfg 2)) s /\ (forall s, strict (cfg 2) s -> exclusive s) /\
  in_closed s 1 0 (TClosure 0 closure (XDereg D2)) /\ getters s 0 SgKey = Some (SvKey keyA) /\
  exists s', sstep (cfg 2) s (EvStep 1 (ChHook false)) = Some s'.
Proof.
  reached strictly closing_by_request. split; [intros s H; apply H|]. split; [split; reflexivity|]. split; [reflexivity|].
  eexists. vm_compute. reflexivity.
Qed.
(* but not when the server closes the session: until OnSessionClosed returns, no getter of the connection does, whatever
   the other goroutines do; a hook using one never returns *)
Theorem C63_closed_hook_refuted : forall f s copy value i c t es s', sreach f anything s -> in_closed s i c t -> unsynced t = false ->
  (forall e, In e es -> others i e) -> srun f s es = Some s' -> waits (get_session copy value (s_srv s') c).
Proof. exact closed_hook_blocked. Qed.
Print Assumptions C63_closed_hook_refuted.
(* CloseSession of the last connection of the session; another connection gets a session meanwhile *)
Definition closing_by_server : list ev :=
  call 0 (EvCreate 0 7%N) (creates keyA) ++ call 1 (EvClose 0) [Go; Go; Go; Go].
Example C63_closed_hook_case : exists s s', sreach (cfg 2) anything s /\ in_closed s 1 0 (TClose 0 (QDereg D2)) /\
  (forall e, In e (call 2 (EvCreate 5 7%N) (creates keyB)) -> others 1 e) /\
  srun (cfg 2) s (call 2 (EvCreate 5 7%N) (creates keyB)) = Some s' /\ getters s' 5 SgKey = Some (SvKey keyB) /\ getters s' 0 SgKey = None.
Proof.
  destruct (srun (cfg 2) new_server closing_by_server) as [s|] eqn:E; [|vm_compute in E; discriminate].
  destruct (srun (cfg 2) s (call 2 (EvCreate 5 7%N) (creates keyB))) as [s'|] eqn:E'.
  - exists s, s'. split; [eapply srun_reach; [apply SR_new|exact E]|]. vm_compute in E. injection E as <-. vm_compute in E'. injection E' as <-.
    split; [split; reflexivity|]. split; [|split; [reflexivity|split; reflexivity]].
    intros e H ch ->. cbn in H. intuition discriminate.
  - exfalso. vm_compute in E. injection E as <-. vm_compute in E'. discriminate.
Qed.
