(* Property theorems C30 - C38 (sessions), C53 - C55. [sreach f ok s]: the server state s is
   reachable by any interleaving of session calls, through states satisfying ok only;
   [alone f s e chs = Some s']: call e, beginning in s, reaches s' without interference. *)
From Coq Require Import List Arith NArith ZArith Lia Bool.
From Verif Require Import BaseBytes BaseConc ModelMessage ModelWrite ModelHandle ModelSession.
From Verif Require Import SpecWire SpecMessage SpecWrite SpecHandle SpecSession.
From Verif Require Import ProofMessage ProofHandle ProofSession3 ProofSession4 ProofSession5 ProofSession6 ProofSession7 ProofSession8 ProofSession9.
From Verif Require Import PropsCodec.
Import ListNotations.
Open Scope nat_scope.

(* ----- sample runs ----- *)
Definition cfg (max : N) : config := MkConfig true max (fun k _ _ _ => Some k) (fun x => x) (Some (fun x => x)).
Definition keyA : key := bs [65]%N.
Definition keyB : key := bs [66]%N.
Definition go (i : nat) : ev := EvStep i Go.
Definition fine_writer : choice := ChW (Some (fun _ => false)).
Definition bad_writer : choice := ChW (Some (fun _ => true)).
Definition read (b : bytes) : message := match ReadBytes (NewMessage 32) b with Some (m, _, _) => m | None => NewMessage 32 end.
Definition restoreA : message := read (n2b 32 :: id8 ++ keyA).
Definition restoreB : message := read (n2b 32 :: id8 ++ keyB).
Definition closure : message := read (n2b 31 :: id8).
(* the steps of undisturbed calls *)
Definition creates (k : key) : list choice := [ChSock true; Go; ChKey k 5; fine_writer; Go; Go; Go].
Definition restores : list choice := [Go; Go; ChLook (LkFound 1 2 3%N); Go; Go; fine_writer].
Definition closes : list choice := [Go; Go; Go; Go; Go; fine_writer].
Definition closes_last : list choice := [Go; Go; Go; Go; ChHook false; Go; fine_writer].
Definition call (i : nat) (e : ev) (chs : list choice) : list ev := e :: map (EvStep i) chs.
(* connection 0 creates session A, connection 1 restores it *)
Definition two_on_A : list ev := call 0 (EvCreate 0 7%N) (creates keyA) ++ call 1 (EvRestore 1 restoreA) restores.

Lemma received_restoreA : received restoreA (n2b 32 :: id8 ++ keyA) (MkContent 32 id8 [] keyA EBin None).
Proof.
  exists (NewMessage 32). split; [apply NewMessage_blank|]. split; [cbn; lia|]. split; [|vm_compute; reflexivity].
  apply F_restore; [reflexivity|discriminate].
Qed.
Lemma received_closure : received closure (n2b 31 :: id8) (MkContent 31 id8 [] [] EBin None).
Proof.
  exists (NewMessage 32). split; [apply NewMessage_blank|]. split; [cbn; lia|]. split; [|vm_compute; reflexivity].
  apply F_close_session. reflexivity.
Qed.
Definition quietb (s : sys) : bool := forallb finished (s_ts s).
Lemma quietb_spec s : quietb s = true -> quiet s.
Proof. unfold quietb. rewrite forallb_forall. auto. Qed.
(* a state reached within all restrictions / within none, by a given run *)
Lemma strictly f es (P : sys -> Prop) : (forall s, strict_run f new_server es = Some s -> P s) ->
  (match strict_run f new_server es with Some _ => true | None => false end) = true ->
  exists s, sreach f (strict f) s /\ P s.
Proof.
  intros H E. destruct (strict_run f new_server es) as [s|] eqn:R; [|discriminate].
  exists s. split; [|apply H; reflexivity]. eapply strict_run_reach; [apply SR_new|exact R].
Qed.
Lemma freely f es (P : sys -> Prop) : (forall s, srun f new_server es = Some s -> P s) ->
  (match srun f new_server es with Some _ => true | None => false end) = true ->
  exists s, sreach f anything s /\ P s.
Proof.
  intros H E. destruct (srun f new_server es) as [s|] eqn:R; [|discriminate].
  exists s. split; [|apply H; reflexivity]. eapply srun_reach; [apply SR_new|exact R].
Qed.
Ltac reached L es :=
  apply (L _ es); [|vm_compute; reflexivity]; let s := fresh "s" in let E := fresh "E" in intros s E; vm_compute in E; injection E as <-.
Ltac is_quiet := apply quietb_spec; vm_compute; reflexivity.
Ltac runs := eexists; split; [vm_compute; reflexivity|].

(* ================= C30 ================= *)
Theorem C30_limit : forall f ok s k, sreach f ok s -> f_max f <> 0%N ->
  (sessionConnectionsNum (reg s) k <= Z.of_N (f_max f))%Z.
Proof. exact session_limit. Qed.
Print Assumptions C30_limit.
(* reached by two connections *)
Example C30_case : exists s, sreach (cfg 2) (strict (cfg 2)) s /\ sessionConnectionsNum (reg s) keyA = 2%Z.
Proof. reached strictly two_on_A. reflexivity. Qed.
(* also when restorations race each other *)
Definition race30 : list ev :=
  call 0 (EvRestore 0 restoreA) [Go; Go] ++ call 1 (EvRestore 1 restoreA) [Go; Go] ++
  map (EvStep 0) [ChLook (LkFound 1 2 3%N); Go; Go; fine_writer].
Example C30_race_case : exists s, sreach (cfg 1) anything s /\ sessionConnectionsNum (reg s) keyA = 1%Z /\
  nth_error (s_ts s) 1 = Some (TRestore 1 restoreA RLook).
Proof. reached freely race30. split; vm_compute; reflexivity. Qed.

(* ================= C31 ================= *)
(* the numbers and lists are those of the registered connections, in every run *)
Theorem C31_registry : forall f ok s, sreach f ok s ->
  (exists ks, NoDup ks /\ activeSessionsNum (reg s) = length ks /\ forall k, In k ks <-> exists c, listed s c k) /\
  forall k, exists l, NoDup l /\ (forall c, In c l <-> listed s c k) /\
    sessionConnections (reg s) k = (if length l =? 0 then None else Some l) /\
    sessionConnectionsNum (reg s) k = if length l =? 0 then (-1)%Z else Z.of_nat (length l).
Proof. exact registry_counts. Qed.
Print Assumptions C31_registry.
(* taking a connection out of the registry: the number of connections left, 0 if the session goes, -1 if there is none *)
Theorem C31_deregister : forall f ok s c k, sreach f ok s ->
  ((forall c', ~ listed s c' k) -> deregister (reg s) k c = (reg s, (-1)%Z)) /\
  (listed s c k -> forall r n, deregister (reg s) k c = (r, n) -> sessionConnectionsNum (reg s) k = (n + 1)%Z /\
     sessionConnectionsNum r k = (if (n =? 0)%Z then (-1)%Z else n) /\
     forall k', k' <> k -> sessionConnections r k' = sessionConnections (reg s) k').
Proof. exact deregister_exact. Qed.
Print Assumptions C31_deregister.
(* those of the connections having the session, when no call is in progress, in orderly runs *)
Theorem C31_counts_partial : forall f (ok : sys -> Prop) s, (forall s, ok s -> orderly f s) -> sreach f ok s -> quiet s ->
  (exists ks, NoDup ks /\ activeSessionsNum (reg s) = length ks /\ forall k, In k ks <-> exists c, has_key s c k) /\
  forall k, exists l, NoDup l /\ (forall c, In c l <-> has_key s c k) /\
    sessionConnections (reg s) k = (if length l =? 0 then None else Some l) /\
    sessionConnectionsNum (reg s) k = if length l =? 0 then (-1)%Z else Z.of_nat (length l).
Proof. exact held_counts. Qed.
Print Assumptions C31_counts_partial.
Example C31_case : exists s, sreach (cfg 2) (strict (cfg 2)) s /\ (forall s, strict (cfg 2) s -> orderly (cfg 2) s) /\ quiet s /\
  activeSessionsNum (reg s) = 2 /\ sessionConnectionsNum (reg s) keyA = 2%Z /\ sessionConnectionsNum (reg s) keyB = 1%Z /\
  has_key s 0 keyA /\ has_key s 1 keyA /\ has_key s 2 keyB.
Proof.
  reached strictly (two_on_A ++ call 2 (EvCreate 2 0%N) (creates keyB)). split; [apply strict_orderly|]. split; [is_quiet|].
  repeat (split; [reflexivity|]). split; [|split]; eexists; split; reflexivity.
Qed.
(* a client may restore session B on a connection having session A: the connection then has
   session B, but still counts for session A, and does so forever *)
Definition restore_over : list ev := call 0 (EvCreate 0 7%N) (creates keyA) ++ call 1 (EvRestore 0 restoreB) restores.
Theorem C31_restore_over_refuted : exists s, sreach (cfg 0) anything s /\ quiet s /\ exclusive s /\
  activeSessionsNum (reg s) = 2 /\ sessionConnectionsNum (reg s) keyA = 1%Z /\
  has_key s 0 keyB /\ (forall c, ~ has_key s c keyA).
Proof.
  reached freely restore_over. split; [is_quiet|]. split.
  { intros i j t u c D Hi _ B. apply nth_error_In in Hi. destruct Hi as [<-|[<-|[]]]; discriminate B. }
  split; [reflexivity|]. split; [reflexivity|]. split; [eexists; split; reflexivity|].
  intros c (x & X & K). cbn in X. destruct c; cbn in X; [injection X as <-; discriminate K|discriminate X].
Qed.
Print Assumptions C31_restore_over_refuted.

(* ================= C32 ================= *)
Theorem C32_agree_partial : forall f (ok : sys -> Prop) s c k, (forall s, ok s -> orderly f s) -> sreach f ok s ->
  idle s c -> (listed s c k <-> has_key s c k).
Proof. exact listed_iff. Qed.
Print Assumptions C32_agree_partial.
(* even while calls are in progress, listed connections have the session *)
Theorem C32_sound_partial : forall f (ok : sys -> Prop) s c k, (forall s, ok s -> orderly f s) -> sreach f ok s ->
  listed s c k -> has_key s c k.
Proof. exact listed_sound. Qed.
Print Assumptions C32_sound_partial.
(* how the registry changes: in every run only by joining and leaving connections *)
Theorem C32_join : forall f ok s i ch s' j c k, sreach f ok s ->
  sstep f s (EvStep i ch) = Some s' -> slog s' = slog s ++ [LJoin j c k] ->
  has_key s c k /\ (forall c' k', listed s' c' k' <-> (c' = c /\ k' = k) \/ listed s c' k').
Proof. exact join_exact. Qed.
Print Assumptions C32_join.
Theorem C32_otherwise_unchanged : forall f s e s', sstep f s e = Some s' ->
  (forall i c k, slog s' <> slog s ++ [LJoin i c k]) -> (forall i c k d n, slog s' <> slog s ++ [LLeave i c k d n]) ->
  reg s' = reg s.
Proof. exact other_steps. Qed.
Print Assumptions C32_otherwise_unchanged.
(* the end of a connection takes it out of its session, and closes the socket *)
Theorem C32_disconnect_partial : forall f (ok : sys -> Prop) s c chs s', (forall s, ok s -> orderly f s) -> sreach f ok s -> idle s c ->
  alone f s (EvUnlink c) chs = Some s' -> s_ts s' = s_ts s ++ [TUnlink c UDone] -> unlink_outcome s c s'.
Proof. exact unlink_alone. Qed.
Print Assumptions C32_disconnect_partial.
Example C32_case : exists s, sreach (cfg 2) (strict (cfg 2)) s /\ idle s 0 /\ listed s 0 keyA /\ has_key s 0 keyA /\
  ~ idle s 1 /\ has_key s 1 keyA /\ ~ listed s 1 keyA.
Proof.
  reached strictly (call 0 (EvCreate 0 7%N) (creates keyA) ++ call 1 (EvRestore 1 restoreA) [Go; Go; ChLook (LkFound 1 2 3%N); Go]).
  split. { intros t [<-|[<-|[]]]; reflexivity. }
  split; [eexists; split; [reflexivity|left; reflexivity]|]. split; [eexists; split; reflexivity|].
  split. { intros H. specialize (H _ (or_intror (or_introl eq_refl))). discriminate H. }
  split; [eexists; split; reflexivity|]. intros (l & E & I). vm_compute in E. injection E as <-. destruct I as [I|[]]. discriminate I.
Qed.
Example C32_join_case : exists s, sreach (cfg 2) (strict (cfg 2)) s /\
  exists s', sstep (cfg 2) s (go 1) = Some s' /\ slog s' = slog s ++ [LJoin 1 1 keyA].
Proof.
  reached strictly (call 0 (EvCreate 0 7%N) (creates keyA) ++ call 1 (EvRestore 1 restoreA) [Go; Go; ChLook (LkFound 1 2 3%N); Go]).
  runs. vm_compute. reflexivity.
Qed.
Example C32_disconnect_case : exists s, sreach (cfg 2) (strict (cfg 2)) s /\ idle s 1 /\
  exists s', alone (cfg 2) s (EvUnlink 1) [Go; Go; Go; Go] = Some s' /\ s_ts s' = s_ts s ++ [TUnlink 1 UDone] /\
  has_key s 1 keyA /\ sessionConnectionsNum (reg s') keyA = 1%Z.
Proof.
  reached strictly two_on_A. split. { intros t [<-|[<-|[]]]; reflexivity. }
  runs. split; [vm_compute; reflexivity|]. split; [eexists; split; reflexivity|reflexivity].
Qed.
(* restoring over a session: listed under A without having A *)
Theorem C32_stale_refuted : exists s, sreach (cfg 0) anything s /\ quiet s /\ listed s 0 keyA /\ ~ has_key s 0 keyA.
Proof.
  reached freely restore_over. split; [is_quiet|]. split; [eexists; split; [reflexivity|left; reflexivity]|].
  intros (x & X & K). cbn in X. injection X as <-. discriminate K.
Qed.
Print Assumptions C32_stale_refuted.
(* the error of register is ignored by CreateSession: having A without being listed *)
Definition same_key_twice : list ev := call 0 (EvCreate 0 7%N) (creates keyA) ++ call 1 (EvCreate 1 7%N) (creates keyA).
Theorem C32_unlisted_refuted : exists s, sreach (cfg 1) anything s /\ quiet s /\ has_key s 1 keyA /\ ~ listed s 1 keyA.
Proof.
  reached freely same_key_twice. split; [is_quiet|]. split; [eexists; split; reflexivity|].
  intros (l & E & I). vm_compute in E. injection E as <-. destruct I as [I|[]]. discriminate I.
Qed.
Print Assumptions C32_unlisted_refuted.
(* a connection ending while CreateSession is in progress on it: unlink removes nothing, then the
   session is registered, and nobody takes the ended connection out of the registry *)
Definition create_vs_end : list ev :=
  call 0 (EvCreate 0 7%N) [ChSock true; Go; ChKey keyA 5; fine_writer] ++ call 1 (EvUnlink 0) [Go] ++
  map (EvStep 0) [Go; Go; Go] ++ map (EvStep 1) [Go; Go].
Theorem C32_race_refuted : exists s, sreach (cfg 0) anything s /\ quiet s /\ listed s 0 keyA /\ ~ has_key s 0 keyA.
Proof.
  reached freely create_vs_end. split; [is_quiet|]. split; [eexists; split; [reflexivity|left; reflexivity]|].
  intros (x & X & K). discriminate X.
Qed.
Print Assumptions C32_race_refuted.

(* ================= C33 ================= *)
(* a leaving connection was registered, and the number left is 0 exactly if nobody else is; the
   flag is false exactly for the end of a connection *)
Theorem C33_leave_partial : forall f (ok : sys -> Prop) s i ch s' j c k d n, (forall s, ok s -> orderly f s) -> sreach f ok s ->
  sstep f s (EvStep i ch) = Some s' -> slog s' = slog s ++ [LLeave j c k d n] ->
  has_key s c k /\ listed s c k /\
  (forall c' k', listed s' c' k' <-> listed s c' k' /\ ~ (c' = c /\ k' = k)) /\
  sessionConnectionsNum (reg s) k = (n + 1)%Z /\
  (n = 0%Z <-> forall c', ~ listed s' c' k) /\
  (d = false <-> exists c0 u, nth_error (s_ts s) i = Some (TUnlink c0 u)).
Proof. exact leave_exact. Qed.
Print Assumptions C33_leave_partial.
(* OnSessionClosed(k) once for each time the last connection left by a call, none otherwise *)
Theorem C33_exactly_partial : forall f (ok : sys -> Prop) s k, (forall s, ok s -> orderly f s) -> sreach f ok s ->
  count (destroys k) (slog s) + count (ends s k) (s_ts s) = count (last_leaves k) (slog s).
Proof. exact destroy_count. Qed.
Print Assumptions C33_exactly_partial.
Theorem C33_exactly_quiet_partial : forall f (ok : sys -> Prop) s k, (forall s, ok s -> orderly f s) -> sreach f ok s -> quiet s ->
  count (destroys k) (slog s) = count (last_leaves k) (slog s).
Proof. exact destroy_quiet. Qed.
Print Assumptions C33_exactly_quiet_partial.
(* and nobody has the session then, if nobody restores it meanwhile *)
Theorem C33_alone_partial : forall f (ok : sys -> Prop) s e s' j k, (forall s, ok s -> orderly f s) -> (forall s, ok s -> no_revival s) ->
  sreach f ok s -> sstep f s e = Some s' -> slog s' = slog s ++ [LDestroy j k] ->
  (forall c, ~ listed s c k) /\ forall c, idle s c -> ~ has_key s c k.
Proof. exact destroy_alone. Qed.
Print Assumptions C33_alone_partial.
(* what connection.CloseSession does *)
Theorem C33_close_partial : forall f (ok : sys -> Prop) s c chs s' r, (forall s, ok s -> orderly f s) -> sreach f ok s -> idle s c ->
  alone f s (EvClose c) chs = Some s' -> s_ts s' = s_ts s ++ [TClose c (QDone r)] -> close_outcome f s c s' r.
Proof. exact close_alone. Qed.
Print Assumptions C33_close_partial.
Definition two_closed : list ev := two_on_A ++ call 2 (EvClose 0) closes ++ call 3 (EvClose 1) [Go; Go; Go; Go].
Example C33_case : exists s, sreach (cfg 2) (strict (cfg 2)) s /\
  count (last_leaves keyA) (slog s) = 1 /\ count (destroys keyA) (slog s) = 0 /\ count (ends s keyA) (s_ts s) = 1 /\
  exists s', sstep (cfg 2) s (EvStep 3 (ChHook false)) = Some s' /\ slog s' = slog s ++ [LDestroy 3 keyA].
Proof. reached strictly two_closed. repeat (split; [vm_compute; reflexivity|]). runs. vm_compute. reflexivity. Qed.
Example C33_leave_case : exists s, sreach (cfg 2) (strict (cfg 2)) s /\
  exists s', sstep (cfg 2) s (go 2) = Some s' /\ slog s' = slog s ++ [LLeave 2 0 keyA true 1].
Proof. reached strictly (two_on_A ++ call 2 (EvClose 0) [Go; Go; Go]). runs. vm_compute. reflexivity. Qed.
Example C33_close_case : exists s, sreach (cfg 2) (strict (cfg 2)) s /\ idle s 0 /\ quiet s /\
  count (last_leaves keyA) (slog s) = 0 /\
  exists s', alone (cfg 2) s (EvClose 0) closes_last = Some s' /\ s_ts s' = s_ts s ++ [TClose 0 (QDone RNil)] /\
  count (destroys keyA) (slog s') = 1.
Proof.
  reached strictly (two_on_A ++ call 2 (EvUnlink 1) [Go; Go; Go; Go]).
  split. { intros t [<-|[<-|[<-|[]]]]; reflexivity. } split; [is_quiet|]. split; [vm_compute; reflexivity|].
  runs. split; vm_compute; reflexivity.
Qed.
(* connection 0 closes the session, as its last connection; before OnSessionClosed is called
   connection 1 restores the session and gets it; then it is destroyed *)
Definition revival : list ev :=
  call 0 (EvCreate 0 7%N) (creates keyA) ++ call 1 (EvClose 0) [Go; Go; Go; Go] ++ call 2 (EvRestore 1 restoreA) restores.
Theorem C33_revival_refuted : exists s, sreach (cfg 0) anything s /\ idle s 1 /\ has_key s 1 keyA /\ listed s 1 keyA /\
  exists s', sstep (cfg 0) s (EvStep 1 (ChHook false)) = Some s' /\ slog s' = slog s ++ [LDestroy 1 keyA] /\
    has_key s' 1 keyA /\ listed s' 1 keyA.
Proof.
  reached freely revival. split. { intros t [<-|[<-|[<-|[]]]]; reflexivity. }
  split; [eexists; split; reflexivity|]. split; [eexists; split; [reflexivity|left; reflexivity]|].
  runs. split; [vm_compute; reflexivity|]. split; [eexists; split; reflexivity|eexists; split; [reflexivity|left; reflexivity]].
Qed.
Print Assumptions C33_revival_refuted.

(* ================= C34 ================= *)
Theorem C34_server_close_partial : forall f (ok : sys -> Prop) s k chs s' affected errors general,
  (forall s, ok s -> orderly f s) -> sreach f ok s -> quiet s ->
  alone f s (EvServerClose k) chs = Some s' -> s_ts s' = s_ts s ++ [TServer k (SDone affected errors general)] ->
  server_close_outcome f s k s' affected errors general.
Proof. exact server_close_alone. Qed.
Print Assumptions C34_server_close_partial.
(* errors are due to the environment *)
Theorem C34_errors : forall f s e chs s' t, alone f s e chs = Some s' -> s_ts s' = s_ts s ++ [t] -> Forall (excused chs) (results t).
Proof. exact errors_excused. Qed.
Print Assumptions C34_errors.
(* one of the two notifications fails *)
Definition closes_all : list choice :=
  [ChOrder [0; 1]; Go; Go; Go; Go; Go; Go; bad_writer; Go; Go; Go; Go; Go; ChHook false; Go; fine_writer; Go].
Example C34_case : exists s, sreach (cfg 2) (strict (cfg 2)) s /\ quiet s /\
  exists s', alone (cfg 2) s (EvServerClose keyA) closes_all = Some s' /\
    s_ts s' = s_ts s ++ [TServer keyA (SDone [0; 1] [RWrite WWriteClose; RNil] (Some 1))] /\ has_key s 2 keyB /\ has_key s' 2 keyB.
Proof.
  reached strictly (two_on_A ++ call 2 (EvCreate 2 0%N) (creates keyB)). split; [is_quiet|].
  runs. split; [vm_compute; reflexivity|]. split; eexists; split; reflexivity.
Qed.
(* a stale entry makes it close another session: asked to close A, it closes session B of
   connection 0 (restored over A), reports no error, and A's entry stays *)
Theorem C34_stale_refuted : exists s, sreach (cfg 0) anything s /\ quiet s /\ ~ has_key s 0 keyA /\ has_key s 0 keyB /\
  exists chs s', alone (cfg 0) s (EvServerClose keyA) chs = Some s' /\
    s_ts s' = s_ts s ++ [TServer keyA (SDone [0] [RNil] None)] /\ g_sess (s_srv s') 0 = None /\
    count (destroys keyB) (slog s') = 1 /\ count (destroys keyA) (slog s') = 0 /\ listed s' 0 keyA.
Proof.
  reached freely restore_over. split; [is_quiet|]. split. { intros (x & X & K). cbn in X. injection X as <-. discriminate K. }
  split; [eexists; split; reflexivity|].
  exists [ChOrder [0]; Go; Go; Go; Go; Go; ChHook false; Go; fine_writer; Go]. runs.
  repeat (split; [vm_compute; reflexivity|]). eexists. split; [reflexivity|left; reflexivity].
Qed.
Print Assumptions C34_stale_refuted.

(* ================= C35 ================= *)
Theorem C35_create : forall f s c info chs s' r, alone f s (EvCreate c info) chs = Some s' ->
  s_ts s' = s_ts s ++ [TCreate c info (CDone r)] -> create_outcome f s c info s' r.
Proof. exact create_alone. Qed.
Print Assumptions C35_create.
Theorem C35_disconnected : forall f s c info chs s' r, alone f s (EvCreate c info) chs = Some s' ->
  s_ts s' = s_ts s ++ [TCreate c info (CDone r)] -> f_enabled f = true ->
  (r = RDisconnected <-> In (ChSock false) chs).
Proof. exact create_disconnected. Qed.
Print Assumptions C35_disconnected.
Example C35_case : exists s, sreach (cfg 2) (strict (cfg 2)) s /\
  (exists s', alone (cfg 2) s (EvCreate 2 0%N) (creates keyB) = Some s' /\ s_ts s' = s_ts s ++ [TCreate 2 0%N (CDone RNil)]) /\
  (exists s', alone (cfg 2) s (EvCreate 0 0%N) [ChSock true; Go; Go] = Some s' /\ s_ts s' = s_ts s ++ [TCreate 0 0%N (CDone RExists)]) /\
  (exists s', alone (cfg 2) s (EvCreate 2 0%N) [ChSock true; Go; ChKey keyB 5; bad_writer] = Some s' /\
              s_ts s' = s_ts s ++ [TCreate 2 0%N (CDone (RWrite WWriteClose))]) /\
  (exists s', alone (cfg 2) s (EvCreate 2 0%N) [ChSock false] = Some s' /\ s_ts s' = s_ts s ++ [TCreate 2 0%N (CDone RDisconnected)]).
Proof. reached strictly two_on_A. split; [|split; [|split]]; runs; vm_compute; reflexivity. Qed.
(* it may succeed without registering the connection, if the generated key is taken and full *)
Theorem C35_unlisted_refuted : exists s, sreach (cfg 1) anything s /\ quiet s /\
  exists s', alone (cfg 1) s (EvCreate 1 7%N) (creates keyA) = Some s' /\ s_ts s' = s_ts s ++ [TCreate 1 7%N (CDone RNil)] /\
  has_key s' 1 keyA /\ ~ listed s' 1 keyA.
Proof.
  reached freely (call 0 (EvCreate 0 7%N) (creates keyA)). split; [is_quiet|]. runs. split; [vm_compute; reflexivity|].
  split; [eexists; split; reflexivity|].
  intros (l & E & I). vm_compute in E. injection E as <-. destruct I as [I|[]]. discriminate I.
Qed.
Print Assumptions C35_unlisted_refuted.

(* ================= C36 ================= *)
(* in every state, without any restriction on the run before *)
Theorem C36_decision : forall f s c m b cont chs s', received m b cont -> k_type cont = 32%N ->
  alone f s (EvRestore c m) chs = Some s' -> s_ts s' = s_ts s ++ [TRestore c m RDone] ->
  exists chs0 w a sn, chs = chs0 ++ [ChW w] /\ restore_outcome f s c m (k_payload cont) s' a sn /\
    reply_sent (answer_content (k_ident cont) a) w sn.
Proof. exact restore_answered. Qed.
Print Assumptions C36_decision.
Example C36_case : exists s, sreach (cfg 2) (strict (cfg 2)) s /\
  received restoreA (n2b 32 :: id8 ++ keyA) (MkContent 32 id8 [] keyA EBin None) /\
  (exists s', alone (cfg 2) s (EvRestore 1 restoreA) restores = Some s' /\ s_ts s' = s_ts s ++ [TRestore 1 restoreA RDone]) /\
  (exists s', alone (cfg 2) s (EvRestore 1 restoreA) [Go; Go; ChLook LkNil; fine_writer] = Some s' /\ s_ts s' = s_ts s ++ [TRestore 1 restoreA RDone]) /\
  (exists s', alone (cfg 2) s (EvRestore 1 restoreA) [Go; Go; ChLook LkErr; ChW None] = Some s' /\ s_ts s' = s_ts s ++ [TRestore 1 restoreA RDone]) /\
  (exists s', alone (cfg 1) s (EvRestore 1 restoreA) [Go; Go; bad_writer] = Some s' /\ s_ts s' = s_ts s ++ [TRestore 1 restoreA RDone]).
Proof.
  reached strictly (call 0 (EvCreate 0 7%N) (creates keyA)). split; [apply received_restoreA|].
  split; [|split; [|split]]; runs; vm_compute; reflexivity.
Qed.

(* ================= C37 ================= *)
(* two connections restore a session of which there may be one connection: both pass the check,
   registering the second one fails, and the handler panics *)
Theorem C37_race_refuted : exists s, sreach (cfg 1) anything s /\ exclusive s /\
  exists s', sstep (cfg 1) s (go 1) = Some s' /\ g_crashed (s_srv s') = true.
Proof.
  reached freely (race30 ++ map (EvStep 1) [ChLook (LkFound 1 2 3%N); Go]). split.
  { intros i j t u c D Hi Hj B1 B2. destruct i as [|[|i]]; cbn in Hi; try (destruct i; discriminate Hi); injection Hi as <-; [discriminate B1|].
    destruct j as [|[|j]]; cbn in Hj; try (destruct j; discriminate Hj); [injection Hj as <-; discriminate B2|congruence]. }
  runs. vm_compute. reflexivity.
Qed.
Print Assumptions C37_race_refuted.
(* that is the only way, if session calls concerning the same connection do not overlap *)
Theorem C37_causes_partial : forall f (ok : sys -> Prop) s e s', (forall s, ok s -> exclusive s) -> sreach f ok s ->
  sstep f s e = Some s' -> g_crashed (s_srv s') = true ->
  fatal e \/ exists i c m enc x, e = EvStep i Go /\ nth_error (s_ts s) i = Some (TRestore c m (RReg enc)) /\
    g_sess (s_srv s) c = Some x /\ ~ has_room f s (x_key x).
Proof. exact crash_causes_all. Qed.
Print Assumptions C37_causes_partial.
Theorem C37_no_crash_partial : forall f (ok : sys -> Prop) s e s', (forall s, ok s -> exclusive s /\ restores_join f s) -> sreach f ok s ->
  sstep f s e = Some s' -> g_crashed (s_srv s') = true -> fatal e.
Proof. exact crash_causes. Qed.
Print Assumptions C37_no_crash_partial.
Example C37_case : exists s, sreach (cfg 2) (strict (cfg 2)) s /\ (forall s, strict (cfg 2) s -> exclusive s /\ restores_join (cfg 2) s) /\
  exists s', sstep (cfg 2) s (EvStep 3 (ChHook true)) = Some s' /\ g_crashed (s_srv s') = true.
Proof. reached strictly two_closed. split; [intros s H; split; apply H|]. runs. vm_compute. reflexivity. Qed.

(* ================= C38, session requests ================= *)
(* every session request is replied to exactly once, when its handler ends *)
Theorem C38_session_replies : forall f ok s, sreach f ok s -> forall i,
  count (reply_by i) (slog s) = match nth_error (s_ts s) i with Some t => if replied t then 1 else 0 | None => 0 end.
Proof. exact replies. Qed.
Print Assumptions C38_session_replies.
Theorem C38_session_reply_owner : forall f ok s, sreach f ok s -> forall i c m a st, In (LReply i c m a st) (slog s) ->
  nth_error (s_ts s) i = Some (TRestore c m RDone) \/ nth_error (s_ts s) i = Some (TClosure c m XDone).
Proof. exact reply_owner. Qed.
Print Assumptions C38_session_reply_owner.
(* a closing request: its effect and its reply *)
Theorem C38_closing_request : forall f (ok : sys -> Prop) s c m b cont chs s', (forall s, ok s -> orderly f s) -> sreach f ok s -> idle s c ->
  received m b cont -> k_type cont = 31%N ->
  alone f s (EvClosure c m) chs = Some s' -> s_ts s' = s_ts s ++ [TClosure c m XDone] ->
  exists chs0 w a sn, chs = chs0 ++ [ChW w] /\ closure_outcome f s c m s' a sn /\
    reply_sent (answer_content (k_ident cont) a) w sn.
Proof. exact closure_answered. Qed.
Print Assumptions C38_closing_request.
Example C38_session_case : exists s, sreach (cfg 2) (strict (cfg 2)) s /\ idle s 0 /\
  received closure (n2b 31 :: id8) (MkContent 31 id8 [] [] EBin None) /\
  exists s', alone (cfg 2) s (EvClosure 0 closure) [Go; Go; Go; Go; Go; fine_writer] = Some s' /\
    s_ts s' = s_ts s ++ [TClosure 0 closure XDone] /\ count (reply_by 1) (slog s') = 1 /\ count (reply_by 2) (slog s') = 1.
Proof.
  reached strictly two_on_A. split. { intros t [<-|[<-|[]]]; reflexivity. } split; [apply received_closure|].
  runs. repeat split; vm_compute; reflexivity.
Qed.

(* ================= C53 ================= *)
(* a panic of OnSessionClosed is recovered by code that itself panics *)
Theorem C53_hook_panic_refuted : forall f s i c q, g_crashed (s_srv s) = false ->
  nth_error (s_ts s) i = Some (TClose c (QDereg D2)) -> g_sess (s_srv s) c = Some q ->
  exists s', sstep f s (EvStep i (ChHook true)) = Some s' /\ g_crashed (s_srv s') = true.
Proof.
  intros f s i c q C N X. eexists. unfold sstep. rewrite C, N. cbn. rewrite X. split; reflexivity.
Qed.
Print Assumptions C53_hook_panic_refuted.
Example C53_case : exists s, sreach (cfg 2) (strict (cfg 2)) s /\
  nth_error (s_ts s) 3 = Some (TClose 1 (QDereg D2)) /\ g_crashed (s_srv s) = false /\ has_key s 1 keyA.
Proof. reached strictly two_closed. split; [reflexivity|]. split; [reflexivity|]. eexists; split; reflexivity. Qed.

(* ================= C54 ================= *)
(* CreateSession finding a session reads its key after unlocking: CloseSession may have removed it *)
Definition create_vs_close : list ev :=
  call 0 (EvCreate 0 7%N) (creates keyA) ++ call 1 (EvCreate 0 7%N) [ChSock true; Go] ++ call 2 (EvClose 0) closes_last.
Theorem C54_create_close_refuted : exists s, sreach (cfg 0) anything s /\ separate s /\
  exists s', sstep (cfg 0) s (go 1) = Some s' /\ g_crashed (s_srv s') = true.
Proof.
  reached freely create_vs_close. split; [|runs; vm_compute; reflexivity].
  intros i j t u c _ Hi Hj _ _. apply nth_error_In in Hi, Hj.
  destruct Hi as [<-|[<-|[<-|[]]]]; destruct Hj as [<-|[<-|[<-|[]]]]; split; reflexivity.
Qed.
Print Assumptions C54_create_close_refuted.
(* a restoration registers the session it has set; CloseSession may have removed it *)
Definition restore_vs_close : list ev :=
  call 0 (EvRestore 0 restoreA) [Go; Go; ChLook (LkFound 1 2 3%N); Go] ++ call 1 (EvClose 0) [Go; Go; Go; Go; Go; fine_writer].
Theorem C54_restore_close_refuted : exists s, sreach (cfg 0) anything s /\
  exists s', sstep (cfg 0) s (go 0) = Some s' /\ g_crashed (s_srv s') = true.
Proof. reached freely restore_vs_close. runs. vm_compute. reflexivity. Qed.
Print Assumptions C54_restore_close_refuted.

(* ================= C55 ================= *)
Theorem C55_progress : forall f ok s i t, sreach f ok s -> g_crashed (s_srv s) = false ->
  nth_error (s_ts s) i = Some t -> finished t = false ->
  can_step f s i \/ exists j u c, i <> j /\ nth_error (s_ts s) j = Some u /\ busy c t = true /\ busy c u = true /\ can_step f s j.
Proof. exact progress. Qed.
Print Assumptions C55_progress.
(* CloseSession waits for a CreateSession on the same connection *)
Example C55_case : exists s, sreach (cfg 0) anything s /\ g_crashed (s_srv s) = false /\
  nth_error (s_ts s) 1 = Some (TClose 0 QLock) /\ (forall ch, sstep (cfg 0) s (EvStep 1 ch) = None) /\ can_step (cfg 0) s 0.
Proof.
  reached freely (call 0 (EvCreate 0 7%N) [ChSock true; Go] ++ call 1 (EvClose 0) [Go]).
  split; [reflexivity|]. split; [reflexivity|]. split; [intros []; reflexivity|].
  exists (ChKey keyA 5). runs. intros [(i & H)|(i & now & H)]; discriminate H.
Qed.
