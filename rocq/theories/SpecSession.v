(* What users of sessions rely on. *)
From Coq Require Import List Arith NArith ZArith Bool.
From Verif Require Import BaseBytes BaseConc ModelMessage ModelWrite ModelHandle ModelSession.
From Verif Require Import SpecWire SpecMessage SpecWrite SpecHandle.
Import ListNotations.
Open Scope nat_scope.

(* runs: all interleavings of session calls that stay within states satisfying ok *)
Inductive sreach (f : config) (ok : sys -> Prop) : sys -> Prop :=
| SR_new : sreach f ok new_server
| SR_step s e s' : sreach f ok s -> sstep f s e = Some s' -> ok s' -> sreach f ok s'.
Fixpoint srun (f : config) (s : sys) (es : list ev) : option sys :=
  match es with [] => Some s | e :: es' => match sstep f s e with Some s' => srun f s' es' | None => None end end.
Definition anything (s : sys) : Prop := True.

(* ----- observations ----- *)
Notation reg s := (g_reg (s_srv s)).
Notation slog s := (g_log (s_srv s)).
(* c is listed under key k *)
Definition listed (s : sys) (c : nat) (k : key) : Prop :=
  exists l, sessionConnections (reg s) k = Some l /\ In c l.
(* the session of connection c has key k *)
Definition has_key (s : sys) (c : nat) (k : key) : Prop :=
  exists x, g_sess (s_srv s) c = Some x /\ x_key x = k.

(* ----- threads ----- *)
(* a call in progress that concerns connection c *)
Definition busy (c : nat) (t : thread) : bool :=
  match t with
  | TCreate _ _ (CDone _) | TClose _ (QDone _) | TRestore _ _ RDone | TClosure _ _ XDone | TUnlink _ UDone => false
  | TCreate c' _ _ | TClose c' _ | TRestore c' _ _ | TClosure c' _ _ | TUnlink c' _ => c' =? c
  | TServer _ (SIn _ c' _ _) => c' =? c
  | TServer _ _ => false
  end.
(* calls that do not hold con.sessionLock: session requests and the end of a connection *)
Definition unsynced (t : thread) : bool :=
  match t with TRestore _ _ _ | TClosure _ _ _ | TUnlink _ _ => true | _ => false end.
(* no call in progress concerns c *)
Definition idle (s : sys) (c : nat) : Prop := forall t, In t (s_ts s) -> busy c t = false.
(* no call in progress at all *)
Definition finished (t : thread) : bool :=
  match t with
  | TCreate _ _ (CDone _) | TClose _ (QDone _) | TRestore _ _ RDone | TClosure _ _ XDone | TUnlink _ UDone
  | TServer _ (SDone _ _ _) => true
  | _ => false
  end.
Definition quiet (s : sys) : Prop := forall t, In t (s_ts s) -> finished t = true.

(* ----- restrictions on runs ----- *)
(* session requests and the end of a connection do not overlap other calls concerning the
   same connection; CreateSession and CloseSession may overlap each other *)
Definition separate (s : sys) : Prop := forall i j t u c, i <> j ->
  nth_error (s_ts s) i = Some t -> nth_error (s_ts s) j = Some u -> busy c t = true -> busy c u = true ->
  unsynced t = false /\ unsynced u = false.
(* no two calls concerning the same connection overlap *)
Definition exclusive (s : sys) : Prop := forall i j t u c, i <> j ->
  nth_error (s_ts s) i = Some t -> nth_error (s_ts s) j = Some u -> busy c t = true -> busy c u = true -> False.
(* a session is restored only on connections without session *)
Definition restores_fresh (s : sys) : Prop := forall i c m x enc,
  nth_error (s_ts s) i = Some (TRestore c m (RSet x enc)) -> g_sess (s_srv s) c = None.
(* the key generated by CreateSession is not that of a session with the maximum of connections *)
Definition has_room (f : config) (s : sys) (k : key) : Prop :=
  f_max f = 0%N \/ (sessionConnectionsNum (reg s) k < Z.of_N (f_max f))%Z.
Definition creates_join (f : config) (s : sys) : Prop := forall i c info x,
  nth_error (s_ts s) i = Some (TCreate c info CReg) -> g_sess (s_srv s) c = Some x -> has_room f s (x_key x).
(* there still is room when a restoration registers its connection *)
Definition restores_join (f : config) (s : sys) : Prop := forall i c m enc x,
  nth_error (s_ts s) i = Some (TRestore c m (RReg enc)) -> g_sess (s_srv s) c = Some x -> has_room f s (x_key x).
Definition orderly (f : config) (s : sys) : Prop := separate s /\ restores_fresh s /\ creates_join f s.

(* ----- the log ----- *)
Definition destroys (k : key) (e : event) : bool :=
  match e with LDestroy _ k' => bytes_eqb k k' | _ => false end.
(* a call other than the end of a connection removed the last connection of the session *)
Definition last_leaves (k : key) (e : event) : bool :=
  match e with LLeave _ _ k' true n => bytes_eqb k k' && (n =? 0)%Z | _ => false end.
Definition reply_by (i : nat) (e : event) : bool := match e with LReply j _ _ _ _ => j =? i | _ => false end.
Definition replied (t : thread) : bool :=
  match t with TRestore _ _ RDone | TClosure _ _ XDone => true | _ => false end.
(* the connection of a call about to invoke OnSessionClosed *)
Definition ending (t : thread) : option nat :=
  match t with
  | TClose c (QDereg D2) | TServer _ (SIn _ c (QDereg D2) _) | TClosure c _ (XDereg D2)
  | TUnlink c (UDereg D2) => Some c
  | _ => None
  end.
Definition ends (s : sys) (k : key) (t : thread) : bool :=
  match ending t with
  | Some c => match g_sess (s_srv s) c with Some x => bytes_eqb k (x_key x) | None => false end
  | None => false
  end.
(* a call about to add connection c to the session it has *)
Definition joining (c : nat) (t : thread) : bool :=
  match t with TCreate c' _ CReg => c' =? c | TRestore c' _ (RReg _) => c' =? c | _ => false end.
(* nobody joins a session while OnSessionClosed is about to be invoked for it *)
Definition no_revival (s : sys) : Prop := forall i j t u c k,
  nth_error (s_ts s) i = Some t -> nth_error (s_ts s) j = Some u ->
  ends s k t = true -> joining c u = true -> has_key s c k -> False.
(* the server is told by the application to crash: OnSessionClosed panics, or the session key
   generator returns an empty key *)
Definition fatal (e : ev) : Prop :=
  (exists i, e = EvStep i (ChHook true)) \/ (exists i now, e = EvStep i (ChKey [] now)).
Definition can_step (f : config) (s : sys) (i : nat) : Prop := exists ch s', sstep f s (EvStep i ch) = Some s' /\ ~ fatal (EvStep i ch).

(* ----- calls that run without others interfering ----- *)
(* call e begins in s and makes the steps resolved by chs; its thread is number [me s] *)
Notation me s := (length (s_ts s)).
Definition alone (f : config) (s : sys) (e : ev) (chs : list choice) : option sys :=
  srun f s (e :: map (EvStep (me s)) chs).
(* the calls made on a writer, and the error returned, when writing frame b *)
Definition written (b : bytes) (calls : list call) (e : option werr) : Prop :=
  exists fails chunks, concat chunks = b /\ calls = fst (run_calls fails 0 chunks) /\
    (e <> None <-> snd (run_calls fails 0 chunks) = true) /\ e = run_error fails 0 chunks.
(* sessions, locks and registry as before *)
Definition same_sessions (s s' : sys) : Prop := forall c, g_sess (s_srv s') c = g_sess (s_srv s) c.
Definition same_locks (s s' : sys) : Prop := forall c, g_lock (s_srv s') c = g_lock (s_srv s) c.
Definition untouched (s s' : sys) : Prop := same_sessions s s' /\ same_locks s s' /\ reg s' = reg s.
(* only the session of c has changed, to x *)
Definition session_set (s s' : sys) (c : nat) (x : option session) : Prop :=
  g_sess (s_srv s') c = x /\ (forall c', c' <> c -> g_sess (s_srv s') c' = g_sess (s_srv s) c') /\ same_locks s s'.
Definition joined (s s' : sys) (c : nat) (k : key) : Prop :=
  forall c' k', listed s' c' k' <-> (c' = c /\ k' = k) \/ listed s c' k'.
Definition departed (s s' : sys) (c : nat) (k : key) : Prop :=
  forall c' k', listed s' c' k' <-> listed s c' k' /\ ~ (c' = c /\ k' = k).

(* what CreateSession(info) on connection c did when it returned r *)
Inductive create_outcome (f : config) (s : sys) (c : nat) (info : blob) (s' : sys) : result -> Prop :=
| CO_disabled : f_enabled f = false -> untouched s s' -> slog s' = slog s -> create_outcome f s c info s' RDisabled
| CO_disconnected : f_enabled f = true -> untouched s s' -> slog s' = slog s -> create_outcome f s c info s' RDisconnected
| CO_exists : f_enabled f = true -> g_sess (s_srv s) c <> None -> untouched s s' -> slog s' = slog s ->
    create_outcome f s c info s' RExists
| CO_marshal k now : f_enabled f = true -> g_sess (s_srv s) c = None ->
    f_json f k now now (if (info =? 0)%N then 0%N else f_vars f info) = None ->
    untouched s s' -> slog s' = slog s -> create_outcome f s c info s' RMarshal
| CO_nowriter : f_enabled f = true -> g_sess (s_srv s) c = None -> untouched s s' -> slog s' = slog s ->
    create_outcome f s c info s' RNoWriter
| CO_write k now enc calls e : f_enabled f = true -> g_sess (s_srv s) c = None ->
    f_json f k now now (if (info =? 0)%N then 0%N else f_vars f info) = Some enc ->
    written (n2b 21 :: enc) calls (Some e) -> untouched s s' ->
    slog s' = slog s ++ [LNotifyCreated (me s) c (MkSession k now now info) enc calls] ->
    create_outcome f s c info s' (RWrite e)
| CO_created k now enc calls : f_enabled f = true -> g_sess (s_srv s) c = None -> k <> [] ->
    f_json f k now now (if (info =? 0)%N then 0%N else f_vars f info) = Some enc ->
    written (n2b 21 :: enc) calls None ->
    session_set s s' c (Some (MkSession k now now info)) -> has_room f s k -> joined s s' c k ->
    slog s' = slog s ++ [LNotifyCreated (me s) c (MkSession k now now info) enc calls; LJoin (me s) c k; LCreated (me s) c] ->
    create_outcome f s c info s' RNil
(* the session key is taken by a session with the maximum number of connections *)
| CO_unlisted k now enc calls : f_enabled f = true -> g_sess (s_srv s) c = None -> k <> [] ->
    f_json f k now now (if (info =? 0)%N then 0%N else f_vars f info) = Some enc ->
    written (n2b 21 :: enc) calls None ->
    session_set s s' c (Some (MkSession k now now info)) -> ~ has_room f s k -> reg s' = reg s ->
    slog s' = slog s ++ [LNotifyCreated (me s) c (MkSession k now now info) enc calls; LCreated (me s) c] ->
    create_outcome f s c info s' RNil.

(* what ending the session x of connection c does, apart from notifying the client *)
Definition ended (s s' : sys) (c : nat) (x : session) (by_call : bool) (more : list event) : Prop :=
  session_set s s' c None /\ departed s s' c (x_key x) /\
  exists n, sessionConnectionsNum (reg s) (x_key x) = (n + 1)%Z /\
    slog s' = slog s ++ LLeave (me s) c (x_key x) by_call n ::
                        (if by_call && (n =? 0)%Z then [LDestroy (me s) (x_key x)] else []) ++ more.
(* the notification sent by CloseSession when it returns r *)
Definition closed_note (i c : nat) (more : list event) (r : result) : Prop :=
  match r with
  | RNil => exists calls, more = [LNotifyClosed i c calls] /\ written [n2b 22] calls None
  | RWrite e => exists calls, more = [LNotifyClosed i c calls] /\ written [n2b 22] calls (Some e)
  | RNoWriter => more = []
  | _ => False
  end.
(* what CloseSession on connection c did *)
Inductive close_outcome (f : config) (s : sys) (c : nat) (s' : sys) : result -> Prop :=
| QO_disabled : f_enabled f = false -> untouched s s' -> slog s' = slog s -> close_outcome f s c s' RDisabled
| QO_none : f_enabled f = true -> g_sess (s_srv s) c = None -> untouched s s' -> slog s' = slog s -> close_outcome f s c s' RNil
| QO_closed x more r : f_enabled f = true -> g_sess (s_srv s) c = Some x -> ended s s' c x true more ->
    closed_note (me s) c more r -> close_outcome f s c s' r.
(* what the end of connection c did to its session *)
Definition unlink_outcome (s : sys) (c : nat) (s' : sys) : Prop :=
  (g_sess (s_srv s) c = None /\ untouched s s' /\ slog s' = slog s ++ [LSockClosed (me s) c]) \/
  exists x, g_sess (s_srv s) c = Some x /\ ended s s' c x false [LSockClosed (me s) c].

(* the reply an answer amounts to *)
Definition answer_content (id : bytes) (a : answer) : content :=
  match a with
  | AOk (e, d) => MkContent (rep_tag (enc_of e)) id [] d (enc_of e) None
  | AFail ESessNotFound => special_content 3 id
  | AFail EMaxSessConns => special_content 4 id
  | AFail ESessDisabled => special_content 5 id
  | AFail _ => special_content 2 id
  end.
(* what came of sending a reply saying c: w is the writer the socket gave (None: it is closed), which fails the
   calls it likes; without failing calls exactly one message reading c was written *)
Definition reply_sent (c : content) (w : option (nat -> bool)) (st : sent (list call)) : Prop :=
  match w with
  | None => st = NoWriter
  | Some fails => exists b chunks e, st = Used (fst (run_calls fails 0 chunks)) e /\ concat chunks = b /\ reads_as b c /\
      (e <> None <-> snd (run_calls fails 0 chunks) = true) /\ e = run_error fails 0 chunks
  end.

(* what handling a closing request m on connection c did, answering a *)
Inductive closure_outcome (f : config) (s : sys) (c : nat) (m : message) (s' : sys) : answer -> sent (list call) -> Prop :=
| XO_disabled st : f_enabled f = false -> untouched s s' ->
    slog s' = slog s ++ [LReply (me s) c m (AFail ESessDisabled) st] ->
    closure_outcome f s c m s' (AFail ESessDisabled) st
| XO_none st : f_enabled f = true -> g_sess (s_srv s) c = None -> untouched s s' ->
    slog s' = slog s ++ [LReply (me s) c m (AOk (Binary, [])) st] ->
    closure_outcome f s c m s' (AOk (Binary, [])) st
| XO_closed x st : f_enabled f = true -> g_sess (s_srv s) c = Some x ->
    ended s s' c x true [LReply (me s) c m (AOk (Binary, [])) st] ->
    closure_outcome f s c m s' (AOk (Binary, [])) st.

(* what handling a restoration request m, asking for session k, on connection c did *)
Inductive restore_outcome (f : config) (s : sys) (c : nat) (m : message) (k : key) (s' : sys) : answer -> sent (list call) -> Prop :=
| RO_disabled st : f_enabled f = false -> untouched s s' ->
    slog s' = slog s ++ [LReply (me s) c m (AFail ESessDisabled) st] ->
    restore_outcome f s c m k s' (AFail ESessDisabled) st
| RO_full st : f_enabled f = true -> ~ has_room f s k -> untouched s s' ->
    slog s' = slog s ++ [LReply (me s) c m (AFail EMaxSessConns) st] ->
    restore_outcome f s c m k s' (AFail EMaxSessConns) st
| RO_error st : f_enabled f = true -> has_room f s k -> untouched s s' ->
    slog s' = slog s ++ [LLookup (me s) k LkErr; LReply (me s) c m (AFail ENil) st] ->
    restore_outcome f s c m k s' (AFail ENil) st
| RO_notfound st : f_enabled f = true -> has_room f s k -> untouched s s' ->
    slog s' = slog s ++ [LLookup (me s) k LkNil; LReply (me s) c m (AFail ESessNotFound) st] ->
    restore_outcome f s c m k s' (AFail ESessNotFound) st
| RO_marshal cr la info st : f_enabled f = true -> has_room f s k -> f_json f k cr la info = None -> untouched s s' ->
    slog s' = slog s ++ [LLookup (me s) k (LkFound cr la info); LReply (me s) c m (AFail ENil) st] ->
    restore_outcome f s c m k s' (AFail ENil) st
| RO_restored cr la info enc st : f_enabled f = true -> has_room f s k -> f_json f k cr la info = Some enc ->
    session_set s s' c (Some (MkSession k cr la (match f_parse f with
                                                 | Some p => if (info =? 0)%N then 0%N else p info
                                                 | None => 0%N
                                                 end))) ->
    joined s s' c k ->
    slog s' = slog s ++ [LLookup (me s) k (LkFound cr la info); LJoin (me s) c k; LReply (me s) c m (AOk (Utf8, enc)) st] ->
    restore_outcome f s c m k s' (AOk (Utf8, enc)) st.

(* what Server.CloseSession(k) did when it returned affected, errors, general *)
Record server_close_outcome (f : config) (s : sys) (k : key) (s' : sys)
    (affected : list nat) (errors : list result) (general : option nat) : Prop := {
  SO_affected : NoDup affected /\ forall c, In c affected <-> has_key s c k;
  SO_errors : length errors = length affected;
  SO_general : general = (if existsb is_error errors then Some (count is_error errors) else None);
  SO_closed : forall c, In c affected -> g_sess (s_srv s') c = None;
  SO_others : forall c, ~ In c affected -> g_sess (s_srv s') c = g_sess (s_srv s) c;
  SO_locks : same_locks s s';
  SO_listed : forall c k', listed s' c k' <-> listed s c k' /\ k' <> k;
  SO_destroyed : exists more, slog s' = slog s ++ more /\
    (forall k', count (destroys k') more = if bytes_eqb k k' && (0 <? length affected) then 1 else 0) /\
    (* the notifications, in the order of the list, with their results *)
    Forall2 (fun c r => exists evs, closed_note (me s) c evs r /\ incl evs more) affected errors }.

(* ----- the part of the environment ----- *)
Definition results (t : thread) : list result :=
  match t with
  | TCreate _ _ (CDone r) | TClose _ (QDone r) => [r]
  | TServer _ (SDone _ errors _) => errors
  | _ => []
  end.
(* the environment's behaviour during the call explains the result: an error is due to a
   disconnected socket, to the refusal of a writer or to a failing call on the writer *)
Definition excused (chs : list choice) (r : result) : Prop :=
  match r with
  | RDisconnected => In (ChSock false) chs
  | RNoWriter => In (ChW None) chs
  | RWrite _ => exists fails n, In (ChW (Some fails)) chs /\ fails n = true
  | _ => True
  end.

(* all of the restrictions *)
Definition strict (f : config) (s : sys) : Prop := orderly f s /\ exclusive s /\ restores_join f s /\ no_revival s.
