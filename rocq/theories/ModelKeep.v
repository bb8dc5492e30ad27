(* A server with sessions (ModelSession) whose session manager is the default one (ModelFiles), in one machine.
   Source: /repo/defaultSessionManager.go:98-169, called from connection.go:230, handleSessionRestore.go:40 and
   sessionRegistry.go:98 (newServer.go:74-84). The hooks of all connections run at the same time, one system call
   or one session getter (ModelGetter) per step. The process may end at any point and be started again: sessions
   and connections are then gone, the files are not.
   Not modelled: contents of session info objects (numbers, 0: nil), panics of Copy, Fields and Value. *)
From Coq Require Import List Arith NArith ZArith Bool.
From Verif Require Import BaseBytes BaseConc ModelMessage ModelSession ModelGetter ModelPath ModelFiles.
Import ListNotations.
Open Scope nat_scope.

(* what does not change: the server's configuration, SessionInfo.Copy, encoding/json for session files, the
   environment of the process, the session directory *)
Record setting := MkSetting { g_cfg : config; g_copy : blob -> blob; g_json : codec blob; g_env : env; g_path : bytes }.

(* a call of a hook by a thread of the server: conn.Session() has returned (OnSessionCreated only); system calls *)
Inductive pending := PGot (x : ModelSession.session) | PRun (h : hook blob) (pr : prog (ModelFiles.result blob)).
Record house := MkHouse {
  h_sys : sys;
  h_fs : fs;
  h_pend : nat -> option pending;                         (* by thread *)
  h_done : list (hook blob * ModelFiles.result blob);     (* calls that have returned, over all times *)
  h_past : list (list event) }.                           (* logs of processes that have ended *)
Definition new_house : house := MkHouse new_server empty_fs (fun _ => None) [] [].

(* which hook a thread is about to call *)
Inductive site := AtCreated (c : nat) | AtLookup (k : key) | AtClosed (c : nat).
Definition site_of (t : thread) : option site :=
  match t with
  | TCreate c _ CHook => Some (AtCreated c)
  | TRestore _ m RLook => Some (AtLookup (payload_of m))
  | TClose c (QDereg D2) | TServer _ (SIn _ c (QDereg D2) _) | TClosure c _ (XDereg D2) | TUnlink c (UDereg D2) => Some (AtClosed c)
  | _ => None
  end.

Inductive hev :=
| HSess (e : ev)                  (* the server outside of hooks *)
| HGet (i : nat)                  (* conn.Session() in OnSessionCreated *)
| HCall (i : nat) (now : Z)       (* the arguments are complete: conn.SessionKey(), time.Now() *)
| HSys (i : nat) (w : how)        (* a system call *)
| HRet (i : nat)                  (* the hook returns to the server *)
| HRestart.

Section Steps.
Variable z : setting.
Definition getter (g : srv) (c : nat) (q : sgetter) : option svalue := get_session (g_copy z) (fun x _ => x) g c q.
(* sessionInfoToVarMap.go:6-15 *)
Definition SessionInfoToVarMap (info : blob) : blob := if (info =? 0)%N then 0%N else f_vars (g_cfg z) info.
(* handleSessionRestore.go:40-62 *)
Definition looked (r : ModelFiles.result blob) : lookup_result :=
  match r with RFound cr lo info => LkFound cr lo info | RNone => LkNil | _ => LkErr end.

(* the call thread i makes next; None: it makes none, or waits for the session lock *)
Definition next_call (s : house) (i : nat) (now : Z) : option (hook blob) :=
  let g := s_srv (h_sys s) in
  let? t := nth_error (s_ts (h_sys s)) i in
  match site_of t, h_pend s i with
  (* defaultSessionManager.go:100-108 *)
  | Some (AtCreated c), Some (PGot x) =>
      match getter g c SgKey with
      | Some (SvKey k) => Some (HCreate k (x_creation x) (x_last x) (SessionInfoToVarMap (x_info x)))
      | _ => None
      end
  (* :113-118 *)
  | Some (AtLookup k), None => Some (HLookup k now)
  (* :161, sessionRegistry.go:98 *)
  | Some (AtClosed c), None => match g_sess g c with Some x => Some (HClose (x_key x)) | None => None end
  | _, _ => None
  end.

Definition set_pend (i : nat) (p : option pending) (s : house) : house :=
  MkHouse (h_sys s) (h_fs s) (upd (h_pend s) i p) (h_done s) (h_past s).
Definition set_sys (y : sys) (s : house) : house := MkHouse y (h_fs s) (h_pend s) (h_done s) (h_past s).
Definition serverstep (e : ev) (s : house) : option house :=
  let? y := sstep (g_cfg z) (h_sys s) e in Some (set_sys y s).
Definition panic (s : house) : house := set_sys (MkSys (crash (s_srv (h_sys s))) (s_ts (h_sys s))) s.

Definition hstep (s : house) (e : hev) : option house :=
  match e with
  | HRestart => Some (MkHouse new_server (h_fs s) (fun _ => None) (h_done s) (h_past s ++ [g_log (s_srv (h_sys s))]))
  | _ =>
    if g_crashed (s_srv (h_sys s)) then None else
    match e with
    | HRestart => None
    | HSess (EvStep i ch) =>
        match h_pend s i with
        | Some _ => None                            (* still in the hook *)
        | None =>
            let? t := nth_error (s_ts (h_sys s)) i in
            match site_of t with
            (* connection.session is nil where its key is needed, sessionRegistry.go:98 *)
            | Some (AtClosed c) => match g_sess (s_srv (h_sys s)) c with None => serverstep (EvStep i ch) s | Some _ => None end
            | Some _ => None
            | None => serverstep (EvStep i ch) s
            end
        end
    | HSess e => serverstep e s
    | HGet i =>
        let? t := nth_error (s_ts (h_sys s)) i in
        match site_of t, h_pend s i with
        | Some (AtCreated c), None =>
            match getter (s_srv (h_sys s)) c SgSession with
            | Some (SvSession (Some x)) => Some (set_pend i (Some (PGot x)) s)
            | Some (SvSession None) => Some (panic s)   (* sess.Creation of a nil session, :103 *)
            | _ => None
            end
        | _, _ => None
        end
    | HCall i now =>
        let? h := next_call s i now in
        let s' := set_pend i (Some (PRun h (code (g_json z) (g_path z) h))) s in
        (* OnSessionClosed is called with the connection's session key as it is now; nothing depends on its result *)
        match h with HClose _ => serverstep (EvStep i (ChHook false)) s' | _ => Some s' end
    | HSys i w =>
        match h_pend s i with
        | Some (PRun h pr) =>
            let? r := step (g_env z) (h_fs s) pr w in
            Some (MkHouse (h_sys s) (fst r) (upd (h_pend s) i (Some (PRun h (snd r)))) (h_done s) (h_past s))
        | _ => None
        end
    | HRet i =>
        match h_pend s i with
        | Some (PRun h (Ret r)) =>
            let s' := MkHouse (h_sys s) (h_fs s) (upd (h_pend s) i None) (h_done s ++ [(h, r)]) (h_past s) in
            match h with
            | HCreate _ _ _ _ => serverstep (EvStep i Go) s'
            | HLookup _ _ => serverstep (EvStep i (ChLook (looked r))) s'
            | HClose _ => Some s'
            end
        | _ => None
        end
    end
  end.
End Steps.
