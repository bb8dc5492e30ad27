(* Model of the server's sessions: the session registry, the session functions of a
   connection, the two session requests, Server.CloseSession, and the part of closing a
   connection that concerns its session.
   Source: /repo/sessionRegistry.go, connection.go, handleSessionRestore.go,
   handleSessionClosure.go, server.go:73-123, newServer.go:74-84, session.go:79-93.
   Calls are threads taking atomic steps in any order; con.session is read without a lock
   where the code does so. A panic (in Go it ends the process, the server recovers none but
   those of OnSessionClosed) sets g_crashed, and nothing happens any more.
   Not modelled: contents of session info objects (opaque), log output, panics of
   application hooks other than OnSessionClosed. *)
From Coq Require Import List Arith NArith ZArith Bool.
From Verif Require Import BaseBytes BaseConc ModelMessage ModelWrite ModelHandle SpecWrite.
Import ListNotations.
Open Scope nat_scope.

Definition key := bytes.
(* a value the server does not look into: SessionInfo object or variant map; 0: nil *)
Definition blob := N.
(* session.go:51-56; times as integers *)
Record session := MkSession { x_key : key; x_creation : Z; x_last : Z; x_info : blob }.

(* ---------- registry ---------- *)
(* sessionRegistry.go:15: map[string]map[*connection]struct{} *)
Definition registry := list (key * list nat).
Notation lookup := (map_get bytes_eqb).
Definition set_add (l : list nat) (c : nat) : list nat := if existsb (Nat.eqb c) l then l else c :: l.
Definition set_del (l : list nat) (c : nat) : list nat := filter (fun x => negb (c =? x)) l.

(* sessionRegistry.go:36-61; the Boolean: no error *)
Definition register (max : N) (r : registry) (k : key) (c : nat) : registry * bool :=
  match lookup r k with
  | Some set =>
      if (0 <? max)%N && (max <? N.of_nat (length set + 1))%N then (r, false)
      else (map_set bytes_eqb r k (set_add set c), true)
  | None => (map_set bytes_eqb r k [c], true)
  end.
(* sessionRegistry.go:77-83, 103-111: the part under the lock; the number returned, which is 0
   exactly where the session is removed *)
Definition deregister (r : registry) (k : key) (c : nat) : registry * Z :=
  match lookup r k with
  | Some set =>
      if length set <? 2 then (map_del bytes_eqb r k, 0%Z)
      else (map_set bytes_eqb r k (set_del set c), Z.of_nat (length (set_del set c)))
  | None => (r, (-1)%Z)
  end.
(* sessionRegistry.go:115-120 *)
Definition activeSessionsNum (r : registry) : nat := length r.
(* sessionRegistry.go:123-132 *)
Definition sessionConnectionsNum (r : registry) (k : key) : Z :=
  match lookup r k with Some set => Z.of_nat (length set) | None => (-1)%Z end.
(* sessionRegistry.go:135-151; the order is that of Go's map iteration: any *)
Definition sessionConnections (r : registry) (k : key) : option (list nat) := lookup r k.

(* ---------- server state ---------- *)
Record config := MkConfig {
  f_enabled : bool;                               (* srv.sessionsEnabled *)
  f_max : N;                                      (* MaxSessionConnections *)
  f_json : key -> Z -> Z -> blob -> option bytes; (* json.Marshal of a JSONEncodedSession *)
  f_vars : blob -> blob;                          (* info object to variant map, connection.go:239-245 *)
  f_parse : option (blob -> blob) }.              (* srv.sessionInfoParser *)

(* answers to session requests *)
Inductive answer := AOk (p : payload) | AFail (e : goerr).
(* results of CreateSession and CloseSession *)
Inductive result := RNil | RDisabled | RDisconnected | RExists | RMarshal | RNoWriter | RWrite (e : werr).

(* results of OnSessionLookup: error, nil, a session *)
Inductive lookup_result := LkErr | LkNil | LkFound (creation last : Z) (info : blob).
(* observable events; i is the thread *)
Inductive event :=
| LNotifyCreated (i c : nat) (s : session) (info : bytes) (calls : list call)
| LNotifyClosed (i c : nat) (calls : list call)
| LCreated (i c : nat)                            (* OnSessionCreated(con) *)
| LLookup (i : nat) (k : key) (r : lookup_result) (* OnSessionLookup(key) *)
| LJoin (i c : nat) (k : key)                     (* registry: connection added *)
| LLeave (i c : nat) (k : key) (destroy : bool) (n : Z)   (* registry: deregister returned n *)
| LDestroy (i : nat) (k : key)                    (* OnSessionClosed(key) *)
| LReply (i c : nat) (m : message) (a : answer) (st : sent (list call))
| LSockClosed (i c : nat).

Record srv := MkSrv {
  g_reg : registry;
  g_sess : nat -> option session;                 (* con.session *)
  g_lock : nat -> option nat;                     (* thread holding con.sessionLock across steps *)
  g_crashed : bool;
  g_log : list event }.
Definition upd {A} (f : nat -> A) (i : nat) (x : A) : nat -> A := fun j => if j =? i then x else f j.
Definition log (e : event) (g : srv) : srv := MkSrv (g_reg g) (g_sess g) (g_lock g) (g_crashed g) (g_log g ++ [e]).
Definition crash (g : srv) : srv := MkSrv (g_reg g) (g_sess g) (g_lock g) true (g_log g).
Definition set_reg (r : registry) (g : srv) : srv := MkSrv r (g_sess g) (g_lock g) (g_crashed g) (g_log g).
Definition set_sess (c : nat) (x : option session) (g : srv) : srv :=
  MkSrv (g_reg g) (upd (g_sess g) c x) (g_lock g) (g_crashed g) (g_log g).
Definition set_lock (c : nat) (i : option nat) (g : srv) : srv :=
  MkSrv (g_reg g) (g_sess g) (upd (g_lock g) c i) (g_crashed g) (g_log g).
Definition locked (g : srv) (c : nat) : bool := match g_lock g c with Some _ => true | None => false end.

(* ---------- threads ---------- *)
(* deregister: before the nil check; before the critical section; before onSessionDestroy *)
Inductive dstate := D0 | D1 | D2.
(* CreateSession *)
Inductive cstate :=
| CStart | CLock
| CErr                            (* unlocked, con.session.Key about to be read for the error text *)
| CNew | CNote (x : session) | CSet (x : session) | CReg | CHook
| CDone (r : result).
(* connection.CloseSession *)
Inductive lstate := QStart | QLock | QDereg (d : dstate) | QNil | QNote | QDone (r : result).
(* handleSessionRestore up to finalize *)
Inductive rstate :=
| RStart | RCount | RLook | RSet (x : session) (enc : bytes) | RReg (enc : bytes)
| RRep (a : answer) | RDone.
(* handleSessionClosure up to finalize *)
Inductive xstate := XStart | XHas | XDereg (d : dstate) | XNil | XRep (a : answer) | XDone.
(* unlink *)
Inductive ustate := UDereg (d : dstate) | UNil | UClose | UDone.
(* server.CloseSession: connections done with their results, current one, remaining ones *)
Inductive sstate :=
| SList
| SLoop (done : list (nat * result)) (todo : list nat)
| SIn (done : list (nat * result)) (c : nat) (q : lstate) (todo : list nat)
| SDone (affected : list nat) (errors : list result) (general : option nat).
Inductive thread :=
| TCreate (c : nat) (info : blob) (s : cstate)
| TClose (c : nat) (s : lstate)
| TRestore (c : nat) (m : message) (s : rstate)
| TClosure (c : nat) (m : message) (s : xstate)
| TUnlink (c : nat) (s : ustate)
| TServer (k : key) (s : sstate).

(* resolution of the nondeterminism of a step *)
Inductive choice :=
| Go
| ChSock (connected : bool)       (* con.sock.IsConnected() *)
| ChKey (k : key) (now : Z)       (* generated key, time.Now() *)
| ChW (w : option (nat -> bool))  (* GetWriter: error, or a writer whose j-th call fails as told *)
| ChHook (panics : bool)          (* OnSessionClosed *)
| ChLook (r : lookup_result)      (* OnSessionLookup *)
| ChOrder (l : list nat).         (* iteration order of a map *)

Section Steps.
Variables (f : config) (i : nat).

(* sessionRegistry.go:69-112; the readings of conn.session in lines 78 and 81 are one step. None for the new state: returned *)
Definition dereg_step (g : srv) (c : nat) (destroy : bool) (d : dstate) (ch : choice)
  : option (srv * option dstate) :=
  match d, ch with
  (* :73-75 *)
  | D0, Go => match g_sess g c with None => Some (g, None) | Some _ => Some (g, Some D1) end
  | D1, Go =>
      match g_sess g c with
      | None => Some (crash g, Some D1)
      | Some x =>
          let '(r, n) := deregister (g_reg g) (x_key x) c in
          Some (log (LLeave i c (x_key x) destroy n) (set_reg r g),
                if (n =? 0)%Z && destroy then Some D2 else None)
      end
  (* :85-98. A panic is recovered, but the recovering function uses asr.server, which
     newSessionRegistry (:22-32) leaves nil, and panics itself *)
  | D2, ChHook panics =>
      match g_sess g c with
      | None => Some (crash g, Some D2)
      | Some x =>
          let g' := log (LDestroy i (x_key x)) g in
          Some (if panics then crash g' else g', None)
      end
  | _, _ => None
  end.

(* connection.go:187-235 *)
Definition create_step (g : srv) (c : nat) (info : blob) (s : cstate) (ch : choice) : option (srv * cstate) :=
  match s, ch with
  (* :188-198 *)
  | CStart, ChSock connected =>
      Some (g, if negb (f_enabled f) then CDone RDisabled
               else if negb connected then CDone RDisconnected else CLock)
  (* :200-204 *)
  | CLock, Go =>
      if locked g c then None else
      match g_sess g c with
      | Some _ => Some (g, CErr)
      | None => Some (set_lock c (Some i) g, CNew)
      end
  (* :205-208 *)
  | CErr, Go =>
      match g_sess g c with
      | None => Some (crash g, CErr)
      | Some _ => Some (g, CDone RExists)
      end
  (* :212, session.go:79-93 *)
  | CNew, ChKey k now =>
      if length k <? 1 then Some (crash g, CNew) else Some (g, CNote (MkSession k now now info))
  (* :215-221, :237-266 *)
  | CNote x, ChW w =>
      match f_json f (x_key x) (x_creation x) (x_last x) (if (info =? 0)%N then 0%N else f_vars f info) with
      | None => Some (set_lock c None g, CDone RMarshal)
      | Some enc =>
          match w with
          | None => Some (set_lock c None g, CDone RNoWriter)
          | Some fails =>
              match WriteMsgNotifySessionCreated (log_writer fails) [] enc with
              | None => Some (crash g, CNote x)
              | Some (calls, e) =>
                  let g' := log (LNotifyCreated i c x enc calls) g in
                  match e with
                  | Some e => Some (set_lock c None g', CDone (RWrite e))
                  | None => Some (g', CSet x)
                  end
              end
          end
      end
  (* :224 *)
  | CSet x, Go => Some (set_sess c (Some x) g, CReg)
  (* :226-227; the error of register is ignored *)
  | CReg, Go =>
      match g_sess g c with
      | None => Some (crash g, CReg)
      | Some x =>
          let '(r, ok) := register (f_max f) (g_reg g) (x_key x) c in
          let g' := set_lock c None (set_reg r g) in
          Some (if ok then log (LJoin i c (x_key x)) g' else g', CHook)
      end
  (* :230-232; the error is only logged *)
  | CHook, Go => Some (log (LCreated i c) g, CDone RNil)
  | _, _ => None
  end.

(* connection.go:278-296 *)
Definition close_step (g : srv) (c : nat) (s : lstate) (ch : choice) : option (srv * lstate) :=
  match s, ch with
  | QStart, Go => Some (g, if negb (f_enabled f) then QDone RDisabled else QLock)
  | QLock, Go =>
      if locked g c then None else
      match g_sess g c with
      | None => Some (g, QDone RNil)
      | Some _ => Some (set_lock c (Some i) g, QDereg D0)
      end
  | QDereg d, _ =>
      match dereg_step g c true d ch with
      | None => None
      | Some (g', Some d') => Some (g', QDereg d')
      | Some (g', None) => Some (g', QNil)
      end
  | QNil, Go => Some (set_lock c None (set_sess c None g), QNote)
  (* :269-275 *)
  | QNote, ChW w =>
      match w with
      | None => Some (g, QDone RNoWriter)
      | Some fails =>
          match WriteMsgNotifySessionClosed (log_writer fails) [] with
          | None => Some (crash g, QNote)
          | Some (calls, e) =>
              Some (log (LNotifyClosed i c calls) g, QDone (match e with Some e => RWrite e | None => RNil end))
          end
      end
  | _, _ => None
  end.

(* failMsg / fulfillMsg for a session request *)
Definition reply (m : message) (a : answer) (w : option (nat -> bool)) : option (sent (list call)) :=
  let fails := match w with Some h => h | None => fun _ => false end in
  let gw := match w with Some _ => Some [] | None => None end in
  match a with
  | AOk p => fulfillMsg (log_writer fails) gw m p
  | AFail e => failMsg (log_writer fails) gw m e
  end.
(* string(msg.MsgPayload.Data) *)
Definition payload_of (m : message) : bytes := g_get (m_buf m) (m_pld m).

(* handleSessionRestore.go:12-107 *)
Definition restore_step (g : srv) (c : nat) (m : message) (s : rstate) (ch : choice) : option (srv * rstate) :=
  let k := payload_of m in
  match s, ch with
  (* :23-27 *)
  | RStart, Go => Some (g, if negb (f_enabled f) then RRep (AFail ESessDisabled) else RCount)
  (* :31-37 *)
  | RCount, Go =>
      let n := sessionConnectionsNum (g_reg g) k in
      Some (g, if (0 <=? n)%Z && (0 <? f_max f)%N && (f_max f <? Z.to_N (n + 1))%N
               then RRep (AFail EMaxSessConns) else RLook)
  (* :40-84 *)
  | RLook, ChLook r =>
      let g' := log (LLookup i k r) g in
      match r with
      | LkErr => Some (g', RRep (AFail ENil))
      | LkNil => Some (g', RRep (AFail ESessNotFound))
      | LkFound creation last info =>
          match f_json f k creation last info with
          | None => Some (g', RRep (AFail ENil))
          | Some enc =>
              let parsed := match f_parse f with
                            | Some p => if (info =? 0)%N then 0%N else p info
                            | None => 0%N
                            end in
              Some (g', RSet (MkSession k creation last parsed) enc)
          end
      end
  (* :86-91, connection.go:121-125 *)
  | RSet x enc, Go => if locked g c then None else Some (set_sess c (Some x) g, RReg enc)
  (* :92-96 *)
  | RReg enc, Go =>
      match g_sess g c with
      | None => Some (crash g, RReg enc)
      | Some x =>
          let '(r, ok) := register (f_max f) (g_reg g) (x_key x) c in
          if ok then Some (log (LJoin i c (x_key x)) (set_reg r g), RRep (AOk (Utf8, enc)))
          else Some (crash g, RReg enc)
      end
  | RRep a, ChW w =>
      match reply m a w with
      | None => Some (crash g, RRep a)
      | Some st => Some (log (LReply i c m a st) g, RDone)
      end
  | _, _ => None
  end.

(* handleSessionClosure.go:9-43 *)
Definition closure_step (g : srv) (c : nat) (m : message) (s : xstate) (ch : choice) : option (srv * xstate) :=
  match s, ch with
  | XStart, Go => Some (g, if negb (f_enabled f) then XRep (AFail ESessDisabled) else XHas)
  (* :26-31, connection.go:299-304 *)
  | XHas, Go =>
      if locked g c then None else
      Some (g, match g_sess g c with None => XRep (AOk (Binary, [])) | Some _ => XDereg D0 end)
  | XDereg d, _ =>
      match dereg_step g c true d ch with
      | None => None
      | Some (g', Some d') => Some (g', XDereg d')
      | Some (g', None) => Some (g', XNil)
      end
  | XNil, Go => if locked g c then None else Some (set_sess c None g, XRep (AOk (Binary, [])))
  | XRep a, ChW w =>
      match reply m a w with
      | None => Some (crash g, XRep a)
      | Some st => Some (log (LReply i c m a st) g, XDone)
      end
  | _, _ => None
  end.

(* connection.go:129-139 *)
Definition unlink_step (g : srv) (c : nat) (s : ustate) (ch : choice) : option (srv * ustate) :=
  match s, ch with
  | UDereg d, _ =>
      match dereg_step g c false d ch with
      | None => None
      | Some (g', Some d') => Some (g', UDereg d')
      | Some (g', None) => Some (g', UNil)
      end
  | UNil, Go => if locked g c then None else Some (set_sess c None g, UClose)
  | UClose, Go => Some (log (LSockClosed i c) g, UDone)
  | _, _ => None
  end.

(* l lists the elements of l', each once *)
Definition same_elements (l l' : list nat) : bool :=
  (length l =? length l') && forallb (fun x => existsb (Nat.eqb x) l) l' && forallb (fun x => existsb (Nat.eqb x) l') l.
Definition is_error (r : result) : bool := match r with RNil => false | _ => true end.
(* server.go:89-123 *)
Definition server_step (g : srv) (k : key) (s : sstate) (ch : choice) : option (srv * sstate) :=
  match s, ch with
  | SList, ChOrder l =>
      match sessionConnections (g_reg g) k with
      | None => match l with [] => Some (g, SDone [] [] None) | _ => None end
      | Some l' => if same_elements l l' then Some (g, SLoop [] l) else None
      end
  | SLoop done (c :: todo), Go => Some (g, SIn done c QStart todo)
  | SLoop done [], Go =>
      let n := length (filter is_error (map snd done)) in
      Some (g, SDone (map fst done) (map snd done) (if 0 <? n then Some n else None))
  | SIn done c q todo, _ =>
      match close_step g c q ch with
      | None => None
      | Some (g', QDone r) => Some (g', SLoop (done ++ [(c, r)]) todo)
      | Some (g', q') => Some (g', SIn done c q' todo)
      end
  | _, _ => None
  end.

Definition tstep (g : srv) (t : thread) (ch : choice) : option (srv * thread) :=
  match t with
  | TCreate c info s => match create_step g c info s ch with Some (g', s') => Some (g', TCreate c info s') | None => None end
  | TClose c s => match close_step g c s ch with Some (g', s') => Some (g', TClose c s') | None => None end
  | TRestore c m s => match restore_step g c m s ch with Some (g', s') => Some (g', TRestore c m s') | None => None end
  | TClosure c m s => match closure_step g c m s ch with Some (g', s') => Some (g', TClosure c m s') | None => None end
  | TUnlink c s => match unlink_step g c s ch with Some (g', s') => Some (g', TUnlink c s') | None => None end
  | TServer k s => match server_step g k s ch with Some (g', s') => Some (g', TServer k s') | None => None end
  end.
End Steps.

Record sys := MkSys { s_srv : srv; s_ts : list thread }.
Definition new_server : sys := MkSys (MkSrv [] (fun _ => None) (fun _ => None) false []) [].

(* calls may begin at any time, on any connection *)
Inductive ev :=
| EvCreate (c : nat) (info : blob)
| EvClose (c : nat)
| EvRestore (c : nat) (m : message)
| EvClosure (c : nat) (m : message)
| EvUnlink (c : nat)
| EvServerClose (k : key)
| EvStep (i : nat) (ch : choice).
Definition begin (e : ev) : option thread :=
  match e with
  | EvCreate c info => Some (TCreate c info CStart)
  | EvClose c => Some (TClose c QStart)
  | EvRestore c m => Some (TRestore c m RStart)
  | EvClosure c m => Some (TClosure c m XStart)
  | EvUnlink c => Some (TUnlink c (UDereg D0))
  | EvServerClose k => Some (TServer k SList)
  | EvStep _ _ => None
  end.
Definition sstep (f : config) (s : sys) (e : ev) : option sys :=
  if g_crashed (s_srv s) then None else
  match e with
  | EvStep i ch =>
      match nth_error (s_ts s) i with
      | None => None
      | Some t => match tstep f i (s_srv s) t ch with
                  | None => None
                  | Some (g', t') => Some (MkSys g' (set_nth (s_ts s) i t'))
                  end
      end
  | _ => match begin e with Some t => Some (MkSys (s_srv s) (s_ts s ++ [t])) | None => None end
  end.
