(* Error values of the session functions: /repo/connection.go:188-297 (CreateSession, CloseSession and the notifications)
   and defaultSessionManager.go:20-169, where the file system and encoding/json return any error. Calls do not overlap
   here (ModelSession, ModelFiles). *)
From Coq Require Import Strings.String.
From Coq Require Import List Arith NArith ZArith Bool.
From Verif Require Import BaseBytes ModelMessage ModelErrors ModelReport ModelLog ModelPath ModelFiles.
Import ListNotations.
Open Scope list_scope.
Open Scope nat_scope.

Section Faults.
Variable broken : err -> bytes.

(* ----- connection.go ----- *)
Section Connection.
Context {W : Type} (ops : text_ops W).
(* the writer, as far as it was used; the connection's session; whether a hook was called; what was logged; the error *)
Record ended_call := MkEnd { en_writer : W + err; en_session : option bytes; en_hook : bool; en_log : list entry; en_err : option err }.

(* connection.go:238-267; encoded: what json.Marshal returns *)
Definition notifySessionCreated (gw : W + err) (encoded : bytes + err) : option ((W + err) * option err) :=
  match encoded with
  | inr e => Some (gw, Some (Errorf (txt "Couldn't marshal session object: " ++ pct_s broken e)))
  | inl b =>
      match gw with
      | inr e => Some (gw, Some e)
      | inl w => let? (w1, e) := WriteMsgNotifySessionCreated broken ops w b in Some (inl w1, e)
      end
  end.
(* connection.go:188-236; key: of the new session (session.go:29-53 is in ModelKey); hook: what OnSessionCreated returns *)
Definition CreateSession (enabled connected : bool) (session : option bytes) (key : bytes) (encoded : bytes + err)
    (hook : option err) (gw : W + err) : option ended_call :=
  if negb enabled then Some (MkEnd gw session false [] (Some ErrSessionsDisabled)) else
  if negb connected then Some (MkEnd gw session false [] (Some (caused ErrDisconnected "Can't create session on disconnected connection"))) else
  match session with
  | Some k => Some (MkEnd gw session false [] (Some (Errorf (txt "Another session (" ++ k ++ txt ") on this client is already active"))))
  | None =>
      let? (gw1, e) := notifySessionCreated gw encoded in
      match e with
      | Some e => Some (MkEnd gw1 None false [] (Some (Errorf (txt "Couldn't notify client about the session creation: " ++ pct_s broken e))))
      | None => Some (MkEnd gw1 (Some key) true (created broken hook) None)
      end
  end.

(* connection.go:270-276 *)
Definition notifySessionClosed (gw : W + err) : option ((W + err) * option err) :=
  match gw with
  | inr e => Some (gw, Some e)
  | inl w => let? (w1, e) := WriteMsgNotifySessionClosed broken ops w in Some (inl w1, e)
  end.
(* connection.go:279-297; last: deregister calls OnSessionClosed, hook: what comes of that *)
Definition CloseSession (enabled : bool) (session : option bytes) (last : bool) (hook : hooked) (gw : W + err) : option ended_call :=
  if negb enabled then Some (MkEnd gw session false [] (Some ErrSessionsDisabled)) else
  match session with
  | None => Some (MkEnd gw None false [] None)
  | Some _ =>
      let d : out W := if last then destroyed hook else MkOut [] (Some None) in
      let? _ := o_res d in
      let? (gw1, e) := notifySessionClosed gw in
      Some (MkEnd gw1 None last (o_log d) e)
  end.
End Connection.

(* ----- defaultSessionManager.go ----- *)
Section Manager.
Context {D I : Type}.
(* os.Stat, and os.IsNotExist of its error; ioutil.ReadFile, ioutil.WriteFile, os.Remove *)
Inductive stat_of := SExists | SNotExist | SError (e : err).
Record disk := MkDisk {
  d_stat : D -> bytes -> D * stat_of;
  d_read : D -> bytes -> D * (bytes + err);
  d_write : D -> bytes -> bytes -> D * option err;
  d_remove : D -> bytes -> D * option err }.
Record jcodec := MkJ { j_marshal : sfile I -> bytes + err; j_unmarshal : bytes -> sfile I + err }.
Variables (ds : disk) (c : jcodec).
Definition fmt1 (s : string) (e : err) : err := Errorf (txt s ++ pct_s broken e).

(* :20-29 *)
Definition Parse (d : D) (path : bytes) : D * (sfile I + err) :=
  let (d1, r) := d_read ds d path in
  (d1, match r with
       | inr e => inr (fmt1 "Couldn't parse session file, failed reading file: " e)
       | inl contents => j_unmarshal c contents
       end).
(* :32-41 *)
Definition Save (d : D) (path : bytes) (f : sfile I) : D * option err :=
  match j_marshal c f with
  | inr e => (d, Some (fmt1 "Couldn't marshal session file: " e))
  | inl encoded =>
      let (d1, e) := d_write ds d path encoded in
      (d1, match e with Some e => Some (fmt1 "Couldn't write session file: " e) | None => None end)
  end.
(* :100-108 *)
Definition OnSessionCreated (d : D) (path key : bytes) (creation lookup : Z) (info : I) : D * option err :=
  Save d (filePath path key) (MkSfile creation lookup info).
(* :113-157; inl None: nil, nil *)
Definition OnSessionLookup (d : D) (path key : bytes) (now : Z) : D * (option (sfile I) + err) :=
  let (d1, st) := d_stat ds d (filePath path key) in
  match st with
  | SNotExist => (d1, inl None)
  | SError e => (d1, inr (fmt1 "Unexpected error during file lookup: " e))
  | SExists =>
      let (d2, f) := Parse d1 (filePath path key) in
      match f with
      | inr e => (d2, inr (fmt1 "Couldn't parse session file: " e))
      | inl file =>
          let (d3, e) := Save d2 (filePath path key) (MkSfile (sf_creation file) now (sf_info file)) in
          match e with
          | Some e => (d3, inr (fmt1 "Couldn't update last lookup field, failed writing file: " e))
          | None => (d3, inl (Some file))
          end
      end
  end.
(* :161-169 *)
Definition OnSessionClosed (d : D) (path key : bytes) : D * option err :=
  let (d1, e) := d_remove ds d (filePath path key) in
  (d1, match e with Some e => Some (fmt1 "Unexpected error during session destruction: " e) | None => None end).

(* :52-91; abs: filepath.Abs of the directory of the executable; mkdir: os.MkdirAll. Result: the path, or the value of the panic *)
Definition NewDefaultSessionManager (abs : bytes * option err) (stat : bytes -> stat_of) (mkdir : bytes -> option err)
    (sessFilesPath : bytes) : bytes + err :=
  let go path :=
    match stat path with
    | SNotExist => match mkdir path with
                   | Some e => inr (Errorf (txt "Couldn't create default session directory ('" ++ path ++ txt "'): " ++ pct_s broken e))
                   | None => inl path
                   end
    | SError e => inr (Errorf (txt "Unexpected error during default session directory creation ('" ++ path ++ txt "'): " ++ pct_s broken e))
    | SExists => inl path
    end in
  if length sessFilesPath <? 1 then
    match snd abs with
    | Some e => inr (Errorf (txt "Failed to get the current directory ('" ++ fst abs ++ txt "') for the default session manager: " ++ pct_s broken e))
    | None => go (Join [fst abs; txt "wwrsess"])
    end
  else go sessFilesPath.
End Manager.
End Faults.
Arguments disk : clear implicits. Arguments jcodec : clear implicits. Arguments ended_call : clear implicits.
