(* Model of the in-memory transport: outbound buffer, socket pairs, transport.
   Source: /repo/transport/memchan/buffer.go, socket.go, transport.go, newSocket.go,
   entangleSockets.go.
   Calls are threads taking atomic steps in any order. A panic sets n_crashed, and nothing
   happens any more. Sockets belong to one transport; pair number p consists of the sockets
   (p, Srv) and (p, Clt). Simplifications: acquiring a mutex is merged with the following check
   of the status; readerLock is modelled as held only while a send blocks on a full channel, the
   other critical sections being single steps; reading a buffer into a message is one step; timers: a deadline may be exceeded at any time, also spuriously (readTimer is
   stopped without being drained). RemoteAddr, Serve and unconnected
   sockets without server (newDisconnectedSocket): ModelSocket. *)
From Coq Require Import List Arith NArith ZArith Bool.
From Verif Require Import BaseBytes BaseConc ModelMessage.
Import ListNotations.
Open Scope nat_scope.

(* ---------- buffer.go ---------- *)
(* buf.buf, buf.len; buf.lock is part of the socket below *)
Record buffer := MkBuffer { b_data : bytes; b_len : nat }.
Definition new_buffer (size : nat) : buffer := MkBuffer (repeat x00 size) 0.
(* copy(dst[i:], p) for a p that fits *)
Definition overwrite (dst : bytes) (i : nat) (p : bytes) : bytes :=
  firstn i dst ++ p ++ skipn (i + length p) dst.
(* buffer.go:40-52, under the lock; the Boolean: no error *)
Definition buf_write (b : buffer) (p : bytes) : buffer * bool :=
  if (length (b_data b) - b_len b) <? length p then (MkBuffer (b_data b) 0, false)
  else (MkBuffer (overwrite (b_data b) (b_len b) p) (b_len b + length p), true).
(* buf.buf[:n] *)
Definition slice (b : buffer) (n : nat) : bytes := firstn n (b_data b).

(* ---------- sockets ---------- *)
Inductive side := Srv | Clt.
Definition other (d : side) : side := match d with Srv => Clt | Clt => Srv end.
Definition side_eqb (a b : side) : bool := match a, b with Srv, Srv | Clt, Clt => true | _, _ => false end.
Definition sock := (nat * side)%type.
Definition remote (k : sock) : sock := (fst k, other (snd k)).
Definition sock_eqb (a b : sock) : bool := (fst a =? fst b) && side_eqb (snd a) (snd b).

(* socket.go:34-66. u_gen: number of the current reader channel *)
Record socket := MkSocket {
  u_buf : buffer;
  u_blk : option nat;      (* thread that locked outboundBuffer.lock *)
  u_wlk : option nat;      (* thread that locked writerLock *)
  u_rlk : option nat;      (* thread that locked readLock *)
  u_klk : option nat;      (* thread that locked readerLock *)
  u_gen : nat }.
(* a reader channel, of capacity 1. Its element is the slice buf[:n] of the remote socket's
   buffer: not a copy *)
Record chan := MkChan { h_data : option nat; h_closed : bool }.

Inductive rdres := RdOk (m : message) | RdClosed | RdTimeout | RdBad.
Inductive wrres :=
| WrDisconnected     (* GetWriter: error *)
| WrEmpty            (* Close: no data written *)
| WrClosed           (* Close: can't write to a closed socket *)
| WrRead             (* Close: nil *)
| WrSockClosed.      (* Close: socket closed *)
Inductive dlres := DlNil | DlRefused | DlAlready | DlShutting | DlClosed.

(* observable events; i is the thread *)
Inductive event :=
| LOpen (i : nat) (k : sock)                              (* GetWriter returned a writer *)
| LWrite (i : nat) (k : sock) (p : bytes) (ok : bool)     (* Write returned *)
| LSend (i : nat) (k : sock) (g : nat) (b : bytes)        (* handed to the remote reader *)
| LRead (i : nat) (k : sock) (g : nat) (b : bytes)        (* read into a message *)
| LWriter (i : nat) (k : sock) (r : wrres)                (* GetWriter failed, or Close returned *)
| LReader (i : nat) (k : sock) (r : rdres)                (* Read returned *)
| LDialed (i p : nat) (r : dlres)                         (* Dial returned *)
| LNew (p : nat)                                          (* onNewConnection(remote) started *)
| LDown (i : nat).                                        (* Shutdown returned *)

Record net := MkNet {
  n_sock : sock -> socket;
  n_on : nat -> bool;                (* status of pair p: connected *)
  n_chan : sock -> nat -> chan;      (* reader channels, by number *)
  n_conns : list nat;                (* srv.connections, by pair *)
  n_active : bool;                   (* srv.status *)
  n_crashed : bool;
  n_log : list event }.
Definition new_socket (size : nat) : socket := MkSocket (new_buffer size) None None None None 0.
Definition new_net (size : nat) : net :=
  MkNet (fun _ => new_socket size) (fun _ => false) (fun _ _ => MkChan None false) [] true false [].

Definition upds {A} (f : sock -> A) (k : sock) (x : A) : sock -> A := fun j => if sock_eqb j k then x else f j.
Definition upd {A} (f : nat -> A) (i : nat) (x : A) : nat -> A := fun j => if j =? i then x else f j.
Definition set_sock (k : sock) (u : socket) (n : net) : net :=
  MkNet (upds (n_sock n) k u) (n_on n) (n_chan n) (n_conns n) (n_active n) (n_crashed n) (n_log n).
Definition set_on (p : nat) (b : bool) (n : net) : net :=
  MkNet (n_sock n) (upd (n_on n) p b) (n_chan n) (n_conns n) (n_active n) (n_crashed n) (n_log n).
Definition set_chan (k : sock) (g : nat) (h : chan) (n : net) : net :=
  MkNet (n_sock n) (n_on n) (upds (n_chan n) k (upd (n_chan n k) g h)) (n_conns n) (n_active n) (n_crashed n) (n_log n).
Definition set_conns (l : list nat) (n : net) : net :=
  MkNet (n_sock n) (n_on n) (n_chan n) l (n_active n) (n_crashed n) (n_log n).
Definition set_active (b : bool) (n : net) : net :=
  MkNet (n_sock n) (n_on n) (n_chan n) (n_conns n) b (n_crashed n) (n_log n).
Definition crash (n : net) : net :=
  MkNet (n_sock n) (n_on n) (n_chan n) (n_conns n) (n_active n) true (n_log n).
Definition log (e : event) (n : net) : net :=
  MkNet (n_sock n) (n_on n) (n_chan n) (n_conns n) (n_active n) (n_crashed n) (n_log n ++ [e]).
Definition set_buf (k : sock) (b : buffer) (n : net) : net :=
  let u := n_sock n k in set_sock k (MkSocket b (u_blk u) (u_wlk u) (u_rlk u) (u_klk u) (u_gen u)) n.
Definition set_blk (k : sock) (o : option nat) (n : net) : net :=
  let u := n_sock n k in set_sock k (MkSocket (u_buf u) o (u_wlk u) (u_rlk u) (u_klk u) (u_gen u)) n.
Definition set_wlk (k : sock) (o : option nat) (n : net) : net :=
  let u := n_sock n k in set_sock k (MkSocket (u_buf u) (u_blk u) o (u_rlk u) (u_klk u) (u_gen u)) n.
Definition set_rlk (k : sock) (o : option nat) (n : net) : net :=
  let u := n_sock n k in set_sock k (MkSocket (u_buf u) (u_blk u) (u_wlk u) o (u_klk u) (u_gen u)) n.
Definition set_klk (k : sock) (o : option nat) (n : net) : net :=
  let u := n_sock n k in set_sock k (MkSocket (u_buf u) (u_blk u) (u_wlk u) (u_rlk u) o (u_gen u)) n.
Definition set_gen (k : sock) (g : nat) (n : net) : net :=
  let u := n_sock n k in set_sock k (MkSocket (u_buf u) (u_blk u) (u_wlk u) (u_rlk u) (u_klk u) g) n.
Definition free (o : option nat) : bool := match o with None => true | Some _ => false end.

(* ---------- threads ---------- *)
(* GetWriter, then any number of Write, then Close *)
Inductive wstate :=
| WGet
| WOpen                   (* has the writer *)
| WFlush | WSend          (* onBufferFlush: before the status check; before writeReader *)
| WBlock                  (* holds readerLock of the remote socket, whose channel is full *)
| WSent                   (* before waiting on remote.readerErr *)
| WParked                 (* waiting *)
| WReset (r : wrres)      (* writerLock unlocked; before buf.reset *)
| WDone (r : wrres).
(* Close *)
Inductive clstate := ClStart | ClRemote | ClSel1 | ClSel2 | ClLocal | ClDisc | ClDone.
(* Read *)
Inductive rdstate :=
| RdStart | RdGet
| RdWait (g : nat)
| RdParse (g n : nat)     (* the slice buf[:n] received from channel g *)
| RdAck (r : rdres)       (* sending on readerErr *)
| RdFail (r : rdres) (cl : clstate)
| RdDone (r : rdres).
Inductive dlstate := DlHook | DlCAS | DlReset1 | DlReset2 | DlShut | DlActive | DlAdd | DlDone (r : dlres).
Inductive shstate := ShCAS | ShList | ShLoop (todo : list nat) | ShIn (p : nat) (cl : clstate) (todo : list nat) | ShDone.
Inductive thread :=
| TWrite (k : sock) (s : wstate)
| TRead (k : sock) (m : message) (deadline : bool) (s : rdstate)
| TClose (k : sock) (s : clstate)
| TDial (p : nat) (s : dlstate)
| TDown (s : shstate).

Inductive choice :=
| Go
| ChWrite (p : bytes)
| ChClose
| ChTimeout
| ChWith (j : nat)          (* meeting thread j on a readerErr channel *)
| ChAccept (b : bool)       (* OnBeforeCreation *)
| ChShutting (b : bool)     (* isShuttingdown *)
| ChOrder (l : list nat).   (* iteration order of a map *)

(* thread t waits on k.remote.readerErr *)
Definition waits (k : sock) (t : thread) : bool := match t with TWrite k' WParked => sock_eqb k' k | _ => false end.

(* result of a step: the new net, the new state of the thread, the thread it met with the value sent *)
Definition outcome (S : Type) := option (net * S * option (nat * wrres)).

Section Steps.
Variables (ts : list thread) (i : nat).

(* buffer.go:40-63, socket.go:66-85, 120-135 *)
Definition write_step (n : net) (k : sock) (s : wstate) (ch : choice) : outcome wstate :=
  let u := n_sock n k in
  let r := remote k in
  match s, ch with
  | WGet, Go =>
      if free (u_wlk u) then
        if n_on n (fst k) then Some (log (LOpen i k) (set_wlk k (Some i) n), WOpen, None)
        else Some (log (LWriter i k WrDisconnected) n, WDone WrDisconnected, None)
      else None
  | WOpen, ChWrite p =>
      if free (u_blk u) then
        let '(b, ok) := buf_write (u_buf u) p in Some (log (LWrite i k p ok) (set_buf k b n), WOpen, None)
      else None
  (* the error path unlocks neither the buffer nor the writer *)
  | WOpen, ChClose =>
      if free (u_blk u) then
        if b_len (u_buf u) <? 1 then Some (log (LWriter i k WrEmpty) (set_blk k (Some i) n), WDone WrEmpty, None)
        else Some (set_blk k (Some i) n, WFlush, None)
      else None
  | WFlush, Go =>
      if n_on n (fst k) then Some (n, WSend, None)
      else Some (set_wlk k None n, WReset WrClosed, None)
  | WSend, Go =>
      let g := u_gen (n_sock n r) in
      let h := n_chan n r g in
      if free (u_klk (n_sock n r)) then
        if h_closed h then Some (crash n, WSend, None) else
        match h_data h with
        | Some _ => Some (set_klk r (Some i) n, WBlock, None)
        | None =>
            Some (log (LSend i k g (slice (u_buf u) (b_len (u_buf u))))
                      (set_chan r g (MkChan (Some (b_len (u_buf u))) false) n), WSent, None)
        end
      else None
  | WBlock, Go =>
      let g := u_gen (n_sock n r) in
      match h_data (n_chan n r g) with
      | Some _ => None
      | None =>
          Some (log (LSend i k g (slice (u_buf u) (b_len (u_buf u))))
                    (set_chan r g (MkChan (Some (b_len (u_buf u))) false) (set_klk r None n)), WSent, None)
      end
  | WSent, Go => Some (n, WParked, None)
  (* WParked: woken by readers and Close *)
  | WReset x, Go => Some (log (LWriter i k x) (set_blk k None (set_buf k (MkBuffer (b_data (u_buf u)) 0) n)), WDone x, None)
  | _, _ => None
  end.

(* select { case k.remote.readerErr <- v: default: } *)
Definition select_step {S} (n : net) (k : sock) (v : wrres) (s : S) (ch : choice) : outcome S :=
  match ch with
  | ChWith j => match nth_error ts j with
                | Some t => if waits k t then Some (n, s, Some (j, v)) else None
                | None => None
                end
  | Go => if existsb (waits k) ts then None else Some (n, s, None)
  | _ => None
  end.
(* closeReader *)
Definition close_chan {T} (n : net) (k : sock) (s : T) : outcome T :=
  let g := u_gen (n_sock n k) in
  let h := n_chan n k g in
  if free (u_klk (n_sock n k)) then
    Some (if h_closed h then crash n else set_chan k g (MkChan (h_data h) true) n, s, None)
  else None.
(* resetReader *)
Definition reset_chan {T} (n : net) (k : sock) (s : T) : outcome T :=
  if free (u_klk (n_sock n k)) then Some (set_gen k (S (u_gen (n_sock n k))) n, s, None) else None.
(* socket.go:267-304 *)
Definition close_step (n : net) (k : sock) (s : clstate) (ch : choice) : outcome clstate :=
  match s, ch with
  | ClStart, Go => if n_on n (fst k) then Some (set_on (fst k) false n, ClRemote, None) else Some (n, ClDone, None)
  | ClRemote, Go => close_chan n (remote k) ClSel1
  | ClSel1, _ => select_step n k WrSockClosed ClSel2 ch
  | ClSel2, _ => select_step n (remote k) WrSockClosed ClLocal ch
  | ClLocal, Go => close_chan n k ClDisc
  | ClDisc, Go => Some (set_conns (filter (fun p => negb (fst k =? p)) (n_conns n)) n, ClDone, None)
  | _, _ => None
  end.

(* socket.go:163-251 *)
Definition read_step (n : net) (k : sock) (m : message) (deadline : bool) (s : rdstate) (ch : choice) : outcome rdstate :=
  let u := n_sock n k in
  match s, ch with
  | RdStart, Go =>
      if free (u_rlk u) then
        if n_on n (fst k) then Some (set_rlk k (Some i) n, RdGet, None)
        else Some (log (LReader i k RdClosed) n, RdDone RdClosed, None)
      else None
  | RdGet, Go => if free (u_klk u) then Some (n, RdWait (u_gen u), None) else None
  | RdWait g, Go =>
      match h_data (n_chan n k g) with
      | Some l => Some (set_chan k g (MkChan None (h_closed (n_chan n k g))) n, RdParse g l, None)
      | None => if h_closed (n_chan n k g) then Some (n, RdFail RdClosed ClStart, None) else None
      end
  | RdWait g, ChTimeout => if deadline then Some (n, RdFail RdTimeout ClStart, None) else None
  | RdFail r cl, _ =>
      match close_step n k cl ch with
      | Some (n', ClDone, w) => Some (log (LReader i k r) (set_rlk k None n'), RdDone r, w)
      | Some (n', cl', w) => Some (n', RdFail r cl', w)
      | None => None
      end
  | RdParse g l, Go =>
      let b := slice (u_buf (n_sock n (remote k))) l in
      match ReadBytes m b with
      | None => Some (crash n, RdParse g l, None)
      | Some (m', ok, e) =>
          Some (log (LRead i k g b) n, RdAck (match e with
                           | Some _ => RdBad
                           | None => if ok then RdOk m' else RdBad
                           end), None)
      end
  | RdAck r, ChWith j =>
      match nth_error ts j with
      | Some t => if waits (remote k) t
                  then Some (log (LReader i k r) (set_rlk k None n), RdDone r, Some (j, WrRead)) else None
      | None => None
      end
  | _, _ => None
  end.

(* socket.go:87-118, transport.go:97-126 *)
Definition dial_step (n : net) (p : nat) (s : dlstate) (ch : choice) : outcome dlstate :=
  let ret r := log (LDialed i p r) in
  match s, ch with
  | DlHook, ChAccept b => if b then Some (n, DlCAS, None) else Some (ret DlRefused n, DlDone DlRefused, None)
  | DlCAS, Go =>
      if n_on n p then Some (ret DlAlready n, DlDone DlAlready, None) else Some (set_on p true n, DlReset1, None)
  | DlReset1, Go => reset_chan n (p, Clt) DlReset2
  | DlReset2, Go => reset_chan n (p, Srv) DlShut
  | DlShut, ChShutting b => if b then Some (ret DlShutting n, DlDone DlShutting, None) else Some (n, DlActive, None)
  | DlActive, Go => if n_active n then Some (n, DlAdd, None) else Some (ret DlClosed n, DlDone DlClosed, None)
  | DlAdd, Go =>
      let l := if existsb (Nat.eqb p) (n_conns n) then n_conns n else p :: n_conns n in
      Some (ret DlNil (log (LNew p) (set_conns l n)), DlDone DlNil, None)
  | _, _ => None
  end.

(* l lists the elements of l', each once *)
Definition same_elements (l l' : list nat) : bool :=
  (length l =? length l') && forallb (fun x => existsb (Nat.eqb x) l) l' && forallb (fun x => existsb (Nat.eqb x) l') l.
(* transport.go:68-89 *)
Definition down_step (n : net) (s : shstate) (ch : choice) : outcome shstate :=
  match s, ch with
  | ShCAS, Go =>
      if n_active n then Some (set_active false n, ShList, None) else Some (log (LDown i) n, ShDone, None)
  | ShList, ChOrder l => if same_elements l (n_conns n) then Some (n, ShLoop l, None) else None
  | ShLoop [], Go => Some (log (LDown i) n, ShDone, None)
  | ShLoop (p :: todo), Go => Some (n, ShIn p ClStart todo, None)
  | ShIn p cl todo, _ =>
      match close_step n (p, Srv) cl ch with
      | Some (n', ClDone, w) => Some (n', ShLoop todo, w)
      | Some (n', cl', w) => Some (n', ShIn p cl' todo, w)
      | None => None
      end
  | _, _ => None
  end.

Definition tstep (n : net) (t : thread) (ch : choice) : outcome thread :=
  match t with
  | TWrite k s => match write_step n k s ch with Some (n', s', w) => Some (n', TWrite k s', w) | None => None end
  | TRead k m d s => match read_step n k m d s ch with Some (n', s', w) => Some (n', TRead k m d s', w) | None => None end
  | TClose k s => match close_step n k s ch with Some (n', s', w) => Some (n', TClose k s', w) | None => None end
  | TDial p s => match dial_step n p s ch with Some (n', s', w) => Some (n', TDial p s', w) | None => None end
  | TDown s => match down_step n s ch with Some (n', s', w) => Some (n', TDown s', w) | None => None end
  end.
End Steps.

Record sys := MkSys { s_net : net; s_ts : list thread }.
Definition new_sys (size : nat) : sys := MkSys (new_net size) [].
(* calls may begin at any time, on any socket *)
Inductive ev :=
| EvWrite (k : sock)
| EvRead (k : sock) (m : message) (deadline : bool)
| EvClose (k : sock)
| EvDial (p : nat)
| EvDown
| EvStep (i : nat) (ch : choice).
Definition begin (e : ev) : option thread :=
  match e with
  | EvWrite k => Some (TWrite k WGet)
  | EvRead k m d => Some (TRead k m d RdStart)
  | EvClose k => Some (TClose k ClStart)
  | EvDial p => Some (TDial p DlHook)
  | EvDown => Some (TDown ShCAS)
  | EvStep _ _ => None
  end.
(* the writer j met on a readerErr channel receives v, unlocks writerLock and goes on *)
Definition wake (w : option (nat * wrres)) (n : net) (ts : list thread) : net * list thread :=
  match w with
  | None => (n, ts)
  | Some (j, v) =>
      match nth_error ts j with
      | Some (TWrite k _) => (set_wlk k None n, set_nth ts j (TWrite k (WReset v)))
      | _ => (n, ts)
      end
  end.
Definition mstep (s : sys) (e : ev) : option sys :=
  if n_crashed (s_net s) then None else
  match e with
  | EvStep i ch =>
      match nth_error (s_ts s) i with
      | None => None
      | Some t => match tstep (s_ts s) i (s_net s) t ch with
                  | None => None
                  | Some (n', t', w) =>
                      let '(n'', ts') := wake w n' (set_nth (s_ts s) i t') in Some (MkSys n'' ts')
                  end
      end
  | _ => match begin e with Some t => Some (MkSys (s_net s) (s_ts s ++ [t])) | None => None end
  end.
