(* Model of how in-memory sockets are made, paired and addressed, and what a connection tells about
   its socket: /repo/transport/memchan/newSocket.go:10-66, entangleSockets.go:4-25,
   newEntangledSockets.go:4-9, clientTransport.go:15-27, remoteAddress.go:8-20, transport.go:18-56,
   67-89, 98-133, socket.go:22-65, 87-135, 150-162, 205-218, 253-304, buffer.go:20-53,
   /repo/connection.go:15-95, 141-160, /repo/connectionOptions.go:16-33.
   Pointers are numbers: of transports, of sockets, of status cells. Calls are made one after the
   other (ModelMemchan has them overlap). A nil dereference or a panic is None. Read and GetWriter
   on a connected socket go on as in ModelMemchan; here only how they begin. Timers and locks are
   left out; the reader channel is open or closed. *)
From Coq Require Import List Arith ZArith Bool.
From Verif Require Import BaseBytes BaseConc ModelMessage ModelMemchan.
Import ListNotations.
Open Scope nat_scope.

(* connectionOptions.go:16-33. Values of Info are opaque numbers *)
Record options := MkOptions { o_info : option (list (Z * nat)); o_refuse : bool; o_limit : Z }.
Definition zero_options : options := MkOptions None false 0.

(* socket.go:19-30 *)
Inductive sock_type := SocketUninitialized | SocketServer | SocketClient.
(* socket.go:34-65 *)
Record sock := MkSock {
  so_server : option nat;
  so_type : sock_type;
  so_remote : option nat;
  so_status : option nat;
  so_open : bool;          (* the reader channel is not closed *)
  so_size : nat }.         (* bytes of the outbound buffer *)

(* OnBeforeCreation: nil, the one Initialize puts in its place, or the user's *)
Inductive hook := HookNil | HookDefault | HookUser.
(* transport.go:18-32. t_ready: Initialize was called, hence callbacks, map and lock are not nil *)
Record transport := MkTransport {
  t_hook : hook; t_ready : bool; t_size : nat; t_conns : list nat; t_active : bool }.

Record heap := MkHeap {
  h_trans : list transport;
  h_socks : list sock;
  h_cells : list bool;                       (* status cells; true: statusConnected *)
  h_new : list (nat * options * nat) }.      (* onNewConnection: transport, options, socket *)
Definition empty_heap : heap := MkHeap [] [] [] [].

Definition set_trans (h : heap) (t : nat) (x : transport) : heap :=
  MkHeap (set_nth (h_trans h) t x) (h_socks h) (h_cells h) (h_new h).
Definition set_sock (h : heap) (k : nat) (s : sock) : heap :=
  MkHeap (h_trans h) (set_nth (h_socks h) k s) (h_cells h) (h_new h).
Definition set_cell (h : heap) (c : nat) (b : bool) : heap :=
  MkHeap (h_trans h) (h_socks h) (set_nth (h_cells h) c b) (h_new h).
Definition new_cell (h : heap) (b : bool) : heap * nat :=
  (MkHeap (h_trans h) (h_socks h) (h_cells h ++ [b]) (h_new h), length (h_cells h)).
Definition new_sock (h : heap) (s : sock) : heap * nat :=
  (MkHeap (h_trans h) (h_socks h ++ [s]) (h_cells h) (h_new h), length (h_socks h)).

(* buffer.go:20-34 *)
Definition NewBuffer (size : nat) : option nat := if size <? 1 then None else Some size.
(* newSocket.go:10-36 *)
Definition newSocket (h : heap) (server : option nat) (bufferSize : nat) : option (heap * nat) :=
  let? size := NewBuffer bufferSize in
  Some (new_sock h (MkSock server SocketUninitialized None None true size)).
(* newSocket.go:39-66 *)
Definition newDisconnectedSocket (h : heap) : option (heap * nat) :=
  let '(h, c) := new_cell h false in
  let? size := NewBuffer 1 in
  Some (new_sock h (MkSock None SocketClient None (Some c) true size)).
(* entangleSockets.go:4-25 *)
Definition entangleSockets (h : heap) (server client : nat) : option heap :=
  let? s := nth_error (h_socks h) server in
  let? c := nth_error (h_socks h) client in
  match so_status s, so_status c with
  | None, None =>
      let '(h, x) := new_cell h false in
      let h := set_sock h server (MkSock (so_server s) SocketServer (Some client) (Some x) (so_open s) (so_size s)) in
      Some (set_sock h client (MkSock (so_server c) SocketClient (Some server) (Some x) (so_open c) (so_size c)))
  | _, _ => None
  end.
(* newEntangledSockets.go:4-9 *)
Definition NewEntangledSockets (h : heap) (server : nat) : option (heap * (nat * nat)) :=
  let? t := nth_error (h_trans h) server in
  let? (h, srv) := newSocket h (Some server) (t_size t) in
  let? (h, clt) := newSocket h (Some server) (t_size t) in
  let? h := entangleSockets h srv clt in
  Some (h, (srv, clt)).
(* clientTransport.go:15-27 *)
Definition NewSocket (h : heap) (Server : option nat) : option (heap * nat) :=
  match Server with
  | None => newDisconnectedSocket h
  | Some t => let? (h, (_, clt)) := NewEntangledSockets h t in Some (h, clt)
  end.

(* transport.go:34-56 *)
Definition Initialize (h : heap) (t size : nat) : option heap :=
  let? x := nth_error (h_trans h) t in
  Some (set_trans h t (MkTransport (match t_hook x with HookNil => HookDefault | k => k end) true size [] true)).

(* socket.go:253-256 *)
Definition IsConnected (h : heap) (k : nat) : option bool :=
  let? s := nth_error (h_socks h) k in
  let? c := so_status s in nth_error (h_cells h) c.
(* socket.go:258-265, remoteAddress.go:8-20: nil, or the address of a socket, which may be nil itself *)
Definition RemoteAddr (h : heap) (k : nat) : option (option (option nat)) :=
  let? s := nth_error (h_socks h) k in
  Some (match so_type s with
        | SocketServer | SocketClient => Some (so_remote s)
        | SocketUninitialized => None
        end).

(* socket.go:157-162 *)
Definition resetReader (h : heap) (k : nat) : option heap :=
  let? s := nth_error (h_socks h) k in
  Some (set_sock h k (MkSock (so_server s) (so_type s) (so_remote s) (so_status s) true (so_size s))).
(* socket.go:150-155; closing a closed channel panics *)
Definition closeReader (h : heap) (k : nat) : option heap :=
  let? s := nth_error (h_socks h) k in
  if so_open s then
    Some (set_sock h k (MkSock (so_server s) (so_type s) (so_remote s) (so_status s) false (so_size s)))
  else None.

Inductive answer :=
| Made (k : nat)                           (* a new transport or socket *)
| MadePair (srv clt : nat)
| Nil
| IsIt (b : bool)
| Addr (a : option (option nat))           (* a net.Addr: nil, or the address of a socket *)
| NotClient                                (* cannot dial on a non-client socket *)
| Unreachable                              (* ErrDisconnected: server unreachable *)
| Refused | Already | ShuttingDown | Closed | Uninitialized
| Disconnected                             (* GetWriter: ErrDisconnected *)
| Wrote (ok : bool)                        (* a writer, and what Write said: n bytes, or an overflow *)
| ReadClosed                               (* Read: an error with IsCloseErr *)
| Reading                                  (* Read awaits a message *)
| Panics.

(* transport.go:98-126 *)
Definition onConnect (h : heap) (t k : nat) (o : options) (shutting : bool) : option (heap * answer) :=
  let? x := nth_error (h_trans h) t in
  let? s := nth_error (h_socks h) k in
  if negb (t_ready x) then None
  else if shutting then Some (h, ShuttingDown)
  else if negb (t_active x) then Some (h, Closed)
  else match so_remote s, so_status s with
  | Some r, Some _ =>
      let l := if existsb (Nat.eqb r) (t_conns x) then t_conns x else t_conns x ++ [r] in
      let h := set_trans h t (MkTransport (t_hook x) (t_ready x) (t_size x) l (t_active x)) in
      Some (MkHeap (h_trans h) (h_socks h) (h_cells h) (h_new h ++ [(t, o, r)]), Nil)
  | _, _ => Some (h, Uninitialized)
  end.
(* socket.go:87-118. o: what the user's OnBeforeCreation returns; shutting: what isShuttingdown does *)
Definition Dial (h : heap) (k : nat) (o : options) (shutting : bool) : option (heap * answer) :=
  let? s := nth_error (h_socks h) k in
  match so_type s with
  | SocketClient =>
      match so_server s with
      | None => Some (h, Unreachable)
      | Some t =>
          let? x := nth_error (h_trans h) t in
          let? o := match t_hook x with HookNil => None | HookDefault => Some zero_options | HookUser => Some o end in
          if o_refuse o then Some (h, Refused)
          else
            let? c := so_status s in
            let? b := nth_error (h_cells h) c in
            if b then Some (h, Already)
            else
              let h := set_cell h c true in
              let? h := resetReader h k in
              let? r := so_remote s in
              let? h := resetReader h r in
              onConnect h t k o shutting
      end
  | _ => Some (h, NotClient)
  end.
(* transport.go:128-133 *)
Definition onDisconnect (h : heap) (t k : nat) : option heap :=
  let? x := nth_error (h_trans h) t in
  if t_ready x then
    Some (set_trans h t (MkTransport (t_hook x) (t_ready x) (t_size x)
                           (filter (fun j => negb (j =? k)) (t_conns x)) (t_active x)))
  else None.
(* socket.go:267-304 *)
Definition Close (h : heap) (k : nat) : option heap :=
  let? s := nth_error (h_socks h) k in
  let? c := so_status s in
  let? b := nth_error (h_cells h) c in
  if negb b then Some h
  else
    let h := set_cell h c false in
    let? r := so_remote s in
    let? h := closeReader h r in
    let? h := closeReader h k in
    let? t := so_server s in
    match so_type s with
    | SocketClient => onDisconnect h t r
    | _ => onDisconnect h t k
    end.
Fixpoint close_all (h : heap) (l : list nat) : option heap :=
  match l with
  | [] => Some h
  | k :: l => let? h := Close h k in close_all h l
  end.
(* range over a map goes in any order: the keys l in the order given by o *)
Definition walk (o l : list nat) : list nat :=
  filter (fun j => existsb (Nat.eqb j) l) (nodup Nat.eq_dec o) ++ filter (fun j => negb (existsb (Nat.eqb j) o)) l.
(* transport.go:67-89 *)
Definition Shutdown (h : heap) (t : nat) (order : list nat) : option heap :=
  let? x := nth_error (h_trans h) t in
  if t_active x then
    close_all (set_trans h t (MkTransport (t_hook x) (t_ready x) (t_size x) (t_conns x) false)) (walk order (t_conns x))
  else Some h.

(* socket.go:120-135, then one Write of p (buffer.go:40-53) *)
Definition write (h : heap) (k : nat) (p : bytes) : option answer :=
  let? s := nth_error (h_socks h) k in
  let? b := IsConnected h k in
  Some (if b then Wrote (snd (buf_write (new_buffer (so_size s)) p)) else Disconnected).
(* socket.go:205-218 *)
Definition read (h : heap) (k : nat) : option answer :=
  let? b := IsConnected h k in Some (if b then Reading else ReadClosed).

Inductive call :=
| CTransport (user : bool)                 (* &Transport{...}, with an OnBeforeCreation or not *)
| CInitialize (t size : nat)
| CPair (t : nat)                          (* NewEntangledSockets *)
| CSocket (Server : option nat)            (* ClientTransport{Server}.NewSocket *)
| CDial (k : nat) (o : options) (shutting : bool)
| CClose (k : nat)
| CIsConnected (k : nat)
| CRemoteAddr (k : nat)
| CWrite (k : nat) (p : bytes)
| CRead (k : nat)
| CShutdown (t : nat) (order : list nat).

Definition exec (h : heap) (c : call) : option (heap * answer) :=
  match c with
  | CTransport user =>
      Some (MkHeap (h_trans h ++ [MkTransport (if user then HookUser else HookNil) false 0 [] false])
                   (h_socks h) (h_cells h) (h_new h), Made (length (h_trans h)))
  | CInitialize t size => let? h := Initialize h t size in Some (h, Nil)
  | CPair t => let? (h, (s, c)) := NewEntangledSockets h t in Some (h, MadePair s c)
  | CSocket o => let? (h, k) := NewSocket h o in Some (h, Made k)
  | CDial k o d => Dial h k o d
  | CClose k => let? h := Close h k in Some (h, Nil)
  | CIsConnected k => let? b := IsConnected h k in Some (h, IsIt b)
  | CRemoteAddr k => let? a := RemoteAddr h k in Some (h, Addr a)
  | CWrite k p => let? a := write h k p in Some (h, a)
  | CRead k => let? a := read h k in Some (h, a)
  | CShutdown t o => let? h := Shutdown h t o in Some (h, Nil)
  end.
(* a call that panics leaves nothing anyone refers to *)
Definition step (h : heap) (c : call) : heap * answer :=
  match exec h c with Some r => r | None => (h, Panics) end.
Fixpoint run (h : heap) (l : list call) : heap * list answer :=
  match l with
  | [] => (h, [])
  | c :: l => let '(h1, a) := step h c in let '(h2, r) := run h1 l in (h2, a :: r)
  end.

(* ---------- connection.go ---------- *)
(* connection.go:15-51, as far as it does not change but for isActive *)
Record connection := MkConnection {
  cn_options : options; cn_active : bool; cn_creation : Z; cn_addr : option (option nat) }.
(* connection.go:53-85 *)
Definition newConnection (h : heap) (socket : option nat) (o : options) (now : Z) : option connection :=
  match socket with
  | None => Some (MkConnection o false now None)
  | Some k => let? a := RemoteAddr h k in Some (MkConnection o true now a)
  end.
(* connection.go:141-147; None: nil *)
Definition Info (c : connection) (key : Z) : option nat :=
  match o_info (cn_options c) with
  | None => None
  | Some m => let? (_, v) := find (fun e => (fst e =? key)%Z) m in Some v
  end.
