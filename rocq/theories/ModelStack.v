(* Model of a server running over the in-memory transport: the dispatch machine (ModelDispatch) and
   the transport (ModelMemchan) joined where the code calls from one into the other, and Server.Run.
   - Socket.Dial starts handleConnection with the server socket of the pair:
     /repo/transport/memchan/transport.go:97-126, handleConnection.go:35-57; it asks the server
     whether it is shutting down: transport.go:103-106, newServer.go (isShuttingDown).
   - handleConnection writes the configuration message, closes the socket if that fails, and reads
     messages: handleConnection.go:8-48, 62-70.
   - replies are written through GetWriter: fulfillMsg.go, failMsg.go, failMsgShutdown.go.
   - unlink closes the socket: connection.go:129-139.
   - Server.Shutdown shuts the transport down: server.go:36-42, 57-71.
   - Server.Run is Transport.Serve: server.go:46-49, transport/memchan/transport.go:58-66.
   A thread of the server that calls the transport waits until its call has returned; the call is a
   thread of the transport. Clients (and Connection.Signal and the like) call the transport at any
   time.
   Simplifications: those of both models; the write of a session request's reply may have any
   content; what a hook passes on (options of a connection) is arbitrary. *)
From Coq Require Import List Arith ZArith Bool.
From Verif Require Import BaseBytes BaseConc ModelMessage ModelWrite ModelHandle SpecWrite.
From Verif Require ModelDispatch ModelMemchan.
Import ListNotations.
Open Scope nat_scope.

(* a call of Run: before its look at the status; waiting for the channel; returned nil or an error *)
Inductive run := RunStart | RunWait | RunNil | RunErr.
(* what a thread of the server asks of the transport *)
Inductive use :=
| UWrite (p : nat) (f : option bytes)   (* a message to the client of pair p; None: any *)
| URead (p : nat)
| UClose (p : nat)
| UDown.
(* a pair and the number of its reader channel when it was dialed (the number has no influence) *)
Definition origin := (nat * nat)%type.

Record stack := MkStack {
  k_conf : bytes;                    (* server.configMsg *)
  k_srv : ModelDispatch.sys;
  k_net : ModelMemchan.sys;
  k_chan : bool;                     (* Transport.shutdown is closed *)
  k_runs : list run;
  k_new : nat -> option origin;      (* socket of handleConnection, by thread of the server *)
  k_conn : nat -> option origin;     (* socket of a connection *)
  k_io : nat -> option (use * nat);  (* call of the transport a thread of the server is in *)
  k_text : nat -> option bytes }.    (* what a writer of the transport is to write *)

Definition put {A} (f : nat -> A) (i : nat) (x : A) : nat -> A := fun j => if j =? i then x else f j.
Definition with_srv (v : ModelDispatch.sys) (s : stack) : stack :=
  MkStack (k_conf s) v (k_net s) (k_chan s) (k_runs s) (k_new s) (k_conn s) (k_io s) (k_text s).
Definition with_net (n : ModelMemchan.sys) (s : stack) : stack :=
  MkStack (k_conf s) (k_srv s) n (k_chan s) (k_runs s) (k_new s) (k_conn s) (k_io s) (k_text s).
Definition with_runs (l : list run) (s : stack) : stack :=
  MkStack (k_conf s) (k_srv s) (k_net s) (k_chan s) l (k_new s) (k_conn s) (k_io s) (k_text s).
Definition close_shutdown (s : stack) : stack :=
  MkStack (k_conf s) (k_srv s) (k_net s) true (k_runs s) (k_new s) (k_conn s) (k_io s) (k_text s).
Definition with_new (i : nat) (o : origin) (s : stack) : stack :=
  MkStack (k_conf s) (k_srv s) (k_net s) (k_chan s) (k_runs s) (put (k_new s) i (Some o)) (k_conn s) (k_io s) (k_text s).
Definition with_conn (c : nat) (o : option origin) (s : stack) : stack :=
  MkStack (k_conf s) (k_srv s) (k_net s) (k_chan s) (k_runs s) (k_new s) (put (k_conn s) c o) (k_io s) (k_text s).
Definition with_io (i : nat) (u : option (use * nat)) (s : stack) : stack :=
  MkStack (k_conf s) (k_srv s) (k_net s) (k_chan s) (k_runs s) (k_new s) (k_conn s) (put (k_io s) i u) (k_text s).
Definition with_text (j : nat) (f : option bytes) (s : stack) : stack :=
  MkStack (k_conf s) (k_srv s) (k_net s) (k_chan s) (k_runs s) (k_new s) (k_conn s) (k_io s) (put (k_text s) j f).

Notation sthread s i := (nth_error (ModelDispatch.s_ts (k_srv s)) i).
Notation nthread s j := (nth_error (ModelMemchan.s_ts (k_net s)) j).
Notation vsrv s := (ModelDispatch.s_srv (k_srv s)).
Notation vnet s := (ModelMemchan.s_net (k_net s)).

Definition pair_of (s : stack) (c : nat) : nat := match k_conn s c with Some (p, _) => p | None => 0 end.
(* the call a reply function makes: what WriteMsg* hands to a writer that takes everything is to be
   written; none if it fails before it asks for a writer *)
Definition reply (p : nat) (r : option (sent sink)) : option use :=
  match r with Some (Used w _) => Some (UWrite p (Some (s_bytes w))) | _ => None end.

(* the first call thread i of the server has to make in state t *)
Definition asks (s : stack) (i : nat) (t : ModelDispatch.thread) : option use :=
  let job c m j :=
    match j with
    | ModelDispatch.JRep r => reply (pair_of s c) (handleRequest sink_writer (Some empty_sink) m r)
    | ModelDispatch.JInt => Some (UWrite (pair_of s c) None)
    | ModelDispatch.JUnlink => Some (UClose (pair_of s c))
    | _ => None
    end in
  match t with
  | ModelDispatch.TNew _ => match k_new s i with Some (p, _) => Some (UWrite p (Some (k_conf s))) | None => None end
  | ModelDispatch.TRd c ModelDispatch.RWait => Some (URead (pair_of s c))
  | ModelDispatch.TRd c (ModelDispatch.RFail k m) =>
      reply (pair_of s c) (failMsgShutdown sink_writer (Some empty_sink) m)
  | ModelDispatch.TRd c (ModelDispatch.RJob k m j) => job c m j
  | ModelDispatch.TJob c k m j => job c m j
  | ModelDispatch.TRd c ModelDispatch.RUnlink | ModelDispatch.TClU c => Some (UClose (pair_of s c))
  | ModelDispatch.TShT => Some UDown
  | _ => None
  end.
(* the call it has to make now: the first one, or Socket.Close after the configuration message
   could not be written (handleConnection.go:40-46) *)
Definition next_use (s : stack) (i : nat) (t : ModelDispatch.thread) : option use :=
  match k_io s i with
  | None => asks s i t
  | Some (UWrite p _, j) =>
      match t, nthread s j with
      | ModelDispatch.TNew _, Some (ModelMemchan.TWrite _ (ModelMemchan.WDone ModelMemchan.WrRead)) => None
      | ModelDispatch.TNew _, Some (ModelMemchan.TWrite _ (ModelMemchan.WDone _)) => Some (UClose p)
      | _, _ => None
      end
  | _ => None
  end.
Definition call_of (buf : nat) (u : use) : ModelMemchan.ev :=
  match u with
  | UWrite p _ => ModelMemchan.EvWrite (p, ModelMemchan.Srv)
  | URead p => ModelMemchan.EvRead (p, ModelMemchan.Srv) (NewMessage buf) true
  | UClose p => ModelMemchan.EvClose (p, ModelMemchan.Srv)
  | UDown => ModelMemchan.EvDown
  end.
Definition text_of (u : use) : option bytes := match u with UWrite _ f => f | _ => None end.

(* the bytes reader j has read *)
Fixpoint read_by (j : nat) (l : list ModelMemchan.event) : option bytes :=
  match l with
  | [] => None
  | ModelMemchan.LRead i _ _ b :: l' => if i =? j then Some b else read_by j l'
  | _ :: l' => read_by j l'
  end.
(* the call has returned, and ch tells its result *)
Definition returned (s : stack) (u : use) (j : nat) (ch : ModelDispatch.choice) : bool :=
  match u, nthread s j, ch with
  | UWrite _ _, Some (ModelMemchan.TWrite _ (ModelMemchan.WDone r)), ModelDispatch.ChConf true =>
      match r with ModelMemchan.WrRead => true | _ => false end
  | UWrite _ _, Some (ModelMemchan.TWrite _ (ModelMemchan.WDone r)), ModelDispatch.ChWriter ok =>
      match r with ModelMemchan.WrDisconnected => negb ok | _ => ok end
  | UWrite _ _, Some (ModelMemchan.TWrite _ (ModelMemchan.WDone r)), ModelDispatch.Go => true
  | URead _, Some (ModelMemchan.TRead _ _ _ (ModelMemchan.RdDone r)), ModelDispatch.ChFrame b =>
      match r, read_by j (ModelMemchan.n_log (vnet s)) with
      | ModelMemchan.RdOk _, Some b' | ModelMemchan.RdBad, Some b' => bytes_eqb b b'
      | _, _ => false
      end
  | URead _, Some (ModelMemchan.TRead _ _ _ (ModelMemchan.RdDone r)), ModelDispatch.ChErr =>
      match r with ModelMemchan.RdClosed | ModelMemchan.RdTimeout => true | _ => false end
  | UClose _, Some (ModelMemchan.TClose _ ModelMemchan.ClDone), (ModelDispatch.Go | ModelDispatch.ChConf false) => true
  | UDown, Some (ModelMemchan.TDown ModelMemchan.ShDone), ModelDispatch.Go => true
  | _, _, _ => false
  end.

(* a write of writer j did not fit *)
Definition write_failed (j : nat) (l : list ModelMemchan.event) : bool :=
  existsb (fun e => match e with ModelMemchan.LWrite i _ _ false => i =? j | _ => false end) l.
(* steps of the transport that need nothing from the server, or only its shutdown flag. WriteMsg*
   and writeConfMessage close the writer when everything is written, or after the first failure *)
Definition net_ok (s : stack) (e : ModelMemchan.ev) : bool :=
  match e with
  | ModelMemchan.EvDown => false
  | ModelMemchan.EvRead k _ _ | ModelMemchan.EvClose k => match snd k with ModelMemchan.Clt => true | ModelMemchan.Srv => false end
  | ModelMemchan.EvWrite _ | ModelMemchan.EvDial _ => true
  | ModelMemchan.EvStep j ch =>
      match nthread s j, ch with
      | Some (ModelMemchan.TDial _ ModelMemchan.DlShut), ModelMemchan.ChShutting b => Bool.eqb b (ModelDispatch.v_shutdown (vsrv s))
      | Some (ModelMemchan.TDial _ ModelMemchan.DlAdd), _ => false
      | Some (ModelMemchan.TDown ModelMemchan.ShList), _ => k_chan s
      | Some (ModelMemchan.TWrite k ModelMemchan.WOpen), ModelMemchan.ChWrite _ =>
          match k_text s j with Some _ => negb (write_failed j (ModelMemchan.n_log (vnet s))) | None => true end
      | Some (ModelMemchan.TWrite k ModelMemchan.WOpen), ModelMemchan.ChClose =>
          let b := ModelMemchan.u_buf (ModelMemchan.n_sock (vnet s) k) in
          match k_text s j with
          | Some f => write_failed j (ModelMemchan.n_log (vnet s)) || bytes_eqb (ModelMemchan.slice b (ModelMemchan.b_len b)) f
          | None => true
          end
      | _, _ => true
      end
  end.

Inductive event :=
| ERun                                   (* Run is called *)
| ERunStep (i : nat)
| EChan                                  (* Shutdown of the transport closes the channel *)
| ENet (e : ModelMemchan.ev)
| EAccept (j : nat) (lim : Z)            (* Dial j starts handleConnection with that limit *)
| EUse (i : nat)                         (* thread i of the server calls the transport *)
| ESrv (e : ModelDispatch.ev).

(* transport.go:58-66 *)
Definition run_step (s : stack) (r : run) : option run :=
  match r with
  | RunStart => Some (if ModelMemchan.n_active (vnet s) then RunWait else RunErr)
  | RunWait => if k_chan s then Some RunNil else None
  | _ => None
  end.

Definition kstep (s : stack) (e : event) : option stack :=
  if ModelDispatch.v_crashed (vsrv s) || ModelMemchan.n_crashed (vnet s) then None else
  match e with
  | ERun => Some (with_runs (k_runs s ++ [RunStart]) s)
  | ERunStep i =>
      match nth_error (k_runs s) i with
      | Some r => match run_step s r with Some r' => Some (with_runs (set_nth (k_runs s) i r') s) | None => None end
      | None => None
      end
  | EChan => if ModelMemchan.n_active (vnet s) || k_chan s then None else Some (close_shutdown s)
  | ENet e =>
      if net_ok s e then match ModelMemchan.mstep (k_net s) e with Some n => Some (with_net n s) | None => None end else None
  | EAccept j lim =>
      match nthread s j with
      | Some (ModelMemchan.TDial p ModelMemchan.DlAdd) =>
          match ModelMemchan.mstep (k_net s) (ModelMemchan.EvStep j ModelMemchan.Go),
                ModelDispatch.dstep (k_srv s) (ModelDispatch.EvConnect lim) with
          | Some n, Some v =>
              Some (with_new (length (ModelDispatch.s_ts (k_srv s)))
                             (p, ModelMemchan.u_gen (ModelMemchan.n_sock (vnet s) (p, ModelMemchan.Srv)))
                             (with_net n (with_srv v s)))
          | _, _ => None
          end
      | _ => None
      end
  | EUse i =>
      match sthread s i with
      | Some t =>
          match next_use s i t with
          | Some u =>
              match ModelMemchan.mstep (k_net s) (call_of (ModelDispatch.v_buf (vsrv s)) u) with
              | Some n =>
                  let j := length (ModelMemchan.s_ts (k_net s)) in
                  Some (with_io i (Some (u, j)) (with_text j (text_of u) (with_net n s)))
              | None => None
              end
          | None => None
          end
      | None => None
      end
  | ESrv (ModelDispatch.EvConnect _) => None
  | ESrv (ModelDispatch.EvStep i ch) =>
      match sthread s i with
      | None => None
      | Some t =>
          let go := ModelDispatch.dstep (k_srv s) (ModelDispatch.EvStep i ch) in
          let done s' := match t, ch with
                         | ModelDispatch.TNew _, ModelDispatch.ChConf true =>
                             with_conn (ModelDispatch.v_n (vsrv s)) (k_new s i) s'
                         | _, _ => s'
                         end in
          match asks s i t, k_io s i with
          | None, _ => match t with
                       | ModelDispatch.TNew _ => None
                       | _ => match go with Some v => Some (with_srv v s) | None => None end
                       end
          | Some _, Some (u, j) =>
              if returned s u j ch
              then match go with Some v => Some (done (with_io i None (with_srv v s))) | None => None end
              else None
          | Some _, None => None
          end
      end
  | ESrv e => match ModelDispatch.dstep (k_srv s) e with Some v => Some (with_srv v s) | None => None end
  end.

(* newServer.go; the transport is initialized: transport.go:34-56 *)
Definition new_stack (buf : nat) (conf : bytes) : stack :=
  MkStack conf (ModelDispatch.new_server buf) (ModelMemchan.new_sys buf) false []
          (fun _ => None) (fun _ => None) (fun _ => None) (fun _ => None).
