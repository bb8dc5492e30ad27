(* What users of the in-memory transport rely on. *)
From Coq Require Import List Arith NArith ZArith Bool.
From Verif Require Import BaseBytes BaseConc ModelMessage ModelWrite ModelMemchan SpecWire SpecWrite.
Import ListNotations.
Open Scope nat_scope.

(* runs: all interleavings of calls that stay within states satisfying ok *)
Inductive mreach (size : nat) (ok : sys -> Prop) : sys -> Prop :=
| MR_new : mreach size ok (new_sys size)
| MR_step s e s' : mreach size ok s -> mstep s e = Some s' -> ok s' -> mreach size ok s'.
Fixpoint mrun (s : sys) (es : list ev) : option sys :=
  match es with [] => Some s | e :: es' => match mstep s e with Some s' => mrun s' es' | None => None end end.
Definition anything (s : sys) : Prop := True.
Notation mlog s := (n_log (s_net s)).
Notation connected s p := (n_on (s_net s) p = true).
Definition at_ (s : sys) (i : nat) (t : thread) : Prop := nth_error (s_ts s) i = Some t.

(* ----- the log ----- *)
(* every event relates to the log before it by P *)
Definition every (P : list event -> event -> Prop) (l : list event) : Prop :=
  forall l1 e l2, l = l1 ++ e :: l2 -> P l1 e.
(* what writer i has written since it was obtained, or since the last write that did not fit *)
Definition pending1 (i : nat) (acc : bytes) (e : event) : bytes :=
  match e with
  | LOpen j _ => if j =? i then [] else acc
  | LWrite j _ p ok => if j =? i then if ok then acc ++ p else [] else acc
  | _ => acc
  end.
Definition pending (i : nat) (l : list event) : bytes := fold_left (pending1 i) l [].
(* writer i of socket k was obtained and its Close did not return yet *)
Definition active (i : nat) (k : sock) (l : list event) : Prop :=
  In (LOpen i k) l /\ forall r, ~ In (LWriter i k r) l.
(* messages handed to the reader of remote k through its g-th channel, and messages read on k from
   its g-th channel *)
Definition sent (k : sock) (g : nat) (l : list event) : list bytes :=
  flat_map (fun e => match e with LSend _ k' g' b => if sock_eqb k' k && (g' =? g) then [b] else [] | _ => [] end) l.
Definition got (k : sock) (g : nat) (l : list event) : list bytes :=
  flat_map (fun e => match e with LRead _ k' g' b => if sock_eqb k' k && (g' =? g) then [b] else [] | _ => [] end) l.
Definition is_prefix {A} (a b : list A) : Prop := exists c, b = a ++ c.

(* C40, C41: what the log says about the writers *)
Definition writers (size : nat) (l : list event) (e : event) : Prop :=
  match e with
  | LOpen i k => forall j k' r, ~ In (LOpen i k') l /\ ~ In (LWriter i k' r) l /\ ~ In (LWriter j k WrEmpty) l
  | LWrite i k p ok =>
      active i k l /\ (forall j, active j k l -> j = i) /\
      ok = (length (pending i l) + length p <=? size)
  | LSend i k g b =>
      active i k l /\ (forall j, active j k l -> j = i) /\ (forall k' g' b', ~ In (LSend i k' g' b') l) /\
      b = pending i l /\ b <> []
  | LWriter i k r =>
      (forall j, ~ In (LWriter j k WrEmpty) l) /\
      match r with
      | WrDisconnected => forall k', ~ In (LOpen i k') l
      | WrEmpty => active i k l /\ pending i l = []
      | WrClosed => active i k l /\ pending i l <> [] /\ (forall k' g b, ~ In (LSend i k' g b) l)
      | WrRead | WrSockClosed => active i k l /\ exists g, In (LSend i k g (pending i l)) l
      end
  | _ => True
  end.

(* ----- threads ----- *)
(* a call in progress on pair p. Calls waiting for a lock and calls about to look at the status count
   as not begun *)
Definition mid_close (s : clstate) : bool := match s with ClStart | ClDone => false | _ => true end.
Definition busy (p : nat) (t : thread) : bool :=
  match t with
  | TWrite k s => (fst k =? p) && match s with WGet | WDone _ => false | _ => true end
  | TRead k _ _ s => (fst k =? p) && match s with RdStart | RdDone _ => false | _ => true end
  | TClose k s => (fst k =? p) && mid_close s
  | TDial q s => (q =? p) && match s with DlHook | DlCAS | DlDone _ => false | _ => true end
  | TDown (ShIn q s _) => (q =? p) && mid_close s
  | TDown _ => false
  end.
Definition dialing (p : nat) (t : thread) : bool :=
  match t with TDial q (DlReset1 | DlReset2) => q =? p | _ => false end.
(* pairs are dialed only while they are not in use, and not used until both readers are reset *)
Definition calm (s : sys) : Prop := forall i j p t u, i <> j ->
  at_ s i t -> at_ s j u -> dialing p t = true -> busy p u = false.

(* the call of Close that a thread is in *)
Definition closing (t : thread) : option (sock * clstate) :=
  match t with
  | TClose k s => Some (k, s)
  | TRead k _ _ (RdFail _ s) => Some (k, s)
  | TDown (ShIn p s _) => Some ((p, Srv), s)
  | _ => None
  end.
(* t is about to send on k, or to wait for the answer; about to receive or answer on k *)
Definition sending (k : sock) (t : thread) : bool :=
  match t with TWrite k' (WSend | WBlock | WSent) => sock_eqb k' k | _ => false end.
Definition receiving (k : sock) (t : thread) : bool :=
  match t with TRead k' _ _ (RdGet | RdWait _ | RdParse _ _ | RdAck _) => sock_eqb k' k | _ => false end.
(* Close starts only while no writer is about to send or to wait, and no message is both waited for
   and being read *)
Definition polite (s : sys) : Prop := forall i j h t u v k,
  at_ s i t -> closing t = Some (k, ClRemote) -> at_ s j u -> at_ s h v ->
  sending k u = false /\ sending (remote k) u = false /\
  (waits k u = true -> receiving (remote k) v = false) /\
  (waits (remote k) u = true -> receiving k v = false).

(* thread i can take a step *)
Definition can_step (s : sys) (i : nat) : Prop := exists ch s', mstep s (EvStep i ch) = Some s'.
Definition finished (t : thread) : bool :=
  match t with
  | TWrite _ (WDone _) | TRead _ _ _ (RdDone _) | TClose _ ClDone | TDial _ (DlDone _) | TDown ShDone => true
  | _ => false
  end.

(* ----- continuing from a state ----- *)
Inductive mfrom (ok : sys -> Prop) (s : sys) : sys -> Prop :=
| MF_here : mfrom ok s s
| MF_step s1 e s2 : mfrom ok s s1 -> mstep s1 e = Some s2 -> ok s2 -> mfrom ok s s2.

(* all writes of writer i that succeeded, joined; a write of i failed *)
Definition written (i : nat) (l : list event) : bytes :=
  flat_map (fun e => match e with LWrite j _ p true => if j =? i then p else [] | _ => [] end) l.
Definition failed (i : nat) (l : list event) : Prop := exists k p, In (LWrite i k p false) l.

(* C42: what the log says about the readers *)
Definition readers (l : list event) (e : event) : Prop :=
  match e with
  (* read from channel g on k: the one message sent to that channel that was not read yet *)
  | LRead i k g b => sent (remote k) g l = got k g l ++ [b]
  (* told that its message was read: it was, and so was everything before it *)
  | LWriter i k WrRead => exists g l0 b, In (LSend i k g b) l /\ sent k g l = l0 ++ [b] /\ got (remote k) g l = l0 ++ [b]
  | _ => True
  end.

(* C43 *)
Notation off s p := (n_on (s_net s) p = false).
(* no call of Close is working on pair p *)
Definition closed_up (s : sys) (p : nat) : Prop :=
  off s p /\ forall i t k c, at_ s i t -> closing t = Some (k, c) -> fst k = p -> mid_close c = false.
(* t is inside the Close of a writer, or inside Read, of a socket of pair p *)
Definition inside (p : nat) (t : thread) : bool :=
  match t with
  | TWrite k (WFlush | WSend | WBlock | WSent | WParked | WReset _) => fst k =? p
  | TRead k _ _ (RdGet | RdWait _ | RdParse _ _ | RdAck _ | RdFail _ _) => fst k =? p
  | _ => false
  end.
(* messages passed to Read were made by the constructor *)
Definition fit (t : thread) : Prop := match t with TRead _ m _ _ => length (m_ident m) = 8 | _ => True end.
Definition fitting (s : sys) : Prop := forall i t, at_ s i t -> fit t.
Definition orderly (s : sys) : Prop := calm s /\ polite s /\ fitting s.

(* C44, C45 *)
(* Dial has connected the pair and not returned yet *)
Definition past_cas (st : dlstate) : bool :=
  match st with DlReset1 | DlReset2 | DlShut | DlActive | DlAdd => true | _ => false end.
(* Dial failed after it had connected the pair *)
Definition leaked (p : nat) (l : list event) : Prop := exists i, In (LDialed i p DlShutting) l \/ In (LDialed i p DlClosed) l.
Definition no_dial (s : sys) : Prop := forall i p st, at_ s i (TDial p st) -> past_cas st = false.

(* connections announced to the server, and successful dials *)
Definition news (l : list event) : list nat := flat_map (fun e => match e with LNew p => [p] | LDialed _ p DlNil => [p] | _ => [] end) l.

(* ----- WriteMsg* calls on a memchan writer ----- *)
Definition on_writer (i : nat) (c : call) : ev :=
  match c with CWrite p => EvStep i (ChWrite p) | CClose => EvStep i ChClose end.
(* thread i, holding a writer of k, runs f on that writer until Close returns an error at once or
   begins to flush; s' is the state then and e what f returns (in case of a flush: depending on
   what Close will return). f sees the results the writer gives. *)
Definition called (f : forall W, writer_ops W -> W -> option (W * option werr)) (s : sys) (i : nat) (k : sock)
    (s' : sys) (e : option werr) : Prop :=
  exists fails cs, f _ (log_writer fails) [] = Some (cs, e) /\ mrun s (map (on_writer i) cs) = Some s' /\
    (forall n p, nth_error cs n = Some (CWrite p) ->
       nth_error (mlog s') (length (mlog s) + n) = Some (LWrite i k p (negb (fails n)))) /\
    (at_ s' i (TWrite k (WDone WrEmpty)) -> fails (length cs - 1) = true).

(* C75: goroutine i is about to copy bytes out of the buffer of socket k into a message; about to copy bytes into it *)
Definition taking (s : sys) (i : nat) (k : sock) : Prop := exists m d g l, at_ s i (TRead (remote k) m d (RdParse g l)).
Definition putting (s : sys) (i : nat) (k : sock) : Prop := at_ s i (TWrite k WOpen) /\ exists p s', mstep s (EvStep i (ChWrite p)) = Some s'.
