(* What calls on in-memory sockets are supposed to answer, without pointers: a socket is one end of
   a link; a link is up or down, as a whole; a socket made without a server is the only end of a
   link that stays down. *)
From Coq Require Import List Arith ZArith Bool.
From Verif Require Import BaseBytes BaseConc ModelSocket.
Import ListNotations.
Open Scope nat_scope.

Record link := MkLink {
  l_server : option nat;      (* the transport, if any *)
  l_size : nat;               (* bytes a message may have *)
  l_up : bool;
  l_listed : bool }.          (* a Dial was accepted: to be closed when the transport shuts down *)
Record service := MkService { v_user : bool; v_ready : bool; v_size : nat; v_active : bool }.
Record world := MkWorld {
  w_services : list service;
  w_ends : list (bool * nat);                  (* per socket: is it the client's? and its link *)
  w_links : list link;
  w_new : list (nat * options * nat) }.
Definition empty_world : world := MkWorld [] [] [] [].

Definition peer (client : bool) (k : nat) : nat := if client then k - 1 else k + 1.
Definition turn (up listed : bool) (l : link) : link := MkLink (l_server l) (l_size l) up listed.
Definition of_service (t : nat) (l : link) : bool :=
  match l_server l with Some u => u =? t | None => false end.
Definition with_link (w : world) (p : nat) (l : link) : world :=
  MkWorld (w_services w) (w_ends w) (set_nth (w_links w) p l) (w_new w).
Definition with_pair (w : world) (t size : nat) : world :=
  let p := length (w_links w) in
  MkWorld (w_services w) (w_ends w ++ [(false, p); (true, p)]) (w_links w ++ [MkLink (Some t) size false false]) (w_new w).
(* the end that k is, with its link *)
Definition end_of (w : world) (k : nat) : option (bool * nat * link) :=
  match nth_error (w_ends w) k with
  | Some (client, p) => match nth_error (w_links w) p with Some l => Some (client, p, l) | None => None end
  | None => None
  end.

Definition spec_dial (w : world) (k p : nat) (l : link) (o : options) (shutting : bool) : world * answer :=
  match l_server l with
  | None => (w, Unreachable)
  | Some t =>
      match nth_error (w_services w) t with
      | None => (w, Panics)
      | Some v =>
          let o := if v_user v then o else zero_options in
          if o_refuse o then (w, Refused)
          else if l_up l then (w, Already)
          else if shutting then (with_link w p (turn true false l), ShuttingDown)
          else if negb (v_active v) then (with_link w p (turn true false l), Closed)
          else
            let w := with_link w p (turn true true l) in
            (MkWorld (w_services w) (w_ends w) (w_links w) (w_new w ++ [(t, o, peer true k)]), Nil)
      end
  end.

Definition spec_step (w : world) (c : call) : world * answer :=
  match c with
  | CTransport user =>
      (MkWorld (w_services w ++ [MkService user false 0 false]) (w_ends w) (w_links w) (w_new w),
       Made (length (w_services w)))
  | CInitialize t size =>
      match nth_error (w_services w) t with
      | None => (w, Panics)
      | Some v =>
          (MkWorld (set_nth (w_services w) t (MkService (v_user v) true size true)) (w_ends w)
             (map (fun l => if of_service t l then turn (l_up l) false l else l) (w_links w)) (w_new w), Nil)
      end
  | CPair t =>
      match nth_error (w_services w) t with
      | None => (w, Panics)
      | Some v => if v_size v =? 0 then (w, Panics)
                  else (with_pair w t (v_size v), MadePair (length (w_ends w)) (length (w_ends w) + 1))
      end
  | CSocket None =>
      (MkWorld (w_services w) (w_ends w ++ [(true, length (w_links w))])
         (w_links w ++ [MkLink None 1 false false]) (w_new w), Made (length (w_ends w)))
  | CSocket (Some t) =>
      match nth_error (w_services w) t with
      | None => (w, Panics)
      | Some v => if v_size v =? 0 then (w, Panics)
                  else (with_pair w t (v_size v), Made (length (w_ends w) + 1))
      end
  | CShutdown t _ =>
      match nth_error (w_services w) t with
      | None => (w, Panics)
      | Some v =>
          if v_active v then
            (MkWorld (set_nth (w_services w) t (MkService (v_user v) (v_ready v) (v_size v) false)) (w_ends w)
               (map (fun l => if of_service t l && l_listed l then turn false false l else l) (w_links w)) (w_new w), Nil)
          else (w, Nil)
      end
  | CDial k o d =>
      match end_of w k with
      | None => (w, Panics)
      | Some (false, _, _) => (w, NotClient)
      | Some (true, p, l) => spec_dial w k p l o d
      end
  | CClose k =>
      match end_of w k with
      | None => (w, Panics)
      | Some (_, p, l) => (with_link w p (turn false false l), Nil)
      end
  | CIsConnected k =>
      match end_of w k with None => (w, Panics) | Some (_, _, l) => (w, IsIt (l_up l)) end
  | CRemoteAddr k =>
      match end_of w k with
      | None => (w, Panics)
      | Some (client, _, l) =>
          (w, Addr (Some (match l_server l with Some _ => Some (peer client k) | None => None end)))
      end
  | CWrite k p =>
      match end_of w k with
      | None => (w, Panics)
      | Some (_, _, l) => (w, if l_up l then Wrote (length p <=? l_size l) else Disconnected)
      end
  | CRead k =>
      match end_of w k with
      | None => (w, Panics)
      | Some (_, _, l) => (w, if l_up l then Reading else ReadClosed)
      end
  end.
Fixpoint spec_run (w : world) (l : list call) : world * list answer :=
  match l with
  | [] => (w, [])
  | c :: l => let '(w1, a) := spec_step w c in let '(w2, r) := spec_run w1 l in (w2, a :: r)
  end.

(* ---------- statements about histories ---------- *)
(* what the calls l answered, and the sockets they left behind *)
Definition answers (l : list call) : list answer := snd (run empty_heap l).
Definition after (l : list call) : heap := fst (run empty_heap l).
(* the answer to c, had it been called after l *)
Definition says (l : list call) (c : call) : answer := snd (step (after l) c).
(* everything c is called on or with was made before *)
Definition known (l : list call) (c : call) : Prop :=
  match c with
  | CTransport _ | CSocket None => True
  | CInitialize t _ | CPair t | CSocket (Some t) | CShutdown t _ => t < length (h_trans (after l))
  | CDial k _ _ | CClose k | CIsConnected k | CRemoteAddr k | CWrite k _ | CRead k => k < length (h_socks (after l))
  end.
(* the successful dials *)
Definition dialed (c : call) (a : answer) : list (nat * options) :=
  match c, a with CDial k o _, Nil => [(k, o)] | _, _ => [] end.
Fixpoint dials (l : list call) (r : list answer) : list (nat * options) :=
  match l, r with c :: l, a :: r => dialed c a ++ dials l r | _, _ => [] end.
(* the transport t was made with an OnBeforeCreation of the user's *)
Definition has_hook (l : list call) (t : nat) : bool :=
  match nth_error (h_trans (after l)) t with
  | Some x => match t_hook x with HookUser => true | _ => false end
  | None => false
  end.
(* c can change whether socket j is connected *)
Definition concerns (l : list call) (c : call) (j : nat) : Prop :=
  match c with
  | CDial k _ _ | CClose k => k = j \/ says l (CRemoteAddr k) = Addr (Some (Some j))
  | CShutdown _ _ => True
  | _ => False
  end.
(* the buffer size given to the transport t by the last Initialize; 0: there was none *)
Definition configure (t : nat) (n : nat) (e : call * answer) : nat :=
  match e with (CInitialize u m, Nil) => if u =? t then m else n | _ => n end.
Definition buffer_size (l : list call) (t : nat) : nat := fold_left (configure t) (combine l (answers l)) 0.
(* two sockets were made together *)
Definition entangled (l : list call) (s c : nat) : Prop :=
  says l (CRemoteAddr s) = Addr (Some (Some c)) /\ says l (CRemoteAddr c) = Addr (Some (Some s)).
