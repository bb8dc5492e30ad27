(* Model of reading from a memchan socket with a deadline, in real time.
   Source: /repo/transport/memchan/socket.go:163-251 (readWithoutDeadline, readWithDeadline, Read),
   newSocket.go:10-13 (the timer starts inactive and drained), handleConnection.go:67-70.
   ModelMemchan lets a deadline pass at any time; here the timer and the clock are modelled and
   the rest of the transport is reduced to what the reader sees: messages appear in the reader
   channel (capacity 1), the channel is closed, the socket is dialed again.
   Go's timers: a timer has at most one pending expiry (t_when); when it expires it puts a tick
   in its channel of capacity 1 (t_tick). Up to Go 1.22 Reset and Stop leave a tick in the channel
   where it is; since Go 1.23 they remove it (parameter fixed). The project is built with Go 1.11
   (.travis.yml). A goroutine blocked in a select or receive gets the first value that arrives.
   Simplifications: only one Read at a time (readLock); getReader and entering the select are one
   step; the payload is passed on as it is (parsing is in ModelMemchan). Times are integers. *)
From Coq Require Import List ZArith Bool.
From Verif Require Import BaseBytes.
Import ListNotations.
Open Scope Z_scope.

Inductive tres := TData (b : bytes) | TClosed | TTimeout.
Inductive tevent :=
| LStart (t : Z) (d : option Z)   (* Read called with deadline d; None: zero time *)
| LEnter (t : Z)                  (* begins to wait *)
| LPut (t : Z) (b : bytes)        (* a message arrives *)
| LShut (t : Z)                   (* the socket is closed *)
| LDial (t : Z)
| LRes (t : Z) (r : tres)         (* the wait ends *)
| LStop (t : Z)                   (* timer stopped *)
| LRet (t : Z) (r : tres).        (* Read returns *)

Inductive rphase :=
| PIdle
| PArm (d u : Z)                  (* time.Until(deadline) = u; readTimer.Reset to be called *)
| PArmed (d : option Z)           (* about to wait *)
| PPark (d : option Z)            (* blocked *)
| PHave (d : option Z) (r : tres) (* the wait is over *)
| PEnd (r : tres).                (* about to return *)

Record tsock := MkT {
  t_now : Z;
  t_when : option Z; t_tick : bool;      (* readTimer *)
  t_on : bool;                           (* status *)
  t_in : option bytes; t_closed : bool;  (* reader channel *)
  t_ph : rphase;
  t_log : list tevent }.                 (* latest first *)

Definition t_say (e : tevent) (s : tsock) : tsock :=
  MkT (t_now s) (t_when s) (t_tick s) (t_on s) (t_in s) (t_closed s) (t_ph s) (e :: t_log s).
Definition t_to (p : rphase) (s : tsock) : tsock :=
  MkT (t_now s) (t_when s) (t_tick s) (t_on s) (t_in s) (t_closed s) p (t_log s).
Definition t_timer (w : option Z) (k : bool) (s : tsock) : tsock :=
  MkT (t_now s) w k (t_on s) (t_in s) (t_closed s) (t_ph s) (t_log s).
Definition t_chan (i : option bytes) (c : bool) (s : tsock) : tsock :=
  MkT (t_now s) (t_when s) (t_tick s) (t_on s) i c (t_ph s) (t_log s).
Definition t_status (o : bool) (s : tsock) : tsock :=
  MkT (t_now s) (t_when s) (t_tick s) o (t_in s) (t_closed s) (t_ph s) (t_log s).
Definition t_clock (n : Z) (s : tsock) : tsock :=
  MkT n (t_when s) (t_tick s) (t_on s) (t_in s) (t_closed s) (t_ph s) (t_log s).

(* newSocket.go:10-13, then Dial *)
Definition new_tsock (now : Z) : tsock := MkT now None false true None false PIdle [].

(* the wait ends with r *)
Definition t_done (d : option Z) (r : tres) (s : tsock) : tsock :=
  t_to (PHave d r) (t_say (LRes (t_now s) r) s).

Inductive tpick := KTick | KData | KPark.   (* which case the select takes *)
Inductive tev :=
| TPass (n : Z)                 (* time passes *)
| TFire                         (* the timer expires *)
| TPut (b : bytes) | TShut | TDial
| TRead (d : option Z)
| TArm | TEnter (k : tpick) | TStop | TRet.

(* Socket.Close as far as the reader is concerned (socket.go:268-300) *)
Definition t_close (s : tsock) : tsock :=
  if t_on s then
    let s1 := t_say (LShut (t_now s)) (t_chan (t_in s) true (t_status false s)) in
    match t_ph s1 with PPark d => t_done d TClosed s1 | _ => s1 end
  else s.

Definition timer_step (fixed : bool) (s : tsock) (e : tev) : option tsock :=
  match e, t_ph s with
  | TPass n, _ => if 0 <=? n then Some (t_clock (t_now s + n) s) else None
  | TFire, p =>
      match t_when s with
      | Some w =>
          if w <=? t_now s then
            match p with
            | PPark (Some d) => Some (t_done (Some d) TTimeout (t_timer None (t_tick s) s))
            | _ => Some (t_timer None true s)
            end
          else None
      | None => None
      end
  | TPut b, p =>
      if t_closed s then None else
      match p with
      | PPark d => Some (t_done d (TData b) (t_say (LPut (t_now s) b) s))
      | _ => match t_in s with Some _ => None | None => Some (t_say (LPut (t_now s) b) (t_chan (Some b) false s)) end
      end
  | TShut, _ => if t_on s then Some (t_close s) else None
  | TDial, _ => if t_on s then None else Some (t_say (LDial (t_now s)) (t_chan None false (t_status true s)))
  (* socket.go:213-228 *)
  | TRead d, PIdle =>
      if t_on s then
        Some (t_to (match d with Some x => PArm x (x - t_now s) | None => PArmed None end) (t_say (LStart (t_now s) d) s))
      else Some s
  (* socket.go:182 *)
  | TArm, PArm d u => Some (t_to (PArmed (Some d)) (t_timer (Some (t_now s + u)) (if fixed then false else t_tick s) s))
  (* socket.go:167, 185-198 *)
  | TEnter KTick, PArmed (Some d) =>
      if t_tick s then Some (t_done (Some d) TTimeout (t_timer (t_when s) false (t_say (LEnter (t_now s)) s))) else None
  | TEnter KData, PArmed d =>
      match t_in s with
      | Some b => Some (t_done d (TData b) (t_chan None (t_closed s) (t_say (LEnter (t_now s)) s)))
      | None => if t_closed s then Some (t_done d TClosed (t_say (LEnter (t_now s)) s)) else None
      end
  | TEnter KPark, PArmed d =>
      if (match d with Some _ => t_tick s | None => false end) || (match t_in s with Some _ => true | None => false end) || t_closed s
      then None
      else Some (t_to (PPark d) (t_say (LEnter (t_now s)) s))
  (* socket.go:200 *)
  | TStop, PHave (Some d) r =>
      Some (t_to (PEnd r) (t_say (LStop (t_now s)) (t_timer None (if fixed then false else t_tick s) s)))
  | TStop, PHave None r => Some (t_to (PEnd r) s)
  (* socket.go:230-250 *)
  | TRet, PEnd r =>
      let s1 := t_to PIdle (t_say (LRet (t_now s) r) s) in
      Some (match r with TData _ => s1 | _ => t_close s1 end)
  | _, _ => None
  end.
