(* Several messages, one after the other, over one socket of the in-memory transport. *)
From Coq Require Import Strings.String.
From Coq Require Import List Arith NArith ZArith Bool.
From Verif Require Import BaseBytes ModelMessage ModelErrors SpecWire SpecWrite ModelSend SpecSend SpecReport.
From Verif Require ModelReport.
Import ListNotations.
Open Scope list_scope.
Open Scope nat_scope.

(* a message function and its arguments *)
Inductive letter :=
| LSignal (name : bytes) (e : encoding) (p : bytes) (safe : bool)
| LRequest (i name : bytes) (e : encoding) (p : bytes) (safe : bool)
| LReply (i : bytes) (e : encoding) (p : bytes)
| LError (i c m : bytes) (safe : bool)
| LSpecial (t : byte) (i : bytes)
| LHeartbeat
| LClosed
| LCreated (info : bytes)
| LRestore (i p : bytes)
| LClose (i p : bytes).
Definition function (broken : err -> bytes) (l : letter) (W : Type) (ops : ModelReport.text_ops W) (w : W) : option (W * option err) :=
  match l with
  | LSignal name e p safe => ModelReport.WriteMsgSignal broken ops w name e p safe
  | LRequest i name e p safe => ModelReport.WriteMsgRequest broken ops w i name e p safe
  | LReply i e p => ModelReport.WriteMsgReply broken ops w i e p
  | LError i c m safe => ModelReport.WriteMsgReplyError broken ops w i c m safe
  | LSpecial t i => ModelReport.WriteMsgSpecialRequestReply broken ops w t i
  | LHeartbeat => ModelReport.WriteMsgHeartbeat broken ops w
  | LClosed => ModelReport.WriteMsgNotifySessionClosed broken ops w
  | LCreated info => ModelReport.WriteMsgNotifySessionCreated broken ops w info
  | LRestore i p => ModelReport.WriteMsgNamelessRequest broken ops w (n2b 32) i p
  | LClose i p => ModelReport.WriteMsgNamelessRequest broken ops w (n2b 31) i p
  end.
(* GetWriter (transport/memchan/socket.go:121-135) and a message function (message/writeMsg*.go), for each in turn; one that blocks leaves the rest to others.
   What a panic leaves in the buffer is not modelled; sensible messages (below) do not panic *)
Inductive sending := Returned (e : option err) | Blocked | Panicked.
Fixpoint send_all (broken : err -> bytes) (connected : bool) (verdict : bytes -> option err) (ls : list letter) (w : wire) : wire * list sending :=
  match ls with
  | [] => (w, [])
  | l :: ls =>
      let '(w1, r) := match GetWriter w connected with
        | None => (w, Blocked)
        | Some (w1, inr e) => (w1, Returned (Some e))
        | Some (_, inl w1) => match function broken l _ (wire_ops connected verdict) w1 with None => (w1, Panicked) | Some (w2, e) => (w2, Returned e) end
        end in
      let '(w2, rs) := send_all broken connected verdict ls w1 in (w2, r :: rs)
  end.

(* the frame of a letter, or what is wrong with it *)
Inductive framed : letter -> bytes -> Prop :=
| F_signal name e p safe : valid_signal name e p safe -> framed (LSignal name e p safe) (signal_frame name e p)
| F_request i name e p safe : valid_request name e p safe -> framed (LRequest i name e p safe) (request_frame i name e p)
| F_reply i e p : utf16_ok e p -> framed (LReply i e p) (reply_frame i e p)
| F_error i c m safe : length c <= 255 -> valid_code c safe -> framed (LError i c m safe) (error_frame i c m)
| F_special t i : (1 <= t <= 5)%N -> framed (LSpecial (n2b t) i) (n2b t :: i)
| F_heartbeat : framed LHeartbeat [n2b 33]
| F_closed : framed LClosed [n2b 22]
| F_created info : framed (LCreated info) (n2b 21 :: info)
| F_restore i p : framed (LRestore i p) (n2b 32 :: i ++ p)
| F_close i p : framed (LClose i p) (n2b 31 :: i ++ p).
Inductive faulty : letter -> bytes -> Prop :=
| Y_signal name e p safe t : go_length name -> go_length p -> wrong_signal name e p safe t -> faulty (LSignal name e p safe) t
| Y_request i name e p safe t : go_length name -> go_length p -> wrong_request name e p safe t -> faulty (LRequest i name e p safe) t
| Y_reply i e p n : go_length p -> odd16 e p -> number (length p) n -> faulty (LReply i e p) (t$"invalid UTF16 reply payload data length: " ++ n)
| Y_error i c m safe t : go_length c -> wrong_code c safe t -> faulty (LError i c m safe) t
| Y_special t i n : ~ (1 <= b2N t <= 5)%N -> number (b2n t) n ->
    faulty (LSpecial t i) (t$"message type (" ++ n ++ t$") doesn't represent a special reply message").

(* what becomes of a series on a connected socket: all frames go out up to the first message that is faulty or does
   not fit; that one returns its error, and all behind it block *)
Inductive series (cap : nat) (verdict : bytes -> option err) : list letter -> list bytes -> list sending -> Prop :=
| S_none : series cap verdict [] [] []
| S_sent l ls b bs rs : framed l b -> length b <= cap -> series cap verdict ls bs rs ->
    series cap verdict (l :: ls) (b :: bs) (Returned (verdict b) :: rs)
| S_large l ls b : framed l b -> cap < length b ->
    series cap verdict (l :: ls) [] (Returned (Some (Foreign (Some t$"message buffer overflow: no data written"))) :: map (fun _ => Blocked) ls)
| S_faulty l ls t : faulty l t ->
    series cap verdict (l :: ls) [] (Returned (Some (Foreign (Some (t ++ t$": no data written")))) :: map (fun _ => Blocked) ls).
(* Go's slices, and error codes that do not panic (C22) *)
Definition sensible (l : letter) : Prop :=
  match l with
  | LSignal name _ p _ | LRequest _ name _ p _ => go_length name /\ go_length p
  | LReply _ _ p => go_length p
  | LError _ c _ safe => go_length c /\ (safe = false -> length c <= 255)
  | _ => True
  end.

(* the socket may be closed before any of the calls, or between GetWriter and the writer's Close: for each message,
   whether it is connected at the one and at the other *)
Fixpoint send_each (broken : err -> bytes) (verdict : bytes -> option err) (ls : list (letter * bool * bool)) (w : wire) : wire * list sending :=
  match ls with
  | [] => (w, [])
  | (l, open, still_open) :: ls =>
      let '(w1, r) := match GetWriter w open with
        | None => (w, Blocked)
        | Some (w1, inr e) => (w1, Returned (Some e))
        | Some (_, inl w1) => match function broken l _ (wire_ops still_open verdict) w1 with None => (w1, Panicked) | Some (w2, e) => (w2, Returned e) end
        end in
      let '(w2, rs) := send_each broken verdict ls w1 in (w2, r :: rs)
  end.
Definition closed_error : err := Foreign (Some t$"can't write to a closed socket").
Inductive interrupted (cap : nat) (verdict : bytes -> option err) : list (letter * bool * bool) -> list bytes -> list sending -> Prop :=
| I_none : interrupted cap verdict [] [] []
| I_sent l ls b bs rs : framed l b -> length b <= cap -> interrupted cap verdict ls bs rs ->
    interrupted cap verdict ((l, true, true) :: ls) (b :: bs) (Returned (verdict b) :: rs)
| I_closed l c ls bs rs : interrupted cap verdict ls bs rs ->
    interrupted cap verdict ((l, false, c) :: ls) bs (Returned (Some (ErrDisconnected (Some closed_error))) :: rs)
| I_late l ls b bs rs : framed l b -> length b <= cap -> interrupted cap verdict ls bs rs ->
    interrupted cap verdict ((l, true, false) :: ls) bs (Returned (Some closed_error) :: rs)
| I_large l c ls b : framed l b -> cap < length b ->
    interrupted cap verdict ((l, true, c) :: ls) [] (Returned (Some (Foreign (Some t$"message buffer overflow: no data written"))) :: map (fun _ => Blocked) ls)
| I_faulty l c ls t : faulty l t ->
    interrupted cap verdict ((l, true, c) :: ls) [] (Returned (Some (Foreign (Some (t ++ t$": no data written")))) :: map (fun _ => Blocked) ls).
(* no message that is faulty or does not fit gets hold of the writer *)
Definition harmless (cap : nat) (ls : list (letter * bool * bool)) : Prop :=
  Forall (fun x => snd (fst x) = true -> exists b, framed (fst (fst x)) b /\ length b <= cap) ls.
