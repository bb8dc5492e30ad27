(* The server's own work: what is left to do when no new frame arrives and no new call is made. *)
From Coq Require Import List Arith ZArith Bool.
From Verif Require Import BaseBytes BaseConc ModelMessage ModelWrite ModelHandle ModelDispatch.
From Verif Require Import SpecWire SpecMessage SpecWrite SpecHandle SpecDispatch.
Import ListNotations.
Open Scope nat_scope.

(* steps that need neither a new connection or call nor an answer of sock.Read; hooks returning
   and writers being granted or not are among them *)
Definition own (e : ev) : bool :=
  match e with EvStep _ (ChFrame _) | EvStep _ ChErr => false | EvStep _ _ => true | _ => false end.
(* nothing is left to do *)
Definition at_rest (s : sys) : Prop := forall e, own e = true -> dstep s e = None.
(* the ways a goroutine can be at rest: returned; in sock.Read; in handlerSlots.Acquire while
   all slots of the connection are lost; in Shutdown, the ready channel not being closed *)
Definition resting (s : sys) (t : thread) : Prop :=
  match t with
  | TEnd | TRd _ REnd | TClR _ | TShR => True
  | TRd _ RWait => True
  | TRd c (RSlot _ _) => c_limit (v_conn (s_srv s) c) = Z.of_nat (count (leaked c) (slog s))
  | TShW => v_rdy (s_srv s) = false
  | _ => False
  end.
(* all slots of connection c were lost by refusing requests during shutdown *)
Definition exhausted (s : sys) (c : nat) : Prop :=
  (1 < c_limit (v_conn (s_srv s) c))%Z /\ c_limit (v_conn (s_srv s) c) = Z.of_nat (count (leaked c) (slog s)).

(* the steps that panic: refusing a request without a writer, replying to a request whose
   handler returned a nil *ErrRequest, closing the ready channel again *)
Definition nil_error (t : thread) : Prop :=
  exists c k m p, t = TRd c (RJob k m (JRep (p, EReqPtr None))) \/ t = TJob c k m (JRep (p, EReqPtr None)).
Definition leaving (t : thread) : Prop :=
  exists c k m, t = TRd c (RJob k m JOps) \/ t = TJob c k m JOps.
Definition refusing (t : thread) : Prop := exists c k m, t = TRd c (RFail k m).
Definition fatal (s : sys) (e : ev) : Prop :=
  exists i ch t, e = EvStep i ch /\ nth_error (s_ts s) i = Some t /\
    ((refusing t /\ ch = ChWriter false) \/ (nil_error t /\ ch = ChWriter true) \/
     (leaving t /\ ch = Go /\ v_shutdown (s_srv s) = true /\ v_rdy (s_srv s) = true /\
      (v_ops (s_srv s) mod 2 ^ 32 = 1)%Z)).
(* requests are refused only with a writer at hand, and no handler returns a nil *ErrRequest *)
Definition served (s : sys) (e : ev) : Prop :=
  match e with
  | EvStep i (ChWriter false) => forall c k m, nth_error (s_ts s) i <> Some (TRd c (RFail k m))
  | EvStep i (ChRet r) => snd r <> EReqPtr None
  | _ => True
  end.
Definition smooth (s : sys) (e : ev) : Prop := calm s e /\ served s e.
