(* The reasons for which calls on in-memory sockets fail. *)
From Coq Require Import List Arith NArith ZArith Bool.
From Verif Require Import BaseBytes BaseConc ModelMessage ModelMemchan SpecMemchan.
Import ListNotations.
Open Scope nat_scope.

(* what holds when event x is logged by the step e from s to s' *)
Definition reason (s : sys) (e : ev) (s' : sys) (x : event) : Prop :=
  match x with
  (* Read: the socket was closed, and not by this call *)
  | LReader i k RdClosed => off s (fst k) /\ forall t k' c, at_ s i t -> closing t = Some (k', c) -> mid_close c = false
  (* Read: it had a deadline, and the socket is closed now *)
  | LReader i k RdTimeout => (exists m st, at_ s i (TRead k m true st)) /\ off s' (fst k)
  (* Read: the message it was given accepts or rejects the bytes read *)
  | LReader i k (RdOk m') => exists m d st g b, at_ s i (TRead k m d st) /\ In (LRead i k g b) (mlog s) /\ ReadBytes m b = Some (m', true, None)
  | LReader i k RdBad => exists m d st g b m' ok er, at_ s i (TRead k m d st) /\ In (LRead i k g b) (mlog s) /\
      ReadBytes m b = Some (m', ok, er) /\ (ok = false \/ er <> None)
  (* GetWriter, Close of a writer: the socket was closed *)
  | LWriter i k (WrDisconnected | WrClosed | WrSockClosed) => off s (fst k)
  | LWriter i k WrEmpty => pending i (mlog s) = []
  | LWriter i k WrRead => exists g, In (LSend i k g (pending i (mlog s))) (mlog s)
  (* Dial *)
  | LDialed i p DlRefused => e = EvStep i (ChAccept false)
  | LDialed i p DlAlready => connected s p
  | LDialed i p DlShutting => e = EvStep i (ChShutting true)
  | LDialed i p DlClosed => n_active (s_net s) = false
  | LDialed i p DlNil => In p (n_conns (s_net s'))
  | _ => True
  end.
(* the others need that pairs are not dialed while they are in use *)
Definition sure (x : event) : bool :=
  match x with LReader _ _ (RdClosed | RdTimeout) | LWriter _ _ (WrClosed | WrSockClosed) => false | _ => true end.
