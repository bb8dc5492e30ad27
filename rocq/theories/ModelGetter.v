(* Model of the session getters of a connection (/repo/connection.go:299-349, session.go:59-76).
   Each takes con.sessionLock for reading, so it waits while CreateSession or CloseSession hold it
   across a step (None). Session info objects are opaque, as in ModelSession; that the copy made by
   Clone is independent is the subject of C50 (ModelCopy). time.Time{} is 0. *)
From Coq Require Import List Arith NArith ZArith Bool.
From Verif Require Import BaseBytes BaseConc ModelSession.
Import ListNotations.
Open Scope nat_scope.

Inductive sgetter := SgHas | SgSession | SgKey | SgCreation | SgInfo (name : bytes).
Inductive svalue := SvHas (b : bool) | SvSession (x : option session) | SvKey (k : key) | SvTime (t : Z) | SvInfo (v : blob).

(* session.go:59-76; copy is SessionInfo.Copy, value below is SessionInfo.Value *)
Definition Clone (copy : blob -> blob) (x : option session) : option session :=
  match x with
  | None => None
  | Some x => Some (MkSession (x_key x) (x_creation x) (x_last x) (if (x_info x =? 0)%N then 0%N else copy (x_info x)))
  end.
Definition get_session (copy : blob -> blob) (value : blob -> bytes -> blob) (g : srv) (c : nat) (q : sgetter) : option svalue :=
  if locked g c then None else
  Some (match q, g_sess g c with
        (* connection.go:299-304 *)
        | SgHas, Some _ => SvHas true
        | SgHas, None => SvHas false
        (* :307-312 *)
        | SgSession, x => SvSession (Clone copy x)
        (* :315-324 *)
        | SgKey, None => SvKey []
        | SgKey, Some x => SvKey (x_key x)
        (* :327-336 *)
        | SgCreation, None => SvTime 0
        | SgCreation, Some x => SvTime (x_creation x)
        (* :339-348 *)
        | SgInfo name, None => SvInfo 0%N
        | SgInfo name, Some x => SvInfo (if (x_info x =? 0)%N then 0%N else value (x_info x) name)
        end).
