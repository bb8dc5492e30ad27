(* What session getters promise. *)
From Coq Require Import List Arith NArith ZArith Bool.
From Verif Require Import BaseBytes BaseConc ModelMessage ModelSession ModelGetter SpecWire SpecMessage SpecHandle SpecSession.
Import ListNotations.
Open Scope nat_scope.

(* session requests are received frames *)
Definition from_frames (s : sys) : Prop := forall i c m st,
  nth_error (s_ts s) i = Some (TRestore c m st) -> exists b k, received m b k /\ k_type k = 32%N.
(* steps of other goroutines than i *)
Definition others (i : nat) (e : ev) : Prop := forall ch, e <> EvStep i ch.

(* CreateSession, connection.CloseSession and Server.CloseSession between the check of the session of c and the
   end of its creation or removal *)
Definition changing (c : nat) (t : thread) : bool :=
  match t with
  | TCreate c' _ (CNew | CNote _ | CSet _ | CReg) => c' =? c
  | TClose c' (QDereg _ | QNil) | TServer _ (SIn _ c' (QDereg _ | QNil) _) => c' =? c
  | _ => false
  end.
(* all getters of c have returned, telling that there is no session *)
Definition tells_none (get : sgetter -> option svalue) : Prop :=
  get SgHas = Some (SvHas false) /\ get SgSession = Some (SvSession None) /\ get SgKey = Some (SvKey []) /\
  get SgCreation = Some (SvTime 0) /\ forall name, get (SgInfo name) = Some (SvInfo 0%N).
(* all getters of c have returned, telling about session x; object 0 is nil *)
Definition tells (copy : blob -> blob) (value : blob -> bytes -> blob) (get : sgetter -> option svalue) (x : session) : Prop :=
  get SgHas = Some (SvHas true) /\ get SgKey = Some (SvKey (x_key x)) /\ get SgCreation = Some (SvTime (x_creation x)) /\
  (x_info x = 0%N -> get SgSession = Some (SvSession (Some x)) /\ forall name, get (SgInfo name) = Some (SvInfo 0%N)) /\
  (x_info x <> 0%N ->
   get SgSession = Some (SvSession (Some (MkSession (x_key x) (x_creation x) (x_last x) (copy (x_info x))))) /\
   forall name, get (SgInfo name) = Some (SvInfo (value (x_info x) name))).
(* no getter of c returns *)
Definition waits (get : sgetter -> option svalue) : Prop := forall q, get q = None.
(* call i is about to invoke OnSessionCreated / OnSessionClosed for connection c *)
Definition in_created (s : sys) (i c : nat) (info : blob) : Prop := nth_error (s_ts s) i = Some (TCreate c info CHook).
Definition in_closed (s : sys) (i c : nat) (t : thread) : Prop := nth_error (s_ts s) i = Some t /\ ending t = Some c.
