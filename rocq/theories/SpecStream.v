(* What a reader delivers, independent of how it is cut into chunks. *)
From Coq Require Import List Arith.
From Verif Require Import BaseBytes ModelMessage ModelStream.
Import ListNotations.
Open Scope nat_scope.

(* the message at the head of a script: all bytes up to the first error/EOF, that error,
   and what the reader would deliver afterwards *)
Fixpoint stream (s : script) : bytes * rerr * script :=
  match s with
  | [] => ([], REof, [])
  | (c, None) :: r => let '(d, e, r') := stream r in (c ++ d, e, r')
  | (c, Some e) :: r => (c, e, r)
  end.
(* io.Reader discourages returning zero bytes with a nil error *)
Fixpoint polite (s : script) : Prop :=
  match s with
  | [] => True
  | (c, None) :: r => c <> [] /\ polite r
  | (_, Some _) :: _ => True
  end.
(* EOF is reported by a call of its own *)
Fixpoint eof_alone (s : script) : Prop :=
  match s with
  | [] => True
  | (_, None) :: r => eof_alone r
  | (c, Some REof) :: _ => c = []
  | (_, Some ROther) :: _ => True
  end.
