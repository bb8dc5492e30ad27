(* Use of a message pool by callers that keep to the rules: a message is read and closed
   only by whoever obtained it from Get, and closed at most once. *)
From Coq Require Import List Arith.
From Verif Require Import BaseBytes ModelMessage ModelPool.
Import ListNotations.
Open Scope nat_scope.

(* reachable pool states together with the addresses currently held by callers *)
Inductive pool_reach : pool -> list nat -> Prop :=
| PR_new size : pool_reach (NewSyncPool size) []
| PR_get p h k p' a : pool_reach p h -> Get p k = (p', a) -> pool_reach p' (a :: h)
| PR_read p h a b p' ok e : pool_reach p h -> In a h -> pool_read p a b = Some (p', ok, e) ->
    pool_reach p' h
| PR_close p h a p' : pool_reach p h -> In a h -> pool_close p a = Some p' ->
    pool_reach p' (remove Nat.eq_dec a h).
