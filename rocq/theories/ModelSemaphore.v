(* Model of the vendored weighted semaphore, which limits concurrent handlers (server.go,
   registerHandler.go). Calls are threads; every section under s.mu is one step.
   Source: /repo/vendor/golang.org/x/sync/semaphore/semaphore.go
   int64 is modelled by Z: with weights >= 0 every intermediate value stays in range. *)
From Coq Require Import List Arith ZArith Bool.
From Verif Require Import BaseConc ModelMessage.
Import ListNotations.
Open Scope nat_scope.

(* calls in progress. AcW, AcC: the flag says whether the ready channel has been closed *)
Inductive sthread :=
| Ac0 (n : Z)                        (* Acquire called *)
| AcD (n : Z)                        (* line 54: waits for the context only *)
| AcW (n : Z) (ready : bool)         (* line 63: waits for the context or ready *)
| AcC (n : Z) (ready : bool)         (* line 66: context done, about to lock *)
| AcR (n : Z) (ok : bool)            (* returned; true: nil error *)
| Tr0 (n : Z) | TrR (n : Z) (ok : bool)       (* TryAcquire *)
| Re0 (n : Z) | ReR (n : Z) | ReP (n : Z).    (* Release; ReP: panicked *)

(* semaphore.go:32-37; a waiter is the thread that waits, with its weight (18-21).
   [arrived] records all threads ever put in the queue, in order; it has no influence. *)
Record sema := MkSema {
  s_size : Z; s_cur : Z; s_waiters : list (nat * Z); s_threads : list sthread; s_arrived : list nat }.
(* semaphore.go:25-28 *)
Definition NewWeighted (n : Z) : sema := MkSema n 0 [] [] [].

Definition sset (s : sema) (cur : Z) (ws : list (nat * Z)) (ts : list sthread) : sema :=
  MkSema (s_size s) cur ws ts (s_arrived s).

(* close(w.ready) *)
Definition wake (ts : list sthread) (t : nat) : list sthread :=
  match nth_error ts t with
  | Some (AcW n _) => set_nth ts t (AcW n true)
  | Some (AcC n _) => set_nth ts t (AcC n true)
  | _ => ts
  end.
(* semaphore.go:103-129 *)
Fixpoint admit_waiters (size cur : Z) (ws : list (nat * Z)) (ts : list sthread) : Z * list (nat * Z) * list sthread :=
  match ws with
  | [] => (cur, [], ts)
  | (t, n) :: rest =>
      if (size - cur <? n)%Z then (cur, ws, ts)
      else admit_waiters size (cur + n) rest (wake ts t)
  end.
(* waiters.Remove(elem) *)
Definition remove_waiter (ws : list (nat * Z)) (t : nat) : list (nat * Z) :=
  filter (fun w => negb (fst w =? t)) ws.

(* SeCtx: the context is done (and chosen by the select); SeRun: otherwise *)
Inductive schoice := SeCtx | SeRun.
(* one step of thread i, which is in state t *)
Definition sthread_step (s : sema) (i : nat) (t : sthread) (c : schoice) : option sema :=
  let put t' := set_nth (s_threads s) i t' in
  match t, c with
  (* 44-61 *)
  | Ac0 n, SeRun =>
      if (s_size s - s_cur s >=? n)%Z && (length (s_waiters s) =? 0)
      then Some (sset s (s_cur s + n) (s_waiters s) (put (AcR n true)))
      else if (n >? s_size s)%Z then Some (sset s (s_cur s) (s_waiters s) (put (AcD n)))
      else Some (MkSema (s_size s) (s_cur s) (s_waiters s ++ [(i, n)]) (put (AcW n false)) (s_arrived s ++ [i]))
  (* 54-55 *)
  | AcD n, SeCtx => Some (sset s (s_cur s) (s_waiters s) (put (AcR n false)))
  (* 63-66 *)
  | AcW n r, SeCtx => Some (sset s (s_cur s) (s_waiters s) (put (AcC n r)))
  (* 79-80 *)
  | AcW n true, SeRun => Some (sset s (s_cur s) (s_waiters s) (put (AcR n true)))
  (* 67-77 *)
  | AcC n true, SeRun => Some (sset s (s_cur s) (s_waiters s) (put (AcR n true)))
  | AcC n false, SeRun => Some (sset s (s_cur s) (remove_waiter (s_waiters s) i) (put (AcR n false)))
  (* 86-94 *)
  | Tr0 n, SeRun =>
      if (s_size s - s_cur s >=? n)%Z && (length (s_waiters s) =? 0)
      then Some (sset s (s_cur s + n) (s_waiters s) (put (TrR n true)))
      else Some (sset s (s_cur s) (s_waiters s) (put (TrR n false)))
  (* 97-131 *)
  | Re0 n, SeRun =>
      let cur := (s_cur s - n)%Z in
      if (cur <? 0)%Z then Some (sset s cur (s_waiters s) (put (ReP n)))
      else let '(cur', ws, ts) := admit_waiters (s_size s) cur (s_waiters s) (put (ReR n)) in
           Some (sset s cur' ws ts)
  | _, _ => None
  end.

Inductive scall := CallAcquire (n : Z) | CallTryAcquire (n : Z) | CallRelease (n : Z).
Definition sstart (c : scall) : sthread :=
  match c with CallAcquire n => Ac0 n | CallTryAcquire n => Tr0 n | CallRelease n => Re0 n end.
Inductive sevent := SvCall (c : scall) | SvStep (i : nat) (c : schoice).
Definition sstep (s : sema) (e : sevent) : option sema :=
  match e with
  | SvCall c => Some (MkSema (s_size s) (s_cur s) (s_waiters s) (s_threads s ++ [sstart c]) (s_arrived s))
  | SvStep i c => let? t := nth_error (s_threads s) i in sthread_step s i t c
  end.
