(* What users of a weighted semaphore rely on. *)
From Coq Require Import List Arith ZArith Bool.
From Verif Require Import BaseConc ModelSemaphore.
Import ListNotations.
Open Scope nat_scope.

(* runs: all interleavings; [ok] restricts the events *)
Inductive sreach (size : Z) (ok : sema -> sevent -> Prop) : sema -> Prop :=
| SR_new : sreach size ok (NewWeighted size)
| SR_step s e s' : sreach size ok s -> ok s e -> sstep s e = Some s' -> sreach size ok s'.
Fixpoint srun (s : sema) (es : list sevent) : option sema :=
  match es with [] => Some s | e :: es' => match sstep s e with Some s' => srun s' es' | None => None end end.

Definition weight_of (c : scall) : Z :=
  match c with CallAcquire n | CallTryAcquire n | CallRelease n => n end.
(* policies *)
Definition nonneg (s : sema) (e : sevent) : Prop :=
  match e with SvCall c => (0 <= weight_of c)%Z | _ => True end.
Definition uniform (w : Z) (s : sema) (e : sevent) : Prop :=
  match e with SvCall c => weight_of c = w | _ => True end.
Definition no_cancel (s : sema) (e : sevent) : Prop :=
  nonneg s e /\ match e with SvStep _ SeCtx => False | _ => True end.

(* weight a call has been granted (its ready channel is closed, or it returned success) *)
Definition granted_weight (t : sthread) : Z :=
  match t with AcR n true | TrR n true | AcW n true | AcC n true => n | _ => 0%Z end.
(* weight handed back *)
Definition released_weight (t : sthread) : Z := match t with ReR n | ReP n => n | _ => 0%Z end.
Definition held (s : sema) : Z := (zsum granted_weight (s_threads s) - zsum released_weight (s_threads s))%Z.
Definition panicked (s : sema) : Prop := exists i n, nth_error (s_threads s) i = Some (ReP n).

(* thread i waits in the queue for weight n *)
Definition waits (s : sema) (i : nat) (n : Z) : Prop :=
  nth_error (s_threads s) i = Some (AcW n false) \/ nth_error (s_threads s) i = Some (AcC n false).
Definition waitsb (ts : list sthread) (i : nat) : bool :=
  match nth_error ts i with Some (AcW _ false) | Some (AcC _ false) => true | _ => false end.
(* thread i was put in the queue and has been let in *)
Definition let_in (s : sema) (i : nat) : Prop :=
  In i (s_arrived s) /\
  match nth_error (s_threads s) i with
  | Some (AcW _ true) | Some (AcC _ true) | Some (AcR _ true) => True | _ => False end.
(* a before b in l *)
Definition before (l : list nat) (a b : nat) : Prop := exists l1 l2 l3, l = l1 ++ a :: l2 ++ b :: l3.

(* the call a thread makes; the calls made in a run *)
Definition call_of (t : sthread) : scall :=
  match t with
  | Ac0 n | AcD n | AcW n _ | AcC n _ | AcR n _ => CallAcquire n
  | Tr0 n | TrR n _ => CallTryAcquire n
  | Re0 n | ReR n | ReP n => CallRelease n
  end.
Definition calls (es : list sevent) : list scall := flat_map (fun e => match e with SvCall c => [c] | _ => [] end) es.
Definition returned (t : sthread) : bool := match t with AcR _ _ | TrR _ _ | ReR _ | ReP _ => true | _ => false end.
(* steps of thread i in a run, and how many there may be *)
Definition steps_of (i : nat) (es : list sevent) : nat :=
  length (filter (fun e => match e with SvStep j _ => j =? i | _ => false end) es).
Definition most (c : scall) : nat := match c with CallAcquire _ => 3 | CallTryAcquire _ | CallRelease _ => 1 end.
