(* Runs of a timed socket and what its history says. Histories are listed latest event first. *)
From Coq Require Import List ZArith Bool.
From Verif Require Import BaseBytes ModelTimer.
Import ListNotations.
Open Scope Z_scope.

Inductive treach (fixed : bool) : tsock -> Prop :=
| TR_new now : treach fixed (new_tsock now)
| TR_step s e s' : treach fixed s -> timer_step fixed s e = Some s' -> treach fixed s'.
Fixpoint timed_run (fixed : bool) (s : tsock) (es : list tev) : option tsock :=
  match es with [] => Some s | e :: es' => match timer_step fixed s e with Some s' => timed_run fixed s' es' | None => None end end.

(* the call of Read a history is in: when it began and its deadline *)
Fixpoint reading (l : list tevent) : option (Z * option Z) :=
  match l with [] => None | LStart t d :: _ => Some (t, d) | _ :: l' => reading l' end.
(* the message waiting in the reader channel *)
Fixpoint arrived (l : list tevent) : option bytes :=
  match l with
  | [] => None
  | LPut _ b :: _ => Some b
  | LRes _ (TData _) :: _ | LDial _ :: _ => None
  | _ :: l' => arrived l'
  end.
(* an earlier Read stopped its timer only after its deadline, and no Read timed out since *)
Definition overdue (l : list tevent) : Prop :=
  exists la s lb t d, l = la ++ LStop s :: lb /\ reading lb = Some (t, Some d) /\ d <= s /\
    forall x, ~ In (LRes x TTimeout) la.
(* something happened that ends a wait *)
Definition wakes (e : tevent) : Prop :=
  match e with LPut _ _ | LShut _ | LRes _ _ | LStart _ _ => True | _ => False end.

(* steps of Read itself and of the timer, and the passing of time *)
Definition own (e : tev) : Prop := match e with TPut _ | TShut | TDial | TRead _ => False | _ => True end.
Fixpoint waiting_time (es : list tev) : Z :=
  match es with [] => 0 | TPass n :: es' => n + waiting_time es' | _ :: es' => waiting_time es' end.
(* the deadline of the Read in progress *)
Definition limit (p : rphase) : option Z :=
  match p with PArm d _ => Some d | PArmed d | PPark d | PHave d _ => d | PIdle | PEnd _ => None end.
(* the Read in progress can return without anybody's help before x has passed *)
Definition ends_by (fixed : bool) (s : tsock) (x : Z) : Prop :=
  exists es s', Forall own es /\ waiting_time es <= x /\ timed_run fixed s es = Some s' /\ t_ph s' = PIdle.
(* the socket is closed *)
Fixpoint shut (l : list tevent) : bool :=
  match l with [] => false | LShut _ :: _ => true | LDial _ :: _ => false | _ :: l' => shut l' end.
(* how the last wait ended *)
Fixpoint outcome (l : list tevent) : option tres :=
  match l with [] => None | LRes _ r :: _ => Some r | LStart _ _ :: _ => None | _ :: l' => outcome l' end.
