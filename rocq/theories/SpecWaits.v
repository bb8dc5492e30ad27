(* Who waits for whom in the in-memory transport: definitions of the statements. *)
From Coq Require Import List Arith NArith ZArith Bool.
From Verif Require Import BaseBytes BaseConc ModelMessage ModelMemchan SpecMemchan.
Import ListNotations.
Open Scope nat_scope.

(* a call on pair p *)
Definition on_pair (p : nat) (t : thread) : bool :=
  match t with
  | TWrite k _ | TRead k _ _ _ | TClose k _ => fst k =? p
  | TDial q _ | TDown (ShIn q _ _) => q =? p
  | TDown _ => false
  end.
(* no call on pair p can go on, but for writers that their owners may write to or close *)
Definition rests (p : nat) (s : sys) : Prop := forall j u, at_ s j u -> on_pair p u = true -> can_step s j -> exists k, u = TWrite k WOpen.
(* what an unfinished call then waits for *)
Definition waits_for (s : sys) (t : thread) : Prop :=
  match t with
  (* its owner *)
  | TWrite k WOpen => True
  (* an earlier writer, which waits for its owner or for a reader; or for nothing, after a Close without data *)
  | TWrite k WGet => (exists j, at_ s j (TWrite k WOpen) \/ at_ s j (TWrite k WParked)) \/ exists j, In (LWriter j k WrEmpty) (mlog s)
  (* a reader: the pair is connected, its message is the only one unread, nobody reads at the other end *)
  | TWrite k WParked =>
      connected s (fst k) /\ (exists g b, sent k g (mlog s) = got (remote k) g (mlog s) ++ [b]) /\
      forall j m d st, at_ s j (TRead (remote k) m d st) -> exists r, st = RdDone r
  (* an earlier reader, which waits for a writer *)
  | TRead k _ _ RdStart => exists j m g, at_ s j (TRead k m false (RdWait g))
  (* a writer: the pair is connected, all messages were read, none is being sent *)
  | TRead k _ d (RdWait g) =>
      d = false /\ connected s (fst k) /\ sent (remote k) g (mlog s) = got k g (mlog s) /\
      forall j st, at_ s j (TWrite (remote k) st) -> st = WGet \/ st = WOpen \/ exists r, st = WDone r
  | _ => False
  end.

(* steps of call i other than writes of its owner *)
Definition moves (i : nat) (es : list ev) : nat :=
  length (filter (fun e => match e with EvStep j (ChWrite _) => false | EvStep j _ => j =? i | _ => false end) es).
(* bounds *)
Definition most (t : thread) : nat :=
  match t with
  | TWrite _ _ => 7
  | TRead _ _ _ _ => 9
  | TClose _ _ => 6
  | TDial _ _ => 7
  | TDown (ShLoop todo) => 7 * length todo + 1
  | TDown (ShIn _ _ todo) => 7 * length todo + 7
  | TDown _ => 1
  end.
Definition listed (t : thread) : bool := match t with TDown (ShCAS | ShList) => false | _ => true end.
