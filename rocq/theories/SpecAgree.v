(* The session functions of ModelFault, which have error values, and the threads of ModelSession, which have classes of
   results: the same function twice. *)
From Coq Require Import Strings.String.
From Coq Require Import List Arith NArith ZArith Bool.
From Verif Require Import BaseBytes ModelMessage ModelErrors ModelWrite SpecWrite SpecReport SpecLog.
From Verif Require ModelSession ModelReport ModelLog ModelFault.
Import ListNotations.
Open Scope list_scope.
Open Scope nat_scope.

(* a class of failures and an error value, after n calls of a writer whose calls fail as told *)
Definition kind (broken : err -> bytes) (errs : nat -> option err) (n : nat) (w : werr) (e : err) : Prop :=
  match w with
  | WInvalid => n = 1 /\ errs 0 = None /\ exists t, e = Foreign (Some t)
  | WInvalidClose => n = 1 /\ exists t c, errs 0 = Some c /\ e = both broken (Foreign (Some t)) c
  | WWrite => exists j, n = S (S j) /\ errs j = Some e /\ errs (S j) = None
  | WWriteClose => exists j a c, n = S (S j) /\ errs j = Some a /\ errs (S j) = Some c /\ e = both broken a c
  | WClose => exists j, n = S j /\ errs j = Some e /\ forall i, i < j -> errs i = None
  end.
Definition same_kind (broken : err -> bytes) (errs : nat -> option err)
    (a : option (list call * option err)) (b : option (list call * option werr)) : Prop :=
  match a, b with
  | Some (l, Some e), Some (l', Some w) => l = l' /\ kind broken errs (length l) w e
  | Some (l, None), Some (l', None) => l = l'
  | None, None => True
  | _, _ => False
  end.

(* steps of a thread while no other thread runs *)
Fixpoint alone {S} (step : ModelSession.srv -> S -> ModelSession.choice -> option (ModelSession.srv * S))
    (g : ModelSession.srv) (s : S) (chs : list ModelSession.choice) : option (ModelSession.srv * S) :=
  match chs with
  | [] => Some (g, s)
  | ch :: chs => match step g s ch with Some (g', s') => alone step g' s' chs | None => None end
  end.
(* the calls of writers in a log *)
Definition calls_of (evs : list ModelSession.event) : list call :=
  flat_map (fun e => match e with ModelSession.LNotifyCreated _ _ _ _ l => l | ModelSession.LNotifyClosed _ _ l => l | _ => [] end) evs.
Definition key_on (g : ModelSession.srv) (c : nat) : option bytes := option_map ModelSession.x_key (ModelSession.g_sess g c).
(* the registry lets the session go with this connection *)
Definition last_one (c : nat) (g : ModelSession.srv) : bool :=
  match ModelSession.g_sess g c with
  | Some x => (snd (ModelSession.deregister (ModelSession.g_reg g) (ModelSession.x_key x) c) =? 0)%Z
  | None => false
  end.
(* the environment of a call: GetWriter's result, in the two models *)
Definition writer_of (gw : (nat -> option err) + err) : list call + err := match gw with inl _ => inl [] | inr e => inr e end.
Definition errs_of (gw : (nat -> option err) + err) : nat -> option err := match gw with inl errs => errs | inr _ => fun _ => None end.
Definition choice_of (gw : (nat -> option err) + err) : ModelSession.choice :=
  ModelSession.ChW (match gw with inl errs => Some (failing errs) | inr _ => None end).

Section Meaning.
Variables (broken : err -> bytes) (gw : (nat -> option err) + err) (n : nat).
Definition untold (e : err) : err := Foreign (Some (t$"Couldn't notify client about the session creation: " ++ printed broken e)).
(* the class of CreateSession's result and its error; sess: the session before, enc: what json.Marshal returns *)
Inductive create_means (sess : option bytes) (enc : bytes + err) : ModelSession.result -> option err -> Prop :=
| CM_nil : create_means sess enc ModelSession.RNil None
| CM_disabled : create_means sess enc ModelSession.RDisabled (Some ErrSessionsDisabled)
| CM_disconnected : create_means sess enc ModelSession.RDisconnected
    (Some (ErrDisconnected (Some (Foreign (Some t$"Can't create session on disconnected connection")))))
| CM_exists k : sess = Some k ->
    create_means sess enc ModelSession.RExists (Some (Foreign (Some (t$"Another session (" ++ k ++ t$") on this client is already active"))))
| CM_marshal e : enc = inr e ->
    create_means sess enc ModelSession.RMarshal (Some (untold (Foreign (Some (t$"Couldn't marshal session object: " ++ printed broken e)))))
| CM_writer e : gw = inr e -> create_means sess enc ModelSession.RNoWriter (Some (untold e))
| CM_write errs w e : gw = inl errs -> kind broken errs n w e -> create_means sess enc (ModelSession.RWrite w) (Some (untold e)).
Inductive close_means : ModelSession.result -> option err -> Prop :=
| QM_nil : close_means ModelSession.RNil None
| QM_disabled : close_means ModelSession.RDisabled (Some ErrSessionsDisabled)
| QM_writer e : gw = inr e -> close_means ModelSession.RNoWriter (Some e)
| QM_write errs w e : gw = inl errs -> kind broken errs n w e -> close_means (ModelSession.RWrite w) (Some e).
End Meaning.
