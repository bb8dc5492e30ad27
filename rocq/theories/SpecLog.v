(* What the server's logs are to contain. *)
From Coq Require Import Strings.String.
From Coq Require Import List Arith NArith ZArith Bool.
From Verif Require Import BaseBytes ModelMessage ModelHandle ModelErrors SpecWire SpecWrite ModelReport SpecReport ModelLog.
Import ListNotations.
Open Scope list_scope.
Open Scope nat_scope.

(* entries end with a newline; one is added if there is none *)
Definition newline : byte := n2b 10.
Inductive ended (t : bytes) : bytes -> Prop :=
| E_has u : t = u ++ [newline] -> ended t t
| E_add : (forall u, t <> u ++ [newline]) -> ended t (t ++ [newline]).
(* the log has one entry more, an error *)
Definition one (l : list entry) (t : bytes) : Prop := exists s, l = [(ErrorLog, s)] /\ ended t s.

(* an error as %v prints it *)
Definition printed_v (broken brokenv : err -> bytes) (e : err) : bytes :=
  match e with
  | NilPointer _ => t$"<nil>"
  | _ => match Error broken e with Some t => t | None => brokenv e end
  end.
(* an entry made of a text and an error: the operands of Println have a space between them *)
Definition with_error (broken brokenv : err -> bytes) (s : bytes) (e : err) : bytes := s ++ t$" " ++ printed_v broken brokenv e ++ [newline].
Definition with_connection (broken : err -> bytes) (s con : bytes) (e : err) : bytes := s ++ con ++ t$": " ++ printed broken e.

(* the frame is written to the connection chunk by chunk as far as the calls go well; the error of the first
   call that did not (if any) is logged *)
Definition replies (broken : err -> bytes) (errs : nat -> option err) (frame : bytes) (line : err -> bytes)
    (log : list entry) (res : option (option (list call))) : Prop :=
  exists chunks, concat chunks = frame /\ res = Some (Some (fst (run_calls (failing errs) 0 chunks))) /\
    match outcome broken errs 0 chunks with
    | None => log = [] /\ forall i, i <= length chunks -> errs i = None
    | Some e => one log (line e)
    end.
(* the frame cannot be written for the reason t: nothing is sent, the writer is closed, and that is logged *)
Definition refuses (broken : err -> bytes) (errs : nat -> option err) (t : bytes) (line : err -> bytes)
    (log : list entry) (res : option (option (list call))) : Prop :=
  res = Some (Some [CClose]) /\ one log (line (and_close broken (Foreign (Some t)) (errs 0))).
(* there is no writer: nothing is sent, and that is logged *)
Definition no_one (broken : err -> bytes) (con : bytes) (e : err) (log : list entry) : Prop :=
  one log (with_connection broken t$"couldn't get writer for connection " con e).

(* requests fail with an error of the request's own, or with a special reply *)
Inductive own_error : option err -> bytes -> bytes -> Prop :=
| OE_value c m : own_error (Some (ErrRequest c m)) c m
| OE_pointer c m : own_error (Some (Pointer (ErrRequest c m))) c m.
Inductive nil_error : option err -> Prop := NE_nil c m : nil_error (Some (NilPointer (ErrRequest c m))).
Definition is_own (e : option err) : Prop := (exists c m, own_error e c m) \/ nil_error e.
Inductive special_for : option err -> N -> bytes -> Prop :=
| SF_max : special_for (Some ErrMaxSessConnsReached) 4 t$"couldn't write max sessions reached message: "
| SF_unknown : special_for (Some ErrSessionNotFound) 3 t$"couldn't write session not found message: "
| SF_disabled : special_for (Some ErrSessionsDisabled) 5 t$"couldn't write sessions disabled message: "
| SF_internal e : ~ is_own e -> e <> Some ErrMaxSessConnsReached -> e <> Some ErrSessionNotFound -> e <> Some ErrSessionsDisabled ->
    special_for e 2 t$"couldn't write internal error message: ".

(* the same as ModelHandle: the same writer state, and a reply that could not be sent is one that is logged *)
Definition ok_writer {W} (gw : W + err) : option W := match gw with inl w => Some w | inr _ => None end.
Definition lost {W} (s : option (sent W)) : bool :=
  match s with Some NoWriter => true | Some (Used _ e) => is_some e | _ => false end.
Definition same_sent {W} (o : option (option W)) (s : option (sent W)) : Prop :=
  match o, s with
  | None, None => True
  | Some None, Some NotAsked | Some None, Some NoWriter => True
  | Some (Some w), Some (Used w' _) => w = w'
  | _, _ => False
  end.
Definition nonempty {A} (l : list A) : bool := match l with [] => false | _ => true end.

(* what is wrong with sending the configuration message, if anything *)
Definition config_text (broken : err -> bytes) (errs : nat -> option err) : option bytes :=
  match errs 0, errs 1 with
  | Some e, Some c => Some (t$"couldn't close writer after failed conf message write: " ++ printed broken e ++ t$": " ++ printed broken c)
  | Some e, None => Some (t$"couldn't write configuration message: " ++ printed broken e)
  | None, Some c => Some (t$"couldn't close writer: " ++ printed broken c)
  | None, None => None
  end.
(* that is logged, the socket is closed, and the connection is not served *)
Definition logs_start (broken brokenv : err -> bytes) (o : option bytes) (closed : option err) (r : list entry * option (list call) * bool) : Prop :=
  match o with
  | None => fst (fst r) = [] /\ snd r = true
  | Some t => snd r = false /\ exists a b, fst (fst r) = a ++ b /\ one a (with_error broken brokenv t$"couldn't write config message: " (Foreign (Some t))) /\
      match closed with None => b = [] | Some c => one b (with_error broken brokenv t$"couldn't close socket: " c) end
  end.
