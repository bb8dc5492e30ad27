(* Requests answered one after the other over one socket of the in-memory transport. *)
From Coq Require Import Strings.String.
From Coq Require Import List Arith NArith ZArith Bool.
From Verif Require Import BaseBytes ModelMessage ModelHandle ModelErrors SpecWire SpecWrite SpecReport ModelLog SpecLog ModelSend SpecSend.
Import ListNotations.
Open Scope list_scope.
Open Scope nat_scope.

(* a request and what OnRequest returns for it *)
Definition request := (message * (payload * option err))%type.
(* handleRequest.go:11-35 for each in turn, with the writer of transport/memchan/socket.go:121-135; what it logs is in
   C87. Waiting: it never gets the writer, and so never ends *)
Inductive handling := Ended | Waiting | Crashed.
Fixpoint answer_all (broken brokenv : err -> bytes) (con : bytes) (verdict : bytes -> option err) (rs : list request) (w : wire) : wire * list handling :=
  match rs with
  | [] => (w, [])
  | (m, r) :: rs =>
      let '(w1, h) := match GetWriter w true with
        | None => (w, Waiting)
        | Some (w1, gw) =>
            match o_res (handleRequest broken brokenv con (wire_ops true verdict) gw m r) with
            | None => (w1, Crashed)
            | Some None => (w1, Ended)
            | Some (Some w2) => (w2, Ended)
            end
        end in
      let '(w2, hs) := answer_all broken brokenv con verdict rs w1 in (w2, h :: hs)
  end.

(* the frame that answers a request *)
Inductive answer : request -> bytes -> Prop :=
| A_reply m (p : payload) : utf16_ok (fst p) (snd p) -> answer (m, (p, None)) (reply_frame (ident_of m) (fst p) (snd p))
| A_error m p e c t : own_error e c t -> valid_code c true -> answer (m, (p, e)) (error_frame (ident_of m) c t)
| A_internal m p x : ~ is_own (Some x) -> answer (m, (p, Some x)) (n2b 2 :: ident_of m).
(* there is none *)
Inductive unanswerable : request -> Prop :=
| U_odd m (p : payload) : odd16 (fst p) (snd p) -> unanswerable (m, (p, None))
| U_code m p e c t x : own_error e c t -> wrong_code c true x -> unanswerable (m, (p, e)).
(* Go's slices; not a nil *ErrRequest, which panics (C83) *)
Definition proper (r : request) : Prop :=
  RequiresReply (fst r) = true /\ go_length (snd (fst (snd r))) /\ ~ nil_error (snd (snd r)) /\
  forall c t, own_error (snd (snd r)) c t -> go_length c.

(* all requests before the first without an answer, or with one that does not fit, are answered in order; the handlers
   of all requests behind it wait for ever *)
Inductive answers (cap : nat) : list request -> list bytes -> list handling -> Prop :=
| AS_none : answers cap [] [] []
| AS_sent r rs b bs hs : answer r b -> length b <= cap -> answers cap rs bs hs -> answers cap (r :: rs) (b :: bs) (Ended :: hs)
| AS_large r rs b : answer r b -> cap < length b -> answers cap (r :: rs) [] (Ended :: map (fun _ => Waiting) rs)
| AS_bad r rs : unanswerable r -> answers cap (r :: rs) [] (Ended :: map (fun _ => Waiting) rs).
