(* What is promised of generated session keys. *)
From Coq Require Import List Arith NArith ZArith Bool.
From Verif Require Import BaseBytes.
Import ListNotations.
Open Scope nat_scope.

(* A-Z a-z 0-9 - _ *)
Definition url_safe (c : byte) : Prop :=
  (65 <= b2N c <= 90 \/ 97 <= b2N c <= 122 \/ 48 <= b2N c <= 57 \/ b2N c = 45 \/ b2N c = 95)%N.
(* a source of random bytes that works *)
Definition gives (rand : nat -> option bytes) (b : bytes) : Prop := rand 48 = Some b /\ length b = 48.

(* the numeral: bytes as the digits of a number, most significant first; k digits of v in base 64; the
   characters for digits *)
Definition number (l : bytes) : N := fold_left (fun v c => v * 256 + b2N c)%N l 0%N.
Fixpoint digits64 (k : nat) (v : N) : list N :=
  match k with O => [] | S k' => digits64 k' (v / 64)%N ++ [(v mod 64)%N] end.
Definition url_digit (d : N) : byte :=
  n2b (if d <? 26 then 65 + d else if d <? 52 then 97 + (d - 26) else if d <? 62 then 48 + (d - 52) else if d =? 62 then 45 else 95)%N.
(* bytes missing for groups of three *)
Definition missing (l : bytes) : nat := (3 - length l mod 3) mod 3.
