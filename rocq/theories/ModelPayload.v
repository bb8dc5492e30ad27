(* Model of Payload.Utf8 (payload/payload.go:17-38) and of the two standard library
   functions it calls on single UTF-16 units. *)
From Coq Require Import List Arith NArith ZArith Bool.
From Verif Require Import BaseBytes ModelMessage.
Import ListNotations.
Open Scope N_scope.

(* unicode/utf16.Decode applied to a one-element slice: a lone surrogate becomes U+FFFD *)
Definition utf16_Decode1 (u : N) : N :=
  if (0xd800 <=? u) && (u <? 0xe000) then 0xFFFD else u.

(* unicode/utf8.EncodeRune: bytes written for a rune *)
Definition utf8_EncodeRune (r : N) : bytes :=
  if r <=? 0x7F then [n2b r]
  else if r <=? 0x7FF then
    [n2b (N.lor 0xC0 (N.shiftr r 6)); n2b (N.lor 0x80 (N.land r 0x3F))]
  else if (0x10FFFF <? r) || ((0xD800 <=? r) && (r <=? 0xDFFF)) then
    let r := 0xFFFD in
    [n2b (N.lor 0xE0 (N.shiftr r 12)); n2b (N.lor 0x80 (N.land (N.shiftr r 6) 0x3F));
     n2b (N.lor 0x80 (N.land r 0x3F))]
  else if r <=? 0xFFFF then
    [n2b (N.lor 0xE0 (N.shiftr r 12)); n2b (N.lor 0x80 (N.land (N.shiftr r 6) 0x3F));
     n2b (N.lor 0x80 (N.land r 0x3F))]
  else
    [n2b (N.lor 0xF0 (N.shiftr r 18)); n2b (N.lor 0x80 (N.land (N.shiftr r 12) 0x3F));
     n2b (N.lor 0x80 (N.land (N.shiftr r 6) 0x3F)); n2b (N.lor 0x80 (N.land r 0x3F))].

(* the loop payload/payload.go:27-32; u16 = data[i] + data[i+1]<<8 (uint16) *)
Fixpoint utf8_loop (data : bytes) : bytes :=
  match data with
  | a :: b :: rest =>
      utf8_EncodeRune (utf16_Decode1 ((b2N a + N.shiftl (b2N b) 8) mod 65536)) ++ utf8_loop rest
  | _ => []
  end.

(* payload/payload.go:17-38; None: an error is returned *)
Definition Payload_Utf8 (e : encoding) (data : bytes) : option bytes :=
  if (e =? Utf16)%Z then
    if negb (Nat.eqb (Nat.modulo (length data) 2) 0) then None else Some (utf8_loop data)
  else Some data.
