(* Unicode text encodings by their defining tables (RFC 2781, RFC 3629), independent of
   the conversion code. *)
From Coq Require Import List NArith.
From Verif Require Import BaseBytes.
Import ListNotations.
Open Scope N_scope.

(* Unicode scalar values *)
Definition scalar (c : N) : Prop := c < 0xD800 \/ 0xE000 <= c <= 0x10FFFF.

(* UTF-16 code units of a scalar value; little-endian bytes *)
Definition utf16_units (c : N) : list N :=
  if c <? 0x10000 then [c]
  else [0xD800 + (c - 0x10000) / 1024; 0xDC00 + (c - 0x10000) mod 1024].
Definition le16 (u : N) : bytes := [n2b (u mod 256); n2b (u / 256)].
Definition utf16le (text : list N) : bytes := flat_map le16 (flat_map utf16_units text).

(* UTF-8 bytes of a scalar value *)
Definition utf8_of (c : N) : bytes :=
  if c <? 0x80 then [n2b c]
  else if c <? 0x800 then [n2b (0xC0 + c / 64); n2b (0x80 + c mod 64)]
  else if c <? 0x10000 then
    [n2b (0xE0 + c / 4096); n2b (0x80 + c / 64 mod 64); n2b (0x80 + c mod 64)]
  else [n2b (0xF0 + c / 262144); n2b (0x80 + c / 4096 mod 64);
        n2b (0x80 + c / 64 mod 64); n2b (0x80 + c mod 64)].
Definition utf8 (text : list N) : bytes := flat_map utf8_of text.

(* well-formed UTF-8: the ABNF of RFC 3629, section 4 *)
Definition between (a b : N) (x : byte) : Prop := a <= b2N x <= b.
Definition tail := between 0x80 0xBF.
Inductive utf8_char : bytes -> Prop :=
| U1 a : between 0x00 0x7F a -> utf8_char [a]
| U2 a b : between 0xC2 0xDF a -> tail b -> utf8_char [a; b]
| U3a a b c : between 0xE0 0xE0 a -> between 0xA0 0xBF b -> tail c -> utf8_char [a; b; c]
| U3b a b c : between 0xE1 0xEC a -> tail b -> tail c -> utf8_char [a; b; c]
| U3c a b c : between 0xED 0xED a -> between 0x80 0x9F b -> tail c -> utf8_char [a; b; c]
| U3d a b c : between 0xEE 0xEF a -> tail b -> tail c -> utf8_char [a; b; c]
| U4a a b c d : between 0xF0 0xF0 a -> between 0x90 0xBF b -> tail c -> tail d -> utf8_char [a; b; c; d]
| U4b a b c d : between 0xF1 0xF3 a -> tail b -> tail c -> tail d -> utf8_char [a; b; c; d]
| U4c a b c d : between 0xF4 0xF4 a -> between 0x80 0x8F b -> tail c -> tail d -> utf8_char [a; b; c; d].
Inductive utf8_wf : bytes -> Prop :=
| WF_nil : utf8_wf []
| WF_char c s : utf8_char c -> utf8_wf s -> utf8_wf (c ++ s).
