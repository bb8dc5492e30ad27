(* What users of the message API can observe, and when that matches a wire content. *)
From Coq Require Import List Arith NArith ZArith.
From Verif Require Import BaseBytes ModelMessage SpecWire.
Import ListNotations.
Open Scope nat_scope.

(* everything visible through a message *)
Record obs := MkObs {
  o_type : byte; o_ident : bytes; o_identB : bytes; o_name : bytes; o_pld : bytes; o_enc : encoding;
  o_major : byte; o_minor : byte; o_timeout : Z; o_bufsize : N; o_sub : bytes }.
(* MsgIdentifierBytes as far as it was taken from a frame: an untouched message has nil
   (after Close) or eight zero bytes of its own (after NewMessage), both read as [] *)
Definition ident_bytes (m : message) : bytes :=
  match m_identB m with GView v => v_get (m_buf m) v | _ => [] end.
Definition observe (m : message) : obs :=
  MkObs (m_type m) (m_ident m) (ident_bytes m) (g_get (m_buf m) (m_name m)) (g_get (m_buf m) (m_pld m))
        (m_enc m) (c_major (m_conf m)) (c_minor (m_conf m)) (c_timeout (m_conf m))
        (c_bufsize (m_conf m)) (g_get (m_buf m) (c_sub (m_conf m))).

(* a message as obtained from NewMessage or as left by Close: any buffer content *)
Definition blank (m : message) : Prop :=
  m_len m = 0 /\ m_type m = x00 /\ m_ident m = repeat x00 8 /\
  (forall v, m_identB m <> GView v) /\ m_name m = GNil /\
  m_enc m = Binary /\ m_pld m = GNil /\ m_conf m = zero_conf.

(* a message as seen through the API shows the given content. The encoding of error
   replies is left out here (k_type 0), see the theorems on error replies. *)
Definition enc_no (e : enc) : encoding := match e with EBin => 0 | EU8 => 1 | EU16 => 2 end%Z.
(* kinds of messages that carry an identifier *)
Definition has_ident (t : N) : bool :=
  existsb (N.eqb t) [0; 1; 2; 3; 4; 5; 31; 32; 127; 128; 129; 191; 192; 193]%N.
Definition shows (o : obs) (c : content) : Prop :=
  b2N (o_type o) = k_type c /\ o_ident o = k_ident c /\
  o_identB o = (if has_ident (k_type c) then k_ident c else []) /\ o_name o = k_name c /\
  o_pld o = k_payload c /\ (k_type c <> 0%N -> o_enc o = enc_no (k_enc c)) /\
  match k_conf c with
  | None => o_major o = x00 /\ o_minor o = x00 /\ o_timeout o = 0%Z /\ o_bufsize o = 0%N /\ o_sub o = []
  | Some w => b2N (o_major o) = w_major w /\ b2N (o_minor o) = w_minor w /\
              o_timeout o = (Z.of_N (w_timeout_ms w) * 1000000)%Z /\
              o_bufsize o = w_bufsize w /\ o_sub o = w_sub w
  end.


(* reading the frame b into any blank message that is large enough succeeds and shows c *)
Definition reads_as (b : bytes) (c : content) : Prop :=
  forall m, blank m -> length b <= length (m_buf m) ->
  exists m', ReadBytes m b = Some (m', true, None) /\ shows (observe m') c.

(* contiguous part of a byte sequence *)
Definition piece (x b : bytes) : Prop := exists p q, b = p ++ x ++ q.
(* all variable-length fields visible through a message come from the frame b *)
Definition pieces_of (o : obs) (b : bytes) : Prop :=
  (o_ident o = repeat x00 8 \/ piece (o_ident o) b) /\ piece (o_identB o) b /\ piece (o_name o) b /\
  piece (o_pld o) b /\ piece (o_sub o) b.
