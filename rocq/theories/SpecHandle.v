(* Specification of replies: what a client must get for a request, in terms of wire contents *)
From Coq Require Import List Arith NArith ZArith.
From Verif Require Import BaseBytes ModelMessage ModelWrite ModelHandle SpecWire SpecMessage SpecWrite.
Import ListNotations.
Open Scope nat_scope.

(* a message as it comes out of a pool message after reading frame b, which says c *)
Definition received (m : message) (b : bytes) (c : content) : Prop :=
  exists m0, blank m0 /\ length b <= length (m_buf m0) /\ frame b c /\ ReadBytes m0 b = Some (m, true, None).

(* type numbers of application requests, signals and all messages that want a reply *)
Definition app_request (t : N) : Prop := (127 <= t <= 129)%N.
Definition app_signal (t : N) : Prop := (63 <= t <= 65)%N.
Definition wants_reply (t : N) : Prop := app_request t \/ t = 31%N \/ t = 32%N.

(* handler results that can be put on the wire: documented payloads and error codes *)
Definition sendable (r : payload * goerr) : Prop :=
  match snd r with
  | ENil => utf16_ok (fst (fst r)) (snd (fst r))
  | EReq code _ | EReqPtr (Some (code, _)) => valid_code code true
  | EReqPtr None => False
  | _ => True
  end.

(* the reply to the request with identifier i *)
Definition reply_content (i : bytes) (r : payload * goerr) : content :=
  match snd r with
  | ENil => MkContent (rep_tag (enc_of (fst (fst r)))) i [] (snd (fst r)) (enc_of (fst (fst r))) None
  | EReq code text | EReqPtr (Some (code, text)) => MkContent 0 i code text EU8 None
  | _ => MkContent 2 i [] [] EBin None
  end.
Definition special_content (t : N) (i : bytes) : content := MkContent t i [] [] EBin None.

(* a reply function seen as a function on the writer it obtains; None if it panics, or does
   not ask for a writer *)
Definition on_writer (f : forall W, writer_ops W -> option W -> option (sent W))
  : forall W, writer_ops W -> W -> option (W * option werr) :=
  fun W ops w => match f W ops (Some w) with Some (Used w1 e) => Some (w1, e) | _ => None end.

(* f sends exactly one message, saying c, and nothing else: it asks for one writer, writes
   one frame with content c and closes the writer exactly once; if a call on the writer
   fails, the frame is cut there; if there is no writer, nothing happens *)
Definition sends (f : forall W, writer_ops W -> option W -> option (sent W)) (c : content) : Prop :=
  (exists b, writes (on_writer f) b /\ reads_as b c /\
             f _ sink_writer (Some empty_sink) = Some (Used (MkSink b 1) None)) /\
  forall W ops, f W ops None = Some NoWriter.
(* f obtains a writer, but closes it without having written anything *)
Definition sends_nothing (f : forall W, writer_ops W -> option W -> option (sent W)) : Prop :=
  rejects (on_writer f).
