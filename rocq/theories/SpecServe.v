(* Runs of the message life cycle machine and what handlers and clients are entitled to. *)
From Coq Require Import List Arith NArith ZArith Bool.
From Verif Require Import BaseBytes BaseConc ModelMessage ModelWrite ModelPool ModelPayload ModelHandle
  ModelServe SpecWire SpecMessage SpecWrite SpecHandle.
Import ListNotations.
Open Scope nat_scope.

Inductive zreach (buf : nat) (ok : zev -> Prop) : serve -> Prop :=
| ZR_new : zreach buf ok (new_serve buf)
| ZR_step z e z' : zreach buf ok z -> ok e -> serve_step z e = Some z' -> zreach buf ok z'.
Fixpoint zrun (z : serve) (es : list zev) : option serve :=
  match es with [] => Some z | e :: es' => match serve_step z e with Some z' => zrun z' es' | None => None end end.

Definition any_event (e : zev) : Prop := True.
(* handlers do not close the message themselves *)
Definition polite (e : zev) : Prop := forall i, e <> ZStep i CUserClose.
(* moreover no handler returns a nil *ErrRequest (C38), and the shutdown reply finds a writer (C26) *)
Definition strict (e : zev) : Prop :=
  match e with
  | ZStep _ CUserClose => False
  | ZStep _ (CRet r) => snd r <> EReqPtr None
  | ZStep _ (CShut ok) => ok = true
  | ZStep _ (CAnswer (AFail er) _) => er <> EReqPtr None
  | _ => True
  end.

(* what the accessors of a message saying k must return *)
Definition shown (k : content) (g : getter) : value :=
  match g with
  | GtIdentifier => VBytes (k_ident k)
  | GtName => VBytes (k_name k)
  | GtEncoding => VEnc (enc_no (k_enc k))
  | GtPayload => VBytes (k_payload k)
  | GtUtf8 => VText (Payload_Utf8 (enc_no (k_enc k)) (k_payload k))
  end.

(* the client got one frame, saying k *)
Definition told (s : sent sink) (k : content) : Prop :=
  exists w, s = Used (MkSink w 1) None /\ reads_as w k.
(* content of the answer to a session request with identifier i *)
Definition answer_content (i : bytes) (an : answer) : content :=
  match an with
  | AFulfill p => reply_content i (p, ENil)
  | AFail EMaxSessConns => special_content 4 i
  | AFail ESessNotFound => special_content 3 i
  | AFail ESessDisabled => special_content 5 i
  | AFail (EReq code text) | AFail (EReqPtr (Some (code, text))) => MkContent 0 i code text EU8 None
  | AFail _ => special_content 2 i
  end.
Definition answerable (an : answer) : Prop :=
  match an with
  | AFulfill p => utf16_ok (fst p) (snd p)
  | AFail (EReq code _) | AFail (EReqPtr (Some (code, _))) => valid_code code true
  | AFail (EReqPtr None) => False
  | AFail _ => True
  end.

(* the frame an event is about *)
Definition about (e : vevent) : option nat :=
  match e with
  | VFrame _ f _ | VSee f _ _ | VRet f _ | VReply _ f _ _ _ | VKey f _ | VAnswer _ f _ _ _
  | VShut _ f _ | VFree f => Some f
  | VPeek _ _ => None
  end.
(* events that answer frame f *)
Definition answers (f : nat) (e : vevent) : bool :=
  match e with VReply _ g _ _ _ | VAnswer _ g _ _ _ | VShut _ g _ => g =? f | _ => false end.

(* the message a thread holds, the frame it is responsible for *)
Definition holds (t : sthread) : option nat :=
  match t with
  | SRead _ a | SFail _ a | SGot _ a _ _ | SSkip _ a _ _ | SJob _ a _ _ _ _ => Some a
  | SLoop _ | SEnd => None
  end.
Definition minds (t : sthread) : option nat :=
  match t with SGot _ _ f _ | SSkip _ _ f _ | SJob _ _ f _ _ _ => Some f | _ => None end.
