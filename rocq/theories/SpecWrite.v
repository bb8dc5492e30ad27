(* Specification of the writing side: which calls a WriteMsg* function may make on the
   writer it is given, and for which arguments it must succeed. *)
From Coq Require Import List Arith NArith ZArith Bool.
From Verif Require Import BaseBytes ModelMessage ModelWrite SpecWire.
Import ListNotations.
Open Scope nat_scope.

(* A writer that records the calls made on it; [fails i] tells whether the i-th call
   (Write or Close, counted from 0) returns an error. Quantifying over [fails] covers every
   possible behaviour of a writer towards its caller. *)
Inductive call := CWrite (chunk : bytes) | CClose.
Definition log_writer (fails : nat -> bool) : writer_ops (list call) :=
  MkOps _ (fun log c => (log ++ [CWrite c], fails (length log)))
          (fun log => (log ++ [CClose], fails (length log))).

(* A writer that never fails and collects the bytes of one message *)
Record sink := MkSink { s_bytes : bytes; s_closed : nat }.
Definition sink_writer : writer_ops sink :=
  MkOps _ (fun s c => (MkSink (s_bytes s ++ c) (s_closed s), false))
          (fun s => (MkSink (s_bytes s) (S (s_closed s)), false)).
Definition empty_sink := MkSink [] 0.

(* the calls of a caller that writes [chunks] in order, stops at the first failing write,
   and closes exactly once at the end; and whether any call failed *)
Fixpoint run_calls (fails : nat -> bool) (i : nat) (chunks : list bytes) : list call * bool :=
  match chunks with
  | [] => ([CClose], fails i)
  | c :: cs => if fails i then ([CWrite c; CClose], true)
               else let '(l, e) := run_calls fails (S i) cs in (CWrite c :: l, e)
  end.

(* the error such a caller returns: that of the write that failed, joined with that of the Close behind it
   if that failed too; if no write failed, that of the Close *)
Fixpoint run_error (fails : nat -> bool) (i : nat) (chunks : list bytes) : option werr :=
  match chunks with
  | [] => if fails i then Some WClose else None
  | _ :: cs => if fails i then Some (if fails (S i) then WWriteClose else WWrite) else run_error fails (S i) cs
  end.

(* Well-behaved write of [frame]: on every possible writer the chunks of some fixed
   partition of the frame are written in order up to the first failing write, the writer is
   closed exactly once, last, and an error is returned exactly if some call failed, the one
   of the calls that failed. *)
Definition writes (f : forall W, writer_ops W -> W -> option (W * option werr)) (frame : bytes) : Prop :=
  exists chunks, concat chunks = frame /\
  forall fails log0,
    exists e, f _ (log_writer fails) log0 =
                Some (log0 ++ fst (run_calls fails (length log0) chunks), e) /\
              (e <> None <-> snd (run_calls fails (length log0) chunks) = true) /\
              e = run_error fails (length log0) chunks.

(* Rejection: nothing is written, the writer is closed exactly once, the error is returned that tells
   that the arguments are invalid, joined with that of the Close if it failed *)
Definition rejects (f : forall W, writer_ops W -> W -> option (W * option werr)) : Prop :=
  forall fails log0, exists e, f _ (log_writer fails) log0 = Some (log0 ++ [CClose], Some e) /\
    e = if fails (length log0) then WInvalidClose else WInvalid.

(* printable ASCII *)
Definition printable (l : bytes) : Prop := Forall (fun c => 32 <= b2n c <= 126) l.

(* arguments the API documents as valid *)
Definition utf16_ok (e : encoding) (p : bytes) : Prop := e = 2%Z -> even_len p.
Definition valid_signal (name : bytes) (e : encoding) (p : bytes) (safe : bool) : Prop :=
  length name <= 255 /\ utf16_ok e p /\ (safe = true -> printable name).
Definition valid_request (name : bytes) (e : encoding) (p : bytes) (safe : bool) : Prop :=
  name ++ p <> [] /\ length name <= 255 /\ utf16_ok e p /\ (safe = true -> printable name).
Definition valid_code (code : bytes) (safe : bool) : Prop :=
  safe = true -> 1 <= length code <= 255 /\ printable code.

(* the frames to be written; encodings other than UTF-8 and UTF-16 count as binary *)
Definition enc_of (e : encoding) : enc :=
  if Z.eqb e 1 then EU8 else if Z.eqb e 2 then EU16 else EBin.
(* one zero byte behind odd names when the payload is UTF-16 *)
Definition pad_of (e : encoding) (name : bytes) : bytes :=
  match enc_of e with EU16 => repeat x00 (length name mod 2) | _ => [] end.
Definition signal_frame (name : bytes) (e : encoding) (p : bytes) : bytes :=
  n2b (sig_tag (enc_of e)) :: flag name :: name ++ pad_of e name ++ p.
Definition request_frame (ident name : bytes) (e : encoding) (p : bytes) : bytes :=
  n2b (req_tag (enc_of e)) :: ident ++ flag name :: name ++ pad_of e name ++ p.
Definition reply_frame (ident : bytes) (e : encoding) (p : bytes) : bytes :=
  n2b (rep_tag (enc_of e)) :: ident ++ (match enc_of e with EU16 => [x00] | _ => [] end) ++ p.
Definition error_frame (ident code msg : bytes) : bytes :=
  n2b 0 :: ident ++ flag code :: code ++ msg.
