(* Errors returned by the writers and readers of messages, as texts. *)
From Coq Require Import Strings.String.
From Coq Require Import List Arith NArith ZArith Bool.
From Verif Require Import BaseBytes ModelMessage ModelWrite ModelErrors SpecWire SpecWrite.
From Verif Require ModelReport SpecJson SpecText.
Import ListNotations.
Open Scope list_scope.
Open Scope nat_scope.

(* what %s prints for an error *)
Definition printed (broken : err -> bytes) (e : err) : bytes :=
  match e with
  | NilPointer _ => txt "<nil>"
  | _ => match Error broken e with Some t => t | None => broken e end
  end.
(* two errors in one *)
Definition both (broken : err -> bytes) (e c : err) : err := Foreign (Some (printed broken e ++ txt ": " ++ printed broken c)).
Definition and_close (broken : err -> bytes) (e : err) (c : option err) : err :=
  match c with Some c => both broken e c | None => e end.

(* a writer that keeps a log of the calls; errs i: the error the i-th call returns *)
Definition reporter (errs : nat -> option err) : ModelReport.text_ops (list call) :=
  ModelReport.MkTops _ (fun log c => (log ++ [CWrite c], errs (length log)))
                     (fun log => (log ++ [CClose], errs (length log))).
Definition failing (errs : nat -> option err) (i : nat) : bool := match errs i with Some _ => true | None => false end.
(* the error of a caller that makes the calls of run_calls: that of the call that failed, with that of the
   Close behind it *)
Fixpoint outcome (broken : err -> bytes) (errs : nat -> option err) (i : nat) (chunks : list bytes) : option err :=
  match chunks with
  | [] => errs i
  | _ :: cs => match errs i with Some e => Some (and_close broken e (errs (S i))) | None => outcome broken errs (S i) cs end
  end.
(* the frame is written chunk by chunk, and what is returned is the error of the first call that failed *)
Definition writes_text (broken : err -> bytes) (f : forall W, ModelReport.text_ops W -> W -> option (W * option err)) (frame : bytes) : Prop :=
  exists chunks, concat chunks = frame /\
  forall errs log0, f _ (reporter errs) log0 =
    Some (log0 ++ fst (run_calls (failing errs) (length log0) chunks), outcome broken errs (length log0) chunks).
(* nothing is written, the writer is closed, and the error has this text, followed by that of Close if it failed *)
Definition rejects_text (broken : err -> bytes) (f : forall W, ModelReport.text_ops W -> W -> option (W * option err)) (t : bytes) : Prop :=
  forall errs log0, f _ (reporter errs) log0 =
    Some (log0 ++ [CClose], Some (and_close broken (Foreign (Some t)) (errs (length log0)))).

(* the decimal number n *)
Definition number (n : nat) (t : bytes) : Prop := SpecJson.spells t (Z.of_nat n).
(* the character with the code point of a byte, in UTF-8 *)
Definition character (c : byte) (t : bytes) : Prop := t = SpecText.utf8_of (b2N c).
(* the first byte of l that is not printable *)
Definition first_bad (l : bytes) (c : byte) : Prop := exists a b, l = a ++ c :: b /\ printable a /\ ~ printable [c].

(* what is wrong with the arguments, and how the error says it; the first case that applies counts *)
Definition odd16 (e : encoding) (p : bytes) : Prop := ~ utf16_ok e p.
Inductive wrong_signal (name : bytes) (e : encoding) (p : bytes) (safe : bool) : bytes -> Prop :=
| WS_long n : 255 < length name -> number (length name) n ->
    wrong_signal name e p safe (txt "unsupported request message name length: " ++ n)
| WS_odd n : length name <= 255 -> odd16 e p -> number (length p) n ->
    wrong_signal name e p safe (txt "invalid UTF16 signal payload data length: " ++ n)
| WS_char c t : length name <= 255 -> utf16_ok e p -> safe = true -> first_bad name c -> character c t ->
    wrong_signal name e p safe (txt "unsupported character in request name: " ++ t).
Inductive wrong_request (name : bytes) (e : encoding) (p : bytes) (safe : bool) : bytes -> Prop :=
| WR_empty : name ++ p = [] -> wrong_request name e p safe (txt "request message requires either a name, or a payload, or both")
| WR_long n : 255 < length name -> number (length name) n ->
    wrong_request name e p safe (txt "unsupported request message name length: " ++ n)
| WR_odd n : name ++ p <> [] -> length name <= 255 -> odd16 e p -> number (length p) n ->
    wrong_request name e p safe (txt "invalid UTF16 request payload data length: " ++ n)
| WR_char c t : name ++ p <> [] -> length name <= 255 -> utf16_ok e p -> safe = true -> first_bad name c -> character c t ->
    wrong_request name e p safe (txt "unsupported character in request name: " ++ t).
Inductive wrong_code (code : bytes) (safe : bool) : bytes -> Prop :=
| WC_empty : safe = true -> code = [] -> wrong_code code safe (txt "missing error code while creating a new error reply message")
| WC_long n : safe = true -> 255 < length code -> number (length code) n ->
    wrong_code code safe (txt "invalid error code while creating a new error reply message,too long (" ++ n ++ txt ")")
| WC_char c t : safe = true -> length code <= 255 -> first_bad code c -> character c t ->
    wrong_code code safe (txt "unsupported character in reply error - error code: " ++ t).

(* what is wrong with a frame read into a buffer of size bytes *)
Definition tag (b : bytes) : N := b2N (nth 0 b x00).
Definition shorter (b : bytes) (k : nat) : Prop := 1 <= length b < k.
Definition unaligned (b : bytes) : Prop := length b mod 2 = 1.
Notation "'t$' s" := (txt s%string) (at level 0, s at level 0).
Inductive bad_frame (b : bytes) : bytes -> Prop :=
| BF_type : b <> [] -> ~ In (tag b) known_types -> bad_frame b t$"invalid message type"
(* too short *)
| BF_conf : tag b = 23%N -> shorter b 11 -> bad_frame b t$"invalid msg length, too short"
| BF_error : tag b = 0%N -> shorter b 11 -> bad_frame b t$"invalid error reply message, too short"
| BF_created : tag b = 21%N -> shorter b 2 -> bad_frame b t$"invalid session creation notification message, too short"
| BF_restore : tag b = 32%N -> shorter b 10 -> bad_frame b t$"invalid session restoration request message, too short"
| BF_signal : In (tag b) [63; 64]%N -> shorter b 3 -> bad_frame b t$"invalid signal message, too short"
| BF_signal16 : tag b = 65%N -> shorter b 4 -> bad_frame b t$"invalid signal message, too short"
| BF_request : In (tag b) [127; 128; 129]%N -> shorter b 11 -> bad_frame b t$"invalid request message, too short"
| BF_reply : In (tag b) [191; 192]%N -> shorter b 9 -> bad_frame b t$"invalid reply message, too short"
| BF_reply16 : tag b = 193%N -> shorter b 10 -> bad_frame b t$"invalid UTF16 reply message, too short"
| BF_special : In (tag b) [1; 2; 3; 4; 5]%N -> shorter b 9 -> bad_frame b t$"invalid special reply message, too short"
(* another length than the one they must have *)
| BF_heartbeat n : tag b = 33%N -> 1 < length b -> number (length b) n -> bad_frame b (t$"invalid heartbeat message (len: " ++ n ++ t$")")
| BF_closed : tag b = 22%N -> 1 < length b -> bad_frame b t$"invalid session closure notification message, too short"
| BF_close : tag b = 31%N -> b <> [] -> length b <> 9 -> bad_frame b t$"invalid session destruction request message, too short"
(* unaligned UTF-16 *)
| BF_odd_signal : tag b = 65%N -> 4 <= length b -> unaligned b ->
    bad_frame b t$"Unaligned UTF16 encoded signal message (probably missing header padding)"
| BF_odd_request : tag b = 129%N -> 11 <= length b -> unaligned b ->
    bad_frame b t$"unaligned UTF16 encoded request message (probably missing header padding)"
| BF_odd_reply : tag b = 193%N -> 10 <= length b -> unaligned b ->
    bad_frame b t$"unaligned UTF16 encoded reply message (probably missing header padding)"
(* names and codes shorter than announced *)
| BF_code0 : tag b = 0%N -> 11 <= length b -> nth 9 b x00 = x00 -> bad_frame b t$"invalid error reply message, error code length flag is zero"
| BF_code n : tag b = 0%N -> 11 <= length b < 10 + b2n (nth 9 b x00) -> number (b2n (nth 9 b x00)) n ->
    bad_frame b (t$"invalid error reply message, too short for specified code length (" ++ n ++ t$")")
| BF_name n : In (tag b) [63; 64]%N -> 3 <= length b < 2 + b2n (nth 1 b x00) -> number (b2n (nth 1 b x00)) n ->
    bad_frame b (t$"invalid signal message, too short for full name (" ++ n ++ t$") and the minimum payload (1)")
| BF_name16 n : tag b = 65%N -> ~ unaligned b -> 4 <= length b < 4 + b2n (nth 1 b x00) -> number (b2n (nth 1 b x00)) n ->
    bad_frame b (t$"invalid signal message, too short for full name (" ++ n ++ t$") and the minimum payload (2)")
| BF_request_name n : In (tag b) [127; 128; 129]%N -> (tag b = 129%N -> ~ unaligned b) -> 11 <= length b < 10 + b2n (nth 9 b x00) ->
    number (b2n (nth 9 b x00)) n -> bad_frame b (t$"invalid request message, too short for full name (" ++ n ++ t$")").
(* size: that of the message buffer *)
Definition malformed (size : nat) (b t : bytes) : Prop :=
  size < length b /\ t = t$"message buffer overflow" \/ length b <= size /\ bad_frame b t.

(* the same writer, without telling its errors apart *)
Definition is_some {A} (x : option A) : bool := match x with Some _ => true | None => false end.
Definition forget {W} (ops : ModelReport.text_ops W) : writer_ops W :=
  MkOps _ (fun w c => let (w1, e) := ModelReport.t_write ops w c in (w1, is_some e)) (fun w => let (w1, e) := ModelReport.t_close ops w in (w1, is_some e)).
(* two functions do the same, and fail together *)
Definition same_but_text {W} (a : option (W * option err)) (b : option (W * option werr)) : Prop :=
  match a, b with Some (w, e), Some (w', e') => w = w' /\ is_some e = is_some e' | None, None => True | _, _ => False end.
(* Go's slices: their length is an int *)
Definition go_length (l : bytes) : Prop := (Z.of_nat (length l) < 2 ^ 63)%Z.
