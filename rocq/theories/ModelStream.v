(* Model of Buffer.Read / Message.Read (message/buffer.go:31-65, message/read.go:25-30).

   A reader is a script: the list of results its Read calls are going to deliver. A Read
   with a smaller slice than the next chunk delivers a part of it; after the script the
   reader keeps reporting EOF. Every finite behaviour of an io.Reader towards a caller is a
   script. *)
From Coq Require Import List Arith NArith ZArith Bool.
From Verif Require Import BaseBytes ModelMessage.
Import ListNotations.
Open Scope nat_scope.

Inductive rerr := REof | ROther.
Definition script := list (bytes * option rerr).

(* io.Reader.Read(p) with len(p) = n *)
Definition r_read (s : script) (n : nat) : bytes * option rerr * script :=
  match s with
  | [] => ([], Some REof, [])
  | (c, e) :: r => if length c <=? n then (c, e, r)
                   else (firstn n c, None, (skipn n c, e) :: r)
  end.

(* io.Copy(ioutil.Discard, reader): consumes up to and including EOF or the first error *)
Fixpoint discard (s : script) : script :=
  match s with
  | [] => []
  | (_, None) :: r => discard r
  | (_, Some _) :: r => r
  end.

(* outcome of Buffer.Read: new buffer content and length, error, reader afterwards *)
Inductive read_out := MkRead (buf : bytes) (len : nat) (err : option perr) (rest : script)
                    | OutOfFuel.

(* message/buffer.go:31-65; [fuel] bounds the number of loop iterations *)
Fixpoint buffer_read (fuel : nat) (buf : bytes) (cursor : nat) (s : script) : read_out :=
  match fuel with
  | O => OutOfFuel
  | S fuel' =>
    if length buf <=? cursor then
      (* expect EOF on full buffer: reader.Read(buf.buf) *)
      let '(c, e, s') := r_read s (length buf) in
      let buf' := copy buf c in
      match e with
      | Some REof => MkRead buf' cursor None s'
      | _ => MkRead buf' 0 (Some POverflow) (discard s')
      end
    else
      (* reader.Read(buf.buf[cursor:]) *)
      let '(c, e, s') := r_read s (length buf - cursor) in
      let buf' := firstn cursor buf ++ copy (skipn cursor buf) c in
      let cursor' := cursor + length c in
      match e with
      | Some REof => MkRead buf' cursor' None s'
      | Some ROther => MkRead buf' 0 (Some PReader) s'
      | None => buffer_read fuel' buf' cursor' s'
      end
  end.

(* message/read.go:25-30; outer None: panic or out of fuel *)
Definition MsgRead (fuel : nat) (m : message) (s : script)
  : option (message * bool * option perr * script) :=
  match buffer_read fuel (m_buf m) 0 s with
  | OutOfFuel => None
  | MkRead buf len err rest =>
      let m1 := set_len len (set_buf buf m) in
      match err with
      | Some e => Some (m1, false, Some e, rest)
      | None => let? (m2, ok, e) := parse m1 in Some (m2, ok, e, rest)
      end
  end.
