(* Messages written to a socket of the in-memory transport, with the errors returned: the buffer as an io.WriteCloser
   (/repo/transport/memchan/buffer.go:40-64), onBufferFlush (socket.go:71-85) and GetWriter (socket.go:121-135).
   writerLock keeps others off the buffer while a message is written, so one caller at a time is enough; what the remote
   reader answers is arbitrary, and it answers (ModelMemchan has the goroutines). *)
From Coq Require Import Strings.String.
From Coq Require Import List Arith NArith ZArith Bool.
From Verif Require Import BaseBytes ModelErrors ModelReport.
From Verif Require ModelMemchan.
Import ListNotations.
Open Scope list_scope.
Open Scope nat_scope.

(* outboundBuffer, its lock, writerLock, what the remote reader was given; stuck: the caller waits for the buffer's lock,
   which it never gets *)
Record wire := MkWire {
  w_buf : ModelMemchan.buffer; w_locked : bool; w_writer : bool; w_sent : list bytes; w_stuck : bool }.

(* socket.go:121-135; None: blocks *)
Definition GetWriter (w : wire) (connected : bool) : option (wire * (wire + err)) :=
  if w_writer w then None else
  if negb connected then Some (w, inr (caused ErrDisconnected "can't write to a closed socket")) else
  let w1 := MkWire (w_buf w) (w_locked w) true (w_sent w) (w_stuck w) in Some (w1, inl w1).

Section Flush.
Variable connected : bool.                (* when the buffer is flushed *)
Variable verdict : bytes -> option err.   (* what the remote reader reports: <-sock.remote.readerErr *)

Definition waiting (w : wire) : wire * option err := (MkWire (w_buf w) (w_locked w) (w_writer w) (w_sent w) true, None).
(* buffer.go:40-52 *)
Definition write (w : wire) (p : bytes) : wire * option err :=
  if w_locked w then waiting w else
  let '(b, ok) := ModelMemchan.buf_write (w_buf w) p in
  (MkWire b false (w_writer w) (w_sent w) (w_stuck w), if ok then None else Some ErrBufferOverflow).
(* socket.go:71-85: onBufferFlush; the writer's lock, what was sent, the error *)
Definition onBufferFlush (sent : list bytes) (data : bytes) : bool * list bytes * option err :=
  if negb connected then (false, sent, Some (text "can't write to a closed socket"))
  else (false, sent ++ [data], verdict data).
(* buffer.go:55-64 *)
Definition close (w : wire) : wire * option err :=
  if w_locked w then waiting w else
  let b := w_buf w in
  if ModelMemchan.b_len b <? 1 then (MkWire b true (w_writer w) (w_sent w) (w_stuck w), Some (text "no data written")) else
  let '(lk, sent, e) := onBufferFlush (w_sent w) (ModelMemchan.slice b (ModelMemchan.b_len b)) in
  (MkWire (ModelMemchan.MkBuffer (ModelMemchan.b_data b) 0) false lk sent (w_stuck w), e).
Definition wire_ops : text_ops wire := MkTops _ write close.
End Flush.
