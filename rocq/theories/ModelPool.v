(* Model of message.SyncPool and the life cycle of pooled messages.
   Source: message/syncPool.go, message/message.go:299-314.

   Messages are identified by their address (a natural number). sync.Pool.Get returns
   any message put earlier (the implementation picks, here: an argument) or a new one, and
   may also have dropped messages; dropping is covered by never picking them. *)
From Coq Require Import List Arith NArith ZArith Bool.
From Verif Require Import BaseBytes ModelMessage.
Import ListNotations.
Open Scope nat_scope.

Record pool := MkPool {
  p_size : nat;                  (* bufferSize *)
  p_heap : list message;         (* all messages ever created, by address *)
  p_free : list nat }.           (* contents of the sync.Pool *)

(* message/syncPool.go:12-25 *)
Definition NewSyncPool (bufferSize : nat) : pool := MkPool bufferSize [] [].

Definition set_heap h p := MkPool (p_size p) h (p_free p).
Definition put_free f p := MkPool (p_size p) (p_heap p) f.
Fixpoint update (l : list message) (i : nat) (m : message) : list message :=
  match l, i with
  | [], _ => []
  | _ :: r, O => m :: r
  | x :: r, S i' => x :: update r i' m
  end.
Fixpoint remove_nth {A} (l : list A) (i : nat) : list A :=
  match l, i with
  | [], _ => []
  | _ :: r, O => r
  | x :: r, S i' => x :: remove_nth r i'
  end.

(* pool.New, message/syncPool.go:14-20 *)
Definition pool_new (p : pool) : message :=
  let m := NewMessage (p_size p) in
  MkMsg (m_buf m) (m_len m) (m_type m) (m_ident m) (m_identB m) (m_name m) (m_enc m)
        (m_pld m) (m_conf m) true.

(* message/syncPool.go:28-30; [pick] = Some i takes the i-th free message if it exists *)
Definition Get (p : pool) (pick : option nat) : pool * nat :=
  match pick with
  | Some i => match nth_error (p_free p) i with
              | Some a => (put_free (remove_nth (p_free p) i) p, a)
              | None => (set_heap (p_heap p ++ [pool_new p]) p, length (p_heap p))
              end
  | None => (set_heap (p_heap p ++ [pool_new p]) p, length (p_heap p))
  end.

(* Message.ReadBytes on the message at address a *)
Definition pool_read (p : pool) (a : nat) (b : bytes) : option (pool * bool * option perr) :=
  let? m := nth_error (p_heap p) a in
  let? (m1, ok, e) := ReadBytes m b in
  Some (set_heap (update (p_heap p) a m1) p, ok, e).

(* Message.Close on the message at address a *)
Definition pool_close (p : pool) (a : nat) : option pool :=
  let? m := nth_error (p_heap p) a in
  let? (m1, put) := MsgClose m in
  let p1 := set_heap (update (p_heap p) a m1) p in
  Some (if put then put_free (a :: p_free p1) p1 else p1).

(* histories; the address arguments are what the callers hold *)
Inductive pool_op := OGet (pick : option nat) | ORead (a : nat) (b : bytes) | OClose (a : nat).
Definition pool_step (p : pool) (o : pool_op) : option (pool * option nat) :=
  match o with
  | OGet k => let '(p1, a) := Get p k in Some (p1, Some a)
  | ORead a b => let? (p1, _, _) := pool_read p a b in Some (p1, None)
  | OClose a => let? p1 := pool_close p a in Some (p1, None)
  end.
