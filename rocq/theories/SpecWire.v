(* The webwire wire format as a grammar, independent of the parser and the writers.
   Source of the layouts: the comments in /repo/message/message.go:10-116 (numbered
   fields of every message kind) and the protocol documentation of the message types
   (message.go:119-214). *)
From Coq Require Import List Arith NArith ZArith.
From Verif Require Import BaseBytes.
Import ListNotations.
Open Scope nat_scope.

(* payload encodings as seen by API users *)
Inductive enc := EBin | EU8 | EU16.

(* server configuration announced in the handshake: major, minor, timeout (ms),
   buffer size, sub-protocol name *)
Record conf := MkWConf { w_major : N; w_minor : N; w_timeout_ms : N; w_bufsize : N; w_sub : bytes }.

(* what a message says *)
Record content := MkContent {
  k_type : N;           (* number of the message type *)
  k_ident : bytes;      (* request identifier; all zero where there is none *)
  k_name : bytes;       (* name (requests, signals) or error code (error replies) *)
  k_payload : bytes;
  k_enc : enc;
  k_conf : option conf }.

Definition no_ident : bytes := repeat x00 8.
(* a length flag *)
Definition flag (l : bytes) : byte := n2b (N.of_nat (length l)).
(* header padding: present exactly behind names of odd length, value not prescribed *)
Definition padding (name pad : bytes) : Prop := length pad = length name mod 2.
Definition even_len (l : bytes) : Prop := length l mod 2 = 0.

(* type numbers of one-way and request/reply messages by encoding *)
Definition sig_tag (e : enc) : N := match e with EBin => 63 | EU8 => 64 | EU16 => 65 end.
Definition req_tag (e : enc) : N := match e with EBin => 127 | EU8 => 128 | EU16 => 129 end.
Definition rep_tag (e : enc) : N := match e with EBin => 191 | EU8 => 192 | EU16 => 193 end.

Inductive frame : bytes -> content -> Prop :=
| F_signal e name payload :
    e <> EU16 -> length name <= 255 -> name ++ payload <> [] ->
    frame (n2b (sig_tag e) :: flag name :: name ++ payload)
          (MkContent (sig_tag e) no_ident name payload e None)
| F_signal16 name pad payload :
    length name <= 255 -> padding name pad -> even_len payload -> payload <> [] ->
    frame (n2b 65 :: flag name :: name ++ pad ++ payload)
          (MkContent 65 no_ident name payload EU16 None)
| F_request e ident name payload :
    e <> EU16 -> length ident = 8 -> length name <= 255 -> name ++ payload <> [] ->
    frame (n2b (req_tag e) :: ident ++ flag name :: name ++ payload)
          (MkContent (req_tag e) ident name payload e None)
| F_request16 ident name pad payload :
    length ident = 8 -> length name <= 255 -> padding name pad -> even_len payload ->
    name ++ payload <> [] ->
    frame (n2b 129 :: ident ++ flag name :: name ++ pad ++ payload)
          (MkContent 129 ident name payload EU16 None)
| F_reply e ident payload :
    e <> EU16 -> length ident = 8 ->
    frame (n2b (rep_tag e) :: ident ++ payload)
          (MkContent (rep_tag e) ident [] payload e None)
| F_reply16 ident pad payload :
    length ident = 8 -> even_len payload ->
    frame (n2b 193 :: ident ++ pad :: payload)
          (MkContent 193 ident [] payload EU16 None)
| F_error ident code msg :
    length ident = 8 -> 1 <= length code <= 255 ->
    frame (n2b 0 :: ident ++ flag code :: code ++ msg)
          (MkContent 0 ident code msg EU8 None)
| F_special t ident rest :
    (* shutdown, internal error, session not found, max connections, sessions disabled;
       bytes behind the identifier are ignored *)
    (1 <= t <= 5)%N -> length ident = 8 ->
    frame (n2b t :: ident ++ rest)
          (MkContent t ident [] [] EBin None)
| F_created info :
    info <> [] ->
    frame (n2b 21 :: info) (MkContent 21 no_ident [] info EBin None)
| F_closed :
    frame [n2b 22] (MkContent 22 no_ident [] [] EBin None)
| F_conf c :
    (w_major c < 256)%N -> (w_minor c < 256)%N ->
    (w_timeout_ms c < 2 ^ 32)%N -> (w_bufsize c < 2 ^ 32)%N ->
    frame (n2b 23 :: n2b (w_major c) :: n2b (w_minor c) ::
           le_put 4 (w_timeout_ms c) ++ le_put 4 (w_bufsize c) ++ w_sub c)
          (MkContent 23 no_ident [] [] EBin (Some c))
| F_close_session ident :
    length ident = 8 ->
    frame (n2b 31 :: ident) (MkContent 31 ident [] [] EBin None)
| F_restore ident key :
    length ident = 8 -> key <> [] ->
    frame (n2b 32 :: ident ++ key) (MkContent 32 ident [] key EBin None)
| F_heartbeat :
    frame [n2b 33] (MkContent 33 no_ident [] [] EBin None).

(* the documented type numbers *)
Definition known_types : list N :=
  [0; 1; 2; 3; 4; 5; 21; 22; 23; 31; 32; 33; 63; 64; 65; 127; 128; 129; 191; 192; 193]%N.
