(* Error values of the functions that start and stop a server: /repo/newServer.go:13-95, serverOptions.go:86-97,
   message/newAcceptConfMessage.go:11-37, server.go:33-46 (shutdownServer), server.go:88-125 (Server.CloseSession).
   ModelOptions has the same functions with classes of errors. *)
From Coq Require Import Strings.String.
From Coq Require Import List Arith NArith ZArith Bool.
From Verif Require Import BaseBytes ModelMessage ModelWrite ModelErrors ModelOptions ModelReport.
From Verif Require ModelJson.
Import ListNotations.
Open Scope list_scope.
Open Scope nat_scope.

(* time.Duration.String of the standard library, for durations of a second or more.
   The last prec digits of v without the zeros at the end; printing: a digit has been printed already *)
Fixpoint frac_digits (prec : nat) (v : N) (printing : bool) : bytes :=
  match prec with
  | 0 => []
  | S prec =>
      let digit := (v mod 10)%N in
      let printing := printing || negb (digit =? 0)%N in
      frac_digits prec (v / 10)%N printing ++ (if printing then [n2b (48 + digit)] else [])
  end.
Definition frac_text (nanos : N) : bytes :=
  match frac_digits 9 nanos false with [] => [] | ds => txt "." ++ ds end.
Definition pct_z (z : Z) : bytes := ModelJson.dec z.
Definition Duration_String (d : Z) : bytes :=
  let secs := (d / 1000000000)%Z in
  let mins := (secs / 60)%Z in
  let hours := (mins / 60)%Z in
  let s := pct_z (secs mod 60) ++ frac_text (Z.to_N (d mod 1000000000)) ++ txt "s" in
  let s := if (0 <? mins)%Z then pct_z (mins mod 60) ++ txt "m" ++ s else s in
  if (0 <? hours)%Z then pct_z hours ++ txt "h" ++ s else s.

(* message/newAcceptConfMessage.go:11-37 *)
Definition NewAcceptConf (major minor : byte) (readTimeout : Z) (bufSize : N) (name : bytes) : bytes + err :=
  let readTimeoutMs := Z.quot readTimeout 1000000 in
  if (4294967295 <? readTimeoutMs)%Z
  then inr (Errorf (txt "read timeout (milliseconds) overflow in server conf message (" ++ Duration_String readTimeout ++ txt ")")) else
  if (readTimeoutMs <? 0)%Z
  then inr (Errorf (txt "negative read timeout (milliseconds) in server conf message (" ++ pct_z readTimeoutMs ++ txt ")")) else
  inl (MsgAcceptConf :: major :: minor :: le_put 4 (Z.to_N readTimeoutMs) ++ le_put 4 bufSize ++ name).

(* serverOptions.go:46-100: the options as left behind, and the error *)
Definition Prepare_err (mk : bool) (op : options) : option (options * option err) :=
  let? (op, failed) := Prepare mk op in
  Some (op, if failed : bool
            then Some (Errorf (txt "message buffer size too small: " ++ pct_z (Z.of_N (op_bufsize op)) ++ txt " bytes (min: "
                               ++ pct_z (Z.of_N minMsgBufferSize) ++ txt " bytes)"))
            else None).

Section Start.
Variable broken : err -> bytes.      (* see ModelErrors *)

(* newServer.go:13-95. initialize: the error of transport.Initialize, given the options *)
Definition NewServer_err (impl transport : bool) (initialize : options -> option err) (mk : bool) (opts : options)
    : option (srv + err) :=
  if negb impl then Some (inr (Errorf (txt "missing server implementation"))) else
  if negb transport then Some (inr (Errorf (txt "missing transport layer implementation"))) else
  let? (opts, e) := Prepare_err mk opts in
  match e with
  | Some e => Some (inr e)
  | None =>
      match NewAcceptConf x02 x00 (op_timeout opts) (op_bufsize opts) (op_subname opts) with
      | inr e => Some (inr (Errorf (txt "couldn't initialize server configuration-push message: " ++ pct_s broken e)))
      | inl configMsg =>
          match initialize opts with
          | Some e => Some (inr (Errorf (txt "couldn't initialize transport layer: " ++ pct_s broken e)))
          | None => Some (inl (MkSrv opts configMsg (op_sessions opts =? Enabled)%Z (op_bufsize opts) (op_max opts)
                                 (op_manager opts) (op_keygen opts) (op_parser opts)))
          end
      end
  end.

(* server.go:38-45; stopped: what transport.Shutdown returns *)
Definition shutdownServer (stopped : option err) : option err :=
  match stopped with
  | Some e => Some (Errorf (txt "couldn't properly shutdown HTTP server: " ++ pct_s broken e))
  | None => None
  end.

(* server.go:88-125. close: Connection.CloseSession in a state (ModelFault has it; None: panic);
   connections: what the registry returns (None: nil) *)
Section Close.
Context {S C : Type} (close : S -> C -> option (S * option err)).
Fixpoint close_all (s : S) (cs : list C) : option (S * list (option err) * nat) :=
  match cs with
  | [] => Some (s, [], 0)
  | c :: cs =>
      let? (s, e) := close s c in
      let? (s, es, n) := close_all s cs in
      Some (s, e :: es, match e with Some _ => 1 + n | None => n end)
  end.
Definition Server_CloseSession (s : S) (connections : option (list C))
    : option (S * option (list C) * option (list (option err)) * option err) :=
  match connections with
  | None => Some (s, None, None, None)
  | Some cs =>
      let? (s, es, errNum) := close_all s cs in
      Some (s, Some cs, Some es,
            if 0 <? errNum then Some (Errorf (pct_d errNum ++ txt " errors during the closure of a session")) else None)
  end.
End Close.
End Start.
