(* Model of session keys: /repo/session.go:10-36, 51-108 and encoding/base64 (URLEncoding) of the Go
   standard library, which the key generator calls. *)
From Coq Require Import Strings.String.
From Coq Require Import List Arith NArith ZArith Bool.
From Verif Require Import BaseBytes ModelMessage.
Import ListNotations.
Open Scope nat_scope.

(* encoding/base64 base64.go:36 encodeURL *)
Definition encodeURL : bytes :=
  list_byte_of_string "ABCDEFGHIJKLMNOPQRSTUVWXYZabcdefghijklmnopqrstuvwxyz0123456789-_"%string.
(* enc.encode[x] *)
Definition sextet (x : N) : byte := nth (N.to_nat x) encodeURL x00.
(* StdPadding *)
Definition padding_char : byte := x3d.

(* encoding/base64 Encoding.Encode: groups of three bytes, then one or two bytes with padding *)
Fixpoint EncodeToString (src : bytes) : bytes :=
  match src with
  | [] => []
  | [a] =>
      let val := N.shiftl (b2N a) 16 in
      [sextet (N.land (N.shiftr val 18) 63); sextet (N.land (N.shiftr val 12) 63); padding_char; padding_char]
  | [a; b] =>
      let val := N.lor (N.shiftl (b2N a) 16) (N.shiftl (b2N b) 8) in
      [sextet (N.land (N.shiftr val 18) 63); sextet (N.land (N.shiftr val 12) 63);
       sextet (N.land (N.shiftr val 6) 63); padding_char]
  | a :: b :: c :: src' =>
      let val := N.lor (N.lor (N.shiftl (b2N a) 16) (N.shiftl (b2N b) 8)) (b2N c) in
      sextet (N.land (N.shiftr val 18) 63) :: sextet (N.land (N.shiftr val 12) 63) ::
      sextet (N.land (N.shiftr val 6) 63) :: sextet (N.land val 63) :: EncodeToString src'
  end.

(* session.go:14-23; rand n: what crypto/rand puts into a slice of n bytes (None: it fails) *)
Definition generateRandomBytes (rand : nat -> option bytes) (length : nat) : option bytes := rand length.
(* session.go:30-36, 105-108; None: panic *)
Definition generateSessionKey (rand : nat -> option bytes) : option bytes :=
  let? b := generateRandomBytes rand 48 in Some (EncodeToString b).

(* session.go:51-56, for the server's own sessions *)
Record session (I : Type) := MkSession { s_key : bytes; s_creation : Z; s_lookup : Z; s_info : I }.
Arguments MkSession {I}. Arguments s_key {I}. Arguments s_creation {I}. Arguments s_lookup {I}. Arguments s_info {I}.
(* session.go:79-93; generator: result of the generator (None: it panics), now: time.Now(). None: panic *)
Definition NewSession {I} (info : I) (generator : option bytes) (now : Z) : option (session I) :=
  let? key := generator in
  if length key <? 1 then None else Some (MkSession key now now info).
