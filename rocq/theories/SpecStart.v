(* Why a server does not start, and what goes wrong when it or a session is stopped. *)
From Coq Require Import Strings.String.
From Coq Require Import List Arith NArith ZArith Bool.
From Verif Require Import BaseBytes ModelMessage ModelErrors ModelOptions SpecWrite SpecOptions ModelReport SpecReport ModelLog SpecLog.
From Verif Require SpecJson.
Import ListNotations.
Open Scope list_scope.
Open Scope nat_scope.

(* the value of decimal digits *)
Definition digits_value (ds : bytes) : Z := fold_left (fun n d => 10 * n + (Z.of_N (b2N d) - 48))%Z ds 0%Z.
(* a part of a second, in nanoseconds: nothing, or a point and digits the last of which is not 0 *)
Definition fraction (t : bytes) (f : Z) : Prop :=
  t = [] /\ f = 0%Z \/
  exists ds z, t = t$"." ++ ds ++ [z] /\ Forall SpecJson.is_digit (ds ++ [z]) /\ z <> n2b 48 /\ length (ds ++ [z]) <= 9 /\
    (digits_value (ds ++ [z]) * 10 ^ (9 - Z.of_nat (length (ds ++ [z]))) = f)%Z.
(* a duration of a second or more as text, for instance 1h0m2.5s *)
Inductive lasts : bytes -> Z -> Prop :=
| La_s S F s f : SpecJson.spells S s -> fraction F f -> (1 <= s < 60)%Z -> (0 <= f < 10 ^ 9)%Z ->
    lasts (S ++ F ++ t$"s") (s * 10 ^ 9 + f)
| La_m M S F m s f : SpecJson.spells M m -> SpecJson.spells S s -> fraction F f -> (1 <= m < 60)%Z -> (0 <= s < 60)%Z -> (0 <= f < 10 ^ 9)%Z ->
    lasts (M ++ t$"m" ++ S ++ F ++ t$"s") ((m * 60 + s) * 10 ^ 9 + f)
| La_h H M S F h m s f : SpecJson.spells H h -> SpecJson.spells M m -> SpecJson.spells S s -> fraction F f ->
    (1 <= h)%Z -> (0 <= m < 60)%Z -> (0 <= s < 60)%Z -> (0 <= f < 10 ^ 9)%Z ->
    lasts (H ++ t$"h" ++ M ++ t$"m" ++ S ++ F ++ t$"s") (((h * 60 + m) * 60 + s) * 10 ^ 9 + f).

(* composing the configuration message *)
Inductive no_conf (timeout : Z) : bytes -> Prop :=
| NC_long d : (2 ^ 32 * 10 ^ 6 <= timeout)%Z -> lasts d timeout ->
    no_conf timeout (t$"read timeout (milliseconds) overflow in server conf message (" ++ d ++ t$")")
| NC_negative d ms : (ms < 0)%Z -> (ms * 10 ^ 6 - 10 ^ 6 < timeout <= ms * 10 ^ 6)%Z -> SpecJson.spells d ms ->
    no_conf timeout (t$"negative read timeout (milliseconds) in server conf message (" ++ d ++ t$")").

(* starting a server; initialize: the error of the transport *)
Inductive no_start (broken : err -> bytes) (impl tr : bool) (initialize : options -> option err) (mk : bool) (o : options) : bytes -> Prop :=
| NS_impl : impl = false -> no_start broken impl tr initialize mk o (t$"missing server implementation")
| NS_transport : impl = true -> tr = false -> no_start broken impl tr initialize mk o (t$"missing transport layer implementation")
| NS_buffer n : impl = true -> tr = true -> Prepare mk o <> None -> (0 < op_bufsize o < 32)%N -> SpecJson.spells n (Z.of_N (op_bufsize o)) ->
    no_start broken impl tr initialize mk o (t$"message buffer size too small: " ++ n ++ t$" bytes (min: 32 bytes)")
| NS_timeout d : impl = true -> tr = true -> Prepare mk o <> None -> (op_bufsize o = 0 \/ 32 <= op_bufsize o)%N ->
    (2 ^ 32 * 10 ^ 6 <= op_timeout o)%Z -> lasts d (op_timeout o) ->
    no_start broken impl tr initialize mk o
      (t$"couldn't initialize server configuration-push message: read timeout (milliseconds) overflow in server conf message (" ++ d ++ t$")")
| NS_init o' e : impl = true -> tr = true -> Prepare mk o = Some (o', false) -> (op_timeout o < 2 ^ 32 * 10 ^ 6)%Z -> initialize o' = Some e ->
    no_start broken impl tr initialize mk o (t$"couldn't initialize transport layer: " ++ printed broken e).

(* closing the session on connections one after the other *)
Inductive closes {S C} (close : S -> C -> option (S * option err)) : S -> list C -> list (option err) -> S -> Prop :=
| Cl_nil s : closes close s [] [] s
| Cl_cons s c cs e es s1 s2 : close s c = Some (s1, e) -> closes close s1 cs es s2 -> closes close s (c :: cs) (e :: es) s2.
Definition failures (es : list (option err)) : nat := count_occ Bool.bool_dec (map (fun e => match e with Some _ => true | None => false end) es) true.
Inductive in_general (es : list (option err)) : option err -> Prop :=
| IG_none : failures es = 0 -> in_general es None
| IG_some n : 0 < failures es -> number (failures es) n ->
    in_general es (Some (Foreign (Some (n ++ t$" errors during the closure of a session")))).
