(* What JSON texts mean (RFC 8259), what session infos become on their way through JSON, and what is assumed of the
   printing and reading of numbers and times. *)
From Coq Require Import List Arith NArith ZArith Bool.
From Verif Require Import BaseBytes SpecText ModelFiles SpecFiles ModelJson.
Import ListNotations.
Open Scope nat_scope.

(* ----- the grammar ----- *)
Definition is_digit (b : byte) : Prop := between 48 57 b.
Definition hexval (b : byte) (n : N) : Prop :=
  (is_digit b /\ n = b2N b - 48)%N \/ (between 97 102 b /\ n = b2N b - 97 + 10)%N \/ (between 65 70 b /\ n = b2N b - 65 + 10)%N.
Definition hex4 (a b c d : byte) (u : N) : Prop :=
  exists x y z w, hexval a x /\ hexval b y /\ hexval c z /\ hexval d w /\ (u = ((x * 16 + y) * 16 + z) * 16 + w)%N.
Definition whole (i : bytes) : Prop := i = [n2b 48] \/ exists d ds, i = d :: ds /\ between 49 57 d /\ Forall is_digit ds.
Definition fraction (f : bytes) : Prop := f = [] \/ exists ds, f = n2b 46 :: ds /\ ds <> [] /\ Forall is_digit ds.
Definition exponent (e : bytes) : Prop :=
  e = [] \/ exists c s ds, e = c :: s ++ ds /\ In c [n2b 69; n2b 101] /\ In s [[]; [n2b 43]; [n2b 45]] /\ ds <> [] /\ Forall is_digit ds.
Definition number (l : bytes) : Prop :=
  exists s i f e, l = s ++ i ++ f ++ e /\ In s [[]; [n2b 45]] /\ whole i /\ fraction f /\ exponent e.
(* strings between the quotes: 34 is the quote, 92 the backslash, 117 u *)
Definition u_esc (a b c d : byte) : bytes := [n2b 92; n2b 117; a; b; c; d].
Inductive chars : bytes -> Prop :=
| Ch_nil : chars []
| Ch_plain b s : (32 <= b2N b)%N -> b <> n2b 34 -> b <> n2b 92 -> chars s -> chars (b :: s)
| Ch_esc c s : In (b2N c) [34; 92; 47; 98; 102; 110; 114; 116]%N -> chars s -> chars (n2b 92 :: c :: s)
| Ch_hex a b c d u s : hex4 a b c d u -> chars s -> chars (u_esc a b c d ++ s).
Definition ws (w : bytes) : Prop := Forall (fun b => In (b2N b) [32; 9; 10; 13]%N) w.
Definition in_quotes (s : bytes) : bytes := n2b 34 :: s ++ [n2b 34].
Definition ascii (l : list N) : bytes := map n2b l.
Inductive value : json -> bytes -> Prop :=
| V_null : value JNull (ascii [110; 117; 108; 108]%N)
| V_true : value (JBool true) (ascii [116; 114; 117; 101]%N)
| V_false : value (JBool false) (ascii [102; 97; 108; 115; 101]%N)
| V_num l : number l -> value (JNum l) l
| V_str s : chars s -> value (JStr s) (in_quotes s)
| V_empty w : ws w -> value (JArr []) (n2b 91 :: w ++ [n2b 93])
| V_arr l s : elements l s -> value (JArr l) (n2b 91 :: s ++ [n2b 93])
| V_none w : ws w -> value (JObj []) (n2b 123 :: w ++ [n2b 125])
| V_obj l s : entries l s -> value (JObj l) (n2b 123 :: s ++ [n2b 125])
with elements : list json -> bytes -> Prop :=
| E_last v s w1 w2 : ws w1 -> value v s -> ws w2 -> elements [v] (w1 ++ s ++ w2)
| E_next v s w1 w2 l t : ws w1 -> value v s -> ws w2 -> elements l t -> elements (v :: l) (w1 ++ s ++ w2 ++ n2b 44 :: t)
with entries : list (bytes * json) -> bytes -> Prop :=
| M_last k v s w0 w1 w2 w3 : ws w0 -> chars k -> ws w1 -> ws w2 -> value v s -> ws w3 ->
    entries [(k, v)] (w0 ++ in_quotes k ++ w1 ++ n2b 58 :: w2 ++ s ++ w3)
| M_next k v s w0 w1 w2 w3 l t : ws w0 -> chars k -> ws w1 -> ws w2 -> value v s -> ws w3 -> entries l t ->
    entries ((k, v) :: l) (w0 ++ in_quotes k ++ w1 ++ n2b 58 :: w2 ++ s ++ w3 ++ n2b 44 :: t).
Definition text_of (j : json) (s : bytes) : Prop := exists w1 t w2, s = w1 ++ t ++ w2 /\ ws w1 /\ value j t /\ ws w2.

(* ----- what strings denote ----- *)
Definition ufffd : bytes := ascii [239; 191; 189]%N.
Definition no_char (s : bytes) : Prop := forall c t, s = c ++ t -> ~ utf8_char c.
(* bytes that are not part of a character become U+FFFD *)
Inductive coerced : bytes -> bytes -> Prop :=
| Co_nil : coerced [] []
| Co_char c s s' : utf8_char c -> coerced s s' -> coerced (c ++ s) (c ++ s')
| Co_bad b s s' : no_char (b :: s) -> coerced s s' -> coerced (b :: s) (ufffd ++ s').
Definition high (u : N) : Prop := (0xD800 <= u < 0xDC00)%N.
Definition low (u : N) : Prop := (0xDC00 <= u < 0xE000)%N.
Definition escaped (c : byte) : N :=
  match b2N c with 98 => 8 | 102 => 12 | 110 => 10 | 114 => 13 | 116 => 9 | n => n end%N.
Inductive denotes : bytes -> bytes -> Prop :=
| D_nil : denotes [] []
| D_char c r s : utf8_char c -> c <> [n2b 92] -> denotes r s -> denotes (c ++ r) (c ++ s)
| D_bad b r s : no_char (b :: r) -> denotes r s -> denotes (b :: r) (ufffd ++ s)
| D_esc c r s : In (b2N c) [34; 92; 47; 98; 102; 110; 114; 116]%N -> denotes r s -> denotes (n2b 92 :: c :: r) (n2b (escaped c) :: s)
| D_hex a b c d u r s : hex4 a b c d u -> ~ high u -> ~ low u -> denotes r s -> denotes (u_esc a b c d ++ r) (utf8_of u ++ s)
| D_pair a b c d u a' b' c' d' u' r s : hex4 a b c d u -> high u -> hex4 a' b' c' d' u' -> low u' -> denotes r s ->
    denotes (u_esc a b c d ++ u_esc a' b' c' d' ++ r) (utf8_of (0x10000 + (u - 0xD800) * 1024 + (u' - 0xDC00)) ++ s)
| D_lone a b c d u r s : hex4 a b c d u -> high u \/ low u ->
    ~ (high u /\ exists a' b' c' d' u' t, r = u_esc a' b' c' d' ++ t /\ hex4 a' b' c' d' u' /\ low u') ->
    denotes r s -> denotes (u_esc a b c d ++ r) (ufffd ++ s).

(* ----- numbers and times ----- *)
(* the decimal spelling of an integer *)
Definition spells (l : bytes) (z : Z) : Prop :=
  exists s ds, l = s ++ ds /\ whole ds /\
    let n := fold_left (fun n d => 10 * n + (Z.of_N (b2N d) - 48))%Z ds 0%Z in (s = [] /\ z = n \/ s = [n2b 45] /\ z = - n /\ 0 < n)%Z.
(* of_int: the float64 nearest to an integer *)
Record sound {F} (T : texts F) (of_int : Z -> F) : Prop := {
  so_lit : forall f l, f_lit T f = Some l -> number l /\ f_num T l = Some f;
  so_num : forall l f, f_num T l = Some f -> exists l', f_lit T f = Some l';
  so_int : forall l z, spells l z -> (- 2 ^ 63 <= z < 2 ^ 64)%Z -> f_num T l = Some (of_int z);
  so_text : forall t x, t_text T t = Some x -> t_time T x = Some t /\ Forall (fun b => between 32 126 b /\ b <> n2b 34 /\ b <> n2b 92) x;
  so_time : forall x t, t_time T x = Some t -> exists y, t_text T t = Some y;
  so_years : forall t, in_years t -> exists x, t_text T t = Some x }.

(* ----- what values become ----- *)
(* the function behind [coerced] *)
Fixpoint coerce (k : nat) (s : bytes) : bytes :=
  match s, k with
  | [], _ => []
  | _ :: s', S k' => coerce k' s'
  | b :: s', 0 =>
      if (b2N b <? 128)%N then b :: coerce 0 s'
      else match rune_len s with 0 => ufffd ++ coerce 0 s' | S n => firstn (S n) s ++ coerce n s' end
  end.
Section Norm.
Context {F : Type} (of_int : Z -> F).
(* entries whose names have become equal: the one with the greatest name is kept *)
Fixpoint become (v : gval F) : gval F :=
  match v with
  | GInt z => GFloat (of_int z)
  | GStr s => GStr (coerce 0 s)
  | GSlice None | GMap None => GNil
  | GSlice (Some l) => GSlice (Some (map become l))
  | GMap (Some l) => GMap (Some (msort (map (fun kv => (coerce 0 (fst kv), snd kv)) (msort (map (fun kv => (fst kv, become (snd kv))) l)))))
  | _ => v
  end.
Definition become_info (i : info (F := F)) : info (F := F) :=
  match i with None => None | Some l => match become (GMap (Some l)) with GMap o => o | _ => None end end.
End Norm.
(* values JSON can carry *)
Inductive carried {F} (T : texts F) : gval F -> Prop :=
| Ca_nil : carried T GNil
| Ca_bool b : carried T (GBool b)
| Ca_int z : (- 2 ^ 63 <= z < 2 ^ 64)%Z -> carried T (GInt z)
| Ca_float f l : f_lit T f = Some l -> carried T (GFloat f)
| Ca_str s : carried T (GStr s)
| Ca_slice0 : carried T (GSlice None)
| Ca_slice l : Forall (carried T) l -> carried T (GSlice (Some l))
| Ca_map0 : carried T (GMap None)
| Ca_map l : Forall (fun kv => carried T (snd kv)) l -> carried T (GMap (Some l)).
(* values JSON keeps *)
(* the order of Go strings *)
Definition before (a b : bytes) : Prop :=
  (exists c t, b = a ++ c :: t) \/ (exists p x y s t, a = p ++ x :: s /\ b = p ++ y :: t /\ (b2N x < b2N y)%N).
Inductive increasing {V} : list (bytes * V) -> Prop :=
| In_nil : increasing []
| In_one k v : increasing [(k, v)]
| In_more k v k' v' l : before k k' -> increasing ((k', v') :: l) -> increasing ((k, v) :: (k', v') :: l).
Inductive kept {F} : gval F -> Prop :=
| Ke_nil : kept GNil
| Ke_bool b : kept (GBool b)
| Ke_float f : kept (GFloat f)
| Ke_str s : utf8_wf s -> kept (GStr s)
| Ke_slice l : Forall kept l -> kept (GSlice (Some l))
| Ke_map l : increasing l -> Forall (fun kv => utf8_wf (fst kv) /\ kept (snd kv)) l -> kept (GMap (Some l)).
(* the value a list of entries gives a name: the last one *)
Fixpoint last_of {V} (k : bytes) (l : list (bytes * V)) : option V :=
  match l with
  | [] => None
  | (k', v) :: l' => match last_of k l' with Some x => Some x | None => if bytes_eqb k k' then Some v else None end
  end.
(* what clients are told of an info: an empty one is left out *)
Definition told_info {F} (of_int : Z -> F) (i : info (F := F)) : info (F := F) :=
  match i with None | Some [] => None | _ => become_info of_int i end.

(* ----- what json.Marshal writes ----- *)
(* strings: nothing that HTML or JavaScript could take for something else *)
Definition hexdigit (n : N) (b : byte) : Prop := hexval b n /\ ~ between 65 70 b.
Inductive quoted_as : bytes -> bytes -> Prop :=
| Q_nil : quoted_as [] []
| Q_plain b s q : between 32 127 b -> ~ In (b2N b) [34; 92; 60; 62; 38]%N -> quoted_as s q -> quoted_as (b :: s) (b :: q)
| Q_esc b c s q : In (b2N b, b2N c) [(34, 34); (92, 92); (10, 110); (13, 114); (9, 116)]%N -> quoted_as s q -> quoted_as (b :: s) (n2b 92 :: c :: q)
| Q_hex b x y h l s q : ((b2N b < 32 /\ ~ In (b2N b) [10; 13; 9]) \/ In (b2N b) [60; 62; 38])%N -> hexdigit h x -> hexdigit l y -> (b2N b = 16 * h + l)%N ->
    quoted_as s q -> quoted_as (b :: s) (u_esc (n2b 48) (n2b 48) x y ++ q)
| Q_char c s q : utf8_char c -> 2 <= length c -> c <> utf8_of 0x2028 -> c <> utf8_of 0x2029 -> quoted_as s q -> quoted_as (c ++ s) (c ++ q)
| Q_2028 s q : quoted_as s q -> quoted_as (utf8_of 0x2028 ++ s) (u_esc (n2b 50) (n2b 48) (n2b 50) (n2b 56) ++ q)
| Q_2029 s q : quoted_as s q -> quoted_as (utf8_of 0x2029 ++ s) (u_esc (n2b 50) (n2b 48) (n2b 50) (n2b 57) ++ q)
| Q_bad b s q : no_char (b :: s) -> quoted_as s q -> quoted_as (b :: s) (u_esc (n2b 102) (n2b 102) (n2b 102) (n2b 100) ++ q).
Fixpoint commas (l : list bytes) : bytes :=
  match l with [] => [] | [x] => x | x :: l' => x ++ n2b 44 :: commas l' end.
(* m: the map a list of entries is *)
Definition map_of {V} (l m : list (bytes * V)) : Prop := increasing m /\ forall k v, In (k, v) m <-> last_of k l = Some v.
Inductive wrote {F} (T : texts F) : gval F -> bytes -> Prop :=
| W_nil : wrote T GNil (ascii [110; 117; 108; 108]%N)
| W_true : wrote T (GBool true) (ascii [116; 114; 117; 101]%N)
| W_false : wrote T (GBool false) (ascii [102; 97; 108; 115; 101]%N)
| W_int z l : (- 2 ^ 63 <= z < 2 ^ 64)%Z -> spells l z -> wrote T (GInt z) l
| W_float f l : f_lit T f = Some l -> wrote T (GFloat f) l
| W_str s q : quoted_as s q -> wrote T (GStr s) (in_quotes q)
| W_slice0 : wrote T (GSlice None) (ascii [110; 117; 108; 108]%N)
| W_slice l ts : Forall2 (wrote T) l ts -> wrote T (GSlice (Some l)) (n2b 91 :: commas ts ++ [n2b 93])
| W_map0 : wrote T (GMap None) (ascii [110; 117; 108; 108]%N)
| W_map l m ts : map_of l m -> Forall2 (fun kv x => exists q t, quoted_as (fst kv) q /\ wrote T (snd kv) t /\ x = in_quotes q ++ n2b 58 :: t) m ts ->
    wrote T (GMap (Some l)) (n2b 123 :: commas ts ++ [n2b 125]).
(* a field and its value *)
Definition field (c : N) (x : bytes) : bytes := in_quotes [n2b c] ++ n2b 58 :: x.

(* ----- what json.Unmarshal reads ----- *)
Inductive reads {F} (T : texts F) : json -> gval F -> Prop :=
| R_null : reads T JNull GNil
| R_bool b : reads T (JBool b) (GBool b)
| R_num l f : f_num T l = Some f -> reads T (JNum l) (GFloat f)
| R_str raw s : denotes raw s -> reads T (JStr raw) (GStr s)
| R_arr l vs : Forall2 (reads T) l vs -> reads T (JArr l) (GSlice (Some vs))
| R_obj l es m : Forall2 (fun x y => denotes (fst x) (fst y) /\ reads T (snd x) (snd y)) l es -> map_of es m -> reads T (JObj l) (GMap (Some m)).
(* the values of the members with one of the names ns *)
Inductive picks (ns : list bytes) : list (bytes * json) -> list json -> Prop :=
| P_nil : picks ns [] []
| P_yes raw n j l vs : denotes raw n -> In n ns -> picks ns l vs -> picks ns ((raw, j) :: l) (j :: vs)
| P_no raw n j l vs : denotes raw n -> ~ In n ns -> picks ns l vs -> picks ns ((raw, j) :: l) vs.
(* what fields become *)
Inductive times {F} (T : texts F) : Z -> list json -> Z -> Prop :=
| T_nil t : times T t [] t
| T_null t js t' : times T t js t' -> times T t (JNull :: js) t'
| T_str t raw t1 js t' : t_time T raw = Some t1 -> times T t1 js t' -> times T t (JStr raw :: js) t'.
Definition entries_of {F} (i : info (F := F)) : list (bytes * gval F) := match i with Some l => l | None => [] end.
Inductive infos {F} (T : texts F) : info (F := F) -> list json -> info (F := F) -> Prop :=
| I_nil i : infos T i [] i
| I_null i js i' : infos T None js i' -> infos T i (JNull :: js) i'
| I_obj i l es m js i' : Forall2 (fun x y => denotes (fst x) (fst y) /\ reads T (snd x) (snd y)) l es -> map_of (entries_of i ++ es) m ->
    infos T (Some m) js i' -> infos T i (JObj l :: js) i'.
Inductive strings : bytes -> list json -> bytes -> Prop :=
| S_nil s : strings s [] s
| S_null s js s' : strings s js s' -> strings s (JNull :: js) s'
| S_str s raw s1 js s' : denotes raw s1 -> strings s1 js s' -> strings s (JStr raw :: js) s'.
(* midnight, January 1, year 1 *)
Definition year_one : Z := (- 719162 * 86400 * 10 ^ 9)%Z.
Definition names_c : list bytes := [[n2b 99]; [n2b 67]].
Definition names_l : list bytes := [[n2b 108]; [n2b 76]].
Definition names_i : list bytes := [[n2b 105]; [n2b 73]].
(* k, K and the Kelvin sign *)
Definition names_k : list bytes := [[n2b 107]; [n2b 75]; utf8_of 0x212A].
