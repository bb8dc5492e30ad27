(* Model of encoding/json as the library uses it: json.Marshal and json.Unmarshal of session files
   (defaultSessionManager.go:13-41) and json.Marshal of the sessions told to clients (session.go:39-47,
   connection.go:247-256, handleSessionRestore.go:59-71). encoding/json is part of Go's standard library, not of
   /repo; the model follows encode.go, scanner.go and decode.go of Go 1.11. Simplifications: infos are trees of the
   values listed at [gval], without pointers, structs, byte slices and types with methods of their own; how floats
   and times are printed and read is a parameter, see [texts]; errors are not told apart. *)
From Coq Require Import List Arith NArith ZArith Bool.
From Verif Require Import BaseBytes ModelMessage ModelPayload ModelFiles.
Import ListNotations.
Open Scope nat_scope.

(* ----- characters ----- *)
Definition in_ (lo hi : N) (b : byte) : bool := (lo <=? b2N b)%N && (b2N b <=? hi)%N.
Definition cont (b : byte) : bool := in_ 0x80 0xBF b.
(* utf8.DecodeRune: the number of bytes of the character s begins with, for characters of more than one byte;
   0: RuneError, 1 *)
Definition rune_len (s : bytes) : nat :=
  match s with
  | a :: b :: s2 =>
      if in_ 0xC2 0xDF a && cont b then 2 else
      match s2 with
      | c :: s3 =>
          if (in_ 0xE0 0xE0 a && in_ 0xA0 0xBF b || in_ 0xE1 0xEC a && cont b || in_ 0xED 0xED a && in_ 0x80 0x9F b || in_ 0xEE 0xEF a && cont b) && cont c
          then 3 else
          match s3 with
          | d :: _ =>
              if (in_ 0xF0 0xF0 a && in_ 0x90 0xBF b || in_ 0xF1 0xF3 a && cont b || in_ 0xF4 0xF4 a && in_ 0x80 0x8F b) && cont c && cont d
              then 4 else 0
          | [] => 0
          end
      | [] => 0
      end
  | _ => 0
  end.
Definition quote : byte := x22.
Definition backslash : byte := x5c.
Definition hex (n : N) : byte := n2b (if (n <? 10)%N then 48 + n else 87 + n).
(* encode.go, htmlSafeSet *)
Definition safe (b : byte) : bool := in_ 0x20 0x7F b && negb (existsb (beq b) [quote; backslash; x3c; x3e; x26]).
(* encode.go, encodeState.string: the escapes of bytes below 0x80 *)
Definition esc_byte (b : byte) : bytes :=
  if beq b backslash || beq b quote then [backslash; b]
  else if beq b x0a then [backslash; x6e]
  else if beq b x0d then [backslash; x72]
  else if beq b x09 then [backslash; x74]
  else [backslash; x75; x30; x30; hex (b2N b / 16); hex (b2N b mod 16)].
Definition esc_bad : bytes := [backslash; x75; x66; x66; x66; x64].
(* U+2028 and U+2029 *)
Definition esc_char (q : bytes) : bytes :=
  if bytes_eqb q [xe2; x80; xa8] then [backslash; x75; x32; x30; x32; x38]
  else if bytes_eqb q [xe2; x80; xa9] then [backslash; x75; x32; x30; x32; x39]
  else q.
(* encodeState.string without the quotes; k: bytes of the last character to be passed over *)
Fixpoint esc (k : nat) (s : bytes) : bytes :=
  match s, k with
  | [], _ => []
  | _ :: s', S k' => esc k' s'
  | b :: s', 0 =>
      if (b2N b <? 128)%N then (if safe b then [b] else esc_byte b) ++ esc 0 s'
      else match rune_len s with
           | 0 => esc_bad ++ esc 0 s'
           | S n => esc_char (firstn (S n) s) ++ esc n s'
           end
  end.

(* decode.go, getu4 *)
Definition hex_digit (b : byte) : option N :=
  if in_ 48 57 b then Some (b2N b - 48)%N
  else if in_ 97 102 b then Some (b2N b - 87)%N
  else if in_ 65 70 b then Some (b2N b - 55)%N
  else None.
Definition getu4 (s : bytes) : option N :=
  match s with
  | a :: b :: c :: d :: _ =>
      let? a := hex_digit a in let? b := hex_digit b in let? c := hex_digit c in let? d := hex_digit d in
      Some (4096 * a + 256 * b + 16 * c + d)%N
  | _ => None
  end.
(* utf16.DecodeRune; None: no pair *)
Definition pair16 (r1 r2 : N) : option N :=
  if ((0xD800 <=? r1) && (r1 <? 0xDC00) && (0xDC00 <=? r2) && (r2 <? 0xE000))%N
  then Some ((r1 - 0xD800) * 1024 + (r2 - 0xDC00) + 0x10000)%N else None.
Definition replacement : bytes := [xef; xbf; xbd].
(* the character behind a backslash, if not u *)
Definition simple_esc (c : byte) : bytes :=
  if beq c x62 then [x08] else if beq c x66 then [x0c] else if beq c x6e then [x0a] else if beq c x72 then [x0d]
  else if beq c x74 then [x09] else [c].
(* decode.go, unquoteBytes, for what the scanner has let through *)
Fixpoint unq (k : nat) (s : bytes) : bytes :=
  match s, k with
  | [], _ => []
  | _ :: s', S k' => unq k' s'
  | b :: s', 0 =>
      if beq b backslash then
        match s' with
        | [] => []
        | c :: t =>
            if beq c x75 then
              match getu4 t with
              | None => []
              | Some r =>
                  if (0xD800 <=? r)%N && (r <? 0xE000)%N then
                    match skipn 4 t with
                    | b2 :: c2 :: t2 =>
                        match (if beq b2 backslash && beq c2 x75 then match getu4 t2 with Some r2 => pair16 r r2 | None => None end else None) with
                        | Some p => utf8_EncodeRune p ++ unq 11 s'
                        | None => replacement ++ unq 5 s'
                        end
                    | _ => replacement ++ unq 5 s'
                    end
                  else utf8_EncodeRune r ++ unq 5 s'
              end
            else simple_esc c ++ unq 1 s'
        end
      else if (b2N b <? 128)%N then b :: unq 0 s'
      else match rune_len s with
           | 0 => replacement ++ unq 0 s'
           | S n => firstn (S n) s ++ unq n s'
           end
  end.

(* ----- texts and syntax trees; numbers and strings as they are written ----- *)
Inductive json := JNull | JBool (b : bool) | JNum (lit : bytes) | JStr (raw : bytes) | JArr (l : list json) | JObj (l : list (bytes * json)).
Fixpoint join (l : list bytes) : bytes :=
  match l with [] => [] | x :: l' => match l' with [] => x | _ => x ++ x2c :: join l' end end.
Definition quoted (raw : bytes) : bytes := quote :: raw ++ [quote].
Definition t_null : bytes := [x6e; x75; x6c; x6c].
Definition t_true : bytes := [x74; x72; x75; x65].
Definition t_false : bytes := [x66; x61; x6c; x73; x65].
Fixpoint print (j : json) : bytes :=
  match j with
  | JNull => t_null
  | JBool b => if b then t_true else t_false
  | JNum lit => lit
  | JStr raw => quoted raw
  | JArr l => x5b :: join (map print l) ++ [x5d]
  | JObj l => x7b :: join (map (fun kv => quoted (fst kv) ++ x3a :: print (snd kv)) l) ++ [x7d]
  end.

(* scanner.go *)
Fixpoint skip_ws (s : bytes) : bytes :=
  match s with [] => [] | b :: s' => if beq b x20 || beq b x09 || beq b x0a || beq b x0d then skip_ws s' else s end.
Inductive sstate := Plain | Esc | Hex (k : nat).
Definition is_hex (b : byte) : bool := match hex_digit b with Some _ => true | None => false end.
(* the characters up to the next quote that is not escaped, and the rest *)
Fixpoint scan_str (st : sstate) (s : bytes) : option (bytes * bytes) :=
  match s with
  | [] => None
  | b :: s' =>
      match st with
      | Plain =>
          if beq b quote then Some ([], s')
          else if (b2N b <? 32)%N then None
          else let? (raw, r) := scan_str (if beq b backslash then Esc else Plain) s' in Some (b :: raw, r)
      | Esc =>
          if beq b x75 then let? (raw, r) := scan_str (Hex 3) s' in Some (b :: raw, r)
          else if existsb (beq b) [x62; x66; x6e; x72; x74; backslash; x2f; quote]
          then let? (raw, r) := scan_str Plain s' in Some (b :: raw, r)
          else None
      | Hex k =>
          if is_hex b
          then let? (raw, r) := scan_str (match k with 0 => Plain | S k' => Hex k' end) s' in Some (b :: raw, r)
          else None
      end
  end.
(* numbers: the states of the scanner *)
Inductive nstate := NBegin | NNeg | NZero | NInt | NDot | NFrac | NE | NESign | NExp.
Definition digit (b : byte) : bool := in_ 48 57 b.
Definition num_step (st : nstate) (b : byte) : option nstate :=
  match st with
  | NBegin => if beq b x2d then Some NNeg else if beq b x30 then Some NZero else if digit b then Some NInt else None
  | NNeg => if beq b x30 then Some NZero else if digit b then Some NInt else None
  | NZero => if beq b x2e then Some NDot else if beq b x65 || beq b x45 then Some NE else None
  | NInt => if digit b then Some NInt else if beq b x2e then Some NDot else if beq b x65 || beq b x45 then Some NE else None
  | NDot => if digit b then Some NFrac else None
  | NFrac => if digit b then Some NFrac else if beq b x65 || beq b x45 then Some NE else None
  | NE => if beq b x2b || beq b x2d then Some NESign else if digit b then Some NExp else None
  | NESign | NExp => if digit b then Some NExp else None
  end.
Definition num_end (st : nstate) : bool := match st with NZero | NInt | NFrac | NExp => true | _ => false end.
Fixpoint scan_num (st : nstate) (s : bytes) : option (bytes * bytes) :=
  match s with
  | [] => if num_end st then Some ([], []) else None
  | b :: s' =>
      match num_step st b with
      | Some st' => let? (lit, r) := scan_num st' s' in Some (b :: lit, r)
      | None => if num_end st then Some ([], s) else None
      end
  end.
Fixpoint strip (w s : bytes) : option bytes :=
  match w, s with
  | [], _ => Some s
  | a :: w', b :: s' => if beq a b then strip w' s' else None
  | _ :: _, [] => None
  end.
(* decode.go, value, arrayInterface, objectInterface; fuel: more than the length of the text *)
Fixpoint pval (fuel : nat) (s : bytes) : option (json * bytes) :=
  match fuel with
  | 0 => None
  | S fuel =>
      match skip_ws s with
      | [] => None
      | b :: s' =>
          if beq b quote then let? (raw, r) := scan_str Plain s' in Some (JStr raw, r)
          else if beq b x5b then
            match strip [x5d] (skip_ws s') with
            | Some r => Some (JArr [], r)
            | None => let? (l, r) := pelems fuel s' in Some (JArr l, r)
            end
          else if beq b x7b then
            match strip [x7d] (skip_ws s') with
            | Some r => Some (JObj [], r)
            | None => let? (l, r) := pmems fuel s' in Some (JObj l, r)
            end
          else if beq b x6e then let? r := strip t_null (b :: s') in Some (JNull, r)
          else if beq b x74 then let? r := strip t_true (b :: s') in Some (JBool true, r)
          else if beq b x66 then let? r := strip t_false (b :: s') in Some (JBool false, r)
          else let? (lit, r) := scan_num NBegin (b :: s') in Some (JNum lit, r)
      end
  end
with pelems (fuel : nat) (s : bytes) : option (list json * bytes) :=
  match fuel with
  | 0 => None
  | S fuel =>
      let? (v, r) := pval fuel s in
      match strip [x2c] (skip_ws r) with
      | Some r => let? (l, r) := pelems fuel r in Some (v :: l, r)
      | None => let? r := strip [x5d] (skip_ws r) in Some ([v], r)
      end
  end
with pmems (fuel : nat) (s : bytes) : option (list (bytes * json) * bytes) :=
  match fuel with
  | 0 => None
  | S fuel =>
      let? s := strip [quote] (skip_ws s) in
      let? (k, r) := scan_str Plain s in
      let? r := strip [x3a] (skip_ws r) in
      let? (v, r) := pval fuel r in
      match strip [x2c] (skip_ws r) with
      | Some r => let? (l, r) := pmems fuel r in Some ((k, v) :: l, r)
      | None => let? r := strip [x7d] (skip_ws r) in Some ([(k, v)], r)
      end
  end.
Definition parse (s : bytes) : option json :=
  let? (j, r) := pval (S (length s)) s in
  match skip_ws r with [] => Some j | _ => None end.

(* ----- Go values ----- *)
(* what can be in an interface{}; F: float64. GOther: what json.Marshal refuses (channels, functions). Maps are lists of
   entries *)
Inductive gval (F : Type) :=
| GNil | GBool (b : bool) | GInt (z : Z) | GFloat (f : F) | GStr (s : bytes)
| GSlice (o : option (list (gval F))) | GMap (o : option (list (bytes * gval F))) | GOther.
Arguments GNil {F}. Arguments GBool {F}. Arguments GInt {F}. Arguments GFloat {F}. Arguments GStr {F}. Arguments GSlice {F}.
Arguments GMap {F}. Arguments GOther {F}.
(* strconv.FormatFloat as called by encode.go (None: NaN or infinite), strconv.ParseFloat (None: out of range),
   Time.MarshalJSON without the quotes (None: the year has not four digits; times are instants, with the zone left out), Time.UnmarshalJSON *)
Record texts (F : Type) := MkTexts { f_lit : F -> option bytes; f_num : bytes -> option F; t_text : Z -> option bytes; t_time : bytes -> option Z }.
Arguments f_lit {F}. Arguments f_num {F}. Arguments t_text {F}. Arguments t_time {F}. Arguments MkTexts {F}.

(* strconv.AppendInt, base 10 *)
Fixpoint dec_digits (fuel : nat) (n : N) : bytes :=
  match fuel with
  | 0 => []
  | S fuel => if (n <? 10)%N then [n2b (48 + n)] else dec_digits fuel (n / 10) ++ [n2b (48 + n mod 10)]
  end.
Definition dec (z : Z) : bytes := (if (z <? 0)%Z then [x2d] else []) ++ dec_digits 20 (Z.abs_N z).
(* int64 and uint64 *)
Definition is_int (z : Z) : bool := (- 2 ^ 63 <=? z)%Z && (z <? 2 ^ 64)%Z.

(* maps by sorted lists: Go compares strings bytewise *)
Fixpoint bytes_ltb (a b : bytes) : bool :=
  match a, b with
  | _, [] => false
  | [], _ :: _ => true
  | x :: a', y :: b' => (b2N x <? b2N y)%N || (beq x y && bytes_ltb a' b')
  end.
Fixpoint mput {V} (k : bytes) (v : V) (m : list (bytes * V)) : list (bytes * V) :=
  match m with
  | [] => [(k, v)]
  | (k', v') :: m' => if bytes_eqb k k' then (k, v) :: m' else if bytes_ltb k k' then (k, v) :: m else (k', v') :: mput k v m'
  end.
Definition mputs {V} (l : list (bytes * V)) (m : list (bytes * V)) : list (bytes * V) := fold_left (fun m kv => mput (fst kv) (snd kv) m) l m.
Definition msort {V} (l : list (bytes * V)) : list (bytes * V) := mputs l [].

Fixpoint all {A} (l : list (option A)) : option (list A) :=
  match l with [] => Some [] | x :: l' => let? x := x in let? l := all l' in Some (x :: l) end.
Definition vals {A} (l : list (bytes * option A)) : option (list (bytes * A)) :=
  all (map (fun kv => option_map (pair (fst kv)) (snd kv)) l).

Section Codec.
Context {F : Type} (T : texts F).
(* encode.go: reflectValue; None: error *)
Fixpoint tree (v : gval F) : option json :=
  match v with
  | GNil => Some JNull
  | GBool b => Some (JBool b)
  | GInt z => if is_int z then Some (JNum (dec z)) else None
  | GFloat f => option_map JNum (f_lit T f)
  | GStr s => Some (JStr (esc 0 s))
  | GSlice None => Some JNull
  | GSlice (Some l) => option_map JArr (all (map tree l))
  | GMap None => Some JNull
  | GMap (Some l) =>
      option_map (fun m => JObj (map (fun kv => (esc 0 (fst kv), snd kv)) (msort m))) (vals (map (fun kv => (fst kv, tree (snd kv))) l))
  | GOther => None
  end.
(* decode.go: valueInterface *)
Fixpoint interp (j : json) : option (gval F) :=
  match j with
  | JNull => Some GNil
  | JBool b => Some (GBool b)
  | JNum lit => option_map GFloat (f_num T lit)
  | JStr raw => Some (GStr (unq 0 raw))
  | JArr l => option_map (fun l => GSlice (Some l)) (all (map interp l))
  | JObj l => option_map (fun l => GMap (Some (msort l))) (vals (map (fun kv => (unq 0 (fst kv), interp (snd kv))) l))
  end.

(* a map[string]interface{} *)
Definition info := option (list (bytes * gval F)).
Definition name (b : byte) : bytes := [b].
(* json.Marshal of a session file, defaultSessionManager.go:13-17 *)
Definition marshal_file (f : sfile info) : option bytes :=
  let? c := t_text T (sf_creation f) in
  let? l := t_text T (sf_lookup f) in
  let? i := tree (GMap (sf_info f)) in
  Some (print (JObj [(name x63, JStr c); (name x6c, JStr l); (name x69, i)])).
(* does the key of a member name the field b? encoding/json ignores case; for k that includes the Kelvin sign *)
Definition names (b : byte) (key : bytes) : bool :=
  bytes_eqb key [b] || bytes_eqb key [n2b (b2N b - 32)] || (beq b x6b && bytes_eqb key [xe2; x84; xaa]).
(* time.Time{} *)
Definition zero_time : Z := -62135596800000000000.
(* decoding into a field of type time.Time, into one of type map[string]interface{}; None: error *)
Definition into_time (j : json) (t : Z) : option Z :=
  match j with JNull => Some t | JStr raw => t_time T raw | _ => None end.
Definition into_info (j : json) (i : info) : option info :=
  match j with
  | JNull => Some None
  | JObj l =>
      let? m := vals (map (fun kv => (unq 0 (fst kv), interp (snd kv))) l) in
      Some (Some (mputs m (match i with Some old => old | None => [] end)))
  | _ => None
  end.
Definition member (f : sfile info) (kv : bytes * json) : option (sfile info) :=
  let key := unq 0 (fst kv) in
  if names x63 key then let? t := into_time (snd kv) (sf_creation f) in Some (MkSfile t (sf_lookup f) (sf_info f))
  else if names x6c key then let? t := into_time (snd kv) (sf_lookup f) in Some (MkSfile (sf_creation f) t (sf_info f))
  else if names x69 key then let? i := into_info (snd kv) (sf_info f) in Some (MkSfile (sf_creation f) (sf_lookup f) i)
  else Some f.
Fixpoint members (f : sfile info) (l : list (bytes * json)) : option (sfile info) :=
  match l with [] => Some f | kv :: l' => let? f := member f kv in members f l' end.
(* json.Unmarshal into an empty session file *)
Definition unmarshal_file (b : bytes) : option (sfile info) :=
  let? j := parse b in
  match j with
  | JNull => Some (MkSfile zero_time zero_time None)
  | JObj l => members (MkSfile zero_time zero_time None) l
  | _ => None
  end.
Definition json_files : codec info := MkCodec marshal_file unmarshal_file.

(* JSONEncodedSession, session.go:39-47, with its key; the info is left out if it is empty *)
Record encoded := MkEncoded { en_key : bytes; en_file : sfile info }.
Definition marshal_session (s : encoded) : option bytes :=
  let f := en_file s in
  let? c := t_text T (sf_creation f) in
  let? l := t_text T (sf_lookup f) in
  let? i := match sf_info f with None | Some [] => Some [] | Some m => option_map (fun j => [(name x69, j)]) (tree (GMap (Some m))) end in
  Some (print (JObj ((name x6b, JStr (esc 0 (en_key s))) :: (name x63, JStr c) :: (name x6c, JStr l) :: i))).
(* what clients do with it *)
Definition into_string (j : json) (s : bytes) : option bytes :=
  match j with JNull => Some s | JStr raw => Some (unq 0 raw) | _ => None end.
Fixpoint session_members (s : encoded) (l : list (bytes * json)) : option encoded :=
  match l with
  | [] => Some s
  | kv :: l' =>
      if names x6b (unq 0 (fst kv)) then let? k := into_string (snd kv) (en_key s) in session_members (MkEncoded k (en_file s)) l'
      else let? f := member (en_file s) kv in session_members (MkEncoded (en_key s) f) l'
  end.
Definition unmarshal_session (b : bytes) : option encoded :=
  let? j := parse b in
  let zero := MkEncoded [] (MkSfile zero_time zero_time None) in
  match j with JNull => Some zero | JObj l => session_members zero l | _ => None end.
End Codec.
