(** JSON text: [json_dump_string] and [json_dump] of
    strong_typing/serialization.py 102-116, which call [json.dumps] and [json.dump],
    and [json.loads], which reads what they write.  The [json] package is that of
    CPython 3.11 with its accelerator ([_json]). *)
From Coq Require Import String List NArith ZArith Bool.
From Verif Require Import Base Json Digits Ser.
Import ListNotations.
Open Scope list_scope.
Open Scope nat_scope.

(** [float.__repr__] on finite numbers, and [float] on the text of a number. *)
Record floats := { f_repr : flt -> pystr; f_read : pystr -> flt }.

(** ** Writing *)

(** json/encoder.py 20-33: [ESCAPE_DCT] *)
Definition escape_char (c : N) : pystr :=
  if (c =? 92)%N then str "\\"
  else if (c =? 34)%N then [92; 34]%N
  else if (c =? 8)%N then str "\b"
  else if (c =? 12)%N then str "\f"
  else if (c =? 10)%N then str "\n"
  else if (c =? 13)%N then str "\r"
  else if (c =? 9)%N then str "\t"
  else if (c <? 32)%N then str "\u" ++ hex_pad 4 c
  else [c].

(** json/encoder.py 36-42: [encode_basestring] ([ensure_ascii=False]) *)
Definition quote (s : pystr) : pystr := [34%N] ++ flat_map escape_char s ++ [34%N].

(** [int.__repr__]: more than 4300 digits are refused with ValueError *)
Definition int_repr (z : Z) : res pystr :=
  if (4300 <? N.of_nat (length (dec_str (Z.to_N (Z.abs z)))))%N then Err EValue else Ok (int_str z).

(** json/encoder.py 223-244: [floatstr], with [allow_nan] *)
Definition float_repr (F : floats) (f : flt) : pystr :=
  match f with
  | FNan => str "NaN"
  | FInf false => str "Infinity"
  | FInf true => str "-Infinity"
  | FFin _ _ _ => f_repr F f
  end.

Fixpoint join (sep : pystr) (ts : list pystr) : pystr :=
  match ts with
  | [] => []
  | [t] => t
  | t :: r => t ++ sep ++ join sep r
  end.

(** serialization.py 102-105: [json.dumps] with compact separators (json/encoder.py
    277-442) *)
Fixpoint json_dump_string (F : floats) (j : json) : res pystr :=
  match j with
  | JNull => Ok (str "null")
  | JBool true => Ok (str "true")
  | JBool false => Ok (str "false")
  | JInt z => int_repr z
  | JFloat f => Ok (float_repr F f)
  | JStr s => Ok (quote s)
  | JArr l =>
      do ts <- mapM (json_dump_string F) l;
      Ok (str "[" ++ join (str ",") ts ++ str "]")
  | JObj o =>
      do ts <- mapM (fun kv => do t <- json_dump_string F (snd kv); Ok (quote (fst kv) ++ str ":" ++ t)) o;
      Ok (str "{" ++ join (str ",") ts ++ str "}")
  end.

(** serialization.py 108-116: what is written to the file *)
Definition json_dump (F : floats) (j : json) : res pystr :=
  do t <- json_dump_string F j; Ok (t ++ [10%N]).

(** ** Reading *)

(** json/decoder.py 126-127: [WHITESPACE] *)
Definition is_ws (c : N) : bool := ((c =? 32) || (c =? 9) || (c =? 10) || (c =? 13))%N.

Fixpoint skip_ws (s : pystr) : pystr :=
  match s with
  | c :: r => if is_ws c then skip_ws r else s
  | [] => []
  end.

(** json/decoder.py 58-61: [BACKSLASH] *)
Definition unescape (c : N) : option N :=
  (if (c =? 34)%N then Some 34
   else if (c =? 92)%N then Some 92
   else if (c =? 47)%N then Some 47
   else if (c =? 98)%N then Some 8
   else if (c =? 102)%N then Some 12
   else if (c =? 110)%N then Some 10
   else if (c =? 114)%N then Some 13
   else if (c =? 116)%N then Some 9
   else None)%N.

Definition hex4 (a b c d : N) : option N :=
  match char_digit a, char_digit b, char_digit c, char_digit d with
  | Some a, Some b, Some c, Some d => Some (undigits 16 [a; b; c; d])
  | _, _, _, _ => None
  end.

Definition high_surrogate (c : N) : bool := ((55296 <=? c) && (c <=? 56319))%N.
Definition low_surrogate (c : N) : bool := ((56320 <=? c) && (c <=? 57343))%N.
Definition join_surrogates (h l : N) : N := (65536 + (h - 55296) * 1024 + (l - 56320))%N.

Definition prepend (c : N) (q : res (pystr * pystr)) : res (pystr * pystr) := do q <- q; Ok (c :: fst q, snd q).

(** json/decoder.py 73-124: [scanstring] in strict mode, after the opening quote;
    the text and what follows the closing quote *)
Fixpoint scan_string (s : pystr) : res (pystr * pystr) :=
  match s with
  | [] => Err EValue
  | c :: r =>
      if (c =? 34)%N then Ok ([], r)
      else if (c =? 92)%N then
        match r with
        | [] => Err EValue
        | e :: r1 =>
            if (e =? 117)%N then
              match r1 with
              | h1 :: h2 :: h3 :: h4 :: r2 =>
                  match hex4 h1 h2 h3 h4 with
                  | None => Err EValue
                  | Some u =>
                      match r2 with
                      | b :: e2 :: l1 :: l2 :: l3 :: l4 :: r3 =>
                          if high_surrogate u && (b =? 92)%N && (e2 =? 117)%N then
                            match hex4 l1 l2 l3 l4 with
                            | None => Err EValue
                            | Some u2 => if low_surrogate u2 then prepend (join_surrogates u u2) (scan_string r3) else prepend u (scan_string r2)
                            end
                          else prepend u (scan_string r2)
                      | _ => prepend u (scan_string r2)
                      end
                  end
              | _ => Err EValue
              end
            else match unescape e with Some d => prepend d (scan_string r1) | None => Err EValue end
        end
      else if (c <? 32)%N then Err EValue
      else prepend c (scan_string r)
  end.

(** json/scanner.py 14-16, 47-54: numbers, with the digits of ASCII only *)
Definition scan_fraction (s : pystr) : pystr * pystr :=
  match s with
  | c :: r => if (c =? 46)%N then match span_digits r with ([], _) => ([], s) | (ds, r') => (c :: ds, r') end else ([], s)
  | [] => ([], s)
  end.

Definition scan_exponent (s : pystr) : pystr * pystr :=
  match s with
  | c :: r =>
      if ((c =? 101) || (c =? 69))%N then
        let (sign, r1) := match r with d :: r1 => if ((d =? 43) || (d =? 45))%N then ([d], r1) else ([], r) | [] => ([], r) end in
        match span_digits r1 with ([], _) => ([], s) | (ds, r') => (c :: sign ++ ds, r') end
      else ([], s)
  | [] => ([], s)
  end.

Definition scan_number (F : floats) (s : pystr) : res (json * pystr) :=
  let (sign, s1) := match s with c :: r => if (c =? 45)%N then ([c], r) else ([], s) | [] => ([], s) end in
  match s1 with
  | [] => Err EValue
  | c :: r =>
      if negb (is_digit c) then Err EValue
      else
        let (ds, s2) := if (c =? 48)%N then ([c], r) else span_digits s1 in
        let (frac, s3) := scan_fraction s2 in
        let (exp, s4) := scan_exponent s3 in
        match frac, exp with
        | [], [] => do n <- int_of_ascii_digits ds; Ok (JInt (match sign with [] => Z.of_N n | _ => (- Z.of_N n)%Z end), s4)
        | _, _ => Ok (JFloat (f_read F (sign ++ ds ++ frac ++ exp)), s4)
        end
  end.

(** json/scanner.py 30-63, json/decoder.py 130-250: values.  [n] bounds the number
    of nested calls; the nesting that Python allows is not bounded here. *)
Fixpoint scan (F : floats) (n : nat) (s : pystr) {struct n} : res (json * pystr) :=
  match n with
  | 0 => Err ERecursion
  | S n =>
      match s with
      | [] => Err EValue
      | c :: r =>
          if (c =? 34)%N then do q <- scan_string r; Ok (JStr (fst q), snd q)
          else if (c =? 123)%N then
            match skip_ws r with
            | [] => Err EValue
            | d :: r' =>
                if (d =? 34)%N then do q <- scan_members F n r'; Ok (JObj (dict_of (fst q)), snd q)
                else if (d =? 125)%N then Ok (JObj [], r')
                else Err EValue
            end
          else if (c =? 91)%N then
            match skip_ws r with
            | [] => Err EValue
            | d :: r' =>
                if (d =? 93)%N then Ok (JArr [], r')
                else do q <- scan_elements F n (d :: r'); Ok (JArr (fst q), snd q)
            end
          else if starts_with (str "null") s then Ok (JNull, skipn 4 s)
          else if starts_with (str "true") s then Ok (JBool true, skipn 4 s)
          else if starts_with (str "false") s then Ok (JBool false, skipn 5 s)
          else if starts_with (str "NaN") s then Ok (JFloat FNan, skipn 3 s)
          else if starts_with (str "Infinity") s then Ok (JFloat (FInf false), skipn 8 s)
          else if starts_with (str "-Infinity") s then Ok (JFloat (FInf true), skipn 9 s)
          else scan_number F s
      end
  end
with scan_elements (F : floats) (n : nat) (s : pystr) {struct n} : res (list json * pystr) :=
  match n with
  | 0 => Err ERecursion
  | S n =>
      do v <- scan F n s;
      match skip_ws (snd v) with
      | [] => Err EValue
      | c :: r =>
          if (c =? 93)%N then Ok ([fst v], r)
          else if (c =? 44)%N then do q <- scan_elements F n (skip_ws r); Ok (fst v :: fst q, snd q)
          else Err EValue
      end
  end
with scan_members (F : floats) (n : nat) (s : pystr) {struct n} : res (list (pystr * json) * pystr) :=
  match n with
  | 0 => Err ERecursion
  | S n =>
      do k <- scan_string s;
      match skip_ws (snd k) with
      | [] => Err EValue
      | c :: r =>
          if (c =? 58)%N then
            do v <- scan F n (skip_ws r);
            match skip_ws (snd v) with
            | [] => Err EValue
            | c :: r =>
                if (c =? 125)%N then Ok ([(fst k, fst v)], r)
                else if (c =? 44)%N then
                  match skip_ws r with
                  | [] => Err EValue
                  | d :: r' => if (d =? 34)%N then do q <- scan_members F n r'; Ok ((fst k, fst v) :: fst q, snd q) else Err EValue
                  end
                else Err EValue
            end
          else Err EValue
      end
  end.

(** json/__init__.py 332-346, json/decoder.py 332-340: [json.loads] *)
Definition json_loads (F : floats) (s : pystr) : res json :=
  if starts_with [65279%N] s then Err EValue
  else
    do q <- scan F (2 * length s + 1) (skip_ws s);
    match skip_ws (snd q) with [] => Ok (fst q) | _ :: _ => Err EValue end.
