(** What JSON text denotes, after RFC 8259, independently of how it is written or
    read.  The only thing taken from outside is the number that a numeral with a
    fraction or an exponent stands for ([read]). *)
From Coq Require Import String List NArith ZArith Bool.
From Verif Require Import Base Json PyTypes SpecSer.
Import ListNotations.
Open Scope list_scope.
Open Scope nat_scope.

(** Section 2: insignificant white space *)
Definition blank (s : pystr) : Prop := Forall (fun c => In c [32; 9; 10; 13]%N) s.

(** Section 6: numerals in base ten *)
Inductive numeral : pystr -> N -> Prop :=
| nm_digit : forall d, (d < 10)%N -> numeral [(48 + d)%N] d
| nm_more : forall s n d, numeral s n -> (d < 10)%N -> numeral (s ++ [(48 + d)%N]) (10 * n + d)%N.

Definition no_leading_zero (s : pystr) : Prop := forall r, s = 48%N :: r -> r = [].

Definition integer_text (s : pystr) (z : Z) : Prop :=
  exists ds n, numeral ds n /\ no_leading_zero ds /\
    (s = ds /\ z = Z.of_N n \/ s = 45%N :: ds /\ z = (- Z.of_N n)%Z).

Definition fraction_text (s : pystr) : Prop := exists ds n, s = 46%N :: ds /\ numeral ds n.

Definition exponent_text (s : pystr) : Prop :=
  exists e sign ds n, s = e :: sign ++ ds /\ In e [101; 69]%N /\ In sign [[]; [43]; [45]]%N /\ numeral ds n.

(** a number that is not an integer numeral *)
Definition real_text (s : pystr) : Prop :=
  exists i z f e, s = i ++ f ++ e /\ integer_text i z /\
    (f = [] \/ fraction_text f) /\ (e = [] \/ exponent_text e) /\ (f <> [] \/ e <> []).

(** a number of at most 4300 digits *)
Definition short (z : Z) : Prop :=
  exists ds, numeral ds (Z.to_N (Z.abs z)) /\ no_leading_zero ds /\ (N.of_nat (length ds) <= 4300)%N.

(** Section 7: strings *)
Definition hex_digit (c d : N) : Prop :=
  ((48 <= c <= 57 /\ d = c - 48) \/ (65 <= c <= 70 /\ d = c - 55) \/ (97 <= c <= 102 /\ d = c - 87))%N.

(** [\uXXXX] *)
Definition unit_text (s : pystr) (u : N) : Prop :=
  exists a b c d x y z w, s = [92; 117; a; b; c; d]%N /\
    hex_digit a x /\ hex_digit b y /\ hex_digit c z /\ hex_digit d w /\ u = (4096 * x + 256 * y + 16 * z + w)%N.

Definition leading (u : N) : Prop := (55296 <= u < 56320)%N.
Definition trailing (u : N) : Prop := (56320 <= u < 57344)%N.

(** the character that follows a backslash, and what the two stand for *)
Definition short_escapes : list (N * N) :=
  [(34, 34); (92, 92); (47, 47); (98, 8); (102, 12); (110, 10); (114, 13); (116, 9)]%N.

(** [chars s t]: between its quotes, the string [s] is written [t] *)
Inductive chars : pystr -> pystr -> Prop :=
| ch_end : chars [] []
| ch_plain : forall c s t, (32 <= c)%N -> c <> 34%N -> c <> 92%N -> chars s t -> chars (c :: s) (c :: t)
| ch_short : forall e c s t, In (e, c) short_escapes -> chars s t -> chars (c :: s) (92%N :: e :: t)
| ch_unit : forall x u s t, unit_text x u -> chars s t ->
    ~ (leading u /\ exists y v r, unit_text y v /\ trailing v /\ t = y ++ r) ->
    chars (u :: s) (x ++ t)
| ch_pair : forall x u y v s t, unit_text x u -> unit_text y v -> leading u -> trailing v -> chars s t ->
    chars ((65536 + 1024 * (u - 55296) + (v - 56320))%N :: s) (x ++ y ++ t).

(** Sections 3-5: values.  [read] gives the number a real numeral stands for.  With
    [python], the three numbers that Python adds are admitted; without [big],
    integers of more than 4300 digits are not.  Of properties with equal names the
    last one counts ([merged]). *)
Section Grammar.
  Variable read : pystr -> flt.
  Variables python big : Prop.

  Inductive text : json -> pystr -> Prop :=
  | tx_null : text JNull (str "null")
  | tx_true : text (JBool true) (str "true")
  | tx_false : text (JBool false) (str "false")
  | tx_int : forall z s, integer_text s z -> big \/ short z -> text (JInt z) s
  | tx_float : forall s, real_text s -> text (JFloat (read s)) s
  | tx_nan : python -> text (JFloat FNan) (str "NaN")
  | tx_inf : python -> text (JFloat (FInf false)) (str "Infinity")
  | tx_minus_inf : python -> text (JFloat (FInf true)) (str "-Infinity")
  | tx_str : forall s t, chars s t -> text (JStr s) (34%N :: t ++ [34%N])
  | tx_arr_nil : forall w, blank w -> text (JArr []) (91%N :: w ++ [93%N])
  | tx_arr : forall l t, elements l t -> text (JArr l) (91%N :: t ++ [93%N])
  | tx_obj_nil : forall w, blank w -> text (JObj []) (123%N :: w ++ [125%N])
  | tx_obj : forall ps o t, members ps t -> merged ps o -> text (JObj o) (123%N :: t ++ [125%N])
  with padded : json -> pystr -> Prop :=
  | pd : forall j a t b, blank a -> text j t -> blank b -> padded j (a ++ t ++ b)
  with elements : list json -> pystr -> Prop :=
  | el_one : forall j t, padded j t -> elements [j] t
  | el_more : forall j t l u, padded j t -> elements l u -> elements (j :: l) (t ++ 44%N :: u)
  with members : list (pystr * json) -> pystr -> Prop :=
  | ms_one : forall a k s b j t, blank a -> chars k s -> blank b -> padded j t ->
      members [(k, j)] (a ++ 34%N :: s ++ 34%N :: b ++ 58%N :: t)
  | ms_more : forall a k s b j t o u, blank a -> chars k s -> blank b -> padded j t -> members o u ->
      members ((k, j) :: o) (a ++ 34%N :: s ++ 34%N :: b ++ 58%N :: t ++ 44%N :: u).
End Grammar.

(** A JSON document is a value between white space. *)
Definition json_document (read : pystr -> flt) (j : json) (s : pystr) : Prop := padded read False True j s.

(** a part of a document *)
Inductive json_part : json -> json -> Prop :=
| in_self : forall j, json_part j j
| in_arr : forall i j l, In j l -> json_part i j -> json_part i (JArr l)
| in_obj : forall i k j o, In (k, j) o -> json_part i j -> json_part i (JObj o).

Definition short_numbers (j : json) : Prop := forall z, json_part (JInt z) j -> short z.
Definition finite_floats (j : json) : Prop := forall f, json_part (JFloat f) j -> exists s m e, f = FFin s m e.

(** What is needed of Python's floats: [repr] writes a numeral with a fraction or
    an exponent, without control characters, that reads as the number. *)
Definition exact_float (repr : flt -> pystr) (read : pystr -> flt) (f : flt) : Prop :=
  forall s m e, f = FFin s m e -> real_text (repr f) /\ read (repr f) = f.
Definition exact_floats (repr : flt -> pystr) (read : pystr -> flt) (j : json) : Prop :=
  forall f, json_part (JFloat f) j -> exact_float repr read f.

(** Classes that decide for themselves write objects with distinct property names. *)
Definition tidy_classes (E : env) : Prop := forall c cl, get_class E c = Some cl ->
  (forall h v j, c_to_json cl = Some h -> h v = Ok j -> json_wf j) /\
  (forall ms x j, c_kind cl = CEnum ms -> In (x, j) ms -> json_wf j).
