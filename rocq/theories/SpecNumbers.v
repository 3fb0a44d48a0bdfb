(** Numbers of JSON documents as rational numbers. *)
From Coq Require Import List NArith ZArith QArith Qabs Bool.
From Verif Require Import Base Json.
Import ListNotations.
Open Scope list_scope.

(** The rational number a finite float stands for. *)
Definition flt_q (f : flt) : option Q :=
  match f with
  | FFin neg m e => Some (inject_Z (if neg then - Z.of_N m else Z.of_N m) * Qpower 2 e)%Q
  | _ => None
  end.

(** Rational numbers that are IEEE 754 double precision numbers. *)
Definition is_double (q : Q) : Prop :=
  exists m e : Z, (Z.abs m < 2 ^ 53)%Z /\ (-1074 <= e <= 971)%Z /\ (q == inject_Z m * Qpower 2 e)%Q.

(** ... with an even 53-bit significand (or the next power of two). *)
Definition even_double (q : Q) : Prop :=
  exists m e : Z, (2 ^ 51 <= Z.abs m <= 2 ^ 52)%Z /\ (q == inject_Z (2 * m) * Qpower 2 e)%Q.

(** [q] is the double nearest to [z], ties to even. *)
Definition nearest_double (z : Z) (q : Q) : Prop :=
  is_double q /\
  (forall q', is_double q' -> (Qabs (q - inject_Z z) <= Qabs (q' - inject_Z z))%Q) /\
  (forall q', is_double q' -> ~ (q' == q)%Q ->
     (Qabs (q - inject_Z z) == Qabs (q' - inject_Z z))%Q -> even_double q).

(** Python equality of JSON scalars: equal numbers (booleans count as 0 and 1,
    infinities equal themselves), equal strings, null. *)
Inductive numeric : json -> Q -> Prop :=
| num_bool : forall b, numeric (JBool b) (inject_Z (if b then 1 else 0))
| num_int : forall z, numeric (JInt z) (inject_Z z)
| num_float : forall f q, flt_q f = Some q -> numeric (JFloat f) q.

Inductive json_equal : json -> json -> Prop :=
| je_null : json_equal JNull JNull
| je_str : forall s, json_equal (JStr s) (JStr s)
| je_num : forall a b q q', numeric a q -> numeric b q' -> (q == q')%Q -> json_equal a b
| je_inf : forall neg, json_equal (JFloat (FInf neg)) (JFloat (FInf neg)).
