(** JSON documents as Python data (strong_typing/core.py 14-35, [JsonType]) and
    the numbers in them. *)
From Coq Require Import String List NArith ZArith Bool Lia.
From Verif Require Import Base.
Import ListNotations.
Open Scope list_scope.

(** Python [float]: NaN, infinities, and finite numbers [(-1)^neg * m * 2^e].
    The representation is kept canonical ([flt_wf]): [m] is odd, or [m = 0] and
    [e = 0].  IEEE 754 double precision is modelled here directly with integers
    (Coq's primitive floats are not used). *)
Inductive flt :=
| FNan
| FInf (neg : bool)
| FFin (neg : bool) (m : N) (e : Z).

(** Canonical double: 53-bit mantissa, exponent range of binary64. *)
Definition flt_wf (f : flt) : Prop :=
  match f with
  | FFin _ m e =>
      (m = 0%N /\ e = 0%Z) \/
      (N.odd m = true /\ (m < 2 ^ 53)%N /\ (-1074 <= e)%Z /\
       (e + Z.log2 (Z.of_N m) < 1024)%Z)
  | _ => True
  end.

(** Removes factors of two from the mantissa. *)
Fixpoint strip_twos (p : positive) : positive * nat :=
  match p with
  | xO q => let '(r, k) := strip_twos q in (r, S k)
  | _ => (p, O)
  end.

Definition flt_make (neg : bool) (m : N) (e : Z) : flt :=
  match m with
  | N0 => FFin neg 0 0
  | Npos p => let '(q, k) := strip_twos p in FFin neg (Npos q) (e + Z.of_nat k)
  end.

(** Rounds the magnitude [a] to 53 significant bits, ties to even. *)
Definition round53 (a : N) : N :=
  let l := (N.log2 a + 1)%N in
  if (l <=? 53)%N then a
  else
    let sh := (l - 53)%N in
    let q := (a / 2 ^ sh)%N in
    let r := (a mod 2 ^ sh)%N in
    let half := (2 ^ (sh - 1))%N in
    let q' := if (r <? half)%N then q
              else if (half <? r)%N then (q + 1)%N
              else if N.even q then q else (q + 1)%N in
    (q' * 2 ^ sh)%N.

(** [float(z)] for an [int] (deserializer.py 131): nearest double, ties to
    even, OverflowError beyond the range of doubles. *)
Definition int_to_float (z : Z) : res flt :=
  let m := round53 (Z.to_N (Z.abs z)) in
  if (2 ^ 1024 <=? m)%N then Err EOverflow
  else Ok (flt_make (z <? 0)%Z m 0).

(** [m1 * 2^e1 = m2 * 2^e2] on magnitudes. *)
Definition dyadic_eqb (m1 : N) (e1 : Z) (m2 : N) (e2 : Z) : bool :=
  if (e1 <=? e2)%Z then (m1 =? m2 * 2 ^ Z.to_N (e2 - e1))%N
  else (m1 * 2 ^ Z.to_N (e1 - e2) =? m2)%N.

(** Python [==] on floats: NaN differs from everything, [0.0 == -0.0]. *)
Definition flt_eqb (a b : flt) : bool :=
  match a, b with
  | FInf x, FInf y => Bool.eqb x y
  | FFin x m e, FFin y m' e' =>
      dyadic_eqb m e m' e' && (Bool.eqb x y || (m =? 0)%N)
  | _, _ => false
  end.

(** Python [==] between an int and a float is exact. *)
Definition int_flt_eqb (z : Z) (f : flt) : bool :=
  flt_eqb (FFin (z <? 0)%Z (Z.to_N (Z.abs z)) 0) f.

(** JSON data; objects are Python [dict]s, i.e. association lists in insertion
    order whose keys are distinct ([json_wf]). *)
Inductive json :=
| JNull
| JBool (b : bool)
| JInt (z : Z)
| JFloat (f : flt)
| JStr (s : pystr)
| JArr (l : list json)
| JObj (o : list (pystr * json)).

Section JsonInd.
  Variable P : json -> Prop.
  Hypothesis Hnull : P JNull.
  Hypothesis Hbool : forall b, P (JBool b).
  Hypothesis Hint : forall z, P (JInt z).
  Hypothesis Hflt : forall f, P (JFloat f).
  Hypothesis Hstr : forall s, P (JStr s).
  Hypothesis Harr : forall l, Forall P l -> P (JArr l).
  Hypothesis Hobj : forall o, Forall (fun kv => P (snd kv)) o -> P (JObj o).

  Fixpoint json_induct (j : json) : P j :=
    match j with
    | JNull => Hnull | JBool b => Hbool b | JInt z => Hint z | JFloat f => Hflt f
    | JStr s => Hstr s
    | JArr l => Harr l ((fix go l : Forall P l :=
        match l with [] => Forall_nil _ | x :: r => Forall_cons _ (json_induct x) (go r) end) l)
    | JObj o => Hobj o ((fix go o : Forall (fun kv => P (snd kv)) o :=
        match o with [] => Forall_nil _
        | kv :: r => Forall_cons _ (json_induct (snd kv)) (go r) end) o)
    end.
End JsonInd.

(** Keys of every object are distinct. *)
Inductive json_wf : json -> Prop :=
| wf_null : json_wf JNull
| wf_bool : forall b, json_wf (JBool b)
| wf_int : forall z, json_wf (JInt z)
| wf_float : forall f, json_wf (JFloat f)
| wf_str : forall s, json_wf (JStr s)
| wf_arr : forall l, Forall json_wf l -> json_wf (JArr l)
| wf_obj : forall o, NoDup (map fst o) -> Forall (fun kv => json_wf (snd kv)) o -> json_wf (JObj o).

(** Nesting depth. *)
Fixpoint jdepth (j : json) : nat :=
  match j with
  | JArr l => S (fold_right (fun x a => Nat.max (jdepth x) a) 0%nat l)
  | JObj o => S (fold_right (fun kv a => Nat.max (jdepth (snd kv)) a) 0%nat o)
  | _ => 0%nat
  end.

(** Python [==] between JSON scalars ([True == 1 == 1.0]); arrays and objects
    are never equal to a scalar, which is all that is ever compared. *)
Definition as_number (j : json) : option (Z + flt) :=
  match j with
  | JBool b => Some (inl (if b then 1 else 0)%Z)
  | JInt z => Some (inl z)
  | JFloat f => Some (inr f)
  | _ => None
  end.

Definition number_eqb (a b : Z + flt) : bool :=
  match a, b with
  | inl x, inl y => (x =? y)%Z
  | inl x, inr f => int_flt_eqb x f
  | inr f, inl y => int_flt_eqb y f
  | inr f, inr g => flt_eqb f g
  end.

Definition scalar_eqb (a b : json) : bool :=
  match as_number a, as_number b with
  | Some x, Some y => number_eqb x y
  | _, _ =>
      match a, b with
      | JNull, JNull => true
      | JStr s, JStr s' => pystr_eqb s s'
      | _, _ => false
      end
  end.
