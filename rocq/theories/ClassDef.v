(** Parts of strong_typing/classdef.py (integer widths, labels of enumerations)
    and [extend_enum] of strong_typing/inspection.py. *)
From Coq Require Import String List NArith ZArith Bool.
From Verif Require Import Base Json PyTypes.
Import ListNotations.
Open Scope list_scope.

(** auxiliary.py 169-181: the annotated integer types used here, with [int]. *)
Inductive int_type := Int16 | Int32 | Int64 | PlainInt.

(** [IntegerRange] of the annotated types, auxiliary.py 169-181. *)
Definition declared_range (t : int_type) : option (Z * Z) :=
  match t with
  | Int16 => Some (-32768, 32767)%Z
  | Int32 => Some (-2147483648, 2147483647)%Z
  | Int64 => Some (-9223372036854775808, 9223372036854775807)%Z
  | PlainInt => None
  end.

(** classdef.py 132-138: [integer_range_to_type], for integers. *)
Definition integer_range_to_type (lo hi : Z) : int_type :=
  if (Z.leb (- 2 ^ 15) lo && Z.ltb hi (2 ^ 15))%Z then Int16
  else if (Z.leb (- 2 ^ 31) lo && Z.ltb hi (2 ^ 31))%Z then Int32
  else Int64.

(** [min(l)] and [max(l)]; ValueError on an empty list. *)
Definition min_of (l : list Z) : res Z := match l with [] => Err EValue | x :: r => Ok (fold_left Z.min r x) end.
Definition max_of (l : list Z) : res Z := match l with [] => Err EValue | x :: r => Ok (fold_left Z.max r x) end.

(** classdef.py 223-237: the type of an integer node of a schema ([const] aside). *)
Definition integer_node_type (format : option pystr) (enum : option (list Z)) (minimum maximum : option Z) : res int_type :=
  let other :=
    match enum with
    | Some vs => do lo <- min_of vs; do hi <- max_of vs; Ok (integer_range_to_type lo hi)
    | None =>
        match minimum, maximum with
        | Some lo, Some hi => Ok (integer_range_to_type lo hi)
        | _, _ => Ok PlainInt
        end
    end in
  match format with
  | Some f =>
      if pystr_eqb f (str "int16") then Ok Int16
      else if pystr_eqb f (str "int32") then Ok Int32
      else if pystr_eqb f (str "int64") then Ok Int64
      else other
  | None => other
  end.

(** Characters that the regular expression [\w] matches.  [uni] says which ones
    beyond ASCII do (Unicode data). *)
Definition word_char (uni : N -> bool) (c : N) : bool :=
  if N.ltb c 128
  then (N.leb 48 c && N.leb c 57) || (N.leb 65 c && N.leb c 90) || (N.leb 97 c && N.leb c 122) || N.eqb c 95
  else uni c.

Definition starts_with (p s : pystr) : bool := pystr_eqb (firstn (length p) s) p.
Definition ends_with (p s : pystr) : bool := starts_with (rev p) (rev s).

(** classdef.py 141-147: [enum_safe_name]. *)
Definition enum_safe_name (uni : N -> bool) (s : pystr) : pystr :=
  let name := map (fun c => if word_char uni c then c else 95%N) s in
  let is_dunder := starts_with (str "__") name in
  let is_sunder := starts_with (str "_") name && ends_with (str "_") name in
  if is_dunder || is_sunder then str "v" ++ name else name.

(** ** [enum.Enum(name, values)] of CPython 3.11 (enum.py 48-92, 361-458, 494-540,
    841-893), for plain values (no descriptors, [auto], [member] or [nonmember]). *)

(** enum.py 48-57 *)
Definition is_dunder (s : pystr) : bool :=
  Nat.ltb 4 (length s) && starts_with (str "__") s && ends_with (str "__") s &&
  negb (starts_with (str "_") (skipn 2 s)) && negb (starts_with (str "_") (skipn 2 (rev s))).

(** enum.py 59-68 *)
Definition is_sunder (s : pystr) : bool :=
  Nat.ltb 2 (length s) && starts_with (str "_") s && ends_with (str "_") s &&
  negb (starts_with (str "_") (skipn 1 s)) && negb (starts_with (str "_") (skipn 1 (rev s))).

(** enum.py 79-92 (the third condition compares a string to a list and is always
    true) *)
Definition is_private (cls s : pystr) : bool :=
  let pattern := str "_" ++ cls ++ str "__" in
  Nat.ltb (length pattern) (length s) && starts_with pattern s && negb (ends_with (str "__") s).

(** enum.py 384-424: names of the class body that become members.  The sunder
    names that configure the enumeration ([_order_], [_ignore_], ...) are not
    modelled. *)
Definition sunder_config : list pystr :=
  map (fun s => str s) ["_order_"; "_generate_next_value_"; "_numeric_repr_"; "_missing_"; "_ignore_";
    "_iter_member_"; "_iter_member_by_value_"; "_iter_member_by_def_"]%string.

Fixpoint enum_body (cls : pystr) (values : list (pystr * json)) : res (list (pystr * json)) :=
  match values with
  | [] => Ok []
  | (x, v) :: r =>
      if is_private cls x then enum_body cls r
      else if is_sunder x then (if mem_str x sunder_config then Err EUnmodelled else Err EValue)
      else if is_dunder x then enum_body cls r
      else do ms <- enum_body cls r; Ok ((x, v) :: ms)
  end.

(** enum.py 518-522, then members whose value equals that of an earlier one become
    aliases, which [enum.unique] (enum.py 1575-1588) rejects.  The result lists
    the members. *)
Fixpoint alias_free (seen ms : list (pystr * json)) : bool :=
  match ms with
  | [] => true
  | m :: r => negb (existsb (fun q => scalar_eqb (snd q) (snd m)) seen) && alias_free (seen ++ [m]) r
  end.

Definition unique_enum (cls : pystr) (values : list (pystr * json)) : res (list (pystr * json)) :=
  do ms <- enum_body cls values;
  if existsb (fun m => mem_str (fst m) [str "mro"; []]) ms then Err EValue
  else if alias_free [] ms then Ok ms else Err EValue.

(** [{k: v for ...}] and [dict.update]. *)
Definition dict_update {V} (d : list (pystr * V)) (kvs : list (pystr * V)) : list (pystr * V) :=
  fold_left (fun d kv => dict_set d (fst kv) (snd kv)) kvs d.

(** classdef.py 297-304 with 150-164: the enumeration made for a string node with
    the listed values; [context] is the class name. *)
Definition enum_values_to_type (uni : N -> bool) (context : pystr) (values : list pystr) : res (list (pystr * json)) :=
  unique_enum context (dict_update [] (map (fun e => (enum_safe_name uni e, JStr e)) values)).

(** inspection.py 238-262: [extend_enum], given the members of [source], the name
    of [extend], and its members. *)
Definition extend_enum (source : list (pystr * json)) (name : pystr) (extend : list (pystr * json)) : res (list (pystr * json)) :=
  unique_enum name (dict_update (dict_update [] source) extend).
