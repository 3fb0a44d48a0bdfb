(** What it means for a JSON document to be a JSON Schema: the rules of the
    meta-schema of draft 2020-12 (https://json-schema.org/draft/2020-12/schema)
    for the keywords of the fragment below.  A keyword outside of the fragment
    is not allowed here, so the predicate is narrower than the meta-schema. *)
From Coq Require Import String List NArith ZArith Bool.
From Verif Require Import Base Json Digits PyTypes Ser Catalog Schema SpecSchema SpecGenerate.
Import ListNotations.
Open Scope list_scope.
Open Scope nat_scope.

Definition simple_types : list pystr :=
  [str "array"; str "boolean"; str "integer"; str "null"; str "number"; str "object"; str "string"].

Definition number (j : json) : Prop := match j with JInt _ | JFloat _ => True | _ => False end.

(** A number greater than zero. *)
Definition positive (j : json) : Prop :=
  match j with
  | JInt z => (0 < z)%Z
  | JFloat (FFin neg m _) => neg = false /\ (0 < m)%N
  | JFloat (FInf neg) => neg = false
  | _ => False
  end.

Section Meta.
  (** Which texts are regular expressions. *)
  Variable regex : pystr -> Prop.

  Inductive schema : json -> Prop :=
  | sc_bool : forall b, schema (JBool b)
  | sc_object : forall d, (forall k j, In (k, j) d -> keyword k j) -> schema (JObj d)
  with keyword : pystr -> json -> Prop :=
  | kw_text : forall k s,
      In k [str "$schema"; str "$ref"; str "title"; str "description"; str "format"; str "contentEncoding"] -> keyword k (JStr s)
  | kw_any : forall k j, In k [str "const"; str "default"] -> keyword k j
  | kw_type : forall s, In s simple_types -> keyword (str "type") (JStr s)
  | kw_array : forall k l, In k [str "enum"; str "examples"] -> keyword k (JArr l)
  | kw_required : forall l, NoDup l -> keyword (str "required") (JArr (map JStr l))
  | kw_number : forall k j,
      In k [str "minimum"; str "maximum"; str "exclusiveMinimum"; str "exclusiveMaximum"] -> number j -> keyword k j
  | kw_multiple : forall j, positive j -> keyword (str "multipleOf") j
  | kw_size : forall k z,
      In k [str "minLength"; str "maxLength"; str "minItems"; str "maxItems"] -> (0 <= z)%Z -> keyword k (JInt z)
  | kw_flag : forall b, keyword (str "uniqueItems") (JBool b)
  | kw_pattern : forall s, regex s -> keyword (str "pattern") (JStr s)
  | kw_schema : forall k j, In k [str "items"; str "additionalProperties"; str "propertyNames"] -> schema j -> keyword k j
  | kw_schemas : forall k l, In k [str "oneOf"; str "prefixItems"] -> l <> [] -> (forall j, In j l -> schema j) -> keyword k (JArr l)
  | kw_table : forall k d, In k [str "properties"; str "definitions"] -> (forall x j, In (x, j) d -> schema j) -> keyword k (JObj d).
End Meta.

(** The names of the properties of a class that may not be missing. *)
Fixpoint required_names (ps : list (pystr * typ)) : list pystr :=
  match ps with
  | [] => []
  | (x, t) :: r =>
      (if is_type_optional t then [] else [match get_alias t with Some a => a | None => x end]) ++ required_names r
  end.

(** How the value of an enumeration member is spelled as a key. *)
Inductive spelled : json -> pystr -> Prop :=
| sp_str : forall s, spelled (JStr s) s
| sp_int : forall z, spelled (JInt z) (int_str z)
| sp_true : spelled (JBool true) (str "True")
| sp_false : spelled (JBool false) (str "False")
| sp_none : spelled JNull (str "None").

(** The pattern of a text that is one of several. *)
Definition one_of_pattern (l : list pystr) : pystr :=
  match l with
  | [] => str "^()$"
  | x :: r => str "^(" ++ x ++ flat_map (fun y => str "|" ++ y) r ++ str ")$"
  end.

(** What the types met in [t] and the registrations must satisfy for the schema
    of [t] to be a JSON Schema. *)
Record presentable (regex : pystr -> Prop) (E : env) (S : senv) (t : typ) : Prop := {
  pr_tuple : ~ met E S t (TTuple []);
  pr_union : forall op, ~ met E S t (TUnion op []);
  pr_required : forall c cl ps, met E S t (TClass c) -> get_class E c = Some cl -> class_properties E cl = Ok ps ->
    NoDup (required_names ps);
  pr_precision : forall w md sig dec, met E S t (TAnnot w md) -> In (APrecision sig dec) md -> (0 < dec)%N ->
    positive (JFloat (s_tenth S dec));
  pr_pattern : forall c cl ms vs w, met E S t (TDict (TClass c) w) -> get_class E c = Some cl -> c_kind cl = CEnum ms ->
    4 < length ms -> Forall2 spelled (map snd ms) vs -> regex (one_of_pattern vs);
  pr_schema : forall u e s, get (s_catalog S) u = Ok e -> en_schema e = Some s -> schema regex s;
  pr_examples : forall u e j, get (s_catalog S) u = Ok e -> en_examples e = Some j -> truthy j = true -> exists l, j = JArr l
}.
