(** Which type is made from which schema. *)
From Coq Require Import String List NArith ZArith Bool Permutation.
From Verif Require Import Base Json PyTypes TypeAlgebra Deser ClassDef TypeDef SpecFields SpecClassDef SpecTypeDef.
Import ListNotations.
Open Scope list_scope.
Open Scope nat_scope.

(** The schema says nothing under the keyword. *)
Definition lacks (s : json) (k : string) : Prop := forall x, has s k x -> x = JNull.
Arguments lacks s k%string.

(** The type of integers of so many bits: [Annotated[int, Signed(True), Storage(n),
    IntegerRange(lo, hi)]]. *)
Definition int_typ (w : int_type) : typ :=
  match bits w with
  | Some b => TAnnot (TScalar KInt) [ASigned true; AStorage (Z.to_N (b / 8)); AIntegerRange (- 2 ^ (b - 1)) (2 ^ (b - 1) - 1)]
  | None => TScalar KInt
  end.

Definition int_formats : list (string * int_type) := [("int16", Int16); ("int32", Int32); ("int64", Int64)]%string.
Definition float_formats : list (string * N) := [("float32", 4%N); ("float64", 8%N)]%string.

(** The format is none of these. *)
Definition unlisted {A} (fs : list (string * A)) (s : json) : Prop := forall f a, In (f, a) fs -> ~ has s "format" (JStr (str f)).

(** Integers; JSON booleans pass for them. *)
Inductive whole : json -> Z -> Prop :=
| wh_int : forall z, whole (JInt z) z
| wh_bool : forall b, whole (JBool b) (if b then 1 else 0).

(** The smallest type with room for the range; the widest, if there is none. *)
Definition covers (w : int_type) (lo hi : Z) : Prop :=
  exists b, bits w = Some b /\ (- 2 ^ (b - 1) <= lo)%Z /\ (hi < 2 ^ (b - 1))%Z.

Definition smallest (lo hi : Z) (w : int_type) : Prop :=
  covers w lo hi /\ (forall w', narrower w' w -> ~ covers w' lo hi) \/ w = Int64 /\ forall w', ~ covers w' lo hi.

Inductive int_shape (s : json) : int_type -> Prop :=
| is_format : forall f w, In (f, w) int_formats -> has s "format" (JStr (str f)) -> int_shape s w
| is_enum : forall js zs lo hi w, unlisted int_formats s -> has s "enum" (JArr js) -> Forall2 whole js zs -> In lo zs -> In hi zs ->
    (forall z, In z zs -> (lo <= z <= hi)%Z) -> smallest lo hi w -> int_shape s w
| is_bounds : forall l h lo hi w, unlisted int_formats s -> lacks s "enum" -> has s "minimum" l -> whole l lo -> has s "maximum" h -> whole h hi ->
    smallest lo hi w -> int_shape s w
| is_plain : unlisted int_formats s -> lacks s "enum" -> lacks s "minimum" \/ lacks s "maximum" -> int_shape s PlainInt.

(** The default of the schema, read as a value of the type; a constant has none. *)
Definition preset (E : env) (m : nat) (s : json) (t : typ) (d : option (res value)) : Prop :=
  (lacks s "default" -> d = None) /\
  (forall c, c <> JNull -> has s "const" c -> d = None) /\
  (forall j, j <> JNull -> has s "default" j -> lacks s "const" -> exists v, d = Some (Ok v) /\ json_to_object E false m t j = Ok v).

(** Texts that may be names of fields. *)
Definition nameable (U : unicode) (x : pystr) : Prop := u_identifier U x = true /\ ~ In x python_keywords.

(** [shaped U E m ctx s t]: [t] is the type for the schema [s], in the module [m] of
    the program [E]; classes made for it are named after [ctx]. *)
Inductive shaped (U : unicode) (E : env) (m : nat) (ctx : pystr) : json -> typ -> Prop :=
| sh_ref : forall s x b t, has s "$ref" (JStr (path x)) -> lookup E m x = Some (b, t) -> shaped U E m ctx s t
| sh_boolean : forall s, of_type s "boolean" -> lacks s "const" -> shaped U E m ctx s (TScalar KBool)
| sh_boolean_const : forall s b, of_type s "boolean" -> has s "const" (JBool b) -> shaped U E m ctx s (TLiteral [LBool b])
| sh_integer : forall s w, of_type s "integer" -> lacks s "const" -> int_shape s w -> shaped U E m ctx s (int_typ w)
| sh_integer_const : forall s j z, of_type s "integer" -> has s "const" j -> whole j z -> shaped U E m ctx s (TLiteral [LInt z])
| sh_number : forall s, of_type s "number" -> lacks s "const" -> unlisted float_formats s ->
    lacks s "multipleOf" -> lacks s "exclusiveMinimum" \/ lacks s "exclusiveMaximum" -> shaped U E m ctx s (TScalar KFloat)
| sh_number_format : forall s f n, of_type s "number" -> lacks s "const" -> In (f, n) float_formats -> has s "format" (JStr (str f)) ->
    shaped U E m ctx s (TAnnot (TScalar KFloat) [AStorage n])
| sh_string_const : forall s c, of_type s "string" -> has s "const" (JStr c) -> shaped U E m ctx s (TLiteral [LStr c])
| sh_string_format : forall s f k, of_type s "string" -> lacks s "const" -> In (f, k) text_formats -> has s "format" (JStr (str f)) ->
    shaped U E m ctx s (TScalar k)
| sh_string_enum : forall s vs c ms, of_type s "string" -> lacks s "const" -> unlisted text_formats s -> has s "enum" (JArr (map JStr vs)) ->
    get_class E c = Some (mkClass m ctx (CEnum ms) None None) -> NoDup (map fst ms) ->
    (forall x j, In (x, j) ms <-> exists v, j = JStr v /\ last_labelled (enum_safe_name (u_word U)) vs x v /\ ~ private ctx x) ->
    shaped U E m ctx s (TClass c)
| sh_string_bound : forall s j n, of_type s "string" -> lacks s "const" -> unlisted text_formats s -> lacks s "enum" ->
    has s "maxLength" j -> whole j (Z.of_N n) -> shaped U E m ctx s (TAnnot (TScalar KStr) [AMaxLength n])
| sh_string : forall s, of_type s "string" -> lacks s "const" -> unlisted text_formats s -> lacks s "enum" -> lacks s "maxLength" ->
    shaped U E m ctx s (TScalar KStr)
| sh_array : forall s p t, of_type s "array" -> has s "items" p -> shaped U E m ctx p t -> shaped U E m ctx s (TList t)
| sh_object : forall s ps c fs, of_type s "object" -> has s "properties" (JObj ps) -> has s "additionalProperties" (JBool false) ->
    Forall2 (fun xp f => f_name f = fst xp /\ nameable U (fst xp) /\ exists t, shaped U E m (ctx ++ str "__" ++ fst xp) (snd xp) t /\
      (demanded s (fst xp) -> f_type f = t) /\ (~ demanded s (fst xp) -> mk_union false [TScalar KNone; t] = Ok (f_type f)) /\
      preset E m (snd xp) t (f_default f)) ps fs ->
    get_class E c = Some (mkClass m ctx (CData false
      (filter (fun f => match f_default f with None => true | Some _ => false end) fs ++
       filter (fun f => match f_default f with None => false | Some _ => true end) fs)) None None) ->
    shaped U E m ctx s (TClass c)
| sh_union : forall s ss ts t, has s "oneOf" (JArr ss) -> Forall2 (shaped U E m ctx) ss ts -> mk_union false ts = Ok t -> shaped U E m ctx s t.

(** Schemas whose objects list their properties, and with no reference to a
    definition from inside of it. *)
Record regular (doc : json) : Prop := {
  rg_listed : forall s, part doc s -> of_type s "object" -> exists ps, has s "properties" (JObj ps);
  rg_refs : forall s r, part doc s -> has s "$ref" (JStr r) -> ~ In 10%N r;
  rg_self : forall x d s, definition doc x d -> inside d s -> ~ has s "$ref" (JStr (path x))
}.
