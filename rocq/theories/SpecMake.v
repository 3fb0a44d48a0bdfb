(** Schemas from which types can be made, and the names of the classes made. *)
From Coq Require Import String List NArith ZArith Bool.
From Verif Require Import Base Json PyTypes Deser Mapping ClassDef TypeDef SpecClassDef SpecTypeDef.
Import ListNotations.
Open Scope list_scope.
Open Scope nat_scope.

(** ** Keywords *)

(** The schema has no other keywords than these. *)
Definition only (s : json) (ks : list string) : Prop := exists kws, s = JObj kws /\ forall k j, In (k, j) kws -> exists x, In x ks /\ k = str x.
Arguments only s ks%list_scope.

Definition may (s : json) (k : string) (P : json -> Prop) : Prop := forall j, has s k j -> P j.
Arguments may s k%string P.
Definition lacks (s : json) (k : string) : Prop := forall j, ~ has s k j.
Arguments lacks s k%string.

Definition text (j : json) : Prop := exists s, j = JStr s.
Definition truth (j : json) : Prop := exists b, j = JBool b.
Definition whole (j : json) : Prop := exists z, j = JInt z.
Definition real (j : json) : Prop := exists f, j = JFloat f.
Definition natural (j : json) : Prop := exists z, j = JInt z /\ (0 <= z)%Z.
Definition each (P : json -> Prop) (j : json) : Prop := exists js, j = JArr js /\ forall x, In x js -> P x.

Definition labelled (s : json) : Prop := may s "title" text /\ may s "description" text.
Definition headed (s : json) (ty : string) : Prop := labelled s /\ has s "type" (JStr (str ty)) /\ may s "format" text.
Arguments headed s ty%string.

(** Values of the type of the schema. *)
Definition valued (s : json) (P : json -> Prop) : Prop := may s "const" P /\ may s "default" P /\ may s "examples" (each P).

(** The default is a text of the format. *)
Definition timely (s : json) : Prop := forall f k d, In (f, k) text_formats -> has s "format" (JStr (str f)) -> has s "default" (JStr d) ->
  exists v, parse_scalar k (JStr d) = Ok v.

(** ** Names *)

(** The name of a class for the property [x] of an object at [context]. *)
Definition below (context x : pystr) : pystr := context ++ str "__" ++ x.

(** A name for a field. *)
Definition field_name (U : unicode) (x : pystr) : Prop := u_identifier U x = true /\ iskeyword x = false /\ forall r, x <> str "__" ++ r.

(** Texts that can be members of the enumeration [cls]. *)
Definition members_for (U : unicode) (cls : pystr) (values : list pystr) : Prop :=
  NoDup (map (enum_safe_name (u_word U)) values) /\
  forall v, In v values -> v <> str "mro" /\ v <> [] /\ ~ private cls (enum_safe_name (u_word U) v).

(** ** Schemas *)

(** [makes U D context s names]: a type is made from [s] at [context], where [D] are
    the names that can be referred to; [names] are those of the new classes.
    [makes_class]: and it is a class. *)
Inductive makes (U : unicode) (D : list pystr) : pystr -> json -> list pystr -> Prop :=
| mk_ref : forall context s x, only s ["title"; "description"; "$ref"]%string -> labelled s ->
    has s "$ref" (JStr (path x)) -> x <> [] -> (forall c, In c x -> word_char (u_word U) c = true) -> In x D -> makes U D context s []
| mk_boolean : forall context s, only s ["title"; "description"; "type"; "format"; "const"; "default"; "examples"]%string -> headed s "boolean" ->
    valued s truth -> makes U D context s []
| mk_integer : forall context s, only s ["title"; "description"; "type"; "format"; "const"; "default"; "examples"; "enum"; "minimum"; "maximum"]%string ->
    headed s "integer" -> valued s whole -> may s "minimum" whole -> may s "maximum" whole ->
    may s "enum" (fun j => each whole j /\ j <> JArr []) -> makes U D context s []
| mk_number : forall context s, only s ["title"; "description"; "type"; "format"; "default"; "examples"; "minimum"; "maximum"]%string ->
    headed s "number" -> valued s real -> may s "minimum" real -> may s "maximum" real -> makes U D context s []
| mk_text : forall context s, only s ["title"; "description"; "type"; "format"; "const"; "default"; "examples"; "minLength"; "maxLength"]%string ->
    headed s "string" -> valued s text -> may s "minLength" whole -> may s "maxLength" natural ->
    timely s -> makes U D context s []
| mk_array : forall context s i names, only s ["title"; "description"; "type"; "format"; "items"]%string -> headed s "array" ->
    has s "items" i -> lacks i "default" -> makes U D context i names -> makes U D context s names
| mk_free : forall context s, only s ["title"; "description"; "type"; "format"; "additionalProperties"; "required"]%string -> headed s "object" ->
    may s "additionalProperties" truth -> may s "required" (each text) -> makes U D context s []
| mk_one_of : forall context s ss names, only s ["title"; "description"; "oneOf"]%string -> labelled s -> has s "oneOf" (JArr ss) -> ss <> [] ->
    makes_members U D context ss names -> makes U D context s names
| mk_class : forall context s names, makes_class U D context s names -> makes U D context s names
with makes_class (U : unicode) (D : list pystr) : pystr -> json -> list pystr -> Prop :=
| mc_enum : forall context s values, only s ["title"; "description"; "type"; "default"; "examples"; "enum"; "minLength"; "maxLength"]%string ->
    headed s "string" -> valued s text -> has s "enum" (JArr (map JStr values)) -> members_for U context values ->
    may s "default" (fun j => exists v, j = JStr v /\ In v values) -> may s "minLength" whole -> may s "maxLength" whole ->
    makes_class U D context s [context]
| mc_object : forall context s ps names,
    only s ["title"; "description"; "type"; "format"; "properties"; "additionalProperties"; "required"]%string -> headed s "object" ->
    has s "properties" (JObj ps) -> has s "additionalProperties" (JBool false) -> may s "required" (each text) ->
    makes_properties U D context ps names -> makes_class U D context s (names ++ [context])
with makes_properties (U : unicode) (D : list pystr) : pystr -> list (pystr * json) -> list pystr -> Prop :=
| mp_nil : forall context, makes_properties U D context [] []
| mp_cons : forall context x s ps n1 n2, field_name U x -> makes U D (below context x) s n1 -> makes_properties U D context ps n2 ->
    makes_properties U D context ((x, s) :: ps) (n1 ++ n2)
with makes_members (U : unicode) (D : list pystr) : pystr -> list json -> list pystr -> Prop :=
| mm_nil : forall context, makes_members U D context [] []
| mm_cons : forall context s ss n1 n2, makes U D context s n1 -> lacks s "default" -> makes_members U D context ss n2 ->
    makes_members U D context (s :: ss) (n1 ++ n2).

(** Definitions: each is a class, and refers to earlier ones. *)
Inductive makes_definitions (U : unicode) : list pystr -> list (pystr * json) -> list pystr -> Prop :=
| md_nil : forall D, makes_definitions U D [] []
| md_cons : forall D x s ds n1 n2, makes_class U D x s n1 -> lacks s "default" -> makes_definitions U (x :: D) ds n2 ->
    makes_definitions U D ((x, s) :: ds) (n1 ++ n2).

(** A schema document. *)
Record makes_schema (U : unicode) (name : pystr) (doc : json) (ds ps : list (pystr * json)) (n1 n2 : list pystr) : Prop := {
  ms_only : only doc ["title"; "description"; "type"; "format"; "properties"; "additionalProperties"; "required"; "$schema"; "definitions"]%string;
  ms_headed : headed doc "object";
  ms_schema : exists s, has doc "$schema" (JStr s);
  ms_definitions : has doc "definitions" (JObj ds) \/ ds = [] /\ lacks doc "definitions";
  ms_properties : has doc "properties" (JObj ps);
  ms_closed : has doc "additionalProperties" (JBool false);
  ms_required : may doc "required" (each text);
  ms_defines : makes_definitions U [] ds n1;
  ms_makes : makes_properties U (rev (map fst ds)) name ps n2
}.

(** ** Names that do not clash *)

(** No two underscores in a row, and none at the end. *)
Definition neat (x : pystr) : Prop := (forall a b, x <> a ++ str "__" ++ b) /\ (forall r, x <> r ++ str "_").

(** [inline s]: a class is made for [s] itself. *)
Inductive inline : json -> Prop :=
| il_object : forall s ps, has s "properties" ps -> inline s
| il_enum : forall s vs, of_type s "string" -> has s "enum" vs -> inline s
| il_array : forall s i, has s "items" i -> inline i -> inline s
| il_member : forall s ss i, has s "oneOf" (JArr ss) -> In i ss -> inline i -> inline s.

(** All properties have neat names, and no alternative has two members that are
    inline. *)
Record neatly (doc : json) : Prop := {
  nt_properties : forall s ps x q, part doc s -> has s "properties" (JObj ps) -> In (x, q) ps -> neat x;
  nt_members : forall s a b c p q, part doc s -> has s "oneOf" (JArr (a ++ p :: b ++ q :: c)) -> inline p -> inline q -> False
}.
