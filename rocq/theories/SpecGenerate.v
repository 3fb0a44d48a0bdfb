(** What schema generation is about: the types met, and the texts that stand for
    no definition. *)
From Coq Require Import String List NArith ZArith Bool.
From Verif Require Import Base Json PyTypes Catalog Schema SpecTypes SpecFields SpecSchema.
Import ListNotations.
Open Scope list_scope.

(** [met E S t u]: the type [u] is met on the way through [t]: it is a part of
    [t], the type of a field (without None), or what a text means to the
    generator. *)
Inductive met (E : env) (S : senv) : typ -> typ -> Prop :=
| mt_refl : forall t, met E S t t
| mt_list : forall t u, met E S t u -> met E S (TList t) u
| mt_set : forall t u, met E S t u -> met E S (TSet t) u
| mt_dict : forall k t u, met E S t u -> met E S (TDict k t) u
| mt_tuple : forall ts t u, In t ts -> met E S t u -> met E S (TTuple ts) u
| mt_union : forall op ts t u, In t ts -> met E S t u -> met E S (TUnion op ts) u
| mt_literal : forall ls l u, In l ls -> met E S (lit_type l) u -> met E S (TLiteral ls) u
| mt_annot : forall t md u, met E S t u -> met E S (TAnnot t md) u
| mt_field : forall c cl ps x t u, get_class E c = Some cl -> class_properties E cl = Ok ps -> In (x, t) ps ->
    met E S t u -> met E S (TClass c) u
| mt_optional : forall c cl ps x t w u, get_class E c = Some cl -> class_properties E cl = Ok ps -> In (x, t) ps ->
    unwrap_optional t = Ok w -> met E S w u -> met E S (TClass c) u
| mt_text : forall s w u, s_eval S s = Some w -> met E S w u -> met E S (TRef s) u.

(** The text [s], met on the way through [t], is of no use to the generator: it
    is not known in schema.py, and it is not looked up in the catalog (it is a
    plain string, or annotated) or not found there. *)
Definition lost (E : env) (S : senv) (t : typ) (s : pystr) : Prop :=
  s_eval S s = None /\
  ((met E S t (TRef s) /\ (s_forward S s = false \/ ~ In s (map fst (by_name (s_catalog S))))) \/
   exists md, met E S t (TAnnot (TRef s) md)).

(** Schemas given with a registration have no references of their own. *)
Definition selfcontained (S : senv) : Prop :=
  forall t e s r, get (s_catalog S) t = Ok e -> en_schema e = Some s -> ~ refers s r.

(** Names that can be written in a JSON pointer as they are. *)
Definition plain_name (s : pystr) : Prop := forall c, In c s -> c <> 47%N /\ c <> 126%N /\ c <> 37%N.

(** The definitions of a schema document. *)
Definition defined (doc : json) (name : pystr) (sch : json) : Prop :=
  exists o defs, doc = JObj o /\ In (str "definitions", JObj defs) o /\ In (name, sch) defs.

(** ** Classes *)

(** The name of field [x] with annotation [t] in a schema. *)
Inductive schema_name (x : pystr) (t : typ) : pystr -> Prop :=
| sn_alias : forall a, has_alias t a -> schema_name x t a
| sn_same : no_alias t -> schema_name x t x.

(** [d] is the schema of a class with the fields [ps]. *)
Record class_schema (ps : list (pystr * typ)) (d : list (pystr * json)) : Prop := {
  cs_type : dict_get d (str "type") = Some (JStr (str "object"));
  cs_closed : ps <> [] -> dict_get d (str "additionalProperties") = Some (JBool false);
  cs_properties : ps <> [] -> exists props, dict_get d (str "properties") = Some (JObj props) /\ NoDup (map fst props) /\
    forall p, In p (map fst props) <-> exists x t, In (x, t) ps /\ schema_name x t p;
  cs_required : forall p,
    (exists req, dict_get d (str "required") = Some (JArr (map JStr req)) /\ In p req) <->
    (exists x t, In (x, t) ps /\ schema_name x t p /\ ~ optional t)
}.

Definition not_enum (cl : class) : Prop := forall ms, c_kind cl <> CEnum ms.

(** The name of the field in JSON documents agrees with the one in the schema:
    no trailing underscore after a keyword, and no alias in a named tuple. *)
Definition plain_field (cl : class) (x : pystr) (t : typ) : Prop :=
  (forall k, In k python_keywords -> x <> k ++ str "_") /\
  match c_kind cl with CTuple _ => no_alias t | _ => True end.
