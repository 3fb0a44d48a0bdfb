(** When documents that a schema accepts can be deserialized. *)
From Coq Require Import String List NArith ZArith Bool.
From Verif Require Import Base Json PyTypes Mapping Deser SpecTyping SpecTypes SpecFields SpecNumbers SpecDeser SpecTagged SpecRoundTrip SpecSchema SpecGenerate SpecValid.
Import ListNotations.
Open Scope list_scope.
Open Scope nat_scope.

(** ** Numbers *)

(** [leaf_of E m t j k x]: reading [j] as a [t], the part [x] of it may be
    asked for as a [k]. *)
Inductive leaf_of (E : env) : nat -> typ -> json -> scalar -> json -> Prop :=
| lf_here : forall m k j, leaf_of E m (TScalar k) j k j
| lf_list : forall m t js j k x, In j js -> leaf_of E m t j k x -> leaf_of E m (TList t) (JArr js) k x
| lf_set : forall m t js j k x, In j js -> leaf_of E m t j k x -> leaf_of E m (TSet t) (JArr js) k x
| lf_dict : forall m q t o p j k x, In (p, j) o -> leaf_of E m t j k x -> leaf_of E m (TDict q t) (JObj o) k x
| lf_tuple : forall m ts js t j k x, In (t, j) (combine ts js) -> leaf_of E m t j k x -> leaf_of E m (TTuple ts) (JArr js) k x
| lf_union : forall m op ts t j k x, In t ts -> leaf_of E m t j k x -> leaf_of E m (TUnion op ts) j k x
| lf_literal : forall m ls l j k x, In l ls -> leaf_of E m (lit_type l) j k x -> leaf_of E m (TLiteral ls) j k x
| lf_annot : forall m t md j k x, leaf_of E m t j k x -> leaf_of E m (TAnnot t md) j k x
| lf_ref : forall m s a t j k x, lookup E m s = Some (a, t) -> leaf_of E m t j k x -> leaf_of E m (TRef s) j k x
| lf_class : forall m c cl ps y t p r o j k x, get_class E c = Some cl -> class_properties E cl = Ok ps -> In (y, t) ps ->
    schema_name y t p -> In (p, j) o -> read_type t r -> leaf_of E (c_module cl) r j k x -> leaf_of E m (TClass c) (JObj o) k x.

(** Integers are not written as floats (to a schema, 1.0 is an integer), and
    where a float is expected, integers are in the range of floats. *)
Definition plain_number (k : scalar) (x : json) : Prop :=
  match k, x with
  | KInt, JFloat f => whole f = false
  | KFloat, JInt z => (Z.abs z < 2 ^ 1024 - 2 ^ 970)%Z
  | _, _ => True
  end.

Definition plain_numbers (E : env) (m : nat) (t : typ) (j : json) : Prop :=
  forall k x, leaf_of E m t j k x -> plain_number k x.

(** For instance, documents without whole floats and without huge integers. *)
Fixpoint plain_json (j : json) : bool :=
  match j with
  | JFloat f => negb (whole f)
  | JInt z => (Z.abs z <? 2 ^ 63)%Z
  | JArr js => forallb plain_json js
  | JObj o => forallb (fun px => plain_json (snd px)) o
  | _ => true
  end.

(** ** Formats *)

(** Types without a text format need no format checks; for the others, the
    validator checks formats at least as strictly as the library. *)
Definition exacting (asserts : pystr -> pystr -> json -> bool) (k : scalar) : Prop :=
  addressed k = false /\
  forall kw f s, text_format k = Some (kw, f) -> asserts kw f (JStr s) = true -> exists v, parse_scalar k (JStr s) = Ok v.

(** ** Unions *)

(** What a later member reads, an earlier one reads too, or rejects in a way
    that makes the reader go on. *)
Definition yielding (E : env) (skip : bool) (m : nat) (ts : list typ) : Prop :=
  forall ts1 w ts2 u j v, ts = ts1 ++ w :: ts2 -> In u ts2 -> json_to_object E skip m u j = Ok v ->
  (exists v', json_to_object E skip m w j = Ok v') \/ exists e, soft e /\ json_to_object E skip m w j = Err e.

(** A criterion by kinds of data. *)
Definition kinds_disjoint (E : env) (m : nat) (ts : list typ) : Prop :=
  forall ts1 w ts2 u jk, ts = ts1 ++ w :: ts2 -> In u ts2 -> admits E m u jk -> refuses E m w jk.

(** ** Classes *)

(** The schema names fields as the reader does; no two fields have one name;
    null is only for optional fields, or those with a default, and optional
    fields may be left out. *)
Record open_class (E : env) (skip : bool) (cl : class) : Prop := {
  oc_fieldwise : fieldwise cl;
  oc_typed : match c_kind cl with CRawTuple _ => False | _ => True end;
  oc_some : skip = true \/ raw_fields (c_kind cl) <> [];
  oc_distinct : forall ps, class_properties E cl = Ok ps -> distinct_names ps;
  oc_name : forall x t u d p, field_of E cl x t u d -> schema_name x t p -> json_name cl x u p;
  oc_none : forall x t u d, field_of E cl x t u d -> optional t \/ admits E (c_module cl) u NullKind ->
    match c_kind cl, d with
    | CTuple _, _ => False
    | _, Some r => exists v, r = Ok v
    | _, None => optional u
    end
}.

(** ** Types *)

Record readable (asserts : pystr -> pystr -> json -> bool) (E : env) (skip : bool) (m : nat) (t : typ) : Prop := {
  rd_scalar : forall m' k, reach E m t m' (TScalar k) -> exacting asserts k;
  rd_set : forall m' u v, reach E m t m' (TSet u) -> has_type E m' u v -> ~ unhashable E v;
  rd_key : forall m' c cl ms u, reach E m t m' (TDict (TClass c) u) -> get_class E c = Some cl -> c_kind cl = CEnum ms ->
    4 < length ms -> forall x s, In (x, JStr s) ms -> forallb literal_char s = true;
  rd_union : forall m' op ts, reach E m t m' (TUnion op ts) -> untagged E ts -> yielding E skip m' ts;
  rd_tags : forall m' op ts p, reach E m t m' (TUnion op ts) -> tag E ts p -> plain_tags E ts;
  rd_null : forall m' op ts p c ls, reach E m t m' (TUnion op ts) -> tag E ts p -> In (TClass c) ts ->
    literal_property E c p ls -> ~ In LNone ls;
  rd_class : forall m' c cl, reach E m t m' (TClass c) -> get_class E c = Some cl -> not_enum cl -> open_class E skip cl
}.
