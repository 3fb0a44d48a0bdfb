(** When documents that can be deserialized satisfy the generated schema. *)
From Coq Require Import String List NArith ZArith Bool.
From Verif Require Import Base Json PyTypes Mapping Deser SpecTyping SpecTypes SpecFields SpecNumbers SpecDeser SpecTagged SpecRoundTrip SpecSchema SpecGenerate SpecValid.
Import ListNotations.
Open Scope list_scope.
Open Scope nat_scope.

(** ** What a reader takes for what *)

(** [legible E skip m t j]: the document [j] can be taken for a [t], if a member of
    a union is chosen with luck. *)
Inductive legible (E : env) (skip : bool) : nat -> typ -> json -> Prop :=
| lg_scalar : forall m k j v, parse_scalar k j = Ok v -> legible E skip m (TScalar k) j
| lg_list : forall m t js, (forall j, In j js -> legible E skip m t j) -> legible E skip m (TList t) (JArr js)
| lg_set : forall m t js, (forall j, In j js -> legible E skip m t j) -> legible E skip m (TSet t) (JArr js)
| lg_dict : forall m k t o, (forall p j, In (p, j) o -> match k with TClass _ => exists v, key_of E k p v | _ => True end) ->
    (forall p j, In (p, j) o -> legible E skip m t j) -> legible E skip m (TDict k t) (JObj o)
| lg_tuple : forall m ts js, length js = length ts -> (forall t j, In (t, j) (combine ts js) -> legible E skip m t j) ->
    legible E skip m (TTuple ts) (JArr js)
| lg_union : forall m op ts t j, In t ts -> legible E skip m t j -> legible E skip m (TUnion op ts) j
| lg_literal : forall m ls l j, In l ls -> legible E skip m (lit_type l) j -> (forall c, lit_json l = Some c -> json_equal c j) ->
    legible E skip m (TLiteral ls) j
| lg_annot : forall m t md j, legible E skip m t j -> legible E skip m (TAnnot t md) j
| lg_ref : forall m s a t j, lookup E m s = Some (a, t) -> legible E skip m t j -> legible E skip m (TRef s) j
| lg_enum : forall m c cl ms x w j, get_class E c = Some cl -> c_kind cl = CEnum ms -> In (x, w) ms -> json_equal w j ->
    legible E skip m (TClass c) j
| lg_hook : forall m c cl j, get_class E c = Some cl -> not_enum cl -> ~ fieldwise cl -> legible E skip m (TClass c) j
| lg_class : forall m c cl ps L o, get_class E c = Some cl -> fieldwise cl -> class_properties E cl = Ok ps -> layout E cl L ->
    (skip = true \/ forall p, In p (map fst o) -> exists x u d, In (x, u, d) L /\ json_name cl x u p) ->
    (forall x u d p, In (x, u, d) L -> json_name cl x u p -> absent o p -> d <> None \/ optional u) ->
    (forall x t u d p j, In (x, t) ps -> In (x, u, d) L -> json_name cl x u p -> In (p, j) o -> j <> JNull -> legible E skip (c_module cl) t j) ->
    legible E skip m (TClass c) (JObj o).

(** ** Documents in which nothing is lost on the reader *)

(** [exact E skip m t j]: the reader is lenient where the schema is not only in
    what is said here: truth values pass for numbers; sets may have an item twice;
    a member of a union is not to be taken for another; annotations are not
    checked; properties may be null; fields with a default may be left out.
    (And addresses and classes with [from_json] have the schema of an object.) *)
Inductive exact (E : env) (skip : bool) : nat -> typ -> json -> Prop :=
| ex_scalar : forall m k j, addressed k = false -> (k = KInt \/ k = KFloat -> forall b, j <> JBool b) -> exact E skip m (TScalar k) j
| ex_list : forall m t j, (forall js x, j = JArr js -> In x js -> exact E skip m t x) -> exact E skip m (TList t) j
| ex_set : forall m t j, (forall js, j = JArr js -> distinct js = true) -> (forall js x, j = JArr js -> In x js -> exact E skip m t x) ->
    exact E skip m (TSet t) j
| ex_dict : forall m k t j, key_type E k -> (forall o p x, j = JObj o -> In (p, x) o -> exact E skip m t x) -> exact E skip m (TDict k t) j
| ex_tuple : forall m ts j, (forall js t x, j = JArr js -> In (t, x) (combine ts js) -> exact E skip m t x) -> exact E skip m (TTuple ts) j
| ex_union : forall m op ts j,
    (forall t, In t ts -> legible E skip m t j -> exact E skip m t j) ->
    (forall ts1 t ts2 u, ts = ts1 ++ t :: ts2 -> legible E skip m t j -> In u ts1 \/ In u ts2 -> alien E m u j) ->
    exact E skip m (TUnion op ts) j
| ex_literal : forall m l c j, lit_json l = Some c -> (forall z b, c = JInt z -> j <> JBool b) -> exact E skip m (TLiteral [l]) j
| ex_annot : forall m t md j, exact E skip m t j -> (forall k a, t = TScalar k -> In a md -> obeys a j) -> exact E skip m (TAnnot t md) j
| ex_ref : forall m s j, (forall a t, lookup E m s = Some (a, t) -> exact E skip m t j) -> exact E skip m (TRef s) j
| ex_enum : forall m c cl ms j, get_class E c = Some cl -> c_kind cl = CEnum ms ->
    (forall x w, In (x, w) ms -> json_equal w j -> same j w = true) -> exact E skip m (TClass c) j
| ex_class : forall m c cl ps j, get_class E c = Some cl -> fieldwise cl -> class_properties E cl = Ok ps -> distinct_names ps ->
    (forall x t u d p, field_of E cl x t u d -> schema_name x t p -> json_name cl x u p) ->
    (forall o p, j = JObj o -> ~ In (p, JNull) o) ->
    (forall o p, j = JObj o -> skip = true -> In p (map fst o) -> exists x t, In (x, t) ps /\ schema_name x t p) ->
    (forall o x t u d p, j = JObj o -> field_of E cl x t u d -> ~ optional t -> optional u \/ d <> None -> schema_name x t p -> In p (map fst o)) ->
    (forall o x t p y r, j = JObj o -> In (x, t) ps -> schema_name x t p -> In (p, y) o -> read_type t r -> exact E skip (c_module cl) r y) ->
    exact E skip m (TClass c) j.

(** ** Format checks *)

(** A validator may or may not check formats; if it does, it takes the texts the
    library reads for what they are. *)
Record trusting (asserts : pystr -> pystr -> json -> bool) : Prop := {
  tr_text : forall k kw f j v, text_format k = Some (kw, f) -> parse_scalar k j = Ok v -> asserts kw f j = true;
  tr_integer : forall f lo hi z, In (f, (lo, hi)) integer_formats -> (lo <= z <= hi)%Z -> asserts (str "format") f (JInt z) = true;
  tr_float : forall f j, f = str "float32" \/ f = str "float64" -> natural KFloat j -> asserts (str "format") f j = true
}.
