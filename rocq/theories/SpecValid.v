(** When serialized values satisfy the generated schema: values that respect
    what a schema says beyond types, documents that are visibly not of a type,
    and registrations that agree with the program. *)
From Coq Require Import String List NArith ZArith Bool.
From Verif Require Import Base Json PyTypes Catalog Schema SpecTyping SpecRecursion SpecTypes SpecFields SpecSer SpecTagged SpecDeser SpecRoundTrip SpecSchema SpecGenerate.
Import ListNotations.
Open Scope list_scope.
Open Scope nat_scope.

(** ** Names *)

(** [stands_for S s w]: to the generator, the name [s] stands for the type [w]. *)
Inductive stands_for (S : senv) (s : pystr) (w : typ) : Prop :=
| sf_registered : forall e, (forall s', w <> TRef s') -> get (s_catalog S) w = Ok e -> en_identifier e = s -> stands_for S s w
| sf_evaluated : s_eval S s = Some w -> stands_for S s w.

(** The generator and the program agree on names. *)
Record coherent (E : env) (S : senv) : Prop := {
  co_unique : forall s w w', stands_for S s w -> stands_for S s w' -> w = w';
  co_lookup : forall m s a w w', lookup E m s = Some (a, w) -> stands_for S s w' -> w = w';
  co_named : forall s e, dict_get (by_name (s_catalog S)) s = Some e -> en_identifier e = s;
  co_derived : forall t e, get (s_catalog S) t = Ok e -> en_schema e = None;
  co_plain : forall s w, stands_for S s w -> plain_name s
}.

(** ** Documents that are visibly not of a type *)

(** Documents that the scalar types have. *)
Definition natural (k : scalar) (j : json) : Prop :=
  match k, j with
  | KNone, JNull | KBool, JBool _ | KInt, JInt _ | KFloat, JInt _ | KFloat, JFloat _ => True
  | KInt, JFloat f => whole f = true
  | (KStr | KBytes | KDateTime | KDate | KTime | KTimeDelta | KUUID), JStr _ => True
  | _, _ => False
  end.

Definition addressed (k : scalar) : bool := match k with KIPv4 | KIPv6 => true | _ => false end.

Definition is_array (j : json) : Prop := exists js, j = JArr js.
Definition is_object (j : json) : Prop := exists o, j = JObj o.

(** Distinct fields have distinct names. *)
Definition distinct_names (ps : list (pystr * typ)) : Prop :=
  forall x t y u p, In (x, t) ps -> In (y, u) ps -> schema_name x t p -> schema_name y u p -> (x, t) = (y, u).

Inductive alien (E : env) : nat -> typ -> json -> Prop :=
| al_scalar : forall m k j, addressed k = false -> ~ natural k j -> alien E m (TScalar k) j
| al_list : forall m t j, ~ is_array j -> alien E m (TList t) j
| al_list_item : forall m t js j, In j js -> alien E m t j -> alien E m (TList t) (JArr js)
| al_set : forall m t j, ~ is_array j -> alien E m (TSet t) j
| al_set_item : forall m t js j, In j js -> alien E m t j -> alien E m (TSet t) (JArr js)
| al_dict : forall m k t j, ~ is_object j -> alien E m (TDict k t) j
| al_dict_value : forall m k t o p j, In (p, j) o -> alien E m t j -> alien E m (TDict k t) (JObj o)
| al_tuple : forall m ts j, ~ is_array j -> alien E m (TTuple ts) j
| al_tuple_length : forall m ts js, length js <> length ts -> alien E m (TTuple ts) (JArr js)
| al_tuple_item : forall m ts js t j, In (t, j) (combine ts js) -> alien E m t j -> alien E m (TTuple ts) (JArr js)
| al_union : forall m op ts j, (forall t, In t ts -> alien E m t j) -> alien E m (TUnion op ts) j
| al_literal : forall m l c j, lit_json l = Some c -> same j c = false -> alien E m (TLiteral [l]) j
| al_annot : forall m t md j, alien E m t j -> alien E m (TAnnot t md) j
| al_ref : forall m s a t j, lookup E m s = Some (a, t) -> alien E m t j -> alien E m (TRef s) j
| al_enum : forall m c cl ms j, get_class E c = Some cl -> c_kind cl = CEnum ms ->
    (forall x v, In (x, v) ms -> same j v = false) -> alien E m (TClass c) j
| al_class : forall m c cl j, get_class E c = Some cl -> not_enum cl -> ~ is_object j -> alien E m (TClass c) j
| al_class_missing : forall m c cl ps x t p o, get_class E c = Some cl -> not_enum cl -> class_properties E cl = Ok ps ->
    In (x, t) ps -> ~ optional t -> schema_name x t p -> ~ In p (map fst o) -> alien E m (TClass c) (JObj o)
| al_class_extra : forall m c cl ps p o, get_class E c = Some cl -> not_enum cl -> class_properties E cl = Ok ps -> ps <> [] ->
    In p (map fst o) -> (forall x t, In (x, t) ps -> ~ schema_name x t p) -> alien E m (TClass c) (JObj o)
| al_class_field : forall m c cl ps x t r p j o, get_class E c = Some cl -> not_enum cl -> class_properties E cl = Ok ps ->
    distinct_names ps -> In (x, t) ps -> schema_name x t p -> In (p, j) o -> read_type t r -> alien E (c_module cl) r j ->
    alien E m (TClass c) (JObj o).

(** ** Values that respect their annotations *)

(** The document [j] of a scalar is as the annotation [a] says.  (Not for
    precision, which is about decimal places; binary fractions have none.) *)
Definition obeys (a : annot) (j : json) : Prop :=
  match a, j with
  | AIntegerRange lo hi, JInt z => (lo <= z <= hi)%Z
  | AIntegerRange _ _, JFloat _ => False
  | APrecision _ _, _ => False
  | AMinLength n, JStr s => (Z.of_N n <= Z.of_nat (length s))%Z
  | AMaxLength n, JStr s => (Z.of_nat (length s) <= Z.of_N n)%Z
  | _, _ => True
  end.

(** Keys of dictionaries: texts, or members of an enumeration; the values of an
    enumeration with more than four members become a regular expression. *)
Definition key_type (E : env) (k : typ) : Prop :=
  k = TScalar KStr \/ k = TScalar KInt \/
  exists c cl ms, k = TClass c /\ get_class E c = Some cl /\ c_kind cl = CEnum ms /\
    (4 < length ms -> forall x j, In (x, j) ms -> exists s, j = JStr s /\ forallb literal_char s = true).

(** [fits E m t v]: [v] is a value of type [t] that respects the metadata in
    [t]; its sets have distinct elements as JSON documents; a member of a union
    is not taken for a value of another member; None is only in optional
    fields, and fields are written under the names that stand in the schema.
    Classes convert themselves to JSON field by field. *)
Inductive fits (E : env) : nat -> typ -> value -> Prop :=
| ft_scalar : forall m k v, addressed k = false -> scalar_type k v -> fits E m (TScalar k) v
| ft_list : forall m t vs, (forall v, In v vs -> fits E m t v) -> fits E m (TList t) (VList vs)
| ft_set : forall m t vs, (forall v, In v vs -> fits E m t v) ->
    (forall js, Forall2 (image E) vs js -> distinct js = true) -> fits E m (TSet t) (VSet vs)
| ft_dict : forall m k t kvs, key_type E k -> (forall a b, In (a, b) kvs -> fits E m k a) ->
    (forall a b, In (a, b) kvs -> fits E m t b) -> fits E m (TDict k t) (VDict kvs)
| ft_tuple : forall m ts vs, length ts = length vs -> (forall t v, In (t, v) (combine ts vs) -> fits E m t v) ->
    fits E m (TTuple ts) (VTuple vs)
| ft_union : forall m op ts1 t ts2 v, fits E m t v ->
    (forall u j, In u ts1 \/ In u ts2 -> image E v j -> alien E m u j) ->
    fits E m (TUnion op (ts1 ++ t :: ts2)) v
| ft_literal : forall m l c, lit_json l = Some c -> fits E m (TLiteral [l]) (lit_value l)
| ft_annot : forall m t md v, fits E m t v ->
    (forall k a j, t = TScalar k -> In a md -> image E v j -> obeys a j) -> fits E m (TAnnot t md) v
| ft_ref : forall m s a t v, lookup E m s = Some (a, t) -> fits E m t v -> fits E m (TRef s) v
| ft_enum : forall m c cl ms x, get_class E c = Some cl -> c_kind cl = CEnum ms -> c_to_json cl = None ->
    In x (map fst ms) -> (forall y j, In (y, j) ms -> same j j = true) -> fits E m (TClass c) (VEnum c x)
| ft_object : forall m c cl ps attrs, get_class E c = Some cl -> not_enum cl -> c_to_json cl = None ->
    class_properties E cl = Ok ps -> distinct_names ps ->
    (forall x t k, In (x, t) ps -> In k python_keywords -> x <> k ++ str "_") ->
    (forall x t, In (x, t) ps -> dict_get attrs x = Some VNone -> optional t) ->
    (forall x t w r, In (x, t) ps -> dict_get attrs x = Some w -> w <> VNone -> read_type t r -> fits E (c_module cl) r w) ->
    fits E m (TClass c) (VObj c attrs).

(** ** Format checks *)

(** The format written for a scalar type. *)
Definition text_format (k : scalar) : option (pystr * pystr) :=
  match k with
  | KBytes => Some (str "contentEncoding", str "base64")
  | KDateTime => Some (str "format", str "date-time")
  | KDate => Some (str "format", str "date")
  | KTime => Some (str "format", str "time")
  | KTimeDelta => Some (str "format", str "duration")
  | KUUID => Some (str "format", str "uuid")
  | _ => None
  end.

(** The formats of fixed-width integers, with their ranges. *)
Definition integer_formats : list (pystr * (Z * Z)) :=
  [(str "int8", (-2 ^ 7, 2 ^ 7 - 1)%Z); (str "int16", (-2 ^ 15, 2 ^ 15 - 1)%Z);
   (str "int32", (-2 ^ 31, 2 ^ 31 - 1)%Z); (str "int64", (-2 ^ 63, 2 ^ 63 - 1)%Z);
   (str "uint8", (0, 2 ^ 8 - 1)%Z); (str "uint16", (0, 2 ^ 16 - 1)%Z);
   (str "uint32", (0, 2 ^ 32 - 1)%Z); (str "uint64", (0, 2 ^ 64 - 1)%Z)].

(** A validator may or may not check formats; if it does, it takes the texts
    the library writes for what they are. *)
Record lenient (asserts : pystr -> pystr -> json -> bool) : Prop := {
  le_text : forall k kw f v j, text_format k = Some (kw, f) -> scalar_type k v -> scalar_image v j -> asserts kw f j = true;
  le_integer : forall f lo hi z, In (f, (lo, hi)) integer_formats -> (lo <= z <= hi)%Z -> asserts (str "format") f (JInt z) = true;
  le_float : forall f x, f = str "float32" \/ f = str "float64" -> asserts (str "format") f (JFloat x) = true
}.

(** The same for some values only. *)
Record lenient_for (V : value -> Prop) (asserts : pystr -> pystr -> json -> bool) : Prop := {
  lf_text : forall k kw f v j, text_format k = Some (kw, f) -> V v -> scalar_type k v -> scalar_image v j -> asserts kw f j = true;
  lf_integer : forall f lo hi z, In (f, (lo, hi)) integer_formats -> (lo <= z <= hi)%Z -> asserts (str "format") f (JInt z) = true;
  lf_float : forall f x, f = str "float32" \/ f = str "float64" -> asserts (str "format") f (JFloat x) = true
}.

(** ** Types all values of which fit *)

Definition idle (a : annot) : Prop :=
  match a with AIntegerRange _ _ | APrecision _ _ | AMinLength _ | AMaxLength _ => False | _ => True end.

(** What is written for [t] is visibly not of type [u]. *)
Definition told_apart (E : env) (m : nat) (t u : typ) : Prop :=
  forall v j, has_type E m t v -> image E v j -> alien E m u j.

(** Types that visibly have no documents of a kind. *)
Inductive unlike (E : env) : nat -> typ -> jkind -> Prop :=
| ul_scalar : forall m k jk, addressed k = false -> jk <> scalar_written k -> unlike E m (TScalar k) jk
| ul_list : forall m t jk, jk <> ArrayKind -> unlike E m (TList t) jk
| ul_set : forall m t jk, jk <> ArrayKind -> unlike E m (TSet t) jk
| ul_tuple : forall m ts jk, jk <> ArrayKind -> unlike E m (TTuple ts) jk
| ul_dict : forall m k t jk, jk <> ObjectKind -> unlike E m (TDict k t) jk
| ul_union : forall m op ts jk, (forall t, In t ts -> unlike E m t jk) -> unlike E m (TUnion op ts) jk
| ul_literal : forall m l c jk, lit_json l = Some c -> jk <> kind_of c -> unlike E m (TLiteral [l]) jk
| ul_annot : forall m t md jk, unlike E m t jk -> unlike E m (TAnnot t md) jk
| ul_ref : forall m s a t jk, lookup E m s = Some (a, t) -> unlike E m t jk -> unlike E m (TRef s) jk
| ul_enum : forall m c cl ms jk, get_class E c = Some cl -> c_kind cl = CEnum ms ->
    (forall x j, In (x, j) ms -> jk <> kind_of j) -> unlike E m (TClass c) jk
| ul_class : forall m c cl jk, get_class E c = Some cl -> not_enum cl -> jk <> ObjectKind -> unlike E m (TClass c) jk.

(** The class is told from others by the field [p], which is the literal [l]. *)
Definition tagged_by (E : env) (c : nat) (p : pystr) (l : lit) : Prop :=
  exists cl ps, get_class E c = Some cl /\ annotated cl /\ fieldwise cl /\ c_to_json cl = None /\
    class_properties E cl = Ok ps /\ distinct_names ps /\
    (forall x t k, In (x, t) ps -> In k python_keywords -> x <> k ++ str "_") /\ In (p, TLiteral [l]) ps.

Definition tame_class (E : env) (T : nat -> typ -> Prop) (cl : class) : Prop :=
  c_to_json cl = None /\
  match c_kind cl with
  | CEnum ms => forall y j, In (y, j) ms -> same j j = true
  | CRawTuple _ => False
  | _ =>
      fieldwise cl /\
      exists ps, class_properties E cl = Ok ps /\ distinct_names ps /\
        (forall x t k, In (x, t) ps -> In k python_keywords -> x <> k ++ str "_") /\
        (forall x t, In (x, t) ps -> has_type E (c_module cl) t VNone -> optional t) /\
        (forall x t r, In (x, t) ps -> read_type t r -> T (c_module cl) r)
  end.

(** [T] is a set of types, closed under taking parts, without addresses,
    without metadata that constrains values, with unions whose members are
    visibly different and sets whose elements are written differently. *)
Definition tame (E : env) (T : nat -> typ -> Prop) : Prop :=
  forall m t, T m t -> guarded E m t /\
  match t with
  | TScalar k => addressed k = false
  | TList w => T m w
  | TSet w => T m w /\ forall vs js, has_type E m (TSet w) (VSet vs) -> Forall2 (image E) vs js -> distinct js = true
  | TDict k w => key_type E k /\ T m k /\ T m w
  | TTuple ts => forall w, In w ts -> T m w
  | TUnion _ ts => (forall w, In w ts -> T m w) /\
      forall ts1 w ts2 u, ts = ts1 ++ w :: ts2 -> In u ts1 \/ In u ts2 -> told_apart E m w u
  | TLiteral ls => exists l c, ls = [l] /\ lit_json l = Some c
  | TAnnot w md => T m w /\ forall a, In a md -> idle a
  | TRef s => forall a w, lookup E m s = Some (a, w) -> T m w
  | TClass c => forall cl, get_class E c = Some cl -> tame_class E T cl
  | TBare _ | TForm => False
  end.
