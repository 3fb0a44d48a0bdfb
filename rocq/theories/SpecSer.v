(** Specification of serialization: the JSON image of a value. *)
From Coq Require Import String List NArith ZArith Bool Permutation Sorted.
From Verif Require Import Base Json TimeDelta IsoTime Base64 Addresses PyTypes SpecTyping SpecTypes SpecFields.
Import ListNotations.
Open Scope list_scope.

(** Values of built-in types: numbers and texts stand for themselves, the
    others have a textual form (characterised in the specifications of the
    individual types). *)
Inductive scalar_image : value -> json -> Prop :=
| si_none : scalar_image VNone JNull
| si_bool : forall b, scalar_image (VBool b) (JBool b)
| si_int : forall z, scalar_image (VInt z) (JInt z)
| si_float : forall f, scalar_image (VFloat f) (JFloat f)
| si_str : forall s, scalar_image (VStr s) (JStr s)
| si_bytes : forall bs, scalar_image (VBytes bs) (JStr (bytes_generate bs))
| si_datetime : forall d s, datetime_generate d = Ok s -> scalar_image (VDateTime d) (JStr s)
| si_date : forall d, scalar_image (VDate d) (JStr (date_generate d))
| si_time : forall t, scalar_image (VTime t) (JStr (time_generate t))
| si_timedelta : forall t, scalar_image (VTimeDelta t) (JStr (timedelta_generate t))
| si_uuid : forall u, scalar_image (VUUID u) (JStr (uuid_generate u))
| si_ipv4 : forall a, scalar_image (VIPv4 a) (JStr (ipv4_generate a))
| si_ipv6 : forall a, scalar_image (VIPv6 a) (JStr (ipv6_generate a)).

(** [merged ps o]: [o] is the object obtained by writing the properties [ps]
    one after the other; a property written again is replaced in place. *)
Inductive merged : list (pystr * json) -> list (pystr * json) -> Prop :=
| me_nil : merged [] []
| me_new : forall ps o k j, merged ps o -> ~ In k (map fst o) -> merged (ps ++ [(k, j)]) (o ++ [(k, j)])
| me_again : forall ps o1 k i o2 j, merged ps (o1 ++ (k, i) :: o2) -> ~ In k (map fst o1) ->
    merged (ps ++ [(k, j)]) (o1 ++ (k, j) :: o2).

(** The text of a dict key. *)
Inductive key_text (E : env) : value -> pystr -> Prop :=
| kt_str : forall s, key_text E (VStr s) s
| kt_enum : forall c cl ms x s, get_class E c = Some cl -> c_kind cl = CEnum ms -> In (x, JStr s) ms ->
    key_text E (VEnum c x) s.

(** The fields whose attribute is not None, in field order, with their values. *)
Inductive present (attrs : list (pystr * value)) : list (pystr * typ) -> list (pystr * typ * value) -> Prop :=
| pr_nil : present attrs [] []
| pr_none : forall x t fs l, dict_get attrs x = Some VNone -> present attrs fs l -> present attrs ((x, t) :: fs) l
| pr_some : forall x t fs v l, dict_get attrs x = Some v -> v <> VNone -> present attrs fs l ->
    present attrs ((x, t) :: fs) ((x, t, v) :: l).

(** Names between double underscores (inspection.py 725-736). *)
Definition dunder (x : pystr) : Prop := x = str "_abc_impl" \/ exists y, y <> [] /\ x = str "__" ++ y ++ str "__".

(** Attributes in the order of [dir]: by code points. *)
Fixpoint before (a b : pystr) : Prop :=
  match a, b with
  | [], _ => True
  | _ :: _, [] => False
  | x :: a', y :: b' => (x < y)%N \/ (x = y /\ before a' b')
  end.

Definition object_class (v : value) : option nat :=
  match v with VEnum c _ | VObj c _ => Some c | _ => None end.

(** Instances of classes with annotated fields. *)
Definition annotated (cl : class) : Prop :=
  match c_kind cl with CData _ _ | CTuple _ => True | CPlain fs => fs <> [] | _ => False end.

(** [image E v j]: [j] is the JSON document of [v].
    - A class with [to_json] decides for itself.
    - An enumeration member is written as its value.
    - An instance of a class with annotated fields has one property for each
      field that is not None; the annotation counted is the one written in the
      source for data classes, the evaluated one for other classes.
    - A [collections.namedtuple] has one property for each field.
    - An instance of a class without annotations has one property for each
      attribute that is not None and not reserved, by name. *)
Inductive image (E : env) : value -> json -> Prop :=
| im_scalar : forall v j, scalar_image v j -> image E v j
| im_list : forall vs js, Forall2 (image E) vs js -> image E (VList vs) (JArr js)
| im_tuple : forall vs js, Forall2 (image E) vs js -> image E (VTuple vs) (JArr js)
| im_set : forall vs js, Forall2 (image E) vs js -> image E (VSet vs) (JArr js)
| im_dict : forall kvs ps o,
    Forall2 (fun kv p => key_text E (fst kv) (fst p) /\ image E (snd kv) (snd p)) kvs ps ->
    merged ps o -> image E (VDict kvs) (JObj o)
| im_hook : forall v c cl h j, object_class v = Some c -> get_class E c = Some cl ->
    c_to_json cl = Some h -> h v = Ok j -> image E v j
| im_enum : forall c cl ms x j, get_class E c = Some cl -> c_to_json cl = None -> c_kind cl = CEnum ms ->
    In (x, j) ms -> image E (VEnum c x) j
| im_fields : forall c cl fs attrs l ps o, get_class E c = Some cl -> c_to_json cl = None -> annotated cl ->
    class_properties E cl = Ok fs -> present attrs fs l ->
    Forall2 (fun f p => prop_name (fst (fst f)) (snd (fst f)) (fst p) /\ image E (snd f) (snd p)) l ps ->
    merged ps o -> image E (VObj c attrs) (JObj o)
| im_raw : forall c cl xs attrs ps o, get_class E c = Some cl -> c_to_json cl = None -> c_kind cl = CRawTuple xs ->
    Forall2 (fun x p => prop_name x TForm (fst p) /\ exists v, dict_get attrs x = Some v /\ image E v (snd p)) xs ps ->
    merged ps o -> image E (VObj c attrs) (JObj o)
| im_untyped : forall c cl attrs l l' ps o, get_class E c = Some cl -> c_to_json cl = None -> c_kind cl = CPlain [] ->
    Permutation attrs l -> Sorted (fun a b => before (fst a) (fst b)) l ->
    (forall a, In a l' <-> In a l /\ ~ dunder (fst a) /\ snd a <> VNone) ->
    (exists f, l' = filter f l) ->
    Forall2 (fun a p => prop_name (fst a) TForm (fst p) /\ image E (snd a) (snd p)) l' ps ->
    merged ps o -> image E (VObj c attrs) (JObj o).

(** [conforms E v]: every instance of an annotated class inside [v] that is
    serialized field by field has the declared attributes, of the declared
    types. *)
Inductive conforms (E : env) : value -> Prop :=
| cf_leaf : forall v,
    (match v with VList _ | VTuple _ | VSet _ | VDict _ | VObj _ _ => False | _ => True end) -> conforms E v
| cf_list : forall vs, Forall (conforms E) vs -> conforms E (VList vs)
| cf_tuple : forall vs, Forall (conforms E) vs -> conforms E (VTuple vs)
| cf_set : forall vs, Forall (conforms E) vs -> conforms E (VSet vs)
| cf_dict : forall kvs, Forall (fun kv => conforms E (snd kv)) kvs -> conforms E (VDict kvs)
| cf_hook : forall c cl h attrs, get_class E c = Some cl -> c_to_json cl = Some h -> conforms E (VObj c attrs)
| cf_fields : forall c cl attrs, get_class E c = Some cl -> annotated cl ->
    map fst attrs = map fst (raw_fields (c_kind cl)) ->
    Forall2 (has_type E (c_module cl)) (map snd (raw_fields (c_kind cl))) (map snd attrs) ->
    Forall (fun a => conforms E (snd a)) attrs -> conforms E (VObj c attrs)
| cf_plain : forall c cl attrs, get_class E c = Some cl -> ~ annotated cl ->
    Forall (fun a => conforms E (snd a)) attrs -> conforms E (VObj c attrs).
