(** Specification of deserialization, type by type. *)
From Coq Require Import String List NArith ZArith Bool.
From Verif Require Import Base Json PyTypes SpecNumbers.
Import ListNotations.
Open Scope list_scope.

(** Kinds of JSON data. *)
Inductive jkind := NullKind | BoolKind | NumberKind | StringKind | ArrayKind | ObjectKind.

Definition kind_of (j : json) : jkind :=
  match j with
  | JNull => NullKind
  | JBool _ => BoolKind
  | JInt _ | JFloat _ => NumberKind
  | JStr _ => StringKind
  | JArr _ => ArrayKind
  | JObj _ => ObjectKind
  end.

(** Kinds from which a built-in type is read. *)
Definition scalar_kind (k : scalar) (jk : jkind) : Prop :=
  match k with
  | KNone => jk = NullKind
  | KBool => jk = BoolKind
  | KInt | KFloat => jk = BoolKind \/ jk = NumberKind
  | _ => jk = StringKind
  end.

(** Kinds from which an enumeration member with value [w] is read: Python
    equates booleans and numbers. *)
Definition member_kind (w : json) (jk : jkind) : Prop :=
  kind_of w = jk \/
  ((kind_of w = BoolKind \/ kind_of w = NumberKind) /\ (jk = BoolKind \/ jk = NumberKind)).

(** [admits E m t jk]: [t] can be read from data of kind [jk]. *)
Inductive admits (E : env) (m : nat) : typ -> jkind -> Prop :=
| ad_scalar : forall k jk, scalar_kind k jk -> admits E m (TScalar k) jk
| ad_list : forall t, admits E m (TList t) ArrayKind
| ad_set : forall t, admits E m (TSet t) ArrayKind
| ad_tuple : forall ts, admits E m (TTuple ts) ArrayKind
| ad_dict : forall k t, admits E m (TDict k t) ObjectKind
| ad_union : forall op ts t jk, In t ts -> admits E m t jk -> admits E m (TUnion op ts) jk
| ad_literal : forall ls l jk, In l ls -> admits E m (lit_type l) jk -> admits E m (TLiteral ls) jk
| ad_annot : forall t md jk, admits E m t jk -> admits E m (TAnnot t md) jk
| ad_ref : forall s a t jk, lookup E m s = Some (a, t) -> admits E m t jk -> admits E m (TRef s) jk
| ad_enum : forall c cl ms x w jk, get_class E c = Some cl -> c_kind cl = CEnum ms -> In (x, w) ms ->
    member_kind w jk -> admits E m (TClass c) jk
| ad_object : forall c cl, get_class E c = Some cl ->
    (match c_kind cl with CEnum _ => False | _ => True end) -> admits E m (TClass c) ObjectKind
| ad_hook : forall c cl h jk, get_class E c = Some cl ->
    (match c_kind cl with CData _ _ | CPlain _ => True | _ => False end) ->
    c_from_json cl = Some h -> admits E m (TClass c) jk.

(** The key a property name stands for. *)
Inductive key_of (E : env) : typ -> pystr -> value -> Prop :=
| ko_str : forall s, key_of E (TScalar KStr) s (VStr s)
| ko_enum : forall c cl ms x s, get_class E c = Some cl -> c_kind cl = CEnum ms -> In (x, JStr s) ms ->
    key_of E (TClass c) s (VEnum c x).

(** Values that cannot be items of a set. *)
Inductive unhashable (E : env) : value -> Prop :=
| uh_list : forall vs, unhashable E (VList vs)
| uh_set : forall vs, unhashable E (VSet vs)
| uh_dict : forall kvs, unhashable E (VDict kvs)
| uh_mutable : forall c cl fs attrs, get_class E c = Some cl -> c_kind cl = CData false fs -> unhashable E (VObj c attrs)
| uh_item : forall vs v, In v vs -> unhashable E v -> unhashable E (VTuple vs)
| uh_attr : forall c cl attrs x v, get_class E c = Some cl ->
    (match c_kind cl with CData _ _ | CTuple _ | CRawTuple _ => True | _ => False end) ->
    In (x, v) attrs -> unhashable E v -> unhashable E (VObj c attrs).

(** A rejection that lets a union go on to its next member. *)
Definition soft (e : exn) : Prop := e = EJsonKey \/ e = EJsonType.

(** A literal-typed property of a class, as the library sees it: data class
    fields by their annotation as written, others by the resolved one. *)
Definition literal_property (E : env) (c : nat) (p : pystr) (ls : list lit) : Prop :=
  exists cl t ps, get_class E c = Some cl /\ class_properties E cl = Ok ps /\
  In (p, t) ps /\ literal_values t = Some ls.

(** [p] is a tag of the union with members [ts]: all members are classes and
    [p] is a literal-typed property of each of them. *)
Definition tag (E : env) (ts : list typ) (p : pystr) : Prop :=
  ts <> [] /\ Forall (fun t => exists c ls, t = TClass c /\ literal_property E c p ls) ts.

Definition untagged (E : env) (ts : list typ) : Prop := forall p, ~ tag E ts p.
