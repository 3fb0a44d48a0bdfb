(** What it means for a Python value to have an annotated type, stated without
    reference to the (de)serializer. *)
From Coq Require Import String List NArith ZArith Bool.
From Verif Require Import Base Json TimeDelta IsoTime Addresses PyTypes
  SpecTimeDelta SpecIsoTime SpecBase64 SpecAddresses.
Import ListNotations.
Open Scope list_scope.

(** Values of the built-in types, with the ranges Python guarantees. *)
Definition scalar_type (k : scalar) (v : value) : Prop :=
  match k, v with
  | KNone, VNone => True
  | KBool, VBool _ => True
  | KInt, VInt _ => True
  | KFloat, VFloat _ => True
  | KStr, VStr _ => True
  | KBytes, VBytes bs => Forall is_byte bs
  | KDateTime, VDateTime d => datetime_wf d
  | KDate, VDate d => date_wf d
  | KTime, VTime t => time_wf t
  | KTimeDelta, VTimeDelta t => td_wf t
  | KUUID, VUUID u => (u < 2 ^ 128)%N
  | KIPv4, VIPv4 a => (a < 2 ^ 32)%N
  | KIPv6, VIPv6 a => ipv6_wf a
  | _, _ => False
  end.

(** [has_type E m t v]: [v] is a value of type [t], texts in [t] being read in
    module [m].  Classes are nominal; the fields of an object have their
    annotated types, read in the module of the class.  A class with a
    [from_json] hook answers for its own instances. *)
Inductive has_type (E : env) : nat -> typ -> value -> Prop :=
| ht_scalar : forall m k v, scalar_type k v -> has_type E m (TScalar k) v
| ht_list : forall m t vs, Forall (has_type E m t) vs -> has_type E m (TList t) (VList vs)
| ht_set : forall m t vs,
    Forall (has_type E m t) vs ->
    Forall (fun v => hashable E v = true) vs ->
    ForallOrdPairs (fun a b => py_eq E a b = false) vs ->
    has_type E m (TSet t) (VSet vs)
| ht_dict : forall m k t kvs,
    Forall (fun kv => has_type E m k (fst kv)) kvs ->
    Forall (fun kv => has_type E m t (snd kv)) kvs ->
    NoDup (map fst kvs) ->
    has_type E m (TDict k t) (VDict kvs)
| ht_tuple : forall m ts vs, Forall2 (has_type E m) ts vs -> has_type E m (TTuple ts) (VTuple vs)
| ht_union : forall m op ts t v, In t ts -> has_type E m t v -> has_type E m (TUnion op ts) v
| ht_literal : forall m ls l, In l ls -> has_type E m (TLiteral ls) (lit_value l)
| ht_annot : forall m t md v, has_type E m t v -> has_type E m (TAnnot t md) v
| ht_ref : forall m s a t v, lookup E m s = Some (a, t) -> has_type E m t v -> has_type E m (TRef s) v
| ht_enum : forall m c cl ms x,
    get_class E c = Some cl -> c_kind cl = CEnum ms -> In x (map fst ms) ->
    has_type E m (TClass c) (VEnum c x)
| ht_obj : forall m c cl attrs,
    get_class E c = Some cl ->
    (match c_kind cl with
     | CTuple _ => True
     | CData _ _ | CPlain _ => c_from_json cl = None
     | _ => False
     end) ->
    map fst attrs = map fst (raw_fields (c_kind cl)) ->
    Forall2 (has_type E (c_module cl)) (map snd (raw_fields (c_kind cl))) (map snd attrs) ->
    has_type E m (TClass c) (VObj c attrs)
| ht_raw : forall m c cl xs attrs,
    get_class E c = Some cl -> c_kind cl = CRawTuple xs -> map fst attrs = xs ->
    has_type E m (TClass c) (VObj c attrs)
| ht_hook : forall m c cl h attrs,
    get_class E c = Some cl ->
    (match c_kind cl with CData _ _ | CPlain _ => True | _ => False end) ->
    c_from_json cl = Some h ->
    has_type E m (TClass c) (VObj c attrs).

(** JSON scalars. *)
Definition is_scalar (j : json) : Prop :=
  match j with JArr _ | JObj _ => False | _ => True end.

(** Well-formed classes: names are distinct, enumeration members have distinct
    scalar values, defaults have the type of their field, and a [from_json]
    hook returns instances of its class. *)
Record class_ok (E : env) (c : nat) (cl : class) : Prop := {
  ok_names : NoDup (map fst (raw_fields (c_kind cl)));
  ok_members : forall ms, c_kind cl = CEnum ms ->
    NoDup (map fst ms) /\ Forall (fun m => is_scalar (snd m)) ms /\
    ForallOrdPairs (fun a b => scalar_eqb (snd a) (snd b) = false) ms;
  ok_raw : forall xs, c_kind cl = CRawTuple xs -> NoDup xs;
  ok_defaults : forall fr fs f v, c_kind cl = CData fr fs -> In f fs ->
    f_default f = Some (Ok v) -> has_type E (c_module cl) (f_type f) v;
  ok_hook : forall h j v, c_from_json cl = Some h -> h j = Ok v ->
    exists attrs, v = VObj c attrs
}.

Definition env_ok (E : env) : Prop :=
  forall c cl, get_class E c = Some cl -> class_ok E c cl.
