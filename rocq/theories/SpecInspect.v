(** Specification of [is_generic_instance] and [check_recursive]. *)
From Coq Require Import String List NArith ZArith Bool.
From Verif Require Import Base Json PyTypes.
Import ListNotations.
Open Scope list_scope.

Inductive scalar_instance : value -> scalar -> Prop :=
| si_none : scalar_instance VNone KNone
| si_bool : forall b, scalar_instance (VBool b) KBool
| si_int : forall z, scalar_instance (VInt z) KInt
| si_bool_int : forall b, scalar_instance (VBool b) KInt
| si_float : forall f, scalar_instance (VFloat f) KFloat
| si_str : forall s, scalar_instance (VStr s) KStr
| si_bytes : forall s, scalar_instance (VBytes s) KBytes
| si_datetime : forall d, scalar_instance (VDateTime d) KDateTime
| si_date : forall d, scalar_instance (VDate d) KDate
| si_datetime_date : forall d, scalar_instance (VDateTime d) KDate
| si_time : forall d, scalar_instance (VTime d) KTime
| si_timedelta : forall d, scalar_instance (VTimeDelta d) KTimeDelta
| si_uuid : forall d, scalar_instance (VUUID d) KUUID
| si_ipv4 : forall d, scalar_instance (VIPv4 d) KIPv4
| si_ipv6 : forall d, scalar_instance (VIPv6 d) KIPv6.

(** The items of tuples and of named tuples. *)
Inductive items (E : env) : value -> list value -> Prop :=
| it_tuple : forall vs, items E (VTuple vs) vs
| it_named : forall c cl fs attrs, get_class E c = Some cl -> c_kind cl = CTuple fs -> items E (VObj c attrs) (map snd attrs)
| it_raw : forall c cl xs attrs, get_class E c = Some cl -> c_kind cl = CRawTuple xs -> items E (VObj c attrs) (map snd attrs).

(** [instance E v t]: [v] is an instance of [t], item by item. *)
Inductive instance (E : env) : value -> typ -> Prop :=
| in_scalar : forall v k, scalar_instance v k -> instance E v (TScalar k)
| in_bare_list : forall vs, instance E (VList vs) (TBare BList)
| in_bare_dict : forall kvs, instance E (VDict kvs) (TBare BDict)
| in_bare_set : forall vs, instance E (VSet vs) (TBare BSet)
| in_bare_tuple : forall v vs, items E v vs -> instance E v (TBare BTuple)
| in_list : forall vs t, (forall v, In v vs -> instance E v t) -> instance E (VList vs) (TList t)
| in_set : forall vs t, (forall v, In v vs -> instance E v t) -> instance E (VSet vs) (TSet t)
| in_dict : forall kvs k t, (forall a b, In (a, b) kvs -> instance E a k /\ instance E b t) -> instance E (VDict kvs) (TDict k t)
| in_tuple : forall v vs ts, items E v vs -> Forall2 (instance E) vs ts -> instance E v (TTuple ts)
| in_union : forall v op ts t, In t ts -> instance E v t -> instance E v (TUnion op ts)
| in_literal : forall ls l, In l ls -> instance E (lit_value l) (TLiteral ls)
| in_enum : forall c x, instance E (VEnum c x) (TClass c)
| in_obj : forall c attrs, instance E (VObj c attrs) (TClass c).

(** Types that [is_generic_instance] is made for: no [Literal], [Annotated],
    [X | Y] or reference. *)
Inductive plain : typ -> Prop :=
| pl_scalar : forall k, plain (TScalar k)
| pl_bare : forall b, plain (TBare b)
| pl_list : forall t, plain t -> plain (TList t)
| pl_set : forall t, plain t -> plain (TSet t)
| pl_dict : forall k t, plain k -> plain t -> plain (TDict k t)
| pl_tuple : forall ts, (forall t, In t ts -> plain t) -> plain (TTuple ts)
| pl_union : forall ts, (forall t, In t ts -> plain t) -> plain (TUnion false ts)
| pl_class : forall c, plain (TClass c).

(** No tuple type with a list of item types in it. *)
Inductive tuple_free : typ -> Prop :=
| tf_scalar : forall k, tuple_free (TScalar k)
| tf_bare : forall b, tuple_free (TBare b)
| tf_list : forall t, tuple_free t -> tuple_free (TList t)
| tf_set : forall t, tuple_free t -> tuple_free (TSet t)
| tf_dict : forall k t, tuple_free k -> tuple_free t -> tuple_free (TDict k t)
| tf_union : forall op ts, (forall t, In t ts -> tuple_free t) -> tuple_free (TUnion op ts)
| tf_class : forall c, tuple_free (TClass c).

(** As [instance], except that of a tuple and its item types, whichever are more
    numerous, the excess is ignored. *)
Inductive loosely (E : env) : value -> typ -> Prop :=
| lo_scalar : forall v k, scalar_instance v k -> loosely E v (TScalar k)
| lo_bare : forall v b, instance E v (TBare b) -> loosely E v (TBare b)
| lo_list : forall vs t, (forall v, In v vs -> loosely E v t) -> loosely E (VList vs) (TList t)
| lo_set : forall vs t, (forall v, In v vs -> loosely E v t) -> loosely E (VSet vs) (TSet t)
| lo_dict : forall kvs k t, (forall a b, In (a, b) kvs -> loosely E a k /\ loosely E b t) -> loosely E (VDict kvs) (TDict k t)
| lo_tuple : forall v vs ts, items E v vs ->
    (forall i x t, nth_error vs i = Some x -> nth_error ts i = Some t -> loosely E x t) -> loosely E v (TTuple ts)
| lo_union : forall v ts t, In t ts -> loosely E v t -> loosely E v (TUnion false ts)
| lo_class : forall v c, instance E v (TClass c) -> loosely E v (TClass c).

(** * [check_recursive] *)

(** Types at which the predicate is evaluated. *)
Inductive leaf (E : env) : typ -> Prop :=
| le_scalar : forall k, k <> KIPv4 -> k <> KIPv6 -> leaf E (TScalar k)
| le_union : forall ts, leaf E (TUnion false ts)
| le_enum : forall c cl ms, get_class E c = Some cl -> c_kind cl = CEnum ms -> leaf E (TClass c).

(** [stripped t t']: [t'] is [t] without the annotations of [Annotated]. *)
Inductive stripped : typ -> typ -> Prop :=
| st_annot : forall t md t', stripped t t' -> stripped (TAnnot t md) t'
| st_list : forall t t', stripped t t' -> stripped (TList t) (TList t')
| st_set : forall t t', stripped t t' -> stripped (TSet t) (TSet t')
| st_dict : forall k k' t t', stripped k k' -> stripped t t' -> stripped (TDict k t) (TDict k' t')
| st_tuple : forall ts ts', Forall2 stripped ts ts' -> stripped (TTuple ts) (TTuple ts')
| st_union : forall op ts ts' u, Forall2 stripped ts ts' -> mk_union op ts' = Ok u -> stripped (TUnion op ts) u
| st_scalar : forall k, stripped (TScalar k) (TScalar k)
| st_bare : forall b, stripped (TBare b) (TBare b)
| st_literal : forall ls, stripped (TLiteral ls) (TLiteral ls)
| st_class : forall c, stripped (TClass c) (TClass c)
| st_ref : forall s, stripped (TRef s) (TRef s)
| st_form : stripped TForm TForm.

(** [field_as cl t t']: a field of class [cl] whose type, references resolved, is
    [t] counts as one of type [t']; fields of named tuples lose their annotations. *)
Definition field_as (cl : class) (t t' : typ) : Prop :=
  match c_kind cl with
  | CTuple _ | CRawTuple _ => stripped t t'
  | _ => t' = t
  end.

Section Visited.
  Variable E : env.

  (** [visited t v t' v']: going from [v] of type [t] through containers and
      fields one comes to [v'] of leaf type [t']. *)
  Inductive visited : typ -> value -> typ -> value -> Prop :=
  | vi_leaf : forall t v, leaf E t -> visited t v t v
  | vi_list : forall t vs v t' v', In v vs -> visited t v t' v' -> visited (TList t) (VList vs) t' v'
  | vi_set : forall t vs v t' v', In v vs -> visited t v t' v' -> visited (TSet t) (VSet vs) t' v'
  | vi_dict : forall k t kvs a v t' v', In (a, v) kvs -> visited t v t' v' -> visited (TDict k t) (VDict kvs) t' v'
  | vi_tuple : forall ts v vs i x t t' v', items E v vs -> nth_error vs i = Some x -> nth_error ts i = Some t ->
      visited t x t' v' -> visited (TTuple ts) v t' v'
  | vi_field : forall c cl hs attrs x u t w t' v', get_class E c = Some cl -> (forall ms, c_kind cl <> CEnum ms) ->
      hints E cl = Ok hs -> In (x, u) hs -> field_as cl u t -> dict_get attrs x = Some w ->
      visited t w t' v' -> visited (TClass c) (VObj c attrs) t' v'.

  (** Values whose shape is that of their type, as far as the check goes. *)
  Inductive checkable : typ -> value -> Prop :=
  | ck_leaf : forall k v, k <> KIPv4 -> k <> KIPv6 -> checkable (TScalar k) v
  | ck_ip : forall k v, k = KIPv4 \/ k = KIPv6 -> scalar_instance v k -> checkable (TScalar k) v
  | ck_bare : forall b v, instance E v (TBare b) -> checkable (TBare b) v
  | ck_list : forall t vs, (forall v, In v vs -> checkable t v) -> checkable (TList t) (VList vs)
  | ck_set : forall t vs, (forall v, In v vs -> checkable t v) -> checkable (TSet t) (VSet vs)
  | ck_dict : forall k t kvs, (forall a v, In (a, v) kvs -> checkable t v) -> checkable (TDict k t) (VDict kvs)
  | ck_tuple : forall ts v vs, items E v vs ->
      (forall i x t, nth_error vs i = Some x -> nth_error ts i = Some t -> checkable t x) -> checkable (TTuple ts) v
  | ck_union : forall ts v, checkable (TUnion false ts) v
  | ck_enum : forall c cl ms d x, get_class E c = Some cl -> c_kind cl = CEnum ms -> checkable (TClass c) (VEnum d x)
  | ck_obj : forall c cl hs attrs, get_class E c = Some cl -> (forall ms, c_kind cl <> CEnum ms) ->
      hints E cl = Ok hs ->
      (forall x u, In (x, u) hs -> exists t w, field_as cl u t /\ dict_get attrs x = Some w /\ checkable t w) ->
      checkable (TClass c) (VObj c attrs).
End Visited.

(** [part_of v w]: [v] is [w] or contained in it. *)
Inductive part_of : value -> value -> Prop :=
| po_self : forall v, part_of v v
| po_list : forall v w vs, In w vs -> part_of v w -> part_of v (VList vs)
| po_tuple : forall v w vs, In w vs -> part_of v w -> part_of v (VTuple vs)
| po_set : forall v w vs, In w vs -> part_of v w -> part_of v (VSet vs)
| po_dict : forall v a w kvs, In (a, w) kvs -> part_of v w -> part_of v (VDict kvs)
| po_obj : forall v c a w attrs, In (a, w) attrs -> part_of v w -> part_of v (VObj c attrs).
