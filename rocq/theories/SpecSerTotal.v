(** Specification for C03: which values can be serialized, and what can go
    wrong. *)
From Coq Require Import String List NArith ZArith Bool.
From Verif Require Import Base Json IsoTime PyTypes SpecTyping SpecSer.
Import ListNotations.
Open Scope list_scope.

(** [writable E ctx t]: the unfolding of type [t] comes to an end, and meets only
    types that have a serializer.  Unions are not unfolded.  Texts need a module
    to be read in, which is lost inside [Annotated]. *)
Inductive writable (E : env) : option nat -> typ -> Prop :=
| wr_scalar : forall ctx k, writable E ctx (TScalar k)
| wr_bare : forall ctx b, writable E ctx (TBare b)
| wr_union : forall ctx op ts, writable E ctx (TUnion op ts)
| wr_list : forall ctx t, writable E ctx t -> writable E ctx (TList t)
| wr_set : forall ctx t, writable E ctx t -> writable E ctx (TSet t)
| wr_str_dict : forall ctx t, writable E ctx t -> writable E ctx (TDict (TScalar KStr) t)
| wr_enum_dict : forall ctx c cl ms t, get_class E c = Some cl -> c_kind cl = CEnum ms -> ms <> [] ->
    (forall x j, In (x, j) ms -> exists s, j = JStr s) -> writable E ctx t ->
    writable E ctx (TDict (TClass c) t)
| wr_tuple : forall ctx ts, (forall t, In t ts -> writable E ctx t) -> writable E ctx (TTuple ts)
| wr_literal : forall ctx ls l, In l ls -> (forall l', In l' ls -> lit_type l' = lit_type l) ->
    writable E ctx (lit_type l) -> writable E ctx (TLiteral ls)
| wr_annot : forall ctx t md, writable E None t -> writable E ctx (TAnnot t md)
| wr_hook : forall ctx c cl h, get_class E c = Some cl -> c_to_json cl = Some h -> writable E ctx (TClass c)
| wr_plain : forall ctx c cl, get_class E c = Some cl -> ~ annotated cl -> writable E ctx (TClass c)
| wr_fields : forall ctx c cl fs, get_class E c = Some cl -> class_properties E cl = Ok fs ->
    (forall x t, In (x, t) fs -> writable E (Some (c_module cl)) t) -> writable E ctx (TClass c)
| wr_ref : forall m s a t, lookup E m s = Some (a, t) -> (forall s', t <> TRef s') -> writable E (Some m) t ->
    writable E (Some m) (TRef s).

(** Dict keys: all strings, or all members of enumerations whose value is a
    string. *)
Definition plain_keys (E : env) (kvs : list (value * value)) : Prop :=
  (forall k v, In (k, v) kvs -> exists s, k = VStr s) \/
  (forall k v, In (k, v) kvs -> exists c cl ms x s, k = VEnum c x /\ get_class E c = Some cl /\
     c_kind cl = CEnum ms /\ dict_get ms x = Some (JStr s)).

(** [storable E v]: instances of annotated classes have the declared attributes,
    of the declared types, and their class is writable; enumeration members
    exist; there are no objects of exotic types. *)
Inductive storable (E : env) : value -> Prop :=
| sv_scalar : forall v,
    (match v with VEnum _ _ | VList _ | VTuple _ | VSet _ | VDict _ | VObj _ _ | VOpaque => False | _ => True end) ->
    storable E v
| sv_list : forall vs, (forall v, In v vs -> storable E v) -> storable E (VList vs)
| sv_tuple : forall vs, (forall v, In v vs -> storable E v) -> storable E (VTuple vs)
| sv_set : forall vs, (forall v, In v vs -> storable E v) -> storable E (VSet vs)
| sv_dict : forall kvs, plain_keys E kvs -> (forall k v, In (k, v) kvs -> storable E v) -> storable E (VDict kvs)
| sv_hook : forall v c cl h, object_class v = Some c -> get_class E c = Some cl -> c_to_json cl = Some h -> storable E v
| sv_enum : forall c cl ms x j, get_class E c = Some cl -> c_kind cl = CEnum ms -> dict_get ms x = Some j ->
    storable E (VEnum c x)
| sv_fields : forall c cl attrs, get_class E c = Some cl -> annotated cl -> writable E None (TClass c) ->
    map fst attrs = map fst (raw_fields (c_kind cl)) ->
    Forall2 (has_type E (c_module cl)) (map snd (raw_fields (c_kind cl))) (map snd attrs) ->
    (forall x v, In (x, v) attrs -> storable E v) -> storable E (VObj c attrs)
| sv_raw : forall c cl xs attrs, get_class E c = Some cl -> c_kind cl = CRawTuple xs ->
    incl xs (map fst attrs) -> (forall x v, In (x, v) attrs -> storable E v) -> storable E (VObj c attrs)
| sv_plain : forall c cl attrs, get_class E c = Some cl -> c_kind cl = CPlain [] ->
    (forall x v, In (x, v) attrs -> storable E v) -> storable E (VObj c attrs).

(** [written E u v]: serializing [v] involves serializing [u]. *)
Inductive written (E : env) (u : value) : value -> Prop :=
| wt_self : written E u u
| wt_list : forall w vs, In w vs -> written E u w -> written E u (VList vs)
| wt_tuple : forall w vs, In w vs -> written E u w -> written E u (VTuple vs)
| wt_set : forall w vs, In w vs -> written E u w -> written E u (VSet vs)
| wt_dict : forall k w kvs, In (k, w) kvs -> written E u w -> written E u (VDict kvs)
| wt_fields : forall c cl fs attrs x t w, get_class E c = Some cl -> c_to_json cl = None -> annotated cl ->
    class_properties E cl = Ok fs -> In (x, t) fs -> dict_get attrs x = Some w -> w <> VNone ->
    written E u w -> written E u (VObj c attrs)
| wt_raw : forall c cl xs attrs x w, get_class E c = Some cl -> c_to_json cl = None -> c_kind cl = CRawTuple xs ->
    In x xs -> dict_get attrs x = Some w -> written E u w -> written E u (VObj c attrs)
| wt_plain : forall c cl attrs x w, get_class E c = Some cl -> c_to_json cl = None -> c_kind cl = CPlain [] ->
    In (x, w) attrs -> ~ dunder x -> w <> VNone -> written E u w -> written E u (VObj c attrs).

(** A datetime without time zone. *)
Definition naive (v : value) : Prop := exists d, v = VDateTime d /\ t_off (dt_time d) = None.

(** The ways in which a single value fails to be written: a datetime without
    time zone, or an exception raised by [to_json]. *)
Definition unwritable (E : env) (u : value) (e : exn) : Prop :=
  (naive u /\ e = EJsonValue) \/
  (exists c cl h, object_class u = Some c /\ get_class E c = Some cl /\ c_to_json cl = Some h /\ h u = Err e).
