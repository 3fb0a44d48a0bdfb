(** Values and types for which serialization loses nothing. *)
From Coq Require Import String List NArith ZArith Bool.
From Verif Require Import Base Json TimeDelta IsoTime PyTypes Deser SpecTyping SpecIsoTime SpecBase64 SpecNumbers SpecTypes SpecDeser
  SpecFields SpecTagged SpecSer.
Import ListNotations.
Open Scope list_scope.

(** [inside v w]: [w] is [v] or a part of it. *)
Inductive inside : value -> value -> Prop :=
| in_self : forall v, inside v v
| in_list : forall vs x w, In x vs -> inside x w -> inside (VList vs) w
| in_tuple : forall vs x w, In x vs -> inside x w -> inside (VTuple vs) w
| in_set : forall vs x w, In x vs -> inside x w -> inside (VSet vs) w
| in_dict : forall kvs k x w, In (k, x) kvs -> inside x w -> inside (VDict kvs) w
| in_object : forall c attrs a x w, In (a, x) attrs -> inside x w -> inside (VObj c attrs) w.

(** Values whose textual form is exact: no UTC offset below one second, no
    negative duration. *)
Definition exact_text (v : value) : Prop :=
  match v with
  | VDateTime d => ~ subsecond (t_off (dt_time d))
  | VTime t => ~ subsecond (t_off t)
  | VTimeDelta t => (0 <= td_days t)%Z
  | VBytes bs => Forall is_byte bs
  | _ => True
  end.

Definition regular (v : value) : Prop := forall w, inside v w -> exact_text w.

(** Alternatives are separable: what a later alternative writes is either
    rejected by the earlier ones, in a way that makes the reader go on, or
    read by them as the same value. *)
Definition separable (E : env) (skip : bool) (m : nat) (ts : list typ) : Prop :=
  forall ts1 w ts2 u v j, ts = ts1 ++ w :: ts2 -> In u ts2 -> has_type E m u v -> image E v j ->
  json_to_object E skip m w j = Ok v \/ exists e, soft e /\ json_to_object E skip m w j = Err e.

(** [x] is the name of the field with declared annotation [t] (as the
    serializer sees it) and evaluated annotation [u]. *)
Definition field_of (E : env) (cl : class) (x : pystr) (t u : typ) (d : option (res value)) : Prop :=
  exists fs L, class_properties E cl = Ok fs /\ layout E cl L /\ In (x, t) fs /\ In (x, u, d) L.

(** Written and read alike: fields have one and the same JSON name on both
    sides, which no other field has, and a None that is omitted is restored. *)
Record mirrored_fields (E : env) (cl : class) : Prop := {
  mf_name : forall x t u d p, field_of E cl x t u d -> prop_name x t p -> json_name cl x u p;
  mf_distinct : forall x t u d y t' u' d' p, field_of E cl x t u d -> field_of E cl y t' u' d' ->
    json_name cl x u p -> json_name cl y u' p -> x = y;
  mf_none : forall x t u d, field_of E cl x t u d -> has_type E (c_module cl) u VNone ->
    match c_kind cl, d with
    | CTuple _, _ => False
    | _, Some r => r = Ok VNone
    | _, None => optional u
    end
}.

(** The value of an enumeration member equals itself (it is not a NaN) and is
    not null; hooks are inverse to each other and do not write null. *)
Definition mirrored (E : env) (c : nat) (cl : class) : Prop :=
  match c_kind cl with
  | CEnum ms => c_to_json cl = None /\ forall x j, In (x, j) ms -> j <> JNull /\ json_equal j j
  | CRawTuple _ => False
  | CTuple _ => c_to_json cl = None /\ mirrored_fields E cl
  | CData _ _ | CPlain _ =>
      match c_from_json cl, c_to_json cl with
      | None, None => mirrored_fields E cl
      | Some f, Some g => forall v j, object_class v = Some c -> g v = Ok j -> j <> JNull /\ f j = Ok v
      | _, _ => False
      end
  end.

(** [faithful E skip m t]: what is needed of the unions and classes met while
    reading [t]. *)
Record faithful (E : env) (skip : bool) (m : nat) (t : typ) : Prop := {
  fa_union : forall m' op ts, reach E m t m' (TUnion op ts) -> untagged E ts -> separable E skip m' ts;
  fa_tags : forall m' op ts p, reach E m t m' (TUnion op ts) -> tag E ts p -> plain_tags E ts;
  fa_null : forall m' op ts p c ls, reach E m t m' (TUnion op ts) -> tag E ts p -> In (TClass c) ts ->
    literal_property E c p ls -> ~ In LNone ls;
  fa_class : forall m' c cl, reach E m t m' (TClass c) -> get_class E c = Some cl -> mirrored E c cl
}.

(** ** Alternatives told apart by the kind of data *)

(** Kinds of data a type is written as. *)
Definition scalar_written (k : scalar) : jkind :=
  match k with
  | KNone => NullKind
  | KBool => BoolKind
  | KInt | KFloat => NumberKind
  | _ => StringKind
  end.

Inductive gives (E : env) : nat -> typ -> jkind -> Prop :=
| gi_scalar : forall m k, gives E m (TScalar k) (scalar_written k)
| gi_list : forall m t, gives E m (TList t) ArrayKind
| gi_set : forall m t, gives E m (TSet t) ArrayKind
| gi_tuple : forall m ts, gives E m (TTuple ts) ArrayKind
| gi_dict : forall m k t, gives E m (TDict k t) ObjectKind
| gi_union : forall m op ts t jk, In t ts -> gives E m t jk -> gives E m (TUnion op ts) jk
| gi_literal : forall m ls l jk, In l ls -> gives E m (lit_type l) jk -> gives E m (TLiteral ls) jk
| gi_annot : forall m t md jk, gives E m t jk -> gives E m (TAnnot t md) jk
| gi_ref : forall m s a t jk, lookup E m s = Some (a, t) -> gives E m t jk -> gives E m (TRef s) jk
| gi_enum : forall m c cl ms x j, get_class E c = Some cl -> c_kind cl = CEnum ms -> In (x, j) ms ->
    gives E m (TClass c) (kind_of j)
| gi_object : forall m c cl, get_class E c = Some cl -> c_to_json cl = None ->
    (match c_kind cl with CEnum _ => False | _ => True end) -> gives E m (TClass c) ObjectKind
| gi_hook : forall m c cl h v j, get_class E c = Some cl -> c_to_json cl = Some h -> h v = Ok j ->
    gives E m (TClass c) (kind_of j).

(** Types that reject data of a kind with JsonKeyError or JsonTypeError. *)
Inductive refuses (E : env) : nat -> typ -> jkind -> Prop :=
| rf_scalar : forall m k jk, ~ scalar_kind k jk -> refuses E m (TScalar k) jk
| rf_list : forall m t jk, jk <> ArrayKind -> refuses E m (TList t) jk
| rf_set : forall m t jk, jk <> ArrayKind -> refuses E m (TSet t) jk
| rf_tuple : forall m ts jk, jk <> ArrayKind -> refuses E m (TTuple ts) jk
| rf_dict : forall m k t jk, jk <> ObjectKind -> refuses E m (TDict k t) jk
| rf_union : forall m op ts jk, (forall t, In t ts -> refuses E m t jk) -> refuses E m (TUnion op ts) jk
| rf_literal : forall m ls jk, (forall l, In l ls -> refuses E m (lit_type l) jk) -> refuses E m (TLiteral ls) jk
| rf_annot : forall m t md jk, refuses E m t jk -> refuses E m (TAnnot t md) jk
| rf_ref : forall m s a t jk, lookup E m s = Some (a, t) -> refuses E m (unwrap_annotated t) jk ->
    refuses E m (TRef s) jk
| rf_class : forall m c cl jk, get_class E c = Some cl -> fieldwise cl -> jk <> ObjectKind ->
    refuses E m (TClass c) jk.

(** The first field of class [c] is required, and class [c'] does not write it. *)
Definition first_missing (E : env) (c c' : nat) : Prop :=
  exists cl cl' x t p L, get_class E c = Some cl /\ ordinary cl /\ layout E cl ((x, t, None) :: L) /\
    ~ optional t /\ prop_name x t p /\
    get_class E c' = Some cl' /\ c_to_json cl' = None /\ annotated cl' /\
    forall fs y u, class_properties E cl' = Ok fs -> In (y, u) fs -> ~ prop_name y u p.

(** What [u] writes, [w] rejects in a way that makes a union go on. *)
Definition apart (E : env) (m : nat) (w u : typ) : Prop :=
  (forall jk, gives E m u jk -> refuses E m w jk) \/
  (exists c c', w = TClass c /\ u = TClass c' /\ first_missing E c c').

Definition members_apart (E : env) (m : nat) (ts : list typ) : Prop :=
  forall ts1 w ts2 u, ts = ts1 ++ w :: ts2 -> In u ts2 -> apart E m w u.
