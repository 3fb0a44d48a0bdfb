(** Exceptions that tell the caller that the document does not fit the type,
    and the conditions on program and document under which only these occur. *)
From Coq Require Import String List NArith ZArith Bool.
From Verif Require Import Base Json PyTypes SpecRecursion.
Import ListNotations.
Open Scope list_scope.

Definition data_error (e : exn) : Prop :=
  e = EJsonKey \/ e = EJsonType \/ e = EJsonValue \/ e = EValue \/ e = EOverflow.

(** Types whose values can be put in a set.  [H] is a set of classes that are
    hashable, given that the others in [H] are. *)
Inductive hash_typ (E : env) (H : nat -> Prop) (m : nat) : typ -> Prop :=
| hs_scalar : forall k, hash_typ E H m (TScalar k)
| hs_tuple : forall ts, Forall (hash_typ E H m) ts -> hash_typ E H m (TTuple ts)
| hs_union : forall op ts, Forall (hash_typ E H m) ts -> hash_typ E H m (TUnion op ts)
| hs_literal : forall ls, hash_typ E H m (TLiteral ls)
| hs_annot : forall t md, hash_typ E H m t -> hash_typ E H m (TAnnot t md)
| hs_class : forall c, H c -> hash_typ E H m (TClass c)
| hs_ref : forall s, (forall a t, lookup E m s = Some (a, t) -> hash_typ E H m t) -> hash_typ E H m (TRef s).

Definition hash_class (E : env) (H : nat -> Prop) (cl : class) : Prop :=
  match c_kind cl with
  | CEnum _ | CPlain _ => True
  | CTuple hs => Forall (fun h => hash_typ E H (c_module cl) (snd h)) hs
  | CData fr fs => fr = true /\ c_from_json cl = None /\
                   Forall (fun f => hash_typ E H (c_module cl) (f_type f)) fs
  | CRawTuple _ => False
  end.

(** Items of sets are hashable. *)
Definition sets_ok (E : env) (H : nat -> Prop) (m : nat) (t : typ) : Prop :=
  every_part (fun u => match u with TSet w => hash_typ E H m w | _ => True end) t.

Record polite (E : env) (H : nat -> Prop) : Prop := {
  pl_hash : forall c cl, H c -> get_class E c = Some cl -> hash_class E H cl;
  pl_fields : forall c cl x t, get_class E c = Some cl -> In (x, t) (raw_fields (c_kind cl)) ->
    sets_ok E H (c_module cl) t;
  pl_refs : forall m s a t, lookup E m s = Some (a, t) -> sets_ok E H m t;
  (** hooks and default factories raise none but these exceptions *)
  pl_hook : forall c cl h j e, get_class E c = Some cl -> c_from_json cl = Some h ->
    h j = Err e -> data_error e;
  pl_default : forall c cl fr fs f e, get_class E c = Some cl -> c_kind cl = CData fr fs ->
    In f fs -> f_default f = Some (Err e) -> data_error e;
  (** no collections.namedtuple with fields (their constructor is called without arguments) *)
  pl_raw : forall c cl xs, get_class E c = Some cl -> c_kind cl = CRawTuple xs -> xs = []
}.

(** Sub-documents. *)
Inductive subdoc : json -> json -> Prop :=
| sd_refl : forall j, subdoc j j
| sd_arr : forall l x y, In x l -> subdoc y x -> subdoc y (JArr l)
| sd_obj : forall o k x y, In (k, x) o -> subdoc y x -> subdoc y (JObj o).

(** [p] is a literal-typed property of some class. *)
Definition tag_property (E : env) (p : pystr) : Prop :=
  exists c cl t t', get_class E c = Some cl /\ In (p, t) (raw_fields (c_kind cl)) /\
  (t' = t \/ resolve_hint E (c_module cl) t = Ok t') /\ literal_values t' <> None.

(** Nowhere in the document has a tag property an array or object as value. *)
Definition scalar_tags (E : env) (j : json) : Prop :=
  forall o p x, subdoc (JObj o) j -> In (p, x) o -> tag_property E p ->
  match x with JArr _ | JObj _ => False | _ => True end.
