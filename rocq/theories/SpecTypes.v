(** Type annotations as Python builds them, and removal of None. *)
From Coq Require Import String List NArith ZArith Bool.
From Verif Require Import Base Json PyTypes.
Import ListNotations.
Open Scope list_scope.

Definition none_type : typ := TScalar KNone.

Definition is_union (t : typ) : Prop := match t with TUnion _ _ => True | _ => False end.
Definition is_annotated (t : typ) : Prop := match t with TAnnot _ _ => True | _ => False end.

(** Unions hold at least two members, which are distinct and not unions
    themselves; annotations are not nested. *)
Inductive canonical : typ -> Prop :=
| cn_scalar : forall k, canonical (TScalar k)
| cn_bare : forall b, canonical (TBare b)
| cn_list : forall t, canonical t -> canonical (TList t)
| cn_set : forall t, canonical t -> canonical (TSet t)
| cn_dict : forall k t, canonical k -> canonical t -> canonical (TDict k t)
| cn_tuple : forall ts, Forall canonical ts -> canonical (TTuple ts)
| cn_union : forall op ts, 2 <= length ts -> NoDup ts ->
    Forall (fun t => canonical t /\ ~ is_union t) ts -> canonical (TUnion op ts)
| cn_literal : forall ls, canonical (TLiteral ls)
| cn_annot : forall t md, canonical t -> ~ is_annotated t -> canonical (TAnnot t md)
| cn_class : forall c, canonical (TClass c)
| cn_ref : forall s, canonical (TRef s)
| cn_form : canonical TForm.

(** [us] is [ts] without None. *)
Inductive without_none : list typ -> list typ -> Prop :=
| wo_nil : without_none [] []
| wo_none : forall ts us, without_none ts us -> without_none (none_type :: ts) us
| wo_keep : forall t ts us, t <> none_type -> without_none ts us -> without_none (t :: ts) (t :: us).

(** The union of several types; a single type stands for itself. *)
Inductive union_of : list typ -> typ -> Prop :=
| uo_one : forall t, union_of [t] t
| uo_many : forall t u ts, union_of (t :: u :: ts) (TUnion false (t :: u :: ts)).

(** [t] carrying metadata [md]. *)
Inductive carrying : typ -> list annot -> typ -> Prop :=
| ca_plain : forall t md, ~ is_annotated t -> carrying t md (TAnnot t md)
| ca_more : forall t md md', carrying (TAnnot t md) md' (TAnnot t (md ++ md')).

(** [u] is the optional type [t] less None. *)
Inductive drops_none : typ -> typ -> Prop :=
| dn_union : forall op ts us u, without_none ts us -> union_of us u -> drops_none (TUnion op ts) u
| dn_annot : forall op ts us u md w, without_none ts us -> union_of us u -> carrying u md w ->
    drops_none (TAnnot (TUnion op ts) md) w.

(** A type that admits None as one of several alternatives. *)
Definition optional (t : typ) : Prop :=
  exists op ts, In none_type ts /\ (t = TUnion op ts \/ exists md, t = TAnnot (TUnion op ts) md).

(** The first [Alias] in the metadata of a type. *)
Definition has_alias (t : typ) (a : pystr) : Prop :=
  exists u md1 md2, t = TAnnot u (md1 ++ AAlias a :: md2) /\ forall b, ~ In (AAlias b) md1.

Definition no_alias (t : typ) : Prop := forall a, ~ has_alias t a.
