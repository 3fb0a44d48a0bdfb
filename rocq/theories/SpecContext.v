(** Texts in types. *)
From Coq Require Import String List NArith Bool.
From Verif Require Import Base PyTypes.
Import ListNotations.
Open Scope list_scope.

(** [mentions s t]: the text [s] stands somewhere in [t] for a type.  Fields of
    classes do not belong to the type. *)
Inductive mentions (s : pystr) : typ -> Prop :=
| me_ref : mentions s (TRef s)
| me_list : forall u, mentions s u -> mentions s (TList u)
| me_set : forall u, mentions s u -> mentions s (TSet u)
| me_key : forall k u, mentions s k -> mentions s (TDict k u)
| me_value : forall k u, mentions s u -> mentions s (TDict k u)
| me_tuple : forall ts u, In u ts -> mentions s u -> mentions s (TTuple ts)
| me_union : forall op ts u, In u ts -> mentions s u -> mentions s (TUnion op ts)
| me_annot : forall u md, mentions s u -> mentions s (TAnnot u md).
