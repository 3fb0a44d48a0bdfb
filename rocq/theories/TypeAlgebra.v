(** Unions, optional and annotated types: strong_typing/inspection.py 264-355
    and 476-533, beyond what the (de)serializers use (PyTypes.v). *)
From Coq Require Import String List NArith ZArith Bool.
From Verif Require Import Base Json PyTypes.
Import ListNotations.
Open Scope list_scope.

(** [is_type_optional(typ, strict=True)] (inspection.py 280-298). *)
Definition is_type_optional_strict (t : typ) : bool :=
  match unwrap_annotated t with
  | TUnion _ ts => Nat.eqb (length ts) 2 && existsb (typ_eqb (TScalar KNone)) ts
  | _ => false
  end.

(** [is_type_union] (inspection.py 325-334). *)
Definition is_type_union (t : typ) : bool :=
  match unwrap_annotated t with
  | TUnion _ ts => Nat.ltb 2 (length ts) || negb (existsb (typ_eqb (TScalar KNone)) ts)
  | _ => false
  end.

(** [unwrap_union_types] (inspection.py 337-354).  Note that the type is not
    unwrapped from [Annotated] first. *)
Definition unwrap_union_types (t : typ) : res (list typ) :=
  match t with TUnion _ ts => Ok ts | _ => Err EType end.

(** [rewrap_annotated_type] (inspection.py 512-533). *)
Definition rewrap_annotated (f : typ -> res typ) (t : typ) : res typ :=
  match t with
  | TAnnot u md => do u' <- f u; Ok (mk_annot u' md)
  | _ => f t
  end.

(** [is_type_annotated] (inspection.py 476-480). *)
Definition is_type_annotated (t : typ) : bool :=
  match t with TAnnot _ _ => true | _ => false end.
