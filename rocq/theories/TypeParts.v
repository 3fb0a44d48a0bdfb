(** Taking types apart: strong_typing/inspection.py 86-227 and 357-509, beyond what the
    (de)serializers use (PyTypes.v). *)
From Coq Require Import String List NArith ZArith Bool.
From Verif Require Import Base Json PyTypes TypeAlgebra.
Import ListNotations.
Open Scope list_scope.

(** [typing.get_origin] of CPython 3.11. *)
Inductive origin := OList | OSet | ODict | OTuple | OUnion | OUnionType | OLiteral | OAnnotated.

Definition get_origin (t : typ) : option origin :=
  match t with
  | TList _ => Some OList
  | TSet _ => Some OSet
  | TDict _ _ => Some ODict
  | TTuple _ => Some OTuple
  | TUnion false _ => Some OUnion
  | TUnion true _ => Some OUnionType
  | TLiteral _ => Some OLiteral
  | TAnnot _ _ => Some OAnnotated
  | TScalar _ | TBare _ | TClass _ | TRef _ | TForm => None
  end.

(** [typing.get_args] of CPython 3.11: types, constants and metadata. *)
Inductive arg := ArgType (t : typ) | ArgValue (l : lit) | ArgMeta (a : annot).

Definition get_args (t : typ) : list arg :=
  match t with
  | TList u | TSet u => [ArgType u]
  | TDict k u => [ArgType k; ArgType u]
  | TTuple ts | TUnion _ ts => map ArgType ts
  | TLiteral ls => map ArgValue ls
  | TAnnot u md => ArgType u :: map ArgMeta md
  | TScalar _ | TBare _ | TClass _ | TRef _ | TForm => []
  end.

Definition origin_is (o : origin) (t : typ) : bool :=
  match get_origin t, o with
  | Some OList, OList | Some OSet, OSet | Some ODict, ODict | Some OTuple, OTuple | Some OUnion, OUnion
  | Some OUnionType, OUnionType | Some OLiteral, OLiteral | Some OAnnotated, OAnnotated => true
  | _, _ => false
  end.

(** inspection.py 357-361: [is_type_literal]. *)
Definition is_type_literal (t : typ) : bool := origin_is OLiteral (unwrap_annotated t).

(** inspection.py 402-406, 427-431, 452-456: [is_generic_list], [is_generic_set] and
    [is_generic_dict]. *)
Definition is_generic_list (t : typ) : bool := origin_is OList (unwrap_annotated t).
Definition is_generic_set (t : typ) : bool := origin_is OSet (unwrap_annotated t).
Definition is_generic_dict (t : typ) : bool := origin_is ODict (unwrap_annotated t).

(** inspection.py 420-424, 445-449: [(item_type,) = typing.get_args(typ)], which raises
    ValueError unless there is a single argument.  The single constant of a literal is
    not a type. *)
Definition single_arg (t : typ) : res typ :=
  match get_args t with
  | [ArgType u] => Ok u
  | [_] => Err EUnmodelled
  | _ => Err EValue
  end.

(** inspection.py 409-417 and 434-442: [unwrap_generic_list] and [unwrap_generic_set]. *)
Definition unwrap_generic_list (t : typ) : res typ := rewrap_annotated single_arg t.
Definition unwrap_generic_set (t : typ) : res typ := rewrap_annotated single_arg t.

(** inspection.py 459-474: [unwrap_generic_dict]. *)
Definition unwrap_generic_dict (t : typ) : res (typ * typ) :=
  match get_args (unwrap_annotated t) with
  | [ArgType k; ArgType u] => Ok (k, u)
  | [_; _] => Err EUnmodelled
  | _ => Err EValue
  end.

(** inspection.py 379-388: [unwrap_literal_values]; anything with arguments is taken. *)
Definition unwrap_literal_values (t : typ) : list arg := get_args (unwrap_annotated t).

(** inspection.py 364-376: [unwrap_literal_value]. *)
Definition unwrap_literal_value (t : typ) : res arg :=
  match unwrap_literal_values t with [a] => Ok a | _ => Err EType end.

(** inspection.py 391-399: [unwrap_literal_types]; the types of types and metadata are
    left out of the model. *)
Definition unwrap_literal_types (t : typ) : res (list typ) :=
  mapM (fun a => match a with ArgValue l => Ok (lit_type l) | _ => Err EUnmodelled end) (unwrap_literal_values t).

(** The kind of the class that a type is. *)
Definition class_kind (E : env) (t : typ) : option ckind :=
  match t with TClass c => option_map c_kind (get_class E c) | _ => None end.

(** inspection.py 212-227: [is_type_enum]. *)
Definition is_type_enum (E : env) (t : typ) : bool :=
  match class_kind E (unwrap_annotated t) with Some (CEnum _) => true | _ => false end.

(** inspection.py 135-139: [is_dataclass_type]. *)
Definition is_dataclass_type (E : env) (t : typ) : bool :=
  match class_kind E (unwrap_annotated t) with Some (CData _ _) => true | _ => false end.

(** inspection.py 183-206: [is_named_tuple_type].  [Annotated] is unwrapped, but only
    after the check that the argument is a class, which [Annotated] is not. *)
Definition is_named_tuple_type (E : env) (t : typ) : bool :=
  match class_kind E t with Some (CTuple _) | Some (CRawTuple _) => true | _ => false end.

(** inspection.py 568-574: [get_class_property]. *)
Definition get_class_property (E : env) (cl : class) (x : pystr) : res (option typ) :=
  do ps <- class_properties E cl;
  Ok (dict_get ps x).

(** inspection.py 98-128: [evaluate_type]; strings and forward references are looked up,
    other types are returned as they are, whatever they contain.  Simplified: CPython goes
    on to evaluate the references inside of what a [ForwardRef] (not a string) stands for. *)
Definition evaluate_type (E : env) (m : nat) (t : typ) : res typ :=
  match t with
  | TRef s => match lookup E m s with Some (_, u) => Ok u | None => Err EName end
  | _ => Ok t
  end.

(** inspection.py 160-164: [dataclass_fields], names and types. *)
Definition dataclass_fields (E : env) (cl : class) : res (list (pystr * typ)) :=
  match c_kind cl with
  | CData _ fs => mapM (fun f => do t <- evaluate_type E (c_module cl) (f_type f); Ok (f_name f, t)) fs
  | _ => Err EType
  end.

(** inspection.py 167-174: [dataclass_field_by_name], name and type; [None] stands for
    LookupError. *)
Definition dataclass_field_by_name (E : env) (cl : class) (x : pystr) : res (option (pystr * typ)) :=
  match c_kind cl with
  | CData _ fs =>
      match find (fun f => pystr_eqb (f_name f) x) fs with
      | None => Ok None
      | Some f => do t <- evaluate_type E (c_module cl) (f_type f); Ok (Some (f_name f, t))
      end
  | _ => Err EType
  end.
