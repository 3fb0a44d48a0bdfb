(** Classes that inherit fields from others: what strong_typing/inspection.py 160-164
    and 554-574 and strong_typing/deserializer.py 720-755 and 770-792 make of them.
    The class tables of the other files have the fields of each class written out; here
    they are put together as CPython 3.11 does. *)
From Coq Require Import String List NArith ZArith Bool.
From Verif Require Import Base Json PyTypes.
Import ListNotations.
Open Scope list_scope.

(** A class statement: whether it is decorated with [@dataclass], its module and its own
    annotations.  The default of a field is what [dataclasses] takes for it, which may be
    a class attribute of a base class. *)
Record decl := Decl { d_data : bool; d_module : nat; d_own : list field }.

(** The classes of a program, and [cls.__mro__] of each, less [object]. *)
Record hierarchy := Hier { h_decls : list decl; h_mro : nat -> list nat }.

Definition decl_of (H : hierarchy) (c : nat) : decl := nth c (h_decls H) (Decl false 0 []).
Definition own (H : hierarchy) (c : nat) : list field := d_own (decl_of H c).

(** [fields[f.name] = f] (dataclasses.py, [_process_class]). *)
Fixpoint set_field (d : list field) (f : field) : list field :=
  match d with
  | [] => [f]
  | g :: r => if pystr_eqb (f_name g) (f_name f) then f :: r else g :: set_field r f
  end.
Definition set_fields (d : list field) (fs : list field) : list field := fold_left set_field fs d.

(** [getattr(b, "__dataclass_fields__", None)]: the class that the attribute is found in. *)
Definition fields_owner (H : hierarchy) (b : nat) : option nat :=
  find (fun a => d_data (decl_of H a)) (h_mro H b).

(** [cls.__dataclass_fields__] of a decorated class (dataclasses.py, [_process_class]):
    the fields of the classes in reverse order of [__mro__], then its own.  [n] bounds
    the depth of inheritance. *)
Fixpoint data_fields (H : hierarchy) (n : nat) (c : nat) : list field :=
  match n with
  | O => []
  | S n' =>
      set_fields
        (fold_left (fun d b => match fields_owner H b with
                               | Some a => set_fields d (data_fields H n' a)
                               | None => d
                               end) (rev (tl (h_mro H c))) [])
        (own H c)
  end.

(** [dataclasses.fields(cls)], [None] if [cls] is not a data class; a class is defined
    after its bases. *)
Definition fields_of (H : hierarchy) (c : nat) : option (list field) :=
  option_map (fun a => data_fields H (S a) a) (fields_owner H c).

(** inspection.py 554-555: [get_resolved_hints(cls)], which is [typing.get_type_hints]:
    the annotations of each class are evaluated in its module. *)
Definition class_hints (E : env) (H : hierarchy) (acc : res (list (pystr * typ))) (b : nat) : res (list (pystr * typ)) :=
  fold_left (fun acc f => do d <- acc;
                          do t <- resolve_hint E (d_module (decl_of H b)) (f_type f);
                          Ok (dict_set d (f_name f) t)) (own H b) acc.

Definition resolved_hints (E : env) (H : hierarchy) (c : nat) : res (list (pystr * typ)) :=
  fold_left (class_hints E H) (rev (h_mro H c)) (Ok []).

(** inspection.py 558-565: [get_class_properties], used by the serializer and the schema
    generator. *)
Definition properties_of (E : env) (H : hierarchy) (c : nat) : res (list (pystr * typ)) :=
  match fields_of H c with
  | Some fs => Ok (map (fun f => (f_name f, f_type f)) fs)
  | None => resolved_hints E H c
  end.

(** deserializer.py 725-728: the fields that a data class is read by, with their types,
    [resolved_hints[field.name]]. *)
Definition read_fields (E : env) (H : hierarchy) (c : nat) : res (list (pystr * typ)) :=
  do hs <- resolved_hints E H c;
  match fields_of H c with
  | Some fs => mapM (fun f => match dict_get hs (f_name f) with
                              | Some t => Ok (f_name f, t)
                              | None => Err EKey
                              end) fs
  | None => Ok hs
  end.
