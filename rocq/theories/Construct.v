(** How objects are made of the values read for their fields: strong_typing/deserializer.py
    684-694, 711-712 and 758-768 ([create]), with the [__init__] that CPython 3.11 writes for
    data classes. *)
From Coq Require Import String List NArith ZArith Bool.
From Verif Require Import Base Json PyTypes.
Import ListNotations.
Open Scope list_scope.

(** An annotation of a data class: a field, an [InitVar] or a [ClassVar]; [sl_init] is
    [field(init=...)].  A default value and a default factory both appear as the outcome of
    evaluating them. *)
Inductive role := RField | RInitVar | RClassVar.
Record slot := mkSlot { sl_name : pystr; sl_role : role; sl_init : bool; sl_default : option (res value) }.

(** A data class.  [__post_init__], if any, is given the attributes set so far and the
    values of the [InitVar]s and either raises an exception or leaves new attributes. *)
Record data_class := mkData {
  dc_frozen : bool;
  dc_slots : list slot;
  dc_post : option (list (pystr * value) -> list value -> res (list (pystr * value)))
}.

Definition is_field (s : slot) : bool := match sl_role s with RField => true | _ => false end.
Definition is_initvar (s : slot) : bool := match sl_role s with RInitVar => true | _ => false end.

(** [dataclasses.fields(cls)] *)
Definition fields_of_class (d : data_class) : list slot := filter is_field (dc_slots d).

(** Parameters of [__init__]. *)
Definition is_param (s : slot) : bool := match sl_role s with RField => sl_init s | RInitVar => true | RClassVar => false end.

(** The value of a parameter: what is passed, or its default. *)
Definition argument (kw : list (pystr * value)) (s : slot) : res value :=
  match dict_get kw (sl_name s) with
  | Some v => Ok v
  | None => match sl_default s with Some r => r | None => Err EType end
  end.

(** What [__init__] does to the attributes for one field (dataclasses.py, [_field_init]).
    A field with [init=False] has its default, if any, as [getattr] sees it. *)
Definition init_field (kw : list (pystr * value)) (s : slot) : res (list (pystr * value)) :=
  if sl_init s then do v <- argument kw s; Ok [(sl_name s, v)]
  else match sl_default s with
       | Some r => do v <- r; Ok [(sl_name s, v)]
       | None => Ok []
       end.

(** [cls.__init__(obj, **kw)]: unexpected and missing arguments raise TypeError. *)
Definition init (d : data_class) (kw : list (pystr * value)) : res (list (pystr * value)) :=
  let params := filter is_param (dc_slots d) in
  if negb (forallb (fun kv => mem_str (fst kv) (map sl_name params)) kw) then Err EType
  else if existsb (fun s => match dict_get kw (sl_name s), sl_default s with None, None => true | _, _ => false end) params then Err EType
  else
    do parts <- mapM (init_field kw) (fields_of_class d);
    do vars <- mapM (argument kw) (filter is_initvar (dc_slots d));
    match dc_post d with
    | Some post => post (concat parts) vars
    | None => Ok (concat parts)
    end.

(** [self.create( **field_values)]: a field named [self] clashes with the parameter of the
    method. *)
Definition call_create (kw : list (pystr * value)) (body : res (list (pystr * value))) : res (list (pystr * value)) :=
  if mem_str (str "self") (map fst kw) then Err EType else body.

(** deserializer.py 686-694 and 761-768: [ClassDeserializer.create],
    [FrozenDataclassDeserializer.create]; which one, 967-972.  Simplified: [setattr] sets an
    attribute (no properties, no [__setattr__] of the class). *)
Definition create (d : data_class) (fv : list (pystr * value)) : res (list (pystr * value)) :=
  call_create fv
    (if dc_frozen d then init d fv
     else Ok (fold_left (fun attrs kv => dict_set attrs (fst kv) (snd kv)) fv [])).

(** deserializer.py 711-712: [NamedTupleDeserializer.create]; all fields are given. *)
Definition create_tuple (fv : list (pystr * value)) : res (list (pystr * value)) := call_create fv (Ok fv).
