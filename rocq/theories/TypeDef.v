(** Types made from JSON schemas: [schema_to_type] and [node_to_typedef] of
    strong_typing/classdef.py. *)
From Coq Require Import String List NArith ZArith Bool.
From Verif Require Import Base Json PyTypes Mapping Deser ClassDef Flatten.
Import ListNotations.
Open Scope list_scope.
Open Scope nat_scope.

(** Unicode data: the characters beyond ASCII that [\w] matches, and the strings
    that are identifiers. *)
Record unicode := { u_word : N -> bool; u_identifier : pystr -> bool }.

(** ** The module in which types are made *)

(** [getattr(module, name)] (classdef.py 209); attributes of the module that are
    not types are not modelled. *)
Definition module_get (E : env) (m : nat) (x : pystr) : res typ :=
  match lookup E m x with
  | Some (true, t) => Ok t
  | _ => Err EAttribute
  end.

(** [setattr(module, name, type)] (classdef.py 162, 184, 357) *)
Definition module_set (E : env) (m : nat) (x : pystr) (t : typ) : env :=
  mkEnv (e_classes E) ((m, x, (true, t)) :: e_refs E) (e_order E).

(** The name is in use in the module. *)
Definition taken (E : env) (m : nat) (x : pystr) : bool :=
  match lookup E m x with Some _ => true | None => false end ||
  existsb (fun cl => Nat.eqb (c_module cl) m && pystr_eqb (c_name cl) x) (e_classes E).

(** A new class, under its name in the module.  Names that are in use are not
    modelled: classes of one module that share a name share a deserializer
    (deserializer.py 835-856). *)
Definition new_class (E : env) (m : nat) (x : pystr) (k : ckind) : res (env * typ) :=
  if taken E m x then Err EUnmodelled
  else
    let t := TClass (length (e_classes E)) in
    Ok (module_set (mkEnv (e_classes E ++ [mkClass m x k None None]) (e_refs E) (e_order E)) m x t, t).

(** [type.__module__ = module.__name__] (classdef.py 183).  Built-in types refuse
    with TypeError, [list[T]] with AttributeError; other classes and the objects
    of [typing] take it.  (That [uuid.UUID.__module__] is changed for the whole
    program is not modelled.) *)
Definition set_module (t : typ) : res unit :=
  match t with
  | TScalar (KUUID | KIPv4 | KIPv6) => Ok tt
  | TScalar _ | TBare _ => Err EType
  | TList _ | TSet _ | TDict _ _ | TTuple _ => Err EAttribute
  | TUnion _ _ | TLiteral _ | TAnnot _ _ | TClass _ => Ok tt
  | TRef _ | TForm => Err EUnmodelled
  end.

(** ** Attributes of nodes *)

(** An attribute of type [Optional[T]]; values of other types do not come out of
    [json_to_object]. *)
Definition optional_attr {A} (conv : value -> option A) (v : value) (x : pystr) : res (option A) :=
  do w <- getattr v x;
  match w with
  | VNone => Ok None
  | _ => match conv w with Some a => Ok (Some a) | None => Err EUnmodelled end
  end.

Definition as_bool (v : value) : option bool := match v with VBool b => Some b | _ => None end.
Definition as_int (v : value) : option Z := match v with VInt z => Some z | _ => None end.
Definition as_float (v : value) : option flt := match v with VFloat f => Some f | _ => None end.
Definition as_str (v : value) : option pystr := match v with VStr s => Some s | _ => None end.

Fixpoint all_some {A} (l : list (option A)) : option (list A) :=
  match l with
  | [] => Some []
  | Some x :: r => match all_some r with Some xs => Some (x :: xs) | None => None end
  | None :: _ => None
  end.

Definition as_list {A} (conv : value -> option A) (v : value) : option (list A) :=
  match v with VList vs => all_some (map conv vs) | _ => None end.

(** [re.match(r"^#/definitions/(\w+)$", ref)] (classdef.py 204-208): a line feed at
    the end does not matter to [$]. *)
Definition reference_name (U : unicode) (r : pystr) : option pystr :=
  let path := str "#/definitions/" in
  if starts_with path r then
    let rest := skipn (length path) r in
    let name := match rev rest with c :: q => if N.eqb c 10 then rev q else rest | [] => rest end in
    match name with
    | [] => None
    | _ => if forallb (word_char (u_word U)) name then Some name else None
    end
  else None.

(** ** Types *)

(** core.py 19-27; the text is evaluated where the type is used. *)
Definition JsonType : typ :=
  TUnion false [TScalar KNone; TScalar KBool; TScalar KInt; TScalar KFloat; TScalar KStr;
    TDict (TScalar KStr) (TRef (str "JsonType")); TList (TRef (str "JsonType"))].

(** auxiliary.py 170-183 *)
Definition integer_type (t : int_type) : typ :=
  let fixed n := match declared_range t with
                 | Some (lo, hi) => TAnnot (TScalar KInt) [ASigned true; AStorage n; AIntegerRange lo hi]
                 | None => TScalar KInt
                 end in
  match t with Int16 => fixed 2%N | Int32 => fixed 4%N | Int64 => fixed 8%N | PlainInt => TScalar KInt end.

(** classdef.py 279-295 *)
Definition format_type (f : pystr) : option scalar :=
  if pystr_eqb f (str "date-time") then Some KDateTime
  else if pystr_eqb f (str "date") then Some KDate
  else if pystr_eqb f (str "time") then Some KTime
  else if pystr_eqb f (str "duration") then Some KTimeDelta
  else if pystr_eqb f (str "uuid") then Some KUUID
  else if pystr_eqb f (str "ipv4") then Some KIPv4
  else if pystr_eqb f (str "ipv6") then Some KIPv6
  else None.

(** [TypeDef] (classdef.py 189-192): a type and a default, None for
    [dataclasses.MISSING]. *)
Notation typedef := (typ * option value)%type (only parsing).

(** [json_to_value(type, node.default)] (classdef.py 195-199) *)
Definition with_default (E : env) (m : nat) (t : typ) (d : option json) : res (env * typedef) :=
  match d with
  | None => Ok (E, (t, None))
  | Some j => do v <- json_to_object E false m t j; Ok (E, (t, Some v))
  end.

(** classdef.py 212-217 *)
Definition boolean_node (E : env) (m : nat) (v : value) : res (env * typedef) :=
  do const <- optional_attr as_bool v (str "const");
  match const with
  | Some b => Ok (E, (TLiteral [LBool b], None))
  | None =>
      do d <- optional_attr as_bool v (str "default");
      with_default E m (TScalar KBool) (option_map JBool d)
  end.

(** classdef.py 219-240 *)
Definition integer_node (E : env) (m : nat) (v : value) : res (env * typedef) :=
  do const <- optional_attr as_int v (str "const");
  match const with
  | Some z => Ok (E, (TLiteral [LInt z], None))
  | None =>
      do format <- optional_attr as_str v (str "format");
      do enum <- optional_attr (as_list as_int) v (str "enum");
      do lo <- optional_attr as_int v (str "minimum");
      do hi <- optional_attr as_int v (str "maximum");
      do t <- integer_node_type format enum lo hi;
      do d <- optional_attr as_int v (str "default");
      with_default E m (integer_type t) (option_map JInt d)
  end.

(** classdef.py 242-273.  Literals of floats and [decimal.Decimal] are not
    modelled; nor is the check of bounds that comes before the latter. *)
Definition number_node (E : env) (m : nat) (v : value) : res (env * typedef) :=
  do const <- optional_attr as_float v (str "const");
  match const with
  | Some _ => Err EUnmodelled
  | None =>
      do format <- optional_attr as_str v (str "format");
      do emin <- optional_attr as_float v (str "exclusiveMinimum");
      do emax <- optional_attr as_float v (str "exclusiveMaximum");
      do step <- optional_attr as_float v (str "multipleOf");
      do t <- match format with
              | Some f =>
                  if pystr_eqb f (str "float32") then Ok (Some (TAnnot (TScalar KFloat) [AStorage 4]))
                  else if pystr_eqb f (str "float64") then Ok (Some (TAnnot (TScalar KFloat) [AStorage 8]))
                  else Ok None
              | None => Ok None
              end;
      do t <- match t, emin, emax, step with
              | Some t, _, _, _ => Ok t
              | None, Some _, Some _, _ => Err EUnmodelled
              | None, _, _, Some _ => Err EUnmodelled
              | None, _, _, None => Ok (TScalar KFloat)
              end;
      do d <- optional_attr as_float v (str "default");
      with_default E m t (option_map JFloat d)
  end.

(** classdef.py 275-312 *)
Definition string_node (U : unicode) (E : env) (m : nat) (context : pystr) (v : value) : res (env * typedef) :=
  do const <- optional_attr as_str v (str "const");
  match const with
  | Some s => Ok (E, (TLiteral [LStr s], None))
  | None =>
      do format <- optional_attr as_str v (str "format");
      do enum <- optional_attr (as_list as_str) v (str "enum");
      do longest <- optional_attr as_int v (str "maxLength");
      do r <- match match format with Some f => format_type f | None => None end, enum, longest with
              | Some k, _, _ => Ok (E, TScalar k)
              | None, Some values, _ =>
                  do ms <- enum_values_to_type (u_word U) context values;
                  new_class E m context (CEnum ms)
              | None, None, Some n =>
                  if (n <? 0)%Z then Err EUnmodelled else Ok (E, TAnnot (TScalar KStr) [AMaxLength (Z.to_N n)])
              | None, None, None => Ok (E, TScalar KStr)
              end;
      do d <- optional_attr as_str v (str "default");
      with_default (fst r) m (snd r) (option_map JStr d)
  end.

(** [dataclasses.make_dataclass] on the name of a field (dataclasses.py of
    CPython 3.11, 1411-1435).  Names with two leading underscores, which may be
    attributes of every class, are not modelled. *)
Definition check_field_name (U : unicode) (x : pystr) : res unit :=
  if negb (u_identifier U x) then Err EType
  else if iskeyword x then Err EType
  else if starts_with (str "__") x then Err EUnmodelled
  else Ok tt.

(** classdef.py 348: fields with a default come last, otherwise in order *)
Definition sort_fields (fs : list PyTypes.field) : list PyTypes.field :=
  filter (fun f => match f_default f with None => true | Some _ => false end) fs ++
  filter (fun f => match f_default f with None => false | Some _ => true end) fs.

Section Parts.
  (** [node_to_typedef] on the parts *)
  Variable rec : env -> pystr -> value -> res (env * typedef).

  (** classdef.py 334-347, without the documentation of parameters *)
  Fixpoint property_fields (E : env) (context : pystr) (required : list pystr) (ps : list (pystr * value)) : res (env * list PyTypes.field) :=
    match ps with
    | [] => Ok (E, [])
    | (x, p) :: r =>
        do d <- rec E (context ++ str "__" ++ x) p;
        let '(E', (t, default)) := d in
        do u <- (if mem_str x required then Ok t else mk_union false [TScalar KNone; t]);
        do fs <- property_fields E' context required r;
        Ok (fst fs, mkField x u (option_map Ok default) :: snd fs)
    end.

  (** classdef.py 361 *)
  Fixpoint member_types (E : env) (context : pystr) (vs : list value) : res (env * list typedef) :=
    match vs with
    | [] => Ok (E, [])
    | v :: r =>
        do d <- rec E context v;
        do ds <- member_types (fst d) context r;
        Ok (fst ds, snd d :: snd ds)
    end.
End Parts.

Definition has_default (d : typedef) : bool := match snd d with Some _ => true | None => false end.

(** classdef.py 202-366.  Docstrings are not modelled.  [n] bounds the nesting of
    nodes. *)
Fixpoint node_to_typedef (U : unicode) (m : nat) (n : nat) (E : env) (context : pystr) (v : value) : res (env * typedef) :=
  match n with
  | 0 => Err ERecursion
  | S n =>
    match v with
    | VObj 0 _ =>                                                       (* JsonSchemaRef *)
        do r <- getattr v (str "ref");
        match r with
        | VStr s =>
            match reference_name U s with
            | None => Err EValue
            | Some x => do t <- module_get E m x; Ok (E, (t, None))
            end
        | _ => Err EUnmodelled
        end
    | VObj 1 _ => boolean_node E m v
    | VObj 2 _ => integer_node E m v
    | VObj 3 _ => number_node E m v
    | VObj 4 _ => string_node U E m context v
    | VObj 5 _ =>                                                       (* JsonSchemaArray *)
        do w <- getattr v (str "items");
        do d <- node_to_typedef U m n E context w;
        if has_default (snd d) then Err EType
        else Ok (fst d, (TList (fst (snd d)), None))
    | VObj 6 _ | VObj 8 _ =>                                            (* JsonSchemaObject *)
        do ops <- get_properties v;
        match ops with
        | None => Ok (E, (JsonType, None))
        | Some ps =>
            do extra <- optional_attr as_bool v (str "additionalProperties");
            match extra with
            | Some false =>
                do ors <- get_required v;
                do fs <- property_fields (node_to_typedef U m n) E context (match ors with Some l => l | None => [] end) ps;
                do _ <- mapM (fun f => check_field_name U (f_name f)) (sort_fields (snd fs));
                do c <- new_class (fst fs) m context (CData false (sort_fields (snd fs)));
                Ok (fst c, (snd c, None))
            | _ => Err EType
            end
        end
    | VObj 7 _ =>                                                       (* JsonSchemaOneOf *)
        do w <- getattr v (str "oneOf");
        match w with
        | VList vs =>
            do ds <- member_types (node_to_typedef U m n) E context vs;
            if existsb has_default (snd ds) then Err EType
            else do t <- mk_union false (map fst (snd ds)); Ok (fst ds, (t, None))
        | _ => Err EUnmodelled
        end
    | _ => Err EUnmodelled
    end
  end.

(** classdef.py 178-184: the loop over the definitions *)
Fixpoint define_types (U : unicode) (m : nat) (n : nat) (E : env) (ds : list (pystr * value)) : res env :=
  match ds with
  | [] => Ok E
  | (x, v) :: r =>
      if taken E m x then Err EUnmodelled
      else
        do d <- node_to_typedef U m n E x v;
        if has_default (snd d) then Err EType
        else
          do _ <- set_module (fst (snd d));
          define_types U m n (module_set (fst d) m x (fst (snd d))) r
  end.

Definition get_definitions (v : value) : res (list (pystr * value)) :=
  do w <- getattr v (str "definitions");
  match w with
  | VNone => Ok []
  | VDict kvs => mapM (fun kv => match fst kv with VStr x => Ok (x, snd kv) | _ => Err EUnmodelled end) kvs
  | _ => Err EUnmodelled
  end.

(** classdef.py 167-186.  The result is the program with the new types, and the
    type of the schema. *)
Definition schema_to_type (U : unicode) (E : env) (m : nat) (class_name : pystr) (schema : json) : res (env * typ) :=
  do top <- json_to_object Nodes false 0 (TClass c_top) schema;
  do ds <- get_definitions top;
  let n := S (jdepth schema) in
  do E' <- define_types U m n E ds;
  do d <- node_to_typedef U m n E' class_name top;
  Ok (fst d, fst (snd d)).
