(** Flattening of JSON schemas: [flatten_schema] and [SchemaFlattener] of
    strong_typing/classdef.py, with the classes of schema nodes. *)
From Coq Require Import String List NArith ZArith Bool.
From Verif Require Import Base Json PyTypes Deser Ser ClassDef.
Import ListNotations.
Open Scope list_scope.
Open Scope nat_scope.

(** ** The classes, classdef.py 26-129 *)

Definition field (x : string) (t : typ) : PyTypes.field := mkField (str x) t None.
Definition opt (t : typ) : typ := TUnion false [t; TScalar KNone].
Definition any_node : typ := TRef (str "JsonSchemaAny").

(** Fields of base classes come first; redefining [type] does not move it. *)
Definition node_fields : list PyTypes.field := [field "title" (opt (TScalar KStr)); field "description" (opt (TScalar KStr))].
Definition typed_fields (ty : string) : list PyTypes.field :=
  node_fields ++ [field "type" (TLiteral [LStr (str ty)]); field "format" (opt (TScalar KStr))].
Definition value_fields (t : typ) : list PyTypes.field :=
  [field "const" (opt t); field "default" (opt t); field "examples" (opt (TList t))].
Definition object_fields : list PyTypes.field :=
  typed_fields "object" ++
  [field "properties" (opt (TDict (TScalar KStr) any_node)); field "additionalProperties" (opt (TScalar KBool));
   field "required" (opt (TList (TScalar KStr)))].

Definition dataclass (x : string) (fs : list PyTypes.field) : class := mkClass 0 (str x) (CData false fs) None None.

Definition c_object : nat := 6.
Definition c_top : nat := 8.

(** classdef.py 26-129; [JsonSchemaAllOf] and [JsonSchemaAnyOf] (99-106), which
    nothing refers to, are left out. *)
Definition Nodes : env := mkEnv
  [dataclass "JsonSchemaRef" (node_fields ++ [field "ref" (TAnnot (TScalar KStr) [AAlias (str "$ref")])]);
   dataclass "JsonSchemaBoolean" (typed_fields "boolean" ++ value_fields (TScalar KBool));
   dataclass "JsonSchemaInteger" (typed_fields "integer" ++ value_fields (TScalar KInt) ++
     [field "enum" (opt (TList (TScalar KInt))); field "minimum" (opt (TScalar KInt)); field "maximum" (opt (TScalar KInt))]);
   dataclass "JsonSchemaNumber" (typed_fields "number" ++ value_fields (TScalar KFloat) ++
     [field "minimum" (opt (TScalar KFloat)); field "maximum" (opt (TScalar KFloat)); field "exclusiveMinimum" (opt (TScalar KFloat));
      field "exclusiveMaximum" (opt (TScalar KFloat)); field "multipleOf" (opt (TScalar KFloat))]);
   dataclass "JsonSchemaString" (typed_fields "string" ++ value_fields (TScalar KStr) ++
     [field "enum" (opt (TList (TScalar KStr))); field "minLength" (opt (TScalar KInt)); field "maxLength" (opt (TScalar KInt))]);
   dataclass "JsonSchemaArray" (typed_fields "array" ++ [field "items" any_node]);
   dataclass "JsonSchemaObject" object_fields;
   dataclass "JsonSchemaOneOf" (node_fields ++ [field "oneOf" (TList any_node)]);
   dataclass "JsonSchemaTopLevelObject" (object_fields ++
     [field "schema" (TAnnot (TScalar KStr) [AAlias (str "$schema")]); field "definitions" (opt (TDict (TScalar KStr) any_node))])]
  [(0, str "JsonSchemaAny", (true, TUnion false [TClass 0; TClass 1; TClass 2; TClass 3; TClass 4; TClass 5; TClass 6; TClass 7]))]
  (fun ps => ps).

(** ** Flattening *)

(** Classdef.py 370-373. *)
Record options := { qualified_names : bool; recursive : bool }.

(** [isinstance(prop, JsonSchemaObject)] *)
Definition is_object_node (v : value) : bool :=
  match v with VObj c _ => Nat.eqb c c_object || Nat.eqb c c_top | _ => false end.

Definition getattr (v : value) (x : pystr) : res value :=
  match v with
  | VObj _ attrs => match dict_get attrs x with Some w => Ok w | None => Err EAttribute end
  | _ => Err EAttribute
  end.

(** [node.properties], [node.required]: None, or the value.  Values of other
    types are not modelled (the nodes come out of [json_to_object]). *)
Definition get_properties (v : value) : res (option (list (pystr * value))) :=
  do w <- getattr v (str "properties");
  match w with
  | VNone => Ok None
  | VDict kvs => do ps <- mapM (fun kv => match fst kv with VStr x => Ok (x, snd kv) | _ => Err EUnmodelled end) kvs; Ok (Some ps)
  | _ => Err EUnmodelled
  end.

Definition get_required (v : value) : res (option (list pystr)) :=
  do w <- getattr v (str "required");
  match w with
  | VNone => Ok None
  | VList vs => do xs <- mapM (fun v => match v with VStr x => Ok x | _ => Err EUnmodelled end) vs; Ok (Some xs)
  | _ => Err EUnmodelled
  end.

(** [f"{name}.{n}"] if names are qualified *)
Definition inner_name (o : options) (name n : pystr) : pystr :=
  if qualified_names o then name ++ str "." ++ n else n.

(** classdef.py 398-420: the loop over the properties; [flat] stands for the
    recursive call. *)
Fixpoint flatten_loop (o : options) (flat : value -> res value) (reqs : list pystr) (ps : list (pystr * value))
    (tp : list (pystr * value)) (tr : list pystr) : res (list (pystr * value) * list pystr) :=
  match ps with
  | [] => Ok (tp, tr)
  | (name, prop) :: rest =>
      if negb (is_object_node prop)
      then flatten_loop o flat reqs rest (dict_set tp name prop) (if mem_str name reqs then tr ++ [name] else tr)
      else
        do obj <- if recursive o then flat prop else Ok prop;
        do ops <- get_properties obj;
        do ors <- get_required obj;
        flatten_loop o flat reqs rest
          (match ops with Some l => dict_update tp (map (fun q => (inner_name o name (fst q), snd q)) l) | None => tp end)
          (match ors with Some l => tr ++ map (inner_name o name) l | None => tr end)
  end.

Definition setattr (v : value) (x : pystr) (w : value) : value :=
  match v with VObj c attrs => VObj c (dict_set attrs x w) | _ => v end.

(** classdef.py 389-425: [SchemaFlattener.flatten].  [n] bounds the nesting of
    objects. *)
Fixpoint flatten (o : options) (n : nat) (v : value) : res value :=
  match n with
  | 0 => Err ERecursion
  | S n =>
      do ty <- getattr v (str "type");
      if negb (match ty with VStr s => pystr_eqb s (str "object") | _ => false end) then Ok v
      else
        do ops <- get_properties v;
        do ors <- get_required v;
        do r <- flatten_loop o (flatten o n) (match ors with Some l => l | None => [] end) (match ops with Some l => l | None => [] end) [] [];
        let props := match fst r with [] => VNone | l => VDict (map (fun q => (VStr (fst q), snd q)) l) end in
        let reqs := match snd r with [] => VNone | l => VList (map VStr l) end in
        Ok (setattr (setattr (setattr v (str "properties") props) (str "additionalProperties") (VBool false)) (str "required") reqs)
  end.

(** classdef.py 376-380: [flatten_schema] *)
Definition flatten_schema (o : options) (n : nat) (schema : json) : res json :=
  do top <- json_to_object Nodes false 0 (TClass c_top) schema;
  do obj <- flatten o n top;
  object_to_json Nodes obj.
