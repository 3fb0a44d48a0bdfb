(** Generation of JSON schemas: strong_typing/schema.py. *)
From Coq Require Import String List NArith ZArith Bool.
From Verif Require Import Base Json Digits PyTypes TypeAlgebra Deser Ser Catalog.
Import ListNotations.
Open Scope list_scope.
Open Scope nat_scope.

(** A schema is a Python dict. *)
Notation sdict := (list (pystr * json)) (only parsing).

(** What the generator depends on besides the program:
    - [s_catalog]: [JsonSchemaGenerator.type_catalog] (185);
    - [s_eval]: what a text evaluates to among the names of the module
      schema.py itself ([eval] in [type_from_ref], 104-116); [None] is
      NameError.  Other exceptions of [eval] are not modelled;
    - [s_forward]: whether a text stands in the program as a [ForwardRef]
      rather than as a plain [str] (a text is taken to be written in one way
      throughout);
    - [s_short], [s_long]: [get_class_docstrings] (48-55), [s_props]:
      [get_class_property_docstrings] (58-82); docstrings that fail to parse
      are not modelled;
    - [s_attrs]: the attributes of a class itself (428);
    - [s_tenth]: the floating-point number [10 ** -n] (206-210);
    - [s_path], [s_describe], [s_exemplify]: [SchemaOptions] (173-178). *)
Record senv := {
  s_catalog : catalog;
  s_eval : pystr -> option typ;
  s_forward : pystr -> bool;
  s_short : typ -> option pystr;
  s_long : typ -> option pystr;
  s_props : nat -> list (pystr * pystr);
  s_attrs : nat -> list (pystr * value);
  s_tenth : N -> flt;
  s_path : pystr;
  s_describe : bool;
  s_exemplify : bool
}.

(** [dict.update] *)
Definition upd (d e : sdict) : sdict := fold_left (fun d kv => dict_set d (fst kv) (snd kv)) e d.

(** [dict.pop(key, None)] *)
Definition pop (d : sdict) (k : pystr) : sdict := filter (fun kv => negb (pystr_eqb (fst kv) k)) d.

Definition text_or_none (s : option pystr) : option pystr :=
  match s with Some (c :: r) => Some (c :: r) | _ => None end.

(** schema.py 85-92: [docstring_to_schema]; an empty text is falsy. *)
Definition docstring_to_schema (S : senv) (t : typ) : sdict :=
  (match text_or_none (s_short S t) with Some s => [(str "title", JStr s)] | None => [] end) ++
  (match text_or_none (s_long S t) with Some s => [(str "description", JStr s)] | None => [] end).

Definition describe (S : senv) (t : typ) (d : sdict) : sdict :=
  if s_describe S then upd d (docstring_to_schema S t) else d.

(** [10 ** z]: an int, or a float if [z] is negative. *)
Definition pow10 (S : senv) (z : Z) : json :=
  if (0 <=? z)%Z then JInt (10 ^ z)
  else JFloat (s_tenth S (Z.to_N (- z))).

Definition jneg (j : json) : json :=
  match j with
  | JInt z => JInt (- z)
  | JFloat (FFin neg m e) => JFloat (FFin (negb neg) m e)
  | JFloat (FInf neg) => JFloat (FInf (negb neg))
  | _ => j
  end.

(** schema.py 195-219: [_metadata_to_schema]. *)
Definition metadata_to_schema (S : senv) (a : annot) : sdict :=
  match a with
  | AIntegerRange lo hi => [(str "minimum", JInt lo); (str "maximum", JInt hi)]
  | APrecision sig dec =>
      let digits := (Z.of_N sig - Z.of_N dec)%Z in
      [(str "multipleOf", pow10 S (- Z.of_N dec));
       (str "exclusiveMinimum", jneg (pow10 S digits));
       (str "exclusiveMaximum", pow10 S digits)]
  | AMinLength n => [(str "minLength", JInt (Z.of_N n))]
  | AMaxLength n => [(str "maxLength", JInt (Z.of_N n))]
  | _ => []
  end.

(** schema.py 221-225: [_with_metadata]. *)
Definition with_metadata (S : senv) (d : sdict) (md : list annot) : sdict :=
  fold_left (fun d a => upd d (metadata_to_schema S a)) md d.

Definition typed (s : pystr) : sdict := [(str "type", JStr s)].
Definition formatted (f : pystr) : sdict := [(str "type", JStr (str "string")); (str "format", JStr f)].

(** schema.py 227-280: [_simple_type_to_schema], for the types of the model. *)
Definition simple_type_to_schema (t : typ) : option sdict :=
  match t with
  | TScalar KNone => Some (typed (str "null"))
  | TScalar KBool => Some (typed (str "boolean"))
  | TScalar KInt => Some (typed (str "integer"))
  | TScalar KFloat => Some (typed (str "number"))
  | TScalar KStr => Some (typed (str "string"))
  | TScalar KBytes => Some [(str "type", JStr (str "string")); (str "contentEncoding", JStr (str "base64"))]
  | TScalar KDateTime => Some (formatted (str "date-time"))
  | TScalar KDate => Some (formatted (str "date"))
  | TScalar KTime => Some (formatted (str "time"))
  | TScalar KTimeDelta => Some (formatted (str "duration"))
  | TScalar KUUID => Some (formatted (str "uuid"))
  | _ => None
  end.

(** auxiliary.py 162-213: [get_auxiliary_format]. *)
Definition auxiliary_types : list (typ * pystr) :=
  [(TAnnot (TScalar KInt) [ASigned true; AStorage 1; AIntegerRange (-128) 127], str "int8");
   (TAnnot (TScalar KInt) [ASigned true; AStorage 2; AIntegerRange (-32768) 32767], str "int16");
   (TAnnot (TScalar KInt) [ASigned true; AStorage 4; AIntegerRange (-2147483648) 2147483647], str "int32");
   (TAnnot (TScalar KInt) [ASigned true; AStorage 8; AIntegerRange (-9223372036854775808) 9223372036854775807], str "int64");
   (TAnnot (TScalar KInt) [ASigned false; AStorage 1; AIntegerRange 0 255], str "uint8");
   (TAnnot (TScalar KInt) [ASigned false; AStorage 2; AIntegerRange 0 65535], str "uint16");
   (TAnnot (TScalar KInt) [ASigned false; AStorage 4; AIntegerRange 0 4294967295], str "uint32");
   (TAnnot (TScalar KInt) [ASigned false; AStorage 8; AIntegerRange 0 18446744073709551615], str "uint64");
   (TAnnot (TScalar KFloat) [AStorage 4], str "float32");
   (TAnnot (TScalar KFloat) [AStorage 8], str "float64")].

Definition get_auxiliary_format (t : typ) : option pystr :=
  (fix go l := match l with
               | [] => None
               | (u, f) :: r => if typ_eqb u t then Some f else go r
               end) auxiliary_types.

(** [data_type in type_catalog] (302); only a [ForwardRef] is looked up by name. *)
Definition in_catalog (S : senv) (t : typ) : bool :=
  match t with
  | TRef s => s_forward S s && contains (s_catalog S) t
  | _ => contains (s_catalog S) t
  end.

(** [types_used] (186): names with the type that is to be defined. *)
Notation used := (list (pystr * typ)) (only parsing).

(** [dict.setdefault] *)
Definition setdefault (u : used) (k : pystr) (t : typ) : used :=
  if dict_mem u k then u else dict_set u k t.

Definition ref_to (S : senv) (s : pystr) : sdict := [(str "$ref", JStr (s_path S ++ s))].

(** The type of the value of an enumeration member, one of the built-in ones. *)
Definition json_scalar (j : json) : res scalar :=
  match j with
  | JNull => Ok KNone
  | JBool _ => Ok KBool
  | JInt _ => Ok KInt
  | JFloat _ => Ok KFloat
  | JStr _ => Ok KStr
  | _ => Err EUnmodelled
  end.

(** inspection.py 229-235: [enum_value_types]. *)
Definition enum_value_types (ms : list (pystr * json)) : res (list scalar) :=
  do ks <- mapM (fun m => json_scalar (snd m)) ms;
  Ok (nodup (fun a b : scalar => ltac:(decide equality) : {a = b} + {a <> b}) ks).

(** schema.py 338-369: enumerations.  The values of members are JSON scalars
    (PyTypes.v). *)
Definition enum_to_schema (S : senv) (t : typ) (ms : list (pystr * json)) : res sdict :=
  do ks <- enum_value_types ms;
  match ks with
  | [k] =>
      let vs := map snd ms in
      match k with
      | KBool => Ok (describe S t [(str "type", JStr (str "boolean")); (str "enum", JArr vs)])
      | KInt => Ok (describe S t [(str "type", JStr (str "integer")); (str "enum", JArr vs)])
      | KFloat => Ok (describe S t [(str "type", JStr (str "number")); (str "enum", JArr vs)])
      | KStr => Ok (describe S t [(str "type", JStr (str "string")); (str "enum", JArr vs)])
      | _ => match simple_type_to_schema (TScalar k) with
             | Some d => Ok (describe S t d)
             | None => Err EUnmodelled
             end
      end
  | _ => Err EValue
  end.

(** [str(e.value)]; the text of a floating-point number is not modelled. *)
Definition value_text (j : json) : res pystr :=
  match j with
  | JStr s => Ok s
  | JInt z => Ok (int_str z)
  | JBool true => Ok (str "True")
  | JBool false => Ok (str "False")
  | JNull => Ok (str "None")
  | _ => Err EUnmodelled
  end.

(** ["|".join(values)] *)
Fixpoint join (sep : pystr) (l : list pystr) : pystr :=
  match l with
  | [] => []
  | [x] => x
  | x :: r => x ++ sep ++ join sep r
  end.

(** schema.py 380: [key_type is str or key_type is int or
    is_type_enum(key_type)]. *)
Definition check_schema_key (E : env) (k : typ) : res unit :=
  match k with
  | TScalar KStr | TScalar KInt => Ok tt
  | TClass c | TAnnot (TClass c) _ =>
      match get_class E c with
      | None => Err EUnmodelled
      | Some cl => match c_kind cl with CEnum _ => Ok tt | _ => Err EValue end
      end
  | _ => Err EValue
  end.

(** schema.py 383-398: the members added to [{"type": "object"}] for
    [dict[k, ...]] with the schema [v] of the values. *)
Definition dict_to_schema (E : env) (k : typ) (v : sdict) : res sdict :=
  match k with
  | TScalar KStr | TScalar KInt => Ok [(str "additionalProperties", JObj v)]
  | TClass c =>
      match get_class E c with
      | None => Err EUnmodelled
      | Some cl =>
          match c_kind cl with
          | CEnum ms =>
              do vs <- mapM (fun m => value_text (snd m)) ms;
              if 4 <? length vs
              then Ok [(str "propertyNames", JObj [(str "pattern", JStr (str "^(" ++ join (str "|") vs ++ str ")$"))]);
                       (str "additionalProperties", JObj v)]
              else Ok [(str "properties", JObj (dict_of (map (fun s => (s, JObj v)) vs)));
                       (str "additionalProperties", JBool false)]
          | _ => Err EValue
          end
      end
  | TAnnot (TClass c) _ => Err EUnmodelled   (* iteration over an annotated enumeration *)
  | _ => Err EValue
  end.

(** [schema["const"] = literal_value] (421); members of enumerations and bytes
    are not JSON data, a schema that holds them is not modelled. *)
Definition lit_const (l : lit) : res json :=
  match l with
  | LNone => Ok JNull
  | LBool b => Ok (JBool b)
  | LInt z => Ok (JInt z)
  | LStr s => Ok (JStr s)
  | LBytes _ | LEnum _ _ => Err EUnmodelled
  end.

(** schema.py 449-467: the default value of a property, if it is the value of
    a class attribute and of one of the types listed. *)
Definition default_schema (E : env) (S : senv) (c : nat) (x : pystr) : res sdict :=
  match dict_get (s_attrs S c) x with
  | Some (VBool _ as v) | Some (VInt _ as v) | Some (VFloat _ as v) | Some (VStr _ as v)
  | Some (VEnum _ _ as v) | Some (VDateTime _ as v) | Some (VDate _ as v) | Some (VTime _ as v)
  | Some (VTimeDelta _ as v) => do j <- object_to_json E v; Ok [(str "default", j)]
  | _ => Ok []
  end.

(** schema.py 449-473: what is added to the schema of a property. *)
Definition finish_property (E : env) (S : senv) (c : nat) (x : pystr) (d : sdict) : res sdict :=
  do df <- default_schema E S c x;
  let d := upd d df in
  match text_or_none (dict_get (s_props S c) x) with
  | Some s => Ok (dict_set (pop d (str "title")) (str "description") (JStr s))
  | None => Ok d
  end.

(** Schemas one after another. *)
Section Sequence.
  Variable f : typ -> used -> res (sdict * used).

  Fixpoint seq_schema (ts : list typ) (u : used) : res (list json * used) :=
    match ts with
    | [] => Ok ([], u)
    | t :: r =>
        do x <- f t u;
        do y <- seq_schema r (snd x);
        Ok (JObj (fst x) :: fst y, snd y)
    end.

  (** schema.py 432-475: the properties of class [c]. *)
  Fixpoint properties_schema (E : env) (S : senv) (c : nat) (ps : list (pystr * typ))
    (props : sdict) (required : list pystr) (u : used) : res (sdict * list pystr * used) :=
    match ps with
    | [] => Ok (props, required, u)
    | (x, t) :: r =>
        let name := match get_alias t with Some a => a | None => x end in
        do w <- (if is_type_optional t then unwrap_optional t else Ok t);
        do y <- f w u;
        do d <- finish_property E S c x (fst y);
        properties_schema E S c r (dict_set props name (JObj d))
          (if is_type_optional t then required else required ++ [name]) (snd y)
    end.
End Sequence.

(** schema.py 477-482 *)
Definition object_schema (props : sdict) (required : list pystr) : sdict :=
  typed (str "object") ++
  (match props with
   | [] => []
   | _ => [(str "properties", JObj props); (str "additionalProperties", JBool false)]
   end) ++
  (match required with
   | [] => []
   | _ => [(str "required", JArr (map JStr required))]
   end).

(** schema.py 323-485: the schema of a type that is neither simple, nor
    registered, nor annotated.  [rec] stands for [self.type_to_schema].

    [Optional[T]] (two members, one of them None) is not a union for
    [is_type_union]; it falls through to the treatment of classes, where
    [inspect.getmro] (69) raises AttributeError. *)
Definition expand (E : env) (S : senv) (rec : bool -> typ -> used -> res (sdict * used)) (force : bool) (t : typ) (u : used)
  : res (sdict * used) :=
  match t with
  | TRef s =>
      if force then
        match s_eval S s with
        | None => Err EName
        | Some w => rec true w u
        end
      else
        match s_eval S s with
        | None => Ok (ref_to S s, u)
        | Some w => Ok (ref_to S s, dict_set u s w)
        end
  | TUnion _ ts =>
      if is_type_union t then
        do x <- seq_schema (rec false) ts u;
        Ok ([(str "oneOf", JArr (fst x))], snd x)
      else Err EAttribute
  | TList w =>
      do x <- rec false w u;
      Ok (typed (str "array") ++ [(str "items", JObj (fst x))], snd x)
  | TSet w =>
      do x <- rec false w u;
      Ok (typed (str "array") ++ [(str "items", JObj (fst x)); (str "uniqueItems", JBool true)], snd x)
  | TDict k w =>
      do _ <- check_schema_key E k;
      do x <- rec false w u;
      do d <- dict_to_schema E k (fst x);
      Ok (typed (str "object") ++ d, snd x)
  | TTuple ts =>
      do x <- seq_schema (rec false) ts u;
      let len := JInt (Z.of_nat (length ts)) in
      Ok (typed (str "array") ++ [(str "minItems", len); (str "maxItems", len); (str "prefixItems", JArr (fst x))], snd x)
  | TLiteral ls =>
      match ls with
      | [l] =>
          do j <- lit_const l;
          do x <- rec false (lit_type l) u;
          Ok (dict_set (fst x) (str "const") j, snd x)
      | _ => Err EValue
      end
  | TClass c =>
      match get_class E c with
      | None => Err EUnmodelled
      | Some cl =>
          match c_kind cl with
          | CEnum ms => do d <- enum_to_schema S t ms; Ok (d, u)
          | _ =>
              do ps <- class_properties E cl;
              do x <- properties_schema (rec false) E S c ps [] [] u;
              Ok (describe S t (object_schema (fst (fst x)) (snd (fst x))), snd x)
          end
      end
  | TScalar _ | TBare _ => Ok (describe S t (typed (str "object")), u)
  | TAnnot _ _ | TForm => Err EUnmodelled
  end.

(** schema.py 282-485: [type_to_schema].  [n] bounds the depth of recursion: a
    class that contains itself and is not registered makes the Python code
    recurse without end. *)
Fixpoint type_to_schema (E : env) (S : senv) (n : nat) (force : bool) (t : typ) (u : used) {struct n}
  : res (sdict * used) :=
  match n with
  | O => Err ERecursion
  | Datatypes.S n' =>
    match simple_type_to_schema t with
    | Some d => Ok (d, u)
    | None =>
      if negb force && in_catalog S t then
        do e <- get (s_catalog S) t;
        let s := en_identifier e in
        Ok (ref_to S s, setdefault u s t)
      else
        match t with
        | TAnnot w md =>
            match simple_type_to_schema w with
            | Some d =>
                match get_auxiliary_format t with
                | Some f => Ok (upd d [(str "format", JStr f)], u)
                | None => Ok (with_metadata S d md, u)
                end
            | None => expand E S (type_to_schema E S n') force w u
            end
        | _ => expand E S (type_to_schema E S n') force t u
        end
    end
  end.

(** [isinstance(data_type, type)] *)
Definition is_python_class (t : typ) : bool :=
  match t with TScalar _ | TBare _ | TClass _ => true | _ => false end.

(** Truthiness of the examples (505). *)
Definition truthy (j : json) : bool :=
  match j with
  | JNull | JBool false | JInt 0 | JStr [] | JArr [] | JObj [] => false
  | JFloat f => negb (flt_eqb f (FFin false 0 0))
  | _ => true
  end.

(** schema.py 487-510: [_type_to_schema_with_lookup].  A plain [str] is not a
    key of the catalog. *)
Definition type_to_schema_with_lookup (E : env) (S : senv) (n : nat) (t : typ) (u : used) : res (sdict * used) :=
  do e <- (match t with
           | TRef s => if s_forward S s then get (s_catalog S) t else Err EKey
           | _ => get (s_catalog S) t
           end);
  do x <- (match en_schema e with
           | None => type_to_schema E S n true t u
           | Some (JObj d) => Ok (d, u)
           | Some _ => Err EUnmodelled
           end);
  let d := if s_describe S && is_python_class t then upd (fst x) (docstring_to_schema S t) else fst x in
  let d := match en_examples e with
           | Some j => if s_exemplify S && truthy j then dict_set d (str "examples") j else d
           | None => d
           end in
  Ok (d, snd x).

(** schema.py 533-540: one round of definitions. *)
Fixpoint define_all (E : env) (S : senv) (n : nat) (todo : used) (defined : sdict) (u : used)
  : res (sdict * used) :=
  match todo with
  | [] => Ok (defined, u)
  | (s, t) :: r =>
      do x <- type_to_schema_with_lookup E S n t u;
      define_all E S n r (dict_set defined s (JObj (fst x))) (snd x)
  end.

(** schema.py 530-540: the loop; [k] bounds the number of rounds. *)
Fixpoint define_loop (E : env) (S : senv) (n k : nat) (defined : sdict) (u : used) : res sdict :=
  if length defined <? length u then
    match k with
    | O => Err ERecursion
    | Datatypes.S k' =>
        let todo := filter (fun st => negb (dict_mem defined (fst st))) u in
        do x <- define_all E S n todo defined u;
        define_loop E S n k' (fst x) (snd x)
    end
  else Ok defined.

(** schema.py 512-546: [JsonSchemaGenerator.classdef_to_schema]. *)
Definition generate (E : env) (S : senv) (n k : nat) (force : bool) (t : typ) : res (sdict * sdict) :=
  match t with
  | TForm => Err EType
  | _ =>
      do x <- type_to_schema E S n force t [];
      do defs <- define_loop E S n k [] (snd x);
      Ok (fst x, sort_attrs defs)
  end.

(** schema.py 558-591: [classdef_to_schema].  The check against the meta-schema
    (which can only raise) is not modelled. *)
Definition classdef_to_schema (E : env) (S : senv) (n k : nat) (t : typ) : res json :=
  do x <- generate E S n k false t;
  let d := upd (match snd x with [] => [] | defs => [(str "definitions", JObj defs)] end) (fst x) in
  Ok (JObj (upd [(str "$schema", JStr (str "https://json-schema.org/draft/2020-12/schema"))] d)).
