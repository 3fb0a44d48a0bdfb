(** Documentation of types and functions: docstring.py 190-236, 315-359 and
    schema.py 48-82. *)
From Coq Require Import String List NArith Bool.
From Verif Require Import Base PyTypes Docstring Mapping Ser.
Import ListNotations.
Open Scope list_scope.
Open Scope nat_scope.

(** What is documented.  [DData ps]: a data class with the properties [ps]
    ([get_class_properties], inherited ones included); [DFunction sg ret]: a
    function, with name, whether by position, and annotation of the parameters;
    [DOther ps]: another class, with its annotated properties. *)
Inductive documented :=
| DData (props : list (pystr * typ))
| DEnum
| DOther (props : list (pystr * typ))
| DFunction (signature : list (pystr * (bool * typ))) (ret : option typ).

(** A class or function with its [__name__], its [__doc__] and the exception
    classes among the members of the module that defines it; [None] if
    [inspect.getmodule] finds no module.  An exception class is a number.
    [inspect.getmembers] lists each name once. *)
Record entity := Entity {
  d_name : pystr;
  d_doc : option pystr;
  d_kind : documented;
  d_module : option (list (pystr * nat))
}.

(** [re.match(f"^{re.escape(name)}[(].*[)]$", doc)]: the dot does not match a
    newline, the dollar sign matches before a newline at the end. *)
Definition generated (name doc : pystr) : bool :=
  let head := name ++ str "(" in
  if starts_with head doc then
    let rest := skipn (length head) doc in
    let rest := if ends_with [NL] rest then removelast rest else rest in
    ends_with (str ")") rest && forallb (fun c => negb (c =? NL)%N) rest
  else false.

(** docstring.py 315-327 *)
Definition has_default_docstring (x : entity) : bool :=
  match d_kind x, d_doc x with
  | DData _, Some doc => generated (d_name x) doc
  | DEnum, Some doc => pystr_eqb doc (str "An enumeration.")
  | _, _ => false
  end.

(** docstring.py 330-336 *)
Definition has_docstring (x : entity) : bool :=
  if has_default_docstring x then false else truthy (d_doc x).

(** docstring.py 339-346 *)
Definition get_docstring (x : entity) : option pystr :=
  match d_doc x with
  | None => None
  | Some doc => if has_default_docstring x then None else Some doc
  end.

(** The properties of the classes other than the first in the order of method
    resolution. *)
Definition own_props (x : entity) : list (pystr * typ) :=
  match d_kind x with DData ps | DOther ps => ps | _ => [] end.

(** docstring.py 349-359; [bases] are the classes after [x] in the order of method
    resolution. *)
Definition check_docstring (x : entity) (bases : list entity) (d : docstring) (strict : bool) : res unit :=
  match d_kind x with
  | DData ps => check_dataclass_docstring (map fst ps) (flat_map (fun b => map fst (own_props b)) bases) d strict
  | DFunction sg ret =>
      check_function_docstring (map (fun p => (fst p, fst (snd p))) sg) (match ret with Some _ => true | None => false end) d strict
  | _ => Ok tt
  end.

(** A docstring with the types assigned to parameters, return value and
    exceptions. *)
Record typed_docstring := TypedDocstring {
  t_doc : docstring;
  t_params : list (pystr * typ);
  t_returns : option typ;
  t_raises : list (pystr * nat)
}.

Definition untyped (d : docstring) : typed_docstring := TypedDocstring d [] None [].

(** [mapping[name]] *)
Definition item {V} (d : list (pystr * V)) (k : pystr) : res V :=
  match dict_get d k with Some v => Ok v | None => Err EKey end.

(** docstring.py 206-218 *)
Definition assign_types (x : entity) (d : docstring) : res typed_docstring :=
  match d_kind x with
  | DData ps =>
      do ts <- mapM (fun e => do t <- item ps (fst e); Ok (fst e, t)) (params d);
      Ok (TypedDocstring d ts None [])
  | DFunction sg ret =>
      do ts <- mapM (fun e => do p <- item sg (fst e); Ok (fst e, snd p)) (params d);
      Ok (TypedDocstring d ts (match returns d with Some _ => ret | None => None end) [])
  | _ => Ok (untyped d)
  end.

(** docstring.py 220-235; [builtins] are the built-in exceptions. *)
Definition assign_raises (builtins : list (pystr * nat)) (x : entity) (t : typed_docstring) : res typed_docstring :=
  match d_module x with
  | None => Ok t
  | Some names =>
      do rs <- mapM (fun e => match dict_get names (fst e) with
                              | Some c => Ok (fst e, c)
                              | None => match dict_get builtins (fst e) with
                                        | Some c => Ok (fst e, c)
                                        | None => Err EType
                                        end
                              end) (raises (t_doc t));
      Ok (TypedDocstring (t_doc t) (t_params t) (t_returns t) rs)
  end.

(** docstring.py 190-236: [parse_type]. *)
Definition parse_type (builtins : list (pystr * nat)) (x : entity) (bases : list entity) : res typed_docstring :=
  match get_docstring x with
  | None => Ok (untyped empty_docstring)
  | Some doc =>
      do d <- parse_text doc;
      do _ <- check_docstring x bases d false;
      do t <- assign_types x d;
      assign_raises builtins x t
  end.

(** schema.py 48-55: [get_class_docstrings]. *)
Definition get_class_docstrings (builtins : list (pystr * nat)) (x : entity) (bases : list entity) : res (option pystr * option pystr) :=
  do t <- parse_type builtins x bases;
  if has_default_docstring x then Ok (None, None)
  else Ok (short_description (t_doc t), long_description (t_doc t)).

(** schema.py 71-80: the parameters of one class. *)
Definition describe_params (transform : option (pystr -> pystr -> pystr)) (ps : list (pystr * (pystr * pystr))) (result : list (pystr * pystr))
  : list (pystr * pystr) :=
  fold_left (fun r p =>
    let '(name, description) := snd p in
    if dict_mem r name then r
    else dict_set r name (match transform with Some f => f name description | None => description end)) ps result.

(** schema.py 58-82: [get_class_property_docstrings]; [mro] is
    [inspect.getmro(data_type)], each class with those after it in its own order
    of method resolution; [transform] is the function given, for the class. *)
Fixpoint property_docstrings (builtins : list (pystr * nat)) (transform : option (pystr -> pystr -> pystr)) (mro : list (entity * list entity))
  (result : list (pystr * pystr)) : res (list (pystr * pystr)) :=
  match mro with
  | [] => Ok result
  | (x, bases) :: r =>
      do t <- parse_type builtins x bases;
      property_docstrings builtins transform r (describe_params transform (params (t_doc t)) result)
  end.

Definition get_class_property_docstrings builtins transform mro := property_docstrings builtins transform mro [].
