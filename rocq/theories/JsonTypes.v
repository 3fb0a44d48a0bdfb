(** The JSON types that come with the library (strong_typing/core.py) and the
    registration of types for schemas (strong_typing/schema.py). *)
From Coq Require Import String List NArith ZArith Bool.
From Verif Require Import Base Json PyTypes Catalog Names.
Import ListNotations.
Open Scope list_scope.
Open Scope nat_scope.

(** core.py 18-28: [JsonType].  The strings in [dict[str, "JsonType"]] and
    [list["JsonType"]] are names that are looked up later. *)
Definition JsonType : typ :=
  TUnion false [TScalar KNone; TScalar KBool; TScalar KInt; TScalar KFloat; TScalar KStr;
                TDict (TScalar KStr) (TRef (str "JsonType")); TList (TRef (str "JsonType"))].

(** core.py 30-38: [StrictJsonType]. *)
Definition StrictJsonType : typ :=
  TUnion false [TScalar KBool; TScalar KInt; TScalar KFloat; TScalar KStr;
                TDict (TScalar KStr) (TRef (str "StrictJsonType")); TList (TRef (str "StrictJsonType"))].

(** core.py 10-15: [JsonObject] and [JsonArray], classes without annotations
    and without constructor; [m] stands for the module [strong_typing.core]. *)
Definition JsonObject (m : nat) : class := mkClass m (str "JsonObject") (CPlain []) None None.
Definition JsonArray (m : nat) : class := mkClass m (str "JsonArray") (CPlain []) None None.

(** schema.py 621-643: [register_schema]. *)
Definition register_schema (E : env) (c : catalog) (t : typ) (schema : option json) (name : option pystr)
  (examples : option json) : res catalog :=
  do s <- (match name with Some s => Ok s | None => python_type_to_name E false t end);
  add c t schema s examples.

(** schema.py 679-689 *)
Definition json_example : json :=
  JObj [(str "property1", JNull); (str "property2", JBool true); (str "property3", JInt 64);
        (str "property4", JStr (str "string")); (str "property5", JArr [JStr (str "item")]);
        (str "property6", JObj [(str "key", JStr (str "value"))])].

(** schema.py 691-702 *)
Definition strict_example : json :=
  JObj [(str "property1", JBool true); (str "property2", JInt 64);
        (str "property3", JStr (str "string")); (str "property4", JArr [JStr (str "item")]);
        (str "property5", JObj [(str "key", JStr (str "value"))])].

(** schema.py 673-702: the catalog after [import strong_typing.schema];
    [jo] and [ja] stand for the classes [JsonObject] and [JsonArray]. *)
Definition library (E : env) (jo ja : nat) : res catalog :=
  do c <- register_schema E new_catalog (TClass jo) None (Some (str "JsonObject")) None;
  do c <- register_schema E c (TClass ja) None (Some (str "JsonArray")) None;
  do c <- register_schema E c JsonType None (Some (str "JsonType")) (Some (JArr [json_example]));
  register_schema E c StrictJsonType None (Some (str "StrictJsonType")) (Some (JArr [strict_example])).

(** Registrations that a program makes later, [register_schema] with or without
    a name and the decorator [json_schema_type] (schema.py 646-670); it carries
    on when a registration raises. *)
Record request := { rq_type : typ; rq_schema : option json; rq_name : option pystr; rq_examples : option json }.

Definition attempt (E : env) (c : catalog) (r : request) : catalog :=
  match register_schema E c (rq_type r) (rq_schema r) (rq_name r) (rq_examples r) with Ok c' => c' | Err _ => c end.

Definition attempts (E : env) (c : catalog) (rs : list request) : catalog := fold_left (attempt E) rs c.
