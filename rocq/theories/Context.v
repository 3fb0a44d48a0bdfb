(** The module in which the texts of a type are looked up:
    strong_typing/serialization.py 40-102. *)
From Coq Require Import String List NArith Bool.
From Verif Require Import Base Json PyTypes Deser Ser.
Import ListNotations.
Open Scope list_scope.
Open Scope nat_scope.

(** [json_to_generic(typ, data, context=context)] called from code in the module
    [caller] (serialization.py 71-102).  Without a context, the globals of the
    calling frame name the module (86-97).  Simplified: the calling frame exists
    and its module is in [sys.modules]. *)
Definition json_to_generic (E : env) (skip : bool) (caller : nat) (context : option nat) (t : typ)
  (j : json) : res value :=
  Deser.json_to_object E skip (match context with Some m => m | None => caller end) t j.

(** [json_to_object(typ, data, context=context)] called from code in the module
    [caller] (serialization.py 40-68).  The call of [json_to_generic] in line 68
    is made from strong_typing.serialization itself, which is module [own]. *)
Definition json_to_object (E : env) (skip : bool) (own caller : nat) (context : option nat) (t : typ)
  (j : json) : res value :=
  json_to_generic E skip own context t j.

(** [create_serializer(typ, context)] (serializer.py 384-432).  A class is
    serialized in its own module whatever the context (402-404, 422-425). *)
Definition create_serializer (E : env) (context : option nat) (t : typ) : res ser :=
  mkser E (ser_fuel E t) context t.
