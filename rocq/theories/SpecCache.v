(** Vocabulary for the properties of the deserializer cache. *)
From Coq Require Import List NArith Bool.
From Verif Require Import Base Json PyTypes Mapping Deser DeserCache SpecTyping SpecFields SpecTagged.
Import ListNotations.
Open Scope list_scope.
Open Scope nat_scope.

(** Neither a class nor a built-in type nor a reference. *)
Definition special_form (t : typ) : Prop :=
  match t with TScalar _ | TBare _ | TClass _ | TRef _ => False | _ => True end.

(** Names identify: two classes differ in module or [__name__], and no class has
    the [__name__] of an attribute of its module that is a special form. *)
Definition names_unique (E : env) : Prop :=
  (forall c d cl dl, get_class E c = Some cl -> get_class E d = Some dl ->
     c_module cl = c_module dl -> c_name cl = c_name dl -> c = d) /\
  (forall c cl s u, get_class E c = Some cl -> lookup E (c_module cl) s = Some (true, u) -> special_form (deref u) ->
     c_name cl <> s).

(** Two types that have a class or an alias in common. *)
Definition related (E : env) (m : nat) (t : typ) (m' : nat) (t' : typ) : Prop :=
  (exists c a b, reach E m t a (TClass c) /\ reach E m' t' b (TClass c)) \/
  (exists s a, reach E m t a (TRef s) /\ reach E m' t' a (TRef s)).

(** States of an interpreter after any number of calls, each of which
    - created a deserializer with the options [skip], or
    - failed to create one but left the cache as it was, or
    - concerned a type unrelated to [t], with any options and any outcome. *)
Inductive past (E : env) (skip : bool) (m : nat) (t : typ) : store -> Prop :=
| pa_start : past E skip m t empty
| pa_created : forall st m' t' i st', past E skip m t st -> create_in E skip m' t' st = (Ok i, st') -> past E skip m t st'
| pa_traceless : forall st skip' m' t' e st', past E skip m t st -> create_in E skip' m' t' st = (Err e, st') ->
    cache st' = cache st -> past E skip m t st'
| pa_unrelated : forall st skip' m' t' r st', past E skip m t st -> create_in E skip' m' t' st = (r, st') ->
    ~ related E m t m' t' -> past E skip m t st'.

(** The class is in the cache. *)
Definition cached (st : store) (cl : class) : Prop := exists i, find_name (cache st) (c_module cl, c_name cl) = Some i.

(** An interpreter after calls of [json_to_object]: options, module, type and
    document of each. *)
Definition after (E : env) (calls : list (bool * nat * typ * json)) (st : store) : store :=
  fold_left (fun s '(skip, m, t, j) => snd (json_to_object_in E skip m t j s)) calls st.
