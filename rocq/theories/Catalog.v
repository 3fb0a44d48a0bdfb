(** The type catalog of strong_typing/schema.py. *)
From Coq Require Import String List NArith ZArith Bool.
From Verif Require Import Base Json PyTypes.
Import ListNotations.
Open Scope list_scope.

(** schema.py 119-123 *)
Record entry := { en_schema : option json; en_identifier : pystr; en_examples : option json }.

(** schema.py 126-134: the two dictionaries.  Types are compared structurally. *)
Record catalog := { by_type : list (typ * entry); by_name : list (pystr * entry) }.

Definition new_catalog : catalog := {| by_type := []; by_name := [] |}.

Fixpoint type_get (d : list (typ * entry)) (t : typ) : option entry :=
  match d with
  | [] => None
  | (u, e) :: r => if typ_eqb u t then Some e else type_get r t
  end.

Fixpoint type_set (d : list (typ * entry)) (t : typ) (e : entry) : list (typ * entry) :=
  match d with
  | [] => [(t, e)]
  | (u, e') :: r => if typ_eqb u t then (u, e) :: r else (u, e') :: type_set r t e
  end.

(** schema.py 136-142: [__contains__] *)
Definition contains (c : catalog) (t : typ) : bool :=
  match t with
  | TRef s => dict_mem (by_name c) s
  | _ => match type_get (by_type c) t with Some _ => true | None => false end
  end.

(** schema.py 144-159: [add]; the catalog is unchanged when it raises. *)
Definition add (c : catalog) (t : typ) (schema : option json) (identifier : pystr) (examples : option json) : res catalog :=
  match t with
  | TRef _ => Err EType
  | _ =>
      match type_get (by_type c) t with
      | Some _ => Err EValue
      | None =>
          let e := {| en_schema := schema; en_identifier := identifier; en_examples := examples |} in
          Ok {| by_type := type_set (by_type c) t e; by_name := dict_set (by_name c) identifier e |}
      end
  end.

(** schema.py 161-167: [get] *)
Definition get (c : catalog) (t : typ) : res entry :=
  match t with
  | TRef s => match dict_get (by_name c) s with Some e => Ok e | None => Err EKey end
  | _ => match type_get (by_type c) t with Some e => Ok e | None => Err EKey end
  end.

(** schema.py 614-618: [get_schema_identifier] *)
Definition get_schema_identifier (c : catalog) (t : typ) : res (option pystr) :=
  if contains c t then do e <- get c t; Ok (Some (en_identifier e)) else Ok None.

(** A program that registers types one after another and carries on when a
    registration raises. *)
Definition register (c : catalog) (r : typ * entry) : catalog :=
  match add c (fst r) (en_schema (snd r)) (en_identifier (snd r)) (en_examples (snd r)) with Ok c' => c' | Err _ => c end.

Definition register_all (rs : list (typ * entry)) : catalog := fold_left register rs new_catalog.
