(** What the names of a program mean, independent of the catalog. *)
From Coq Require Import String List NArith ZArith Bool.
From Verif Require Import Base Json PyTypes Schema JsonTypes SpecGenerate.
Import ListNotations.
Open Scope list_scope.

(** One of the classes [D] is called by its name; so are the two types of
    the library. *)
Inductive means (E : env) (D : nat -> Prop) : pystr -> typ -> Prop :=
| mn_class : forall c cl, D c -> get_class E c = Some cl -> means E D (c_name cl) (TClass c)
| mn_json : means E D (str "JsonType") JsonType
| mn_strict : means E D (str "StrictJsonType") StrictJsonType.

(** A name means one thing only, in the modules of the program and in
    strong_typing.schema. *)
Record unambiguous (E : env) (D : nat -> Prop) (S : senv) : Prop := {
  un_means : forall s w w', means E D s w -> means E D s w' -> w = w';
  un_lookup : forall m s a w w', means E D s w -> lookup E m s = Some (a, w') -> w' = w;
  un_eval : forall s w w', means E D s w -> s_eval S s = Some w' -> w' = w;
  un_both : forall m s a w w', lookup E m s = Some (a, w) -> s_eval S s = Some w' -> w = w';
  un_plain : forall s w, means E D s w \/ s_eval S s = Some w -> plain_name s
}.

(** The decorator [@json_schema_type], with or without examples, on a class. *)
Definition decorates (r : request) (c : nat) : Prop := rq_type r = TClass c /\ rq_schema r = None /\ rq_name r = None.

Definition decorations (rs : list request) : Prop := Forall (fun r => exists c, decorates r c) rs.

(** The classes that have the decorator, and the two of the library. *)
Definition known (jo ja : nat) (rs : list request) (c : nat) : Prop := c = jo \/ c = ja \/ In (TClass c) (map rq_type rs).

(** Two settings of the generator that differ in the catalog only. *)
Definition with_catalog (S : senv) (c : Catalog.catalog) : senv := {|
  s_catalog := c; s_eval := s_eval S; s_forward := s_forward S; s_short := s_short S; s_long := s_long S; s_props := s_props S;
  s_attrs := s_attrs S; s_tenth := s_tenth S; s_path := s_path S; s_describe := s_describe S; s_exemplify := s_exemplify S |}.

(** Names in quotes, on the way through [t], are of classes among [D], or of
    types that strong_typing.schema knows itself. *)
Definition quoted (E : env) (D : nat -> Prop) (S : senv) (t : typ) : Prop :=
  (forall s, met E S t (TRef s) -> s_eval S s <> None \/ (s_forward S s = true /\ exists c cl, D c /\ get_class E c = Some cl /\ c_name cl = s)) /\
  (forall s md, met E S t (TAnnot (TRef s) md) -> s_eval S s <> None).
