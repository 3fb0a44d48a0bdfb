(** What a name in quotes stands for. *)
From Coq Require Import String List.
From Verif Require Import Base PyTypes Scopes.
Import ListNotations.
Open Scope list_scope.
Open Scope nat_scope.

(** A name stands for the object bound to it in the module, or else in builtins. *)
Definition stands_for (globals builtins : namespace) (s : pystr) (o : obj) : Prop :=
  In (s, o) globals \/ (~ In s (map fst globals) /\ In (s, o) builtins).

Definition unbound (globals builtins : namespace) (s : pystr) : Prop :=
  ~ In s (map fst globals) /\ ~ In s (map fst builtins).

(** Names that the parameters of [evaluate_type] do not hide. *)
Definition not_hidden (s : pystr) : Prop := s <> str "typ" /\ s <> str "module".

Definition is_text (o : obj) (s : pystr) : Prop := o = OText s \/ o = ORef s.

(** Following names bound to texts, [k] times, leads from one name to another. *)
Inductive follows (globals builtins : namespace) : nat -> pystr -> pystr -> Prop :=
| fo_here : forall s, follows globals builtins 0 s s
| fo_next : forall k s o s' u, not_hidden s -> stands_for globals builtins s o -> is_text o s' ->
    follows globals builtins k s' u -> follows globals builtins (S k) s u.
