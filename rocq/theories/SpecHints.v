(** Which annotations mention, directly or through other names, a name that is
    not defined. *)
From Coq Require Import String List.
From Verif Require Import Base PyTypes.
Import ListNotations.
Open Scope list_scope.
Open Scope nat_scope.

(** The parts an annotation is written with. *)
Inductive part : typ -> typ -> Prop :=
| pt_list : forall t, part t (TList t)
| pt_set : forall t, part t (TSet t)
| pt_key : forall k t, part k (TDict k t)
| pt_value : forall k t, part t (TDict k t)
| pt_tuple : forall t ts, In t ts -> part t (TTuple ts)
| pt_union : forall t op ts, In t ts -> part t (TUnion op ts)
| pt_annot : forall t md, part t (TAnnot t md).

(** An undefined name is met after at most [k] steps, from annotation to part or
    from name to definition. *)
Inductive undefined_within (E : env) (m : nat) : nat -> typ -> Prop :=
| uw_name : forall k s, lookup E m s = None -> undefined_within E m k (TRef s)
| uw_part : forall k t u, part t u -> undefined_within E m k t -> undefined_within E m (S k) u
| uw_def : forall k s a t, lookup E m s = Some (a, t) -> undefined_within E m k t -> undefined_within E m (S k) (TRef s).

Definition mentions_undefined (E : env) (m : nat) (t : typ) : Prop := exists k, undefined_within E m k t.

(** [s] is written in the annotation. *)
Inductive written (s : pystr) : typ -> Prop :=
| wr_name : written s (TRef s)
| wr_part : forall t u, part t u -> written s t -> written s u.

(** The name [s] is met on evaluating the annotation. *)
Inductive leads (E : env) (m : nat) (s : pystr) : typ -> Prop :=
| ld_name : leads E m s (TRef s)
| ld_part : forall t u, part t u -> leads E m s t -> leads E m s u
| ld_def : forall s' a t, lookup E m s' = Some (a, t) -> leads E m s t -> leads E m s (TRef s').

(** The name is defined in terms of itself. *)
Definition recursive_name (E : env) (m : nat) (s : pystr) : Prop := exists a t, lookup E m s = Some (a, t) /\ leads E m s t.
