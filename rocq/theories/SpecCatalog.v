(** What a sequence of registrations should leave behind. *)
From Coq Require Import String List NArith ZArith Bool.
From Verif Require Import Base Json PyTypes Catalog.
Import ListNotations.
Open Scope list_scope.

Definition is_ref (t : typ) : Prop := exists s, t = TRef s.

(** [rs] is [before ++ (t, e) :: later], and nothing before was for [t]. *)
Definition first_for (rs : list (typ * entry)) (t : typ) (e : entry) (later : list (typ * entry)) : Prop :=
  exists before, rs = before ++ (t, e) :: later /\ ~ In t (map fst before).

(** The registration that holds for a type is the first one. *)
Definition registered (rs : list (typ * entry)) (t : typ) (e : entry) : Prop :=
  ~ is_ref t /\ exists later, first_for rs t e later.

(** The registration that holds for a name is the last one that took effect: no
    other is followed by fewer registrations. *)
Definition named (rs : list (typ * entry)) (s : pystr) (e : entry) : Prop :=
  exists t later, ~ is_ref t /\ first_for rs t e later /\ en_identifier e = s /\
    forall u e' later', ~ is_ref u -> first_for rs u e' later' -> en_identifier e' = s -> (length later <= length later')%nat.
