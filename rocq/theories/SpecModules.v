(** Specification for C73: what is declared in a module. *)
From Coq Require Import String List NArith Sorted.
From Verif Require Import Base SpecSer Modules.
Import ListNotations.
Open Scope list_scope.

(** Classes and functions that say they are of the module. *)
Definition class_of (m : module) (x : member) : Prop := exists n, x = MClass n (mo_name m).
Definition function_of (m : module) (x : member) : Prop := exists n, x = MFunction n (mo_name m).

(** The module is a namespace: names are bound once. *)
Definition namespace (m : module) : Prop := NoDup (map fst (mo_dict m)).

(** [lists m P l]: [l] is, in the order of their names, what names of [m] are bound to if
    it is as [P] says: once for each name. *)
Definition lists (m : module) (P : member -> Prop) (l : list member) : Prop :=
  exists xs, NoDup xs /\ Sorted before xs /\ Forall2 (fun x y => In (x, y) (mo_dict m) /\ P y) xs l /\
    forall x y, In (x, y) (mo_dict m) -> P y -> In x xs.

(** Exceptions, of whichever module; [exc]: the classes derived from BaseException. *)
Definition exception (exc : nat -> bool) (x : member) : Prop := exists n s, x = MClass n s /\ exc n = true.
