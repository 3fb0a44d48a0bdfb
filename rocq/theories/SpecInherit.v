(** What a class inherits. *)
From Coq Require Import String List NArith ZArith Bool.
From Verif Require Import Base Json PyTypes Inherit.
Import ListNotations.
Open Scope list_scope.
Open Scope nat_scope.

(** [first_says H cs x b f]: [b] is the first of the classes [cs] that has a field [x] of
    its own, and [f] is this field. *)
Inductive first_says (H : hierarchy) (x : pystr) : list nat -> nat -> field -> Prop :=
| fs_here : forall b cs f, In f (own H b) -> f_name f = x -> first_says H x (b :: cs) b f
| fs_later : forall a cs b f, ~ In x (map f_name (own H a)) -> first_says H x cs b f -> first_says H x (a :: cs) b f.

(** The rule of attributes: the first class in [__mro__] has its way. *)
Definition inherits (H : hierarchy) (c : nat) (x : pystr) (b : nat) (f : field) : Prop := first_says H x (h_mro H c) b f.

(** [sub l l']: [l] is [l'] with elements left out. *)
Inductive sub {A} : list A -> list A -> Prop :=
| sub_nil : sub [] []
| sub_skip : forall x l l', sub l l' -> sub l (x :: l')
| sub_keep : forall x l l', sub l l' -> sub (x :: l) (x :: l').

(** Orders that Python computes: a class comes first and its bases, which are defined
    before it, in their own order. *)
Record hierarchy_ok (H : hierarchy) : Prop := {
  ho_self : forall c, exists cs, h_mro H c = c :: cs;
  ho_before : forall c b, In b (tl (h_mro H c)) -> b < c;
  ho_order : forall c b, In b (h_mro H c) -> sub (h_mro H b) (h_mro H c);
  ho_nodup : forall c, NoDup (h_mro H c);
  ho_names : forall c, NoDup (map f_name (own H c))
}.

(** All classes that [c] inherits from are data classes; no class is. *)
Definition all_data (H : hierarchy) (c : nat) : Prop := forall b, In b (h_mro H c) -> d_data (decl_of H b) = true.
Definition no_data (H : hierarchy) (c : nat) : Prop := forall b, In b (h_mro H c) -> d_data (decl_of H b) = false.

(** All are in one module. *)
Definition in_module (H : hierarchy) (c m : nat) : Prop := forall b, In b (h_mro H c) -> d_module (decl_of H b) = m.

(** Single inheritance. *)
Inductive chain (H : hierarchy) : nat -> Prop :=
| ch_root : forall c, h_mro H c = [c] -> chain H c
| ch_base : forall c p, h_mro H c = c :: h_mro H p -> chain H p -> chain H c.

(** No field is declared by two of the classes that [c] inherits from. *)
Definition declared_once (H : hierarchy) (c : nat) : Prop :=
  forall a b x, In a (h_mro H c) -> In b (h_mro H c) -> In x (map f_name (own H a)) -> In x (map f_name (own H b)) -> a = b.
