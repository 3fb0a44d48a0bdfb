(** Specification of a topological order, independent of the algorithm. *)
From Coq Require Import List Relations.
Import ListNotations.

Section Spec.
  Context {A : Type}.

  (** [a] points to [b] and [b] is another node (self references are ignored). *)
  Definition edge (g : list (A * list A)) (a b : A) : Prop :=
    exists ms, In (a, ms) g /\ In b ms /\ a <> b.

  (** There is a cycle through at least two nodes. *)
  Definition cyclic (g : list (A * list A)) : Prop :=
    exists a, clos_trans A (edge g) a a.

  (** Every node that is pointed to by another node is itself a key. *)
  Definition closed (g : list (A * list A)) : Prop :=
    forall a b, edge g a b -> In b (map fst g).

  (** [x] stands strictly before [y] in [l]. *)
  Definition before (x y : A) (l : list A) : Prop :=
    exists l1 l2 l3, l = l1 ++ x :: l2 ++ y :: l3.
End Spec.
