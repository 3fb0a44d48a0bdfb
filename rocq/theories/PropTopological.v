(** C25, C26: topological_sort. *)
From Coq Require Import List Relations Permutation PeanoNat.
From Verif Require Import Base Topological SpecTopological TopologicalProofs.
Import ListNotations.

(** C25.  A returned list is a permutation of the keys, dependencies first. *)
Theorem C25_topological_order :
  forall (A : Type) (eqb : A -> A -> bool),
    (forall a b, eqb a b = true <-> a = b) ->
    forall g : list (A * list A), NoDup (map fst g) ->
    forall l, topological_sort eqb g = Ok l ->
      Permutation l (map fst g) /\ (forall a b, edge g a b -> before b a l).
Proof. exact @sort_sound. Qed.
Print Assumptions C25_topological_order.

(** C26a.  The only failures, and what they mean. *)
Theorem C26_topological_failure :
  forall (A : Type) (eqb : A -> A -> bool),
    (forall a b, eqb a b = true <-> a = b) ->
    forall g : list (A * list A), NoDup (map fst g) ->
    forall e, topological_sort eqb g = Err e ->
      (e = ERuntime /\ cyclic g) \/ (e = EKey /\ ~ closed g).
Proof. exact @sort_errors. Qed.
Print Assumptions C26_topological_failure.

(** C26b.  Closed graphs without a proper cycle are sorted successfully ... *)
Theorem C26_topological_total :
  forall (A : Type) (eqb : A -> A -> bool),
    (forall a b, eqb a b = true <-> a = b) ->
    forall g : list (A * list A), NoDup (map fst g) ->
      closed g -> ~ cyclic g -> exists l, topological_sort eqb g = Ok l.
Proof. exact @sort_complete. Qed.
Print Assumptions C26_topological_total.

(** ... and no others. *)
Theorem C26_topological_cyclic_rejected :
  forall (A : Type) (eqb : A -> A -> bool),
    (forall a b, eqb a b = true <-> a = b) ->
    forall g : list (A * list A), NoDup (map fst g) ->
    forall l, topological_sort eqb g = Ok l -> ~ cyclic g.
Proof. exact @sort_not_cyclic. Qed.
Print Assumptions C26_topological_cyclic_rejected.

Theorem C26_topological_dangling_rejected :
  forall (A : Type) (eqb : A -> A -> bool),
    (forall a b, eqb a b = true <-> a = b) ->
    forall g : list (A * list A), NoDup (map fst g) ->
    forall l, topological_sort eqb g = Ok l -> closed g.
Proof. exact @sort_closed. Qed.
Print Assumptions C26_topological_dangling_rejected.

(** Non-vacuity: a diamond with a self reference, and a cyclic graph. *)
Definition diamond : list (nat * list nat) := [(1, [2; 3; 1]); (2, [4]); (3, [4]); (4, [])].
Example C25_witness :
  (forall a b, Nat.eqb a b = true <-> a = b) /\ NoDup (map fst diamond) /\
  topological_sort Nat.eqb diamond = Ok [4; 2; 3; 1] /\ edge diamond 1 3.
Proof.
  split; [exact Nat.eqb_eq|]. split.
  - repeat constructor; simpl; intuition discriminate.
  - split; [reflexivity|]. exists [2; 3; 1]. simpl. intuition discriminate.
Qed.
Example C26_witness_cycle : topological_sort Nat.eqb [(1, [2]); (2, [1])] = Err ERuntime.
Proof. reflexivity. Qed.
Example C26_witness_dangling : topological_sort Nat.eqb [(1, [2])] = Err EKey.
Proof. reflexivity. Qed.
