(** Model of strong_typing/topological.py: [topological_sort]. *)
From Coq Require Import List Bool.
From Verif Require Import Base.
Import ListNotations.

Section Topological.
  Context {A : Type}.
  (** Python [==] on graph nodes (hashable objects); theorems assume that it
      decides equality. *)
  Variable eqb : A -> A -> bool.

  (** topological.py 14: [graph: dict[T, set[T]]].  A dict is an association
      list in insertion order with distinct keys; each neighbour set is a list
      in the (arbitrary) order in which Python happens to iterate over it. *)
  Definition graph := list (A * list A).

  (** topological.py 38: [graph[n]], KeyError if missing. *)
  Fixpoint graph_get (g : graph) (n : A) : option (list A) :=
    match g with
    | [] => None
    | (k, ms) :: r => if eqb k n then Some ms else graph_get r n
    end.

  (** topological.py 28: [seen: dict[T, bool]]. *)
  Definition marks := list (A * bool).

  (** topological.py 31: [seen.get(n)] *)
  Fixpoint marks_get (s : marks) (n : A) : option bool :=
    match s with
    | [] => None
    | (k, b) :: r => if eqb k n then Some b else marks_get r n
    end.

  (** topological.py 37, 42: [seen[n] = b].  Simplified: the newest entry is
      put in front and shadows older ones, which [get] cannot observe. *)
  Definition marks_set (s : marks) (n : A) (b : bool) : marks := (n, b) :: s.

  (** Mutable state of the traversal: [seen] and [ordered]. *)
  Definition tstate := (marks * list A)%type.

  (** topological.py 38-40: the loop over the neighbours of [n]; [m != n] skips
      self references. *)
  Fixpoint visit_all (visit : A -> tstate -> res tstate) (n : A) (ms : list A)
           (st : tstate) : res tstate :=
    match ms with
    | [] => Ok st
    | m :: r =>
        if eqb m n then visit_all visit n r st
        else match visit m st with
             | Err e => Err e
             | Ok st' => visit_all visit n r st'
             end
    end.

  (** topological.py 30-43: [_visit].  [fuel] bounds the recursion depth; the
      theorems show that it never runs out when started as below. *)
  Fixpoint visit (fuel : nat) (g : graph) (n : A) (st : tstate) : res tstate :=
    match fuel with
    | O => Err ERecursion
    | S fuel' =>
        match marks_get (fst st) n with
        | Some true => Ok st
        | Some false => Err ERuntime
        | None =>
            let st1 := (marks_set (fst st) n false, snd st) in
            match graph_get g n with
            | None => Err EKey
            | Some ms =>
                match visit_all (visit fuel' g) n ms st1 with
                | Err e => Err e
                | Ok st2 => Ok (marks_set (fst st2) n true, snd st2 ++ [n])
                end
            end
        end
    end.

  (** topological.py 45-46: the loop over [graph.keys()]. *)
  Fixpoint visit_keys (fuel : nat) (g : graph) (ks : list A) (st : tstate) : res tstate :=
    match ks with
    | [] => Ok st
    | n :: r =>
        match visit fuel g n st with
        | Err e => Err e
        | Ok st' => visit_keys fuel g r st'
        end
    end.

  (** topological.py 14-48: [topological_sort].  Depth [S (S (length g))] is
      enough: every pending call but the last marks a distinct key. *)
  Definition topological_sort (g : graph) : res (list A) :=
    match visit_keys (S (S (length g))) g (map fst g) ([], []) with
    | Err e => Err e
    | Ok st => Ok (snd st)
    end.
End Topological.
