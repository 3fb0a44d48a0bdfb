(** Collection of referenced types: [TypeCollector] and [get_referenced_types] of
    strong_typing/inspection.py, [type_topological_sort] of
    strong_typing/topological.py. *)
From Coq Require Import String List NArith ZArith Bool.
From Verif Require Import Base Json PyTypes Topological.
Import ListNotations.
Open Scope list_scope.
Open Scope nat_scope.

(** Nodes of the graph: the internal class [_ROOT] (inspection.py 577-579) and
    classes of the program and of the library. *)
Inductive node := NRoot | NType (t : typ).

Definition node_eqb (a b : node) : bool :=
  match a, b with
  | NRoot, NRoot => true
  | NType t, NType u => typ_eqb t u
  | _, _ => false
  end.

(** inspection.py 606: [graph: dict[type, set[type]]]. *)
Definition tgraph := list (node * list node).

(** [s.add(x)] on a set. *)
Definition set_add (l : list node) (x : node) : list node :=
  if existsb (node_eqb x) l then l else l ++ [x].

(** [graph[a].add(b)] (inspection.py 657), for a key [a] of the graph. *)
Fixpoint add_edge (g : tgraph) (a b : node) : tgraph :=
  match g with
  | [] => []
  | (k, ms) :: r => if node_eqb k a then (k, set_add ms b) :: r else (k, ms) :: add_edge r a b
  end.

(** [a in graph] (inspection.py 659). *)
Definition has_key (g : tgraph) (a : node) : bool := existsb (fun p => node_eqb (fst p) a) g.

(** inspection.py 632-705: [TypeCollector.run(typ, cls, module)], [module = None]
    when there is none; [n] bounds the depth of recursion.
    Simplified: a [ForwardRef] is evaluated one step, as a string is; CPython goes
    on to evaluate the references inside the result, which [run] would then do in
    the same module. *)
Fixpoint run (E : env) (n : nat) (t : typ) (a : node) (m : option nat) (g : tgraph) {struct n} : res tgraph :=
  match n with
  | O => Err ERecursion
  | S n' =>
    let run_all := fix run_all (ts : list typ) (a : node) (m : option nat) (g : tgraph) : res tgraph :=
      match ts with
      | [] => Ok g
      | u :: r => do g' <- run E n' u a m g; run_all r a m g'
      end in
    match t with
    | TScalar KNone => Ok g
    | TScalar _ | TBare _ =>
        let g1 := add_edge g a (NType t) in
        if has_key g1 (NType t) then Ok g1 else Ok (g1 ++ [(NType t, [])])
    | TClass c =>
        let g1 := add_edge g a (NType t) in
        if has_key g1 (NType t) then Ok g1
        else match get_class E c with
             | None => Err EUnmodelled
             | Some cl =>
                 do fs <- class_properties E cl;
                 run_all (map snd fs) (NType t) (Some (c_module cl)) (g1 ++ [(NType t, [])])
             end
    | TAnnot u _ => run E n' u a m g
    | TRef s =>
        match m with
        | None => Err EValue
        | Some m' =>
            match lookup E m' s with
            | None => Err EName
            | Some (_, u) => run E n' u a m g
            end
        end
    | TList u | TSet u => run_all [u] a m g
    | TDict k u => run_all [k; u] a m g
    | TTuple ts | TUnion false ts => run_all ts a m g
    | TLiteral _ => Ok g
    | TUnion true ts =>
        if is_type_optional t then do u <- unwrap_optional t; run E n' u a m g
        else run_all ts a m g
    | TForm => Err EType
    end
  end.

(** inspection.py 618-619: [TypeCollector()]. *)
Definition new_collector : tgraph := [(NRoot, [])].

(** inspection.py 609-616: [references]. *)
Definition references (g : tgraph) : list node := flat_map snd g.

(** inspection.py 582-596: [get_referenced_types(typ, module)]. *)
Definition get_referenced_types (E : env) (n : nat) (t : typ) (m : option nat) : res (list node) :=
  do g <- run E n t NRoot m new_collector;
  Ok (references g).

(** [sys.modules[typ.__module__]] (inspection.py 624): library classes have modules
    of their own, in which nothing gets evaluated. *)
Definition module_of (E : env) (t : typ) : option nat :=
  match t with
  | TClass c => match get_class E c with Some cl => Some (c_module cl) | None => None end
  | _ => None
  end.

(** inspection.py 621-630: [traverse] and [traverse_all]. *)
Fixpoint traverse_all (E : env) (n : nat) (ts : list typ) (g : tgraph) : res tgraph :=
  match ts with
  | [] => Ok g
  | t :: r => do g' <- run E n t NRoot (module_of E t) g; traverse_all E n r g'
  end.

(** [isinstance(typ, type)] *)
Definition is_class (t : typ) : bool :=
  match t with TScalar _ | TBare _ | TClass _ => true | _ => false end.

(** [graph[a] = set()] (topological.py 82): an entry that exists is emptied, where it
    stands. *)
Fixpoint reset_node (g : tgraph) (a : node) : tgraph :=
  match g with
  | [] => [(a, [])]
  | (k, ms) :: r => if node_eqb k a then (k, []) :: r else (k, ms) :: reset_node r a
  end.

(** topological.py 75-82: additional dependencies. *)
Definition add_dependencies (dep : node -> list typ) (g : tgraph) : tgraph :=
  let new := flat_map (fun p => map NType (dep (fst p))) g in
  fold_left reset_node new (map (fun p => (fst p, fold_left set_add (map NType (dep (fst p))) (snd p))) g).

(** topological.py 52-84: [type_topological_sort].  [order] is the order in which a
    set of types is iterated over. *)
Definition type_topological_sort (E : env) (n : nat) (order : list node -> list node)
  (ts : list typ) (dep : option (node -> list typ)) : res (list node) :=
  if forallb is_class ts then
    do g <- traverse_all E n ts new_collector;
    let g' := match dep with Some f => add_dependencies f g | None => g end in
    topological_sort node_eqb (map (fun p => (fst p, order (snd p))) g')
  else Err EType.
