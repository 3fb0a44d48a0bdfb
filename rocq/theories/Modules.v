(** Modules: strong_typing/inspection.py 536-551, 739-754. *)
From Coq Require Import String List NArith Bool.
From Verif Require Import Base Json PyTypes Ser.
Import ListNotations.
Open Scope list_scope.
Open Scope nat_scope.

(** What the names of a module are bound to: classes ([inspect.isclass]), functions
    ([inspect.isfunction]), which know the name of a module ([__module__]), and other
    objects.  Objects are numbered. *)
Inductive member := MClass (n : nat) (home : pystr) | MFunction (n : nat) (home : pystr) | MOther (n : nat).

(** [mo_name]: [module.__name__]; [mo_dict]: its namespace, in order of definition.  No
    function [__dir__] in it. *)
Record module := mkModule { mo_name : pystr; mo_dict : list (pystr * member) }.

(** [inspect.getmembers] of a module (CPython 3.11): the names that [dir] lists, in order,
    with their values as far as the predicate holds, sorted by name. *)
Definition getmembers (m : module) (p : member -> bool) : list (pystr * member) :=
  sort_attrs (filter (fun kv => p (snd kv)) (sort_attrs (mo_dict m))).

(** inspection.py 536-542: [get_module_classes] *)
Definition is_class_member (m : module) (x : member) : bool := match x with MClass _ s => pystr_eqb s (mo_name m) | _ => false end.
Definition get_module_classes (m : module) : list member := map snd (getmembers m (is_class_member m)).

(** inspection.py 545-551: [get_module_functions] *)
Definition is_function_member (m : module) (x : member) : bool := match x with MFunction _ s => pystr_eqb s (mo_name m) | _ => false end.
Definition get_module_functions (m : module) : list member := map snd (getmembers m (is_function_member m)).

(** inspection.py 739-754: [create_module]; [modules] is [sys.modules].  The loader of the
    specification is None, so nothing is executed.  (The names that
    [module_from_spec] sets, such as [__name__], are bound to other objects.) *)
Definition create_module (modules : list (pystr * module)) (name : pystr) : res (module * list (pystr * module)) :=
  match dict_get modules name with
  | Some _ => Err EKey
  | None =>
      let m := mkModule name (map (fun x => (str x, MOther 0)) ["__name__"; "__doc__"; "__package__"; "__loader__"; "__spec__"]%string) in
      Ok (m, dict_set modules name m)
  end.

(** docstring.py 176-183: [get_exceptions], a dictionary; [exc]: the classes derived from
    BaseException. *)
Definition is_exception (exc : nat -> bool) (x : member) : bool := match x with MClass n _ => exc n | _ => false end.
Definition get_exceptions (exc : nat -> bool) (m : module) : list (pystr * member) :=
  fold_left (fun d kv => dict_set d (fst kv) (snd kv)) (getmembers m (is_exception exc)) [].

(** docstring.py 223-224: the exceptions as [parse_type] sees them (DocType.v), which has
    numbers for classes. *)
Definition class_number (x : member) : nat := match x with MClass n _ | MFunction n _ | MOther n => n end.
Definition exception_table (exc : nat -> bool) (m : module) : list (pystr * nat) :=
  map (fun kv => (fst kv, class_number (snd kv))) (get_exceptions exc m).
