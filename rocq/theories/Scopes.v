(** What a name in quotes evaluates to (inspection.py 86-127), with the scopes that
    [eval] searches.  Elsewhere in this development the outcome of [eval] is data
    ([lookup] of PyTypes.v); here it is computed, for texts that are identifiers
    and for objects that are classes, texts, references or modules. *)
From Coq Require Import String List Bool.
From Verif Require Import Base PyTypes.
Import ListNotations.
Open Scope list_scope.
Open Scope nat_scope.

Inductive obj :=
| OClass (c : nat)
| OText (s : pystr)    (* str *)
| ORef (s : pystr)     (* typing.ForwardRef *)
| OModule (m : nat).

(** A dictionary of variables; keys are pairwise distinct. *)
Definition namespace := list (pystr * obj).

(** [eval(s, globals, locals)]: local variables, then those of the module, then
    built-in ones. *)
Fixpoint eval_name (scopes : list namespace) (s : pystr) : res obj :=
  match scopes with
  | [] => Err EName
  | ns :: r => match dict_get ns s with Some o => Ok o | None => eval_name r s end
  end.

(** [ForwardRef._evaluate] of CPython 3.11 (typing.py): texts are turned into
    references, and references are evaluated in turn, unless they are being
    evaluated already.  [n] bounds the number of evaluations. *)
Fixpoint evaluate_ref (n : nat) (guard : list pystr) (scopes : list namespace) (s : pystr) : res obj :=
  if mem_str s guard then Ok (ORef s)
  else do o <- eval_name scopes s;
    match o with
    | OText s' | ORef s' =>
        match n with
        | O => Err ERecursion
        | S n' => evaluate_ref n' (s :: guard) scopes s'
        end
    | _ => Ok o
    end.

(** [locals()] in [evaluate_type]: its parameters (inspection.py 98, 109, 122). *)
Definition parameters (typ : obj) (m : nat) : namespace := [(str "typ", typ); (str "module", OModule m)].

(** inspection.py 98-127: [evaluate_type(typ, module)]; [globals] are the variables
    of the module [m]. *)
Definition evaluate_object (globals builtins : namespace) (m : nat) (typ : obj) : res obj :=
  let scopes := [parameters typ m; globals; builtins] in
  match typ with
  | OText s => eval_name scopes s
  | ORef s => evaluate_ref (S (S (length globals + length builtins))) [] scopes s
  | _ => Ok typ
  end.
