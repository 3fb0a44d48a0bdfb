(** All outcomes of [is_generic_instance], exceptions included. *)
From Coq Require Import String List NArith ZArith Bool.
From Verif Require Import Base Json PyTypes SpecInspect.
Import ListNotations.
Open Scope list_scope.

(** Outcomes: true, false, or [None] for TypeError.  [all_of]: of conditions that are
    tried in turn up to the first that does not hold; [any_of]: up to the first that does
    not fail. *)
Inductive all_of {A} (P : A -> option bool -> Prop) : list A -> option bool -> Prop :=
| al_done : all_of P [] (Some true)
| al_next : forall x l o, P x (Some true) -> all_of P l o -> all_of P (x :: l) o
| al_stop : forall x l o, P x o -> o <> Some true -> all_of P (x :: l) o.

Inductive any_of {A} (P : A -> option bool -> Prop) : list A -> option bool -> Prop :=
| an_done : any_of P [] (Some false)
| an_next : forall x l o, P x (Some false) -> any_of P l o -> any_of P (x :: l) o
| an_stop : forall x l o, P x o -> o <> Some false -> any_of P (x :: l) o.

(** Classes. *)
Definition simple (t : typ) : Prop := (exists k, t = TScalar k) \/ (exists b, t = TBare b) \/ exists c, t = TClass c.

(** Types that are no classes, and that nothing is an instance of. *)
Definition unsupported (t : typ) : Prop :=
  (exists ls, t = TLiteral ls) \/ (exists u md, t = TAnnot u md) \/ (exists ts, t = TUnion true ts) \/ t = TForm.

Inductive outcome (E : env) : value -> typ -> option bool -> Prop :=
| ou_is : forall v t, simple t -> instance E v t -> outcome E v t (Some true)
| ou_is_not : forall v t, simple t -> ~ instance E v t -> outcome E v t (Some false)
| ou_unsupported : forall v t, unsupported t -> outcome E v t None
| ou_list : forall vs t o, all_of (fun x => outcome E x t) vs o -> outcome E (VList vs) (TList t) o
| ou_no_list : forall v t, (forall vs, v <> VList vs) -> outcome E v (TList t) (Some false)
| ou_set : forall vs t o, all_of (fun x => outcome E x t) vs o -> outcome E (VSet vs) (TSet t) o
| ou_no_set : forall v t, (forall vs, v <> VSet vs) -> outcome E v (TSet t) (Some false)
| ou_dict : forall kvs k t o, all_of (fun p => all_of (fun xt => outcome E (fst xt) (snd xt)) [(fst p, k); (snd p, t)]) kvs o ->
    outcome E (VDict kvs) (TDict k t) o
| ou_no_dict : forall v k t, (forall kvs, v <> VDict kvs) -> outcome E v (TDict k t) (Some false)
| ou_tuple : forall v vs ts o, items E v vs -> all_of (fun xt => outcome E (fst xt) (snd xt)) (combine vs ts) o -> outcome E v (TTuple ts) o
| ou_no_tuple : forall v ts, (forall vs, ~ items E v vs) -> outcome E v (TTuple ts) (Some false)
| ou_union : forall v ts o, any_of (fun t => outcome E v t) ts o -> outcome E v (TUnion false ts) o.

(** No references to types by name. *)
Inductive no_ref : typ -> Prop :=
| nr_simple : forall t, simple t -> no_ref t
| nr_unsupported : forall t, unsupported t -> no_ref t
| nr_list : forall t, no_ref t -> no_ref (TList t)
| nr_set : forall t, no_ref t -> no_ref (TSet t)
| nr_dict : forall k t, no_ref k -> no_ref t -> no_ref (TDict k t)
| nr_tuple : forall ts, (forall t, In t ts -> no_ref t) -> no_ref (TTuple ts)
| nr_union : forall ts, (forall t, In t ts -> no_ref t) -> no_ref (TUnion false ts).
