(** What a type refers to, and through its classes. *)
From Coq Require Import String List NArith ZArith Bool Relations.
From Verif Require Import Base Json PyTypes.
Import ListNotations.
Open Scope list_scope.

(** Classes of the program and of the library; [None] does not count. *)
Inductive classlike : typ -> Prop :=
| cl_scalar : forall k, k <> KNone -> classlike (TScalar k)
| cl_bare : forall b, classlike (TBare b)
| cl_class : forall c, classlike (TClass c).

Section Reach.
  Variable E : env.

  (** [mentions m t x]: the annotation [t], with references evaluated in module
      [m], has the class [x] in it. *)
  Inductive mentions (m : option nat) : typ -> typ -> Prop :=
  | me_self : forall x, classlike x -> mentions m x x
  | me_list : forall t x, mentions m t x -> mentions m (TList t) x
  | me_set : forall t x, mentions m t x -> mentions m (TSet t) x
  | me_key : forall k t x, mentions m k x -> mentions m (TDict k t) x
  | me_value : forall k t x, mentions m t x -> mentions m (TDict k t) x
  | me_tuple : forall ts t x, In t ts -> mentions m t x -> mentions m (TTuple ts) x
  | me_union : forall op ts t x, In t ts -> mentions m t x -> mentions m (TUnion op ts) x
  | me_annot : forall t md x, mentions m t x -> mentions m (TAnnot t md) x
  | me_ref : forall m' s b t x, m = Some m' -> lookup E m' s = Some (b, t) -> mentions m t x -> mentions m (TRef s) x.

  (** [refers x y]: an annotation of class [x] mentions [y]. *)
  Definition refers (x y : typ) : Prop :=
    exists c cl f u, x = TClass c /\ get_class E c = Some cl /\ In (f, u) (raw_fields (c_kind cl)) /\ mentions (Some (c_module cl)) u y.

  (** What is mentioned, what that refers to, and so on. *)
  Inductive reachable (m : option nat) (t : typ) : typ -> Prop :=
  | re_mention : forall x, mentions m t x -> reachable m t x
  | re_step : forall x y, reachable m t x -> refers x y -> reachable m t y.

  (** [finite m t]: evaluating the references in [t], in those of the result, and so
      on, but not in classes, comes to an end, and each evaluates to something. *)
  Inductive finite (m : option nat) : typ -> Prop :=
  | fi_scalar : forall k, finite m (TScalar k)
  | fi_bare : forall b, finite m (TBare b)
  | fi_class : forall c, finite m (TClass c)
  | fi_literal : forall ls, finite m (TLiteral ls)
  | fi_list : forall t, finite m t -> finite m (TList t)
  | fi_set : forall t, finite m t -> finite m (TSet t)
  | fi_dict : forall k t, finite m k -> finite m t -> finite m (TDict k t)
  | fi_tuple : forall ts, (forall t, In t ts -> finite m t) -> finite m (TTuple ts)
  | fi_union : forall op ts, (forall t, In t ts -> finite m t) -> (exists t, In t ts /\ t <> TScalar KNone) -> finite m (TUnion op ts)
  | fi_annot : forall t md, finite m t -> finite m (TAnnot t md)
  | fi_ref : forall m' s b t, m = Some m' -> lookup E m' s = Some (b, t) -> finite m t -> finite m (TRef s).
End Reach.

(** Classes that a type mentions exist, annotations can be evaluated. *)
Record program_ok (E : env) : Prop := {
  po_fields : forall c cl x t, get_class E c = Some cl -> In (x, t) (raw_fields (c_kind cl)) -> finite E (Some (c_module cl)) t;
  po_classes : forall c cl x t d, get_class E c = Some cl -> In (x, t) (raw_fields (c_kind cl)) ->
    mentions E (Some (c_module cl)) t (TClass d) -> get_class E d <> None;
  po_hints : forall c cl, get_class E c = Some cl -> exists hs, hints E cl = Ok hs
}.

(** Classes among [ts], those they refer to, and so on. *)
Inductive needed (E : env) (ts : list typ) : typ -> Prop :=
| nd_input : forall t, In t ts -> classlike t -> needed E ts t
| nd_step : forall x y, needed E ts x -> refers E x y -> needed E ts y.

(** Classes that refer to each other in a circle; references of a class to itself
    do not count. *)
Definition circular (E : env) (ts : list typ) : Prop :=
  exists x, needed E ts x /\ clos_trans typ (fun a b => refers E a b /\ a <> b) x x.

(** Class [c] exists and evaluating its annotations comes to an end. *)
Definition analysable (E : env) (c : nat) : Prop :=
  exists cl, get_class E c = Some cl /\ forall x t, In (x, t) (raw_fields (c_kind cl)) -> finite E (Some (c_module cl)) t.

(** [part E m t u]: [u] is a part of annotation [t], or what the text [t] evaluates to. *)
Inductive part (E : env) (m : option nat) : typ -> typ -> Prop :=
| pt_list : forall t, part E m (TList t) t
| pt_set : forall t, part E m (TSet t) t
| pt_key : forall k t, part E m (TDict k t) k
| pt_value : forall k t, part E m (TDict k t) t
| pt_tuple : forall ts t, In t ts -> part E m (TTuple ts) t
| pt_union : forall op ts t, In t ts -> part E m (TUnion op ts) t
| pt_annot : forall t md, part E m (TAnnot t md) t
| pt_ref : forall m' s b t, m = Some m' -> lookup E m' s = Some (b, t) -> part E m (TRef s) t.
