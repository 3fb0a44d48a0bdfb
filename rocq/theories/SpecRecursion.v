(** Types whose expansion always reaches a container or class, so that every
    round of the expansion consumes a level of the document. *)
From Coq Require Import String List NArith ZArith Bool.
From Verif Require Import Base Json PyTypes.
Import ListNotations.
Open Scope list_scope.

(** [guarded E m t]: expanding unions, annotations and references at the top of
    [t] comes to an end. *)
Inductive guarded (E : env) (m : nat) : typ -> Prop :=
| g_leaf : forall t,
    (match t with TUnion _ _ | TAnnot _ _ | TRef _ => False | _ => True end) -> guarded E m t
| g_union : forall op ts, Forall (guarded E m) ts -> guarded E m (TUnion op ts)
| g_annot : forall t md, guarded E m t -> guarded E m (TAnnot t md)
| g_ref : forall s, (forall a t, lookup E m s = Some (a, t) -> guarded E m t) -> guarded E m (TRef s).

(** [P] holds of every part of [t]. *)
Fixpoint every_part (P : typ -> Prop) (t : typ) : Prop :=
  P t /\
  match t with
  | TList u | TSet u | TAnnot u _ => every_part P u
  | TDict k v => every_part P k /\ every_part P v
  | TTuple ts | TUnion _ ts => fold_right (fun u a => every_part P u /\ a) True ts
  | _ => True
  end.

Definition is_ref (t : typ) : Prop := match t with TRef _ => True | _ => False end.

(** All annotations and aliases of the program are guarded. *)
Record guarded_env (E : env) : Prop := {
  ge_fields : forall c cl x t, get_class E c = Some cl -> In (x, t) (raw_fields (c_kind cl)) ->
    every_part (guarded E (c_module cl)) t;
  ge_refs : forall m s a t, lookup E m s = Some (a, t) -> every_part (guarded E m) t;
  (** texts that are not attributes of the module (such as ["list[Node]"])
      evaluate to types without further texts *)
  ge_plain : forall m s t, lookup E m s = Some (false, t) -> every_part (fun u => ~ is_ref u) t
}.

(** User code (hooks and default factories) does not raise RecursionError. *)
Record calm (E : env) : Prop := {
  calm_hook : forall c cl h j, get_class E c = Some cl -> c_from_json cl = Some h ->
    h j <> Err ERecursion;
  calm_default : forall c cl fr fs f, get_class E c = Some cl -> c_kind cl = CData fr fs ->
    In f fs -> f_default f <> Some (Err ERecursion)
}.
