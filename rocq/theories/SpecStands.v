(** Objects that stand for instances of a class without being such, as instances of
    subclasses do. *)
From Coq Require Import String List NArith ZArith Bool.
From Verif Require Import Base Json PyTypes.
Import ListNotations.
Open Scope list_scope.
Open Scope nat_scope.

(** [stands E m t v w]: in a place annotated [t] in module [m], [v] stands for [w]: it is
    like [w], but where [w] has an instance of a class, [v] may have an object of any
    class that has the fields of the first, and others.  Members of unions do not
    take part. *)
Inductive stands (E : env) : nat -> typ -> value -> value -> Prop :=
| st_same : forall m t v, stands E m t v v
| st_list : forall m t vs ws, Forall2 (stands E m t) vs ws -> stands E m (TList t) (VList vs) (VList ws)
| st_set : forall m t vs ws, Forall2 (stands E m t) vs ws -> stands E m (TSet t) (VSet vs) (VSet ws)
| st_dict : forall m k t ks vs ws, length ks = length vs -> Forall2 (stands E m t) vs ws ->
    stands E m (TDict k t) (VDict (combine ks vs)) (VDict (combine ks ws))
| st_tuple : forall m ts vs ws, places E m ts vs ws -> stands E m (TTuple ts) (VTuple vs) (VTuple ws)
| st_annot : forall m t md v w, stands E m t v w -> stands E m (TAnnot t md) v w
| st_ref : forall m s a t v w, lookup E m s = Some (a, t) -> stands E m t v w -> stands E m (TRef s) v w
| st_obj : forall m c cl ps d attrs vs ws,
    get_class E c = Some cl -> c_to_json cl = None ->
    (match c_kind cl with CData _ _ | CTuple (_ :: _) | CPlain (_ :: _) => True | _ => False end) ->
    class_properties E cl = Ok ps ->
    Forall2 (fun x v => dict_get attrs x = Some v) (map fst ps) vs ->
    places E (c_module cl) (map snd ps) vs ws ->
    stands E m (TClass c) (VObj d attrs) (VObj c (combine (map fst ps) ws))
with places (E : env) : nat -> list typ -> list value -> list value -> Prop :=
| pl_nil : forall m, places E m [] [] []
| pl_cons : forall m t ts v vs w ws, stands E m t v w -> places E m ts vs ws -> places E m (t :: ts) (v :: vs) (w :: ws).
