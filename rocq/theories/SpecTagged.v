(** Specification of tagged unions. *)
From Coq Require Import String List NArith ZArith Bool Permutation.
From Verif Require Import Base Json PyTypes Mapping Deser SpecTypes SpecNumbers SpecDeser SpecFields.
Import ListNotations.
Open Scope list_scope.

(** JSON data a literal stands for; bytes and members of enumerations are not
    JSON data. *)
Definition lit_json (l : lit) : option json :=
  match l with
  | LNone => Some JNull
  | LBool b => Some (JBool b)
  | LInt z => Some (JInt z)
  | LStr s => Some (JStr s)
  | LBytes _ | LEnum _ _ => None
  end.

Definition says (l : lit) (j : json) : Prop := exists w, lit_json l = Some w /\ json_equal w j.

(** The property [p] is present in [o] and not null. *)
Definition given (o : list (pystr * json)) (p : pystr) (j : json) : Prop := In (p, j) o /\ j <> JNull.

(** Among the values listed for property [p] by class [c] is [j]. *)
Definition claims (E : env) (c : nat) (p : pystr) (j : json) : Prop :=
  exists ls l, literal_property E c p ls /\ In l ls /\ says l j.

(** The same program run with another iteration order of sets. *)
Definition reorder (E : env) (f : list pystr -> list pystr) : env := mkEnv (e_classes E) (e_refs E) f.

Definition shuffles (f : list pystr -> list pystr) : Prop := forall ps, Permutation (f ps) ps.

(** [reach E m t m' t']: reading [t] may lead to reading [t'] (in module [m']). *)
Inductive reach (E : env) (m : nat) : typ -> nat -> typ -> Prop :=
| re_refl : forall t, reach E m t m t
| re_list : forall t m' u, reach E m t m' u -> reach E m (TList t) m' u
| re_set : forall t m' u, reach E m t m' u -> reach E m (TSet t) m' u
| re_dict : forall k t m' u, reach E m t m' u -> reach E m (TDict k t) m' u
| re_tuple : forall ts t m' u, In t ts -> reach E m t m' u -> reach E m (TTuple ts) m' u
| re_union : forall op ts t m' u, In t ts -> reach E m t m' u -> reach E m (TUnion op ts) m' u
| re_literal : forall ls l m' u, In l ls -> reach E m (lit_type l) m' u -> reach E m (TLiteral ls) m' u
| re_annot : forall t md m' u, reach E m t m' u -> reach E m (TAnnot t md) m' u
| re_ref : forall s a t m' u, lookup E m s = Some (a, t) -> reach E m (unwrap_annotated t) m' u ->
    reach E m (TRef s) m' u
| re_class : forall c cl hs x t w m' u, get_class E c = Some cl -> fieldwise cl -> hints E cl = Ok hs -> In (x, t) hs ->
    reads cl t w -> reach E (c_module cl) w m' u -> reach E m (TClass c) m' u.

Definition many_tags (E : env) (ts : list typ) : Prop := exists p q, p <> q /\ tag E ts p /\ tag E ts q.

(** Tags are plain data, and a tag is the JSON name of its field. *)
Definition plain_tags (E : env) (ts : list typ) : Prop :=
  forall p c cl ps t ls, tag E ts p -> In (TClass c) ts -> get_class E c = Some cl ->
  class_properties E cl = Ok ps -> In (p, t) ps -> literal_values t = Some ls ->
  fieldwise cl /\ json_name cl p t p /\ forall l, In l ls -> lit_json l <> None.

(** What reading [t] requires for the order of tags to be immaterial: unions
    with several tags have plain ones, and do not occur inside a member of a
    union without tags (which would go on to the next member depending on the
    kind of exception), unless it is the last one. *)
Record orderly (E : env) (m : nat) (t : typ) : Prop := {
  or_plain : forall m' op ts, reach E m t m' (TUnion op ts) -> many_tags E ts -> plain_tags E ts;
  or_last : forall m' op ts ts1 u ts2 m'' op' us, reach E m t m' (TUnion op ts) -> untagged E ts ->
    ts = ts1 ++ u :: ts2 -> ts2 <> [] -> reach E m' u m'' (TUnion op' us) -> ~ many_tags E us
}.

(** No union met while reading [t] has more than one tag. *)
Definition single_tags (E : env) (m : nat) (t : typ) : Prop :=
  forall m' op ts, reach E m t m' (TUnion op ts) -> ~ many_tags E ts.
