(** C10, C11, C12: the cache of deserializers. *)
From Coq Require Import String List NArith ZArith Bool Lia.
From Verif Require Import Base Json PyTypes Mapping Deser DeserCache SpecTyping SpecTypes SpecFields SpecTagged SpecCache SpecRecursion
  DeserCacheProofs Samples PropFields.
Import ListNotations.
Open Scope list_scope.
Open Scope nat_scope.

(** C10.  After any sequence of calls with the same options, each of which
    succeeded in creating its deserializer or failed without a trace, a call
    produces the outcome it would produce in a fresh interpreter; calls for types
    with no class or alias in common may have had any options and outcome. *)
Theorem C10_transparent : forall E skip m t j st, names_unique E -> canonical_env E -> guarded_env E -> calm E ->
  past E skip m t st -> every_part (guarded E m) t ->
  fst (json_to_object_in E skip m t j st) = json_to_object E skip m t j.
Proof. intros E skip m t j st NU CE GE C. exact (transparent E NU CE GE C skip m t j st). Qed.
Print Assumptions C10_transparent.

(** C11 for calls that have no class or alias in common (it fails otherwise, see
    below): whatever options earlier calls had, a call obeys its own. *)
Theorem C11_unrelated_partial : forall E skip m t j calls, names_unique E -> canonical_env E -> guarded_env E -> calm E ->
  every_part (guarded E m) t ->
  (forall skip' m' t' j', In (skip', m', t', j') calls -> ~ related E m t m' t') ->
  fst (json_to_object_in E skip m t j (after E calls empty)) = json_to_object E skip m t j.
Proof. intros E skip m t j calls NU CE GE C. exact (unrelated_calls E NU CE GE C skip m t j calls). Qed.
Print Assumptions C11_unrelated_partial.

(** C11.  What happens otherwise: the options of the call in which a class was
    first met are in force for good. *)
Theorem C11_first_wins : forall E skip skip' m c cl j st, names_unique E -> canonical_env E -> guarded_env E -> calm E ->
  past E skip m (TClass c) st -> get_class E c = Some cl -> cached st cl ->
  json_to_object_in E skip' m (TClass c) j st = (json_to_object E skip m (TClass c) j, st).
Proof. intros E skip skip' m c cl j st NU CE GE C. exact (first_wins E NU CE GE C skip skip' m c cl j st). Qed.
Print Assumptions C11_first_wins.

(** C12 for types that have no class or alias in common with the one that failed
    (it fails otherwise, see below): the failure has no effect. *)
Theorem C12_unrelated_partial : forall E skip skip' m t j m' t' e st st', names_unique E -> canonical_env E -> guarded_env E -> calm E ->
  every_part (guarded E m) t -> past E skip m t st ->
  create_in E skip' m' t' st = (Err e, st') -> ~ related E m t m' t' ->
  fst (json_to_object_in E skip m t j st') = fst (json_to_object_in E skip m t j st).
Proof.
  intros E skip skip' m t j m' t' e st st' NU CE GE C P H Q NR.
  rewrite (transparent E NU CE GE C skip m t j st' (pa_unrelated _ _ _ _ st skip' m' t' _ st' H Q NR) P).
  symmetry. exact (transparent E NU CE GE C skip m t j st H P).
Qed.
Print Assumptions C12_unrelated_partial.

(** C12.  What happens otherwise: when the deserializer of a class could not be
    created, whatever the reason, the next call finds a
    half-constructed one, which raises AttributeError on every JSON object. *)
Theorem C12_poisoned : forall E skip skip' m m' c cl st e st1 j, get_class E c = Some cl ->
  create_in E skip m (TClass c) st = (Err e, st1) ->
  json_to_object_in E skip' m' (TClass c) j st1 = (match j with JObj _ => Err EAttribute | _ => Err EJsonType end, st1).
Proof. exact class_poisoned. Qed.
Print Assumptions C12_poisoned.

(** * Witnesses *)

Lemma zoo_names : names_unique Zoo.
Proof.
  split.
  - intros c d cl dl H H' _. zoo_class c H; zoo_class d H'; intros Q; try reflexivity; vm_compute in Q; discriminate Q.
  - intros c cl s u H L SF Q. assert (X : u = TClass 2 \/ s = str "Json").
    { unfold lookup, Zoo in L. cbn [e_refs find_ref] in L.
      destruct (_ && _) in L; [injection L as <-; auto|].
      destruct (_ && _) eqn:X in L.
      - right. apply andb_true_iff in X. destruct X as [_ X]. apply pystr_eqb_eq in X. auto.
      - destruct (_ && _) in L; discriminate L. }
    destruct X as [->| ->]; [contradiction|]. zoo_class c H; vm_compute in Q; discriminate Q.
Qed.

Definition json_ref : typ := TRef (str "Json").
Definition pets : typ := TUnion false [TClass 4; TClass 5].

(** Three earlier calls, the first for a recursive class, the second one for a
    recursive alias, and the third unsuccessful (an unannotated [list]). *)
Definition st1 := snd (create_in Zoo false 0 (TClass 2) empty).
Definition st2 := snd (create_in Zoo false 0 (TTuple [json_ref; TClass 1]) st1).
Definition st3 := snd (create_in Zoo false 0 (TList (TBare BList)) st2).

(** A fourth one with other options, for unrelated classes. *)
Definition st4 := snd (create_in Zoo true 0 pets st3).

Definition plainish (t : typ) : Prop :=
  match t with TScalar _ | TBare _ | TLiteral [LStr _] | TDict (TScalar _) (TScalar _) => True | _ => False end.

Definition pets_list : typ := TTuple [pets; TBare BList].
Definition of_pets (t : typ) : Prop := t = pets \/ t = TClass 4 \/ t = TClass 5 \/ plainish t \/ t = pets_list.

Lemma plainish_read : forall t u, plainish t -> read_type t u -> u = t.
Proof.
  intros t u P [[O _]|[_ Q]]; [|exact Q]. destruct t as [| | | |[] []| | |[|[] []]| | | |]; try contradiction; destruct O as (op & ts & _ & [Q|(md' & Q)]); discriminate.
Qed.

Lemma pets_reach : forall m t m' u, reach Zoo m t m' u -> of_pets t -> of_pets u.
Proof.
  intros m t m' u R. induction R as [m t|m t m' u R IH|m t m' u R IH|m k t m' u R IH|m ts t m' u J R IH|m op ts t m' u J R IH|m ls l m' u J R IH
    |m t md m' u R IH|m s a t m' u L R IH|m c cl hs x t w m' u G F H J W R IH]; intros Q; auto;
    try (destruct Q as [Q|[Q|[Q|[Q|Q]]]]; try discriminate Q; try contradiction Q).
  - apply IH. right. right. right. left. destruct k, t; try contradiction; exact I.
  - injection Q as ->. apply IH. destruct J as [<-|[<-|[]]]; unfold of_pets; auto. right. right. right. left. exact I.
  - injection Q as -> ->. apply IH. destruct J as [<-|[<-|[]]]; unfold of_pets; auto.
  - destruct ls as [|[] [|]]; try contradiction. destruct J as [<-|[]]. apply IH. right. right. right. left. exact I.
  - injection Q as ->. unfold get_class, Zoo in G. cbn [e_classes nth_error] in G. injection G as <-.
    vm_compute in H. injection H as <-. apply IH. right. right. right. left.
    destruct J as [J|[J|[]]]; injection J as <- <-; (apply plainish_read in W; [subst w|]; exact I).
  - injection Q as ->. unfold get_class, Zoo in G. cbn [e_classes nth_error] in G. injection G as <-.
    vm_compute in H. injection H as <-. apply IH. right. right. right. left.
    destruct J as [J|[J|[]]]; injection J as <- <-; (apply plainish_read in W; [subst w|]; exact I).
Qed.

Definition of_node (t : typ) : Prop :=
  t = TClass 2 \/ t = TList (TRef (str "Node")) \/ t = TList (TClass 2) \/ t = TRef (str "Node") \/
  match t with TScalar _ | TAnnot (TScalar _) _ => True | _ => False end.

Lemma node_read : forall t u, (match t with TAnnot (TScalar _) _ | TList _ => True | _ => False end) -> read_type t u -> u = t.
Proof.
  intros t u P [[O _]|[_ Q]]; [|exact Q]. destruct t as [| | | | | | | |[]| | |]; try contradiction; destruct O as (op & ts & _ & [Q|(md' & Q)]); discriminate.
Qed.

Lemma node_reach : forall m t m' u, reach Zoo m t m' u -> m = 0 -> of_node t -> of_node u.
Proof.
  intros m t m' u R. induction R as [m t|m t m' u R IH|m t m' u R IH|m k t m' u R IH|m ts t m' u J R IH|m op ts t m' u J R IH|m ls l m' u J R IH
    |m t md m' u R IH|m s a t m' u L R IH|m c cl hs x t w m' u G F H J W R IH]; intros M Q; auto;
    try (destruct Q as [Q|[Q|[Q|[Q|Q]]]]; try discriminate Q; try contradiction Q); subst m.
  - injection Q as ->. apply IH; [reflexivity|]. unfold of_node. auto.
  - injection Q as ->. apply IH; [reflexivity|]. unfold of_node. auto.
  - apply IH; [reflexivity|]. destruct t; try contradiction. unfold of_node. auto.
  - injection Q as ->. vm_compute in L. injection L as <- <-. apply IH; [reflexivity|]. unfold of_node. auto.
  - injection Q as ->. unfold get_class, Zoo in G. cbn [e_classes nth_error] in G. injection G as <-.
    vm_compute in H. injection H as <-. apply IH; [reflexivity|].
    destruct J as [J|[J|[]]]; injection J as <- <-; (apply node_read in W; [subst w; unfold of_node; auto 6 | exact I]).
Qed.

Lemma zoo_unrelated : forall t, of_pets t -> ~ related Zoo 0 (TClass 2) 0 t.
Proof.
  intros t P [(c & a & b & R & R')|(s & a & R & R')].
  - apply node_reach in R; [|reflexivity | left; reflexivity]. apply pets_reach in R'; [|exact P].
    destruct R as [Q|[Q|[Q|[Q|Q]]]]; try discriminate Q; try contradiction Q. injection Q as ->.
    destruct R' as [Q|[Q|[Q|[Q|Q]]]]; try discriminate Q; contradiction Q.
  - apply pets_reach in R'; [|exact P]. destruct R' as [Q|[Q|[Q|[Q|Q]]]]; try discriminate Q; contradiction Q.
Qed.

(** A call with other options, and one that fails after two classes have been
    entered in the cache; the recursive class is unrelated. *)
Example C11_witness : forall j, In j [JNull] -> ~ related Zoo 0 (TClass 2) 0 pets /\
  cache (after Zoo [(true, 0, pets, j)] empty) <> [].
Proof. intros j [<-|[]]. split; [apply zoo_unrelated; left; reflexivity | vm_compute; discriminate]. Qed.

Example C12_witness : ~ related Zoo 0 (TClass 2) 0 pets_list /\
  fst (create_in Zoo false 0 pets_list empty) = Err EType /\
  map fst (cache (snd (create_in Zoo false 0 pets_list empty))) = [(0, str "Cat"); (0, str "Dog")].
Proof. split; [apply zoo_unrelated; unfold of_pets; auto | split; vm_compute; reflexivity]. Qed.

Example C10_witness :
  names_unique Zoo /\ canonical_env Zoo /\ guarded_env Zoo /\ calm Zoo /\ past Zoo false 0 (TClass 2) st4 /\
  map fst (cache st4) = [(0, str "Cat"); (0, str "Dog"); (0, str "Point"); (0, str "Json"); (0, str "Node")] /\
  create_in Zoo false 0 (TClass 2) st4 = (Ok 0, st4) /\
  fst (json_to_object_in Zoo false 0 (TClass 2) tree_json st4) = Ok tree_value.
Proof.
  split; [exact zoo_names|]. split; [exact zoo_canonical|]. split; [exact zoo_guarded|]. split; [exact zoo_calm|]. split.
  { apply (pa_unrelated _ _ _ _ st3 true 0 pets (fst (create_in Zoo true 0 pets st3)));
      [|vm_compute; reflexivity | apply zoo_unrelated; left; reflexivity].
    apply (pa_traceless _ _ _ _ st2 false 0 (TList (TBare BList)) EType); [|vm_compute; reflexivity | vm_compute; reflexivity].
    apply (pa_created _ _ _ _ st1 0 (TTuple [json_ref; TClass 1]) 3); [|vm_compute; reflexivity].
    apply (pa_created _ _ _ _ empty 0 (TClass 2) 0); [apply pa_start | vm_compute; reflexivity]. }
  split; [vm_compute; reflexivity|]. split; vm_compute; reflexivity.
Qed.

(** C10 needs unique names: the cache goes by [__name__], which two classes
    nested in different classes of a module may share.

    class A:
        @dataclass
        class Item: x: int
    class B:
        @dataclass
        class Item: y: str *)
Definition ItemA := mkClass 0 (str "Item") (CData false [mkField (str "x") tint None]) None None.
Definition ItemB := mkClass 0 (str "Item") (CData false [mkField (str "y") tstr None]) None None.
Definition Items : env := mkEnv [ItemA; ItemB] [] (fun ps => ps).

Theorem C10_same_name_refuted : exists E st j v, env_ok E /\ guarded_env E /\ calm E /\ canonical_env E /\ past E false 0 (TClass 1) st /\
  json_to_object E false 0 (TClass 1) j = Ok v /\ fst (json_to_object_in E false 0 (TClass 1) j st) = Err EJsonKey.
Proof.
  exists Items, (snd (create_in Items false 0 (TClass 0) empty)), (JObj [(str "y", jstr "b")]), (VObj 1 [(str "y", vstr "b")]).
  assert (CL : forall c cl, get_class Items c = Some cl -> cl = ItemA \/ cl = ItemB).
  { intros c cl H. unfold get_class, Items in H. cbn [e_classes] in H. destruct c as [|[|[|c]]]; cbn [nth_error] in H; try discriminate;
      injection H as <-; auto. }
  split.
  { intros c cl H. apply CL in H. destruct H as [->| ->]; (split; cbn; try discriminate; try (nodup; fail));
      intros fr fs f v Q I D; injection Q as <- <-; destruct I as [<-|[]]; discriminate. }
  split.
  { split.
    - intros c cl x t H I. apply CL in H. destruct H as [->| ->]; destruct I as [Q|[]]; injection Q as <- <-; cbn; prove_guarded.
    - discriminate.
    - discriminate. }
  split.
  { split.
    - intros c cl h j H. apply CL in H. destruct H as [->| ->]; discriminate.
    - intros c cl fr fs f H Q I. apply CL in H. destruct H as [->| ->]; injection Q as <- <-; destruct I as [<-|[]]; discriminate. }
  split.
  { split; [discriminate|]. intros c cl x t H J. apply CL in H. destruct H as [->| ->]; destruct J as [Q|[]]; injection Q as <- <-; constructor. }
  split; [|split; vm_compute; reflexivity].
  apply (pa_created _ _ _ _ empty 0 (TClass 0) 0); [apply pa_start | vm_compute; reflexivity].
Qed.
Print Assumptions C10_same_name_refuted.

(** C11 fails: after a call with [skip_unassigned], a call without it ignores
    unknown properties too. *)
Definition spare_json : json := JObj [(str "x", JInt 1); (str "spare", JNull)].

Theorem C11_refuted : exists E m t j st v, env_ok E /\ names_unique E /\ guarded_env E /\ calm E /\ past E true m t st /\
  json_to_object E false m t j = Err EJsonKey /\ fst (json_to_object_in E false m t j st) = Ok v.
Proof.
  exists Zoo, 0, (TClass 1), spare_json, (snd (json_to_object_in Zoo true 0 (TClass 1) spare_json empty)),
    (VObj 1 [(str "x", VInt 1); (str "y", VNone); (str "class_", vstr "p")]).
  split; [exact zoo_ok|]. split; [exact zoo_names|]. split; [exact zoo_guarded|]. split; [exact zoo_calm|].
  split; [|split; vm_compute; reflexivity]. apply (pa_created _ _ _ _ empty 0 (TClass 1) 0); [apply pa_start | vm_compute; reflexivity].
Qed.
Print Assumptions C11_refuted.

(** The converse: a class first met without the option stays strict. *)
Theorem C11_strict_refuted : exists E m t j st v, env_ok E /\ names_unique E /\ guarded_env E /\ calm E /\ past E false m t st /\
  json_to_object E true m t j = Ok v /\ fst (json_to_object_in E true m t j st) = Err EJsonKey.
Proof.
  exists Zoo, 0, (TClass 1), spare_json, (snd (json_to_object_in Zoo false 0 (TClass 1) spare_json empty)),
    (VObj 1 [(str "x", VInt 1); (str "y", VNone); (str "class_", vstr "p")]).
  split; [exact zoo_ok|]. split; [exact zoo_names|]. split; [exact zoo_guarded|]. split; [exact zoo_calm|].
  split; [|split; vm_compute; reflexivity]. apply (pa_created _ _ _ _ empty 0 (TClass 1) 0); [apply pa_start | vm_compute; reflexivity].
Qed.
Print Assumptions C11_strict_refuted.

(** C12 fails: the second attempt raises another exception than the first, on
    documents that hold no clue.

    @dataclass class Bag: items: list *)
Definition Bag := mkClass 0 (str "Bag") (CData false [mkField (str "items") (TBare BList) None]) None None.
Definition Bags : env := mkEnv [Bag] [] (fun ps => ps).

Theorem C12_refuted : exists E m t j st,
  json_to_object_in E false m t j empty = (Err EType, st) /\ json_to_object E false m t j = Err EType /\
  json_to_object_in E false m t j st = (Err EAttribute, st).
Proof.
  exists Bags, 0, (TClass 0), (JObj [(str "items", JArr [])]), (snd (create_in Bags false 0 (TClass 0) empty)).
  split; [|split]; vm_compute; reflexivity.
Qed.
Print Assumptions C12_refuted.
