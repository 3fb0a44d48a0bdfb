(** C27, C28: referenced types and their topological order. *)
From Coq Require Import String List NArith ZArith Bool Lia Permutation Relations.
From Verif Require Import Base Json PyTypes Topological SpecTopological Collector SpecTypes SpecFields SpecCollector CollectorProofs CollectorExact Samples PropFields.
Import ListNotations.
Open Scope list_scope.
Open Scope nat_scope.

(** C27.  The result is exactly the set of classes reachable through annotations. *)
Theorem C27_reachable : forall E n t m refs, get_referenced_types E n t m = Ok refs ->
  forall b, In b refs <-> exists x, b = NType x /\ reachable E m t x.
Proof. exact referenced_spec. Qed.
Print Assumptions C27_reachable.

(** C27.  The traversal comes to an end exactly if evaluating references does, without
    entering classes, in the type and in the annotations of the classes reached,
    however these refer to each other. *)
Theorem C27_terminates : forall E t m, canonical_env E -> canonical t ->
  ((exists N refs, forall n, N <= n -> get_referenced_types E n t m = Ok refs) <->
   finite E m t /\ forall c, reachable E m t (TClass c) -> analysable E c) /\
  ((forall n refs, get_referenced_types E n t m <> Ok refs) <->
   ~ (finite E m t /\ forall c, reachable E m t (TClass c) -> analysable E c)).
Proof. exact referenced_exact. Qed.
Print Assumptions C27_terminates.

(** C27.  In a program in which references evaluate to something, it does for all
    types that exist. *)
Theorem C27_program : forall E, program_ok E -> forall t m, finite E m t ->
  (forall d, mentions E m t (TClass d) -> get_class E d <> None) ->
  exists N refs, forall n, N <= n -> get_referenced_types E n t m = Ok refs.
Proof. exact referenced_total. Qed.
Print Assumptions C27_program.

(** C27.  It does not if a part of the type, or of an annotation of a class that is
    reached, contains itself. *)
Theorem C27_endless : forall E t m, canonical_env E -> canonical t ->
  (forall u, clos_refl_trans typ (part E m) t u -> clos_trans typ (part E m) u u ->
     forall n refs, get_referenced_types E n t m <> Ok refs) /\
  (forall c cl x w u, reachable E m t (TClass c) -> get_class E c = Some cl -> In (x, w) (raw_fields (c_kind cl)) ->
     clos_refl_trans typ (part E (Some (c_module cl))) w u -> clos_trans typ (part E (Some (c_module cl))) u u ->
     forall n refs, get_referenced_types E n t m <> Ok refs).
Proof.
  intros E t m CE C. split.
  - intros u. exact (referenced_endless E t m u CE C).
  - intros c cl x w u. exact (class_endless E t m c cl x w u CE C).
Qed.
Print Assumptions C27_endless.

(** The classes of Zoo; [Node] refers to itself, [Plain] to [Pair] through a text. *)
Lemma Zoo_program_ok : program_ok Zoo.
Proof.
  assert (EX : forall c, c < 8 -> get_class Zoo c <> None).
  { intros c L. do 8 (destruct c as [|c]; [discriminate|]). lia. }
  split.
  - intros c cl x t G I. zoo_class c G; cbn in I; repeat (destruct I as [I|I]; [apply pair_equal_spec in I as [<- <-]|]); try contradiction;
      repeat (first [apply fi_scalar|apply fi_class|apply fi_literal|apply fi_list|apply fi_set|apply fi_dict|apply fi_annot]).
    + apply fi_union; [intros t [<-|[<-|[]]]; constructor|]. exists tint. split; [left; reflexivity|discriminate].
    + eapply fi_ref; [reflexivity|reflexivity|constructor].
    + eapply fi_ref; [reflexivity|reflexivity|]. apply fi_union; [intros t [<-|[<-|[]]]; constructor|]. exists (TClass 3). split; [left; reflexivity|discriminate].
  - intros c cl x t d G I M.
    assert (D : d = 0 \/ d = 2 \/ d = 3).
    { zoo_class c G; cbn in I; repeat (destruct I as [I|I]; [apply pair_equal_spec in I as [<- <-]|]); try contradiction; cbn in M; unfold tint, tstr, tnone in M;
      do 6 try match goal with
      | M : mentions _ _ (TList _) _ |- _ => apply (proj1 (mentions_list_iff _ _ _ _)) in M
      | M : mentions _ _ (TSet _) _ |- _ => apply (proj1 (mentions_set_iff _ _ _ _)) in M
      | M : mentions _ _ (TDict _ _) _ |- _ => apply mentions_dict_iff in M; destruct M as [M|M]
      | M : mentions _ _ (TAnnot _ _) _ |- _ => apply (proj1 (mentions_annot_iff _ _ _ _ _)) in M
      | M : mentions _ _ (TUnion _ _) _ |- _ => apply mentions_union_iff in M; destruct M as (w & J & M); repeat (destruct J as [<-|J]); try contradiction
      | M : mentions _ _ (TRef _) _ |- _ => apply mentions_ref_iff in M; destruct M as (m2 & b2 & t2 & Q2 & L2 & M); injection Q2 as <-; vm_compute in L2; injection L2 as <- <-
      | M : mentions _ _ (TScalar _) _ |- _ => inversion M; subst; clear M
      | M : mentions _ _ (TLiteral _) _ |- _ => inversion M; subst; clear M
      | M : mentions _ _ (TClass _) _ |- _ => inversion M; subst; clear M
      end; auto; try match goal with H : classlike _ |- _ => inversion H end. }
    apply EX. lia.
  - intros c cl G. zoo_class c G; eexists; vm_compute; reflexivity.
Qed.

Example C27_witness_endless : canonical_env Zoo /\ canonical (TRef (str "Json"))
  /\ clos_trans typ (part Zoo (Some 0)) (TRef (str "Json")) (TRef (str "Json")).
Proof.
  split; [exact zoo_canonical|]. split; [constructor|].
  eapply t_trans; [apply t_step; eapply pt_ref; reflexivity|].
  apply t_trans with (TList (TRef (str "Json"))); apply t_step; [|constructor]. apply pt_union. do 4 right. left. reflexivity.
Qed.

Example C27_witness_terminates : canonical_env Zoo /\ canonical (TClass 7) /\ finite Zoo (Some 0) (TClass 7)
  /\ (forall c, reachable Zoo (Some 0) (TClass 7) (TClass c) -> analysable Zoo c) /\ reachable Zoo (Some 0) (TClass 7) (TClass 3).
Proof.
  split; [exact zoo_canonical|]. split; [constructor|]. split; [constructor|]. split.
  - intros c RE. destruct (get_class Zoo c) as [cl|] eqn:G.
    + exists cl. split; [exact G|]. intros x t I. exact (po_fields Zoo Zoo_program_ok c cl x t G I).
    + exfalso. remember (TClass c) as w eqn:Q. destruct RE as [w M|w y _ RF].
      * subst w. inversion M; subst. discriminate G.
      * subst y. destruct RF as (c' & cl & f & u & -> & G' & I & M). exact (po_classes Zoo Zoo_program_ok c' cl f u c G' I M G).
  - eapply re_step; [constructor; constructor; constructor|].
    exists 7, Plain, (str "link"), (TRef (str "Optional[Pair]")). repeat apply conj; try reflexivity; [right; left; reflexivity|].
    eapply me_ref; [reflexivity|reflexivity|]. eapply me_union; [left; reflexivity|]. constructor. constructor.
Qed.

Example C27_witness : program_ok Zoo /\ finite Zoo (Some 0) (TList (TRef (str "Node")))
  /\ (forall d, mentions Zoo (Some 0) (TList (TRef (str "Node"))) (TClass d) -> get_class Zoo d <> None)
  /\ (exists n refs, get_referenced_types Zoo n (TList (TRef (str "Node"))) (Some 0) = Ok refs)
  /\ reachable Zoo (Some 0) (TList (TRef (str "Node"))) tint.
Proof.
  split; [exact Zoo_program_ok|]. split; [constructor; eapply fi_ref; [reflexivity|reflexivity|constructor]|]. split; [|split].
  - intros d M. apply (proj1 (mentions_list_iff _ _ _ _)) in M. apply mentions_ref_iff in M. destruct M as (m2 & b2 & t2 & Q2 & L2 & M). injection Q2 as <-. vm_compute in L2. injection L2 as <- <-.
    inversion M; subst. discriminate.
  - exists 9. eexists. vm_compute. reflexivity.
  - apply re_step with (TClass 2).
    + constructor. constructor. eapply me_ref; [reflexivity|reflexivity|]. constructor. constructor.
    + exists 2, Node, (str "value"), (TAnnot tint [AAlias (str "val")]). repeat apply conj; try reflexivity; [left; reflexivity|].
      repeat constructor. discriminate.
Qed.

(** C27.  On a recursive alias, such as
    [Json = Union[None, bool, int, str, list["Json"], dict[str, "Json"]]], the
    traversal does not terminate: however deep the recursion may go, it is not deep
    enough. *)
Theorem C27_alias_refuted : exists E t m, forall n, get_referenced_types E n t m = Err ERecursion.
Proof.
  exists Zoo, (TRef (str "Json")), (Some 0).
  assert (LEAF : forall n t g, match t with TScalar KNone => False | TScalar _ => True | _ => False end ->
    exists g', run Zoo (S n) t NRoot (Some 0) g = Ok g').
  { intros n t g HT. destruct t as [k| | | | | | | | | | |]; try contradiction. rewrite run_S. cbv zeta. destruct k; try contradiction; destruct (has_key _ _); eexists; reflexivity. }
  assert (L : lookup Zoo 0 (str "Json") = Some (true, JsonAlias)) by reflexivity.
  assert (Q : forall n g, run Zoo n (TRef (str "Json")) NRoot (Some 0) g = Err ERecursion
    /\ run Zoo n JsonAlias NRoot (Some 0) g = Err ERecursion /\ run Zoo n (TList (TRef (str "Json"))) NRoot (Some 0) g = Err ERecursion).
  { induction n as [|n IH]; intros g; [repeat apply conj; reflexivity|]. repeat apply conj.
    - rewrite run_S. cbv zeta. rewrite L. apply IH.
    - rewrite run_S. cbv zeta. unfold JsonAlias at 1. destruct n as [|n]; [reflexivity|].
      change (run Zoo (S n) tnone NRoot (Some 0) g) with (@Ok tgraph g). cbn [bind].
      destruct (LEAF n (TScalar KBool) g Logic.I) as (g1 & R1). rewrite R1. cbn [bind].
      destruct (LEAF n tint g1 Logic.I) as (g2 & R2). rewrite R2. cbn [bind].
      destruct (LEAF n tstr g2 Logic.I) as (g3 & R3). rewrite R3. cbn [bind].
      destruct (IH g3) as (_ & _ & R4). rewrite R4. reflexivity.
    - rewrite run_S. cbv zeta. destruct (IH g) as (R & _ & _). rewrite R. reflexivity. }
  intros n. unfold get_referenced_types. rewrite (proj1 (Q n new_collector)). reflexivity.
Qed.
Print Assumptions C27_alias_refuted.

(** C28.  The outcome lists, once each, the classes given, those they refer to, and so
    on (and the internal class [_ROOT]); a class comes after those it refers to. *)
Theorem C28_sorted : forall E order, (forall l, Permutation (order l) l) ->
  forall n ts l, type_topological_sort E n order ts None = Ok l ->
    NoDup l /\ (forall k, In k l <-> k = NRoot \/ exists x, k = NType x /\ needed E ts x)
    /\ (forall x y, needed E ts x -> refers E x y -> x <> y -> before (NType y) (NType x) l)
    /\ (forall x, In x ts -> classlike x -> before (NType x) NRoot l).
Proof. exact type_sort_spec. Qed.
Print Assumptions C28_sorted.

(** Instances of [type]: classes, that of [None] included. *)
Lemma is_class_spec : forall t, is_class t = true <-> classlike t \/ t = TScalar KNone.
Proof.
  intros t. split.
  - intros H. destruct t as [k|b|w|w|k w|ts|op ts|ls|w md|c|s|]; try discriminate H; [|left; constructor|left; constructor].
    destruct k; first [right; reflexivity | left; constructor; discriminate].
  - intros [H| ->]; [destruct H; reflexivity | reflexivity].
Qed.
Lemma all_classes : forall ts, forallb is_class ts = true <-> forall t, In t ts -> classlike t \/ t = TScalar KNone.
Proof.
  intros ts. rewrite forallb_forall. split; intros H t T; apply is_class_spec, H, T.
Qed.

(** C28.  The call succeeds unless classes refer to each other in a circle, in which
    case it raises [RuntimeError]. *)
Theorem C28_total : forall E order, (forall l, Permutation (order l) l) -> program_ok E ->
  forall ts, (forall t, In t ts -> classlike t \/ t = TScalar KNone) -> (forall c, In (TClass c) ts -> get_class E c <> None) ->
    exists N, forall n, N <= n ->
      (circular E ts -> type_topological_sort E n order ts None = Err ERuntime) /\
      (~ circular E ts -> exists l, type_topological_sort E n order ts None = Ok l).
Proof. intros E order P PO ts C. apply type_sort_total; [exact P | exact PO | apply all_classes; exact C]. Qed.
Print Assumptions C28_total.

(** C28.  Anything but classes is refused with [TypeError]. *)
Theorem C28_classes_only : forall E n order ts dep t, In t ts -> ~ classlike t -> t <> TScalar KNone ->
  type_topological_sort E n order ts dep = Err EType.
Proof.
  intros E n order ts dep t T C N. unfold type_topological_sort. destruct (forallb is_class ts) eqn:F; [|reflexivity].
  destruct (proj1 (all_classes ts) F t T) as [X|X]; contradiction.
Qed.
Print Assumptions C28_classes_only.

Example C28_witness_classes : (forall t, In t [TBare BTuple; TClass 7; TScalar KNone] -> classlike t \/ t = TScalar KNone)
  /\ In (TList (TClass 3)) [TClass 7; TList (TClass 3)] /\ ~ classlike (TList (TClass 3)).
Proof.
  split; [intros t [<-|[<-|[<-|[]]]]; [left; constructor|left; constructor|right; reflexivity]|].
  split; [right; left; reflexivity | intros H; inversion H].
Qed.

(** C28.  With additional dependencies: they, too, come first, but the references of
    a class that is itself an additional dependency are forgotten. *)
Theorem C28_dependencies : forall E order, (forall l, Permutation (order l) l) ->
  forall n ts dep l, type_topological_sort E n order ts (Some dep) = Ok l ->
    let given k := k = NRoot \/ exists x, k = NType x /\ needed E ts x in
    let added k := exists k0 y, given k0 /\ In y (dep k0) /\ k = NType y in
    NoDup l /\ (forall k, In k l <-> given k \/ added k)
    /\ (forall x y, needed E ts x -> refers E x y -> x <> y -> ~ added (NType x) -> before (NType y) (NType x) l)
    /\ (forall k y, given k -> In y (dep k) -> k <> NType y -> ~ added k -> before (NType y) k l).
Proof. exact type_sort_dependencies. Qed.
Print Assumptions C28_dependencies.

Example C28_witness : (forall l : list node, Permutation (rev l) l) /\ program_ok Zoo
  /\ (exists l, type_topological_sort Zoo 20 (@rev node) [TClass 7; TClass 2] None = Ok l)
  /\ needed Zoo [TClass 7; TClass 2] (TClass 3) /\ refers Zoo (TClass 7) (TClass 3)
  /\ exists l, type_topological_sort Zoo 20 (@rev node) [TClass 7] (Some (fun k => if node_eqb k (NType (TClass 7)) then [TClass 5] else [])) = Ok l.
Proof.
  assert (RF : refers Zoo (TClass 7) (TClass 3)).
  { exists 7, Plain, (str "link"), (TRef (str "Optional[Pair]")). repeat apply conj; try reflexivity; [right; left; reflexivity|].
    eapply me_ref; [reflexivity|reflexivity|]. eapply me_union; [left; reflexivity|]. constructor. constructor. }
  split; [intros l; apply Permutation_sym, Permutation_rev|]. split; [exact Zoo_program_ok|]. split; [eexists; vm_compute; reflexivity|].
  split; [|split; [exact RF|eexists; vm_compute; reflexivity]]. eapply nd_step; [apply nd_input; [left; reflexivity|constructor]|exact RF].
Qed.

(** C28.  With additional dependencies the order can be wrong: [Pair], which refers to
    [Color], comes before it once some class has [Pair] as an additional dependency. *)
Theorem C28_dependency_refuted : exists E n ts dep l x y, type_topological_sort E n (fun l => l) ts (Some dep) = Ok l
  /\ needed E ts x /\ refers E x y /\ x <> y /\ ~ before (NType y) (NType x) l /\ before (NType x) (NType y) l.
Proof.
  exists Zoo, 20, [TClass 3; TClass 1], (fun k => if node_eqb k (NType (TClass 1)) then [TClass 3] else []).
  eexists _, (TClass 3), (TClass 0). split; [vm_compute; reflexivity|]. repeat apply conj.
  - apply nd_input; [left; reflexivity|constructor].
  - exists 3, Pair, (str "first"), (TClass 0). repeat apply conj; try reflexivity; [left; reflexivity|]. constructor. constructor.
  - discriminate.
  - intros (l1 & l2 & l3 & Q). destruct l1 as [|a l1]; [discriminate Q|]. injection Q as <- Q.
    assert (I : forall l, ~ In (NType (TClass 3)) l -> l = l1 ++ NType (TClass 0) :: l2 ++ NType (TClass 3) :: l3 -> False).
    { intros l N ->. apply N. apply in_or_app. right. right. apply in_or_app. right. left. reflexivity. }
    eapply I; [|exact Q]. cbn. intros J. repeat (destruct J as [J|J]; [discriminate J|]). destruct J.
  - exists [], [NType tint; NType tstr; NType (TClass 1); NRoot], []. reflexivity.
Qed.
Print Assumptions C28_dependency_refuted.
