(** C39, C40: [is_generic_instance] and [check_recursive]. *)
From Coq Require Import String List NArith ZArith Bool Lia.
From Verif Require Import Base Json PyTypes Ser Inspect SpecInspect SpecOutcome SpecChecks InspectProofs OutcomeProofs ChecksProofs Samples.
Import ListNotations.
Open Scope list_scope.
Open Scope nat_scope.

(** C39.  For all values and all types without [Literal], [Annotated], [X | Y] and
    references: [is_generic_instance] does not raise, and it holds exactly for the
    values that are instances item by item when of a tuple and its item types the
    excess is ignored. *)
Theorem C39_characterised : forall E t v, plain t ->
  exists b, is_generic_instance E v t = Ok b /\ (b = true <-> loosely E v t).
Proof. exact is_generic_instance_spec. Qed.
Print Assumptions C39_characterised.

(** C39.  Instances are recognised. *)
Theorem C39_complete : forall E t v, plain t -> instance E v t -> is_generic_instance E v t = Ok true.
Proof.
  intros E t v P I. destruct (is_generic_instance_spec E t v P) as (b & Q & K). rewrite Q. f_equal. apply K.
  apply instance_loosely; assumption.
Qed.
Print Assumptions C39_complete.

(** C39.  Only instances are recognised, if there is no tuple type in the type.
    (The full statement, for all types, is false: see the refutations below.) *)
Theorem C39_sound_partial : forall E t v, plain t -> tuple_free t ->
  exists b, is_generic_instance E v t = Ok b /\ (b = true <-> instance E v t).
Proof.
  intros E t v P T. destruct (is_generic_instance_spec E t v P) as (b & Q & K). exists b. split; [exact Q|]. rewrite K. split.
  - apply loosely_instance. exact T.
  - apply instance_loosely. exact P.
Qed.
Print Assumptions C39_sound_partial.

(** dict[str, list[Union[int, None, Color]]] *)
Definition sample_type := TDict tstr (TList (TUnion false [tint; tnone; TClass 0])).
Definition sample_value := VDict [(vstr "a", VList [VInt 1; VBool true; VNone]); (vstr "b", VList [VEnum 0 (str "RED")])].
Example C39_witness : plain sample_type /\ tuple_free sample_type /\ instance Zoo sample_value sample_type
  /\ ~ instance Zoo (VDict [(vstr "a", VList [vstr "x"])]) sample_type
  /\ plain (TTuple [tint; tstr]) /\ instance Zoo (VTuple [VInt 1; vstr "x"]) (TTuple [tint; tstr]).
Proof.
  assert (P : plain sample_type).
  { repeat constructor. intros t [<-|[<-|[<-|[]]]]; constructor. }
  assert (T : tuple_free sample_type).
  { repeat constructor. intros t [<-|[<-|[<-|[]]]]; constructor. }
  repeat apply conj; try assumption.
  - destruct (C39_sound_partial Zoo sample_type sample_value P T) as (b & Q & K). apply K.
    vm_compute in Q. injection Q as <-. reflexivity.
  - destruct (C39_sound_partial Zoo sample_type (VDict [(vstr "a", VList [vstr "x"])]) P T) as (b & Q & K). intros I. apply K in I.
    subst b. vm_compute in Q. discriminate Q.
  - constructor. intros t [<-|[<-|[]]]; constructor.
  - econstructor; [constructor|]. repeat constructor.
Qed.

(** C39.  A tuple that is too short, or too long, passes for a pair. *)
Theorem C39_tuple_refuted : exists E t v w, plain t /\ is_generic_instance E v t = Ok true /\ ~ instance E v t
  /\ is_generic_instance E w t = Ok true /\ ~ instance E w t.
Proof.
  exists Zoo, (TTuple [tint; tstr]), (VTuple [VInt 1]), (VTuple [VInt 1; vstr "x"; VNone]). repeat apply conj.
  - constructor. intros t [<-|[<-|[]]]; constructor.
  - reflexivity.
  - intros I. inversion I as [| | | | | | | |? ? ? J F| | | |]; subst. inversion J; subst. inversion F; subst. inversion H4.
  - reflexivity.
  - intros I. inversion I as [| | | | | | | |? ? ? J F| | | |]; subst. inversion J; subst. inversion F; subst. inversion H4; subst. inversion H6.
Qed.
Print Assumptions C39_tuple_refuted.

(** C39.  [Literal], [Annotated] and [X | Y] types raise [TypeError], whatever the
    value; so an instance of such a type is not recognised. *)
Theorem C39_unsupported : forall E v t,
  (exists ls, t = TLiteral ls) \/ (exists u md, t = TAnnot u md) \/ (exists ts, t = TUnion true ts) ->
  is_generic_instance E v t = Err EType.
Proof. intros E v t [(ls & ->)|[(u & md & ->)|(ts & ->)]]; reflexivity. Qed.
Print Assumptions C39_unsupported.
Example C39_witness_unsupported : instance Zoo (VInt 1) (TUnion true [tint; tstr])
  /\ exists ts, TUnion true [tint; tstr] = TUnion true ts.
Proof. split; [econstructor; [left; reflexivity|repeat constructor]|eexists; reflexivity]. Qed.

(** C39.  For all values and all types without references: the outcome, be it true, false
    or TypeError, is that of SpecOutcome.v, where items and members are tried in
    order. *)
Theorem C39_outcome : forall E t v, no_ref t ->
  (exists o, outcome E v t o) /\
  forall o, outcome E v t o <-> is_generic_instance E v t = match o with Some b => Ok b | None => Err EType end.
Proof. intros E t v N. split; [exact (outcome_total E t v N) | exact (outcome_spec E t v)]. Qed.
Print Assumptions C39_outcome.

(** Union[int, list[Literal["a"]]]: what is an integer, or no list, is decided; the items of
    a list are not. *)
Example C39_witness_outcome : let t := TUnion false [tint; TList (TLiteral [LStr (str "a")])] in
  no_ref t /\ outcome Zoo (VInt 1) t (Some true) /\ outcome Zoo (vstr "a") t (Some false) /\ outcome Zoo (VList [vstr "a"]) t None /\
  outcome Zoo (VList []) t (Some true).
Proof.
  assert (N : no_ref (TUnion false [tint; TList (TLiteral [LStr (str "a")])])).
  { apply nr_union. intros t [<-|[<-|[]]]; [apply nr_simple; left; eexists; reflexivity|]. apply nr_list, nr_unsupported. left. eexists. reflexivity. }
  cbv zeta. split; [exact N|]. pose proof (fun v o => proj2 (proj2 (C39_outcome Zoo _ v N) o)) as X. repeat split; apply X; reflexivity.
Qed.

Theorem C39_literal_refuted : exists E v ls, instance E v (TLiteral ls) /\ is_generic_instance E v (TLiteral ls) <> Ok true.
Proof.
  exists Zoo, (vstr "a"), [LStr (str "a")]. split; [|discriminate]. apply (in_literal Zoo [LStr (str "a")] (LStr (str "a"))). left. reflexivity.
Qed.
Print Assumptions C39_literal_refuted.

Theorem C39_pep604_refuted : exists E v ts, instance E v (TUnion true ts) /\ instance E v (TUnion false ts)
  /\ is_generic_instance E v (TUnion false ts) = Ok true /\ is_generic_instance E v (TUnion true ts) <> Ok true.
Proof.
  exists Zoo, (VInt 1), [tint; tnone]. repeat apply conj; [| |reflexivity|discriminate];
    (econstructor; [left; reflexivity|repeat constructor]).
Qed.
Print Assumptions C39_pep604_refuted.

(** C40.  For values whose shape is that of their types: the outcome is false if
    and only if the predicate fails at one of the leaves of the value. *)
Theorem C40_pred_partial : forall E p v, checkable E (typeof v) v ->
  exists b, check_recursive E v (Some p) None None = Ok b
    /\ (b = false <-> exists t' v', visited E (typeof v) v t' v' /\ p t' v' = false).
Proof. exact check_recursive_pred. Qed.
Print Assumptions C40_pred_partial.

Theorem C40_value_partial : forall E q v, checkable E (typeof v) v ->
  exists b, check_recursive E v None None (Some q) = Ok b
    /\ (b = false <-> exists t' v', visited E (typeof v) v t' v' /\ q v' = false).
Proof. exact check_recursive_value. Qed.
Print Assumptions C40_value_partial.

Theorem C40_typed_partial : forall E p q v, checkable E (typeof v) v ->
  exists b, check_recursive E v None (Some p) (Some q) = Ok b
    /\ (b = false <-> exists t' v', visited E (typeof v) v t' v' /\ p t' = true /\ q v' = false).
Proof. exact check_recursive_typed. Qed.
Print Assumptions C40_typed_partial.

(** C40.  Without predicates everything passes; inconsistent arguments raise. *)
Theorem C40_arguments : forall E v p q r,
  (checkable E (typeof v) v -> check_recursive E v None None None = Ok true) /\
  check_recursive E v (Some p) None (Some q) = Err EType /\
  check_recursive E v (Some p) (Some r) (Some q) = Err EType /\
  check_recursive E v None (Some r) None = Err EType /\
  check_recursive E v (Some p) (Some r) None = Err EType.
Proof. intros E v p q r. split; [apply check_recursive_none|apply check_recursive_arguments]. Qed.
Print Assumptions C40_arguments.

(** C40.  What is visited is part of the value, and of a leaf type. *)
Theorem C40_visited : forall E t v t' v', visited E t v t' v' -> part_of v' v /\ leaf E t'.
Proof. exact visited_part. Qed.
Print Assumptions C40_visited.

Definition sample_pair := VObj 3 [(str "first", VEnum 0 (str "RED")); (str "second", VSet [VInt 1; VInt 7])].
Lemma sample_pair_checkable : checkable Zoo (TClass 3) sample_pair.
Proof.
  eapply ck_obj; [reflexivity|discriminate|reflexivity|].
  intros x u [Q|[Q|[]]]; apply pair_equal_spec in Q as [<- <-].
  - eexists _, _. split; [constructor|]. split; [reflexivity|]. eapply ck_enum; reflexivity.
  - eexists _, _. split; [repeat constructor|]. split; [reflexivity|]. constructor. intros v _. constructor; discriminate.
Qed.
(** The item 7 of the set in the field of the named tuple is visited. *)
Example C40_witness : checkable Zoo (typeof sample_pair) sample_pair /\ visited Zoo (typeof sample_pair) sample_pair tint (VInt 7).
Proof.
  split; [exact sample_pair_checkable|].
  eapply vi_field; [reflexivity|discriminate|reflexivity|right; left; reflexivity|repeat constructor|reflexivity|].
  eapply vi_set; [right; left; reflexivity|]. constructor. constructor; discriminate.
Qed.

Definition not_seven (v : value) : bool := match v with VInt z => negb (Z.eqb z 7) | _ => true end.

(** C40.  Not visited: whatever is below an optional type ... *)
Theorem C40_optional_refuted : exists E q v w, checkable E (typeof v) v /\ part_of w v /\ q w = false
  /\ check_recursive E v None None (Some q) = Ok true.
Proof.
  exists Zoo, not_seven, (VObj 7 [(str "name", vstr "n"); (str "link", sample_pair)]), (VInt 7). repeat apply conj.
  - eapply ck_obj; [reflexivity|discriminate|reflexivity|].
    intros x u [Q|[Q|[]]]; apply pair_equal_spec in Q as [<- <-]; (eexists _, _; split; [reflexivity|]; split; [reflexivity|]).
    + constructor; discriminate.
    + constructor.
  - eapply po_obj; [right; left; reflexivity|]. eapply po_obj; [right; left; reflexivity|]. eapply po_set; [right; left; reflexivity|]. constructor.
  - reflexivity.
  - reflexivity.
Qed.
Print Assumptions C40_optional_refuted.

(** ... the items of a list passed as the object itself ... *)
Theorem C40_untyped_refuted : exists E q v w, checkable E (typeof v) v /\ part_of w v /\ q w = false
  /\ check_recursive E v None None (Some q) = Ok true.
Proof.
  exists Zoo, not_seven, (VList [VInt 7]), (VInt 7). repeat apply conj; try reflexivity.
  - constructor. constructor.
  - eapply po_list; [left; reflexivity|constructor].
Qed.
Print Assumptions C40_untyped_refuted.

(** ... and IP addresses, even with a predicate that always fails. *)
Theorem C40_address_refuted : exists E v, checkable E (typeof v) v /\ check_recursive E v None None (Some (fun _ => false)) = Ok true.
Proof.
  exists Zoo, (VIPv4 0). split; [|reflexivity]. apply ck_ip; [left; reflexivity|constructor].
Qed.
Print Assumptions C40_address_refuted.

(** C40.  A data class with an annotated field cannot be checked at all. *)
Theorem C40_annotated_refuted : exists E v, (exists fs cl c attrs, v = VObj c attrs /\ get_class E c = Some cl /\ c_kind cl = CData false fs)
  /\ forall p, check_recursive E v (Some p) None None = Err EType.
Proof.
  exists Zoo, (VObj 2 [(str "value", VInt 1); (str "children", VList [])]). split; [|intros p; reflexivity].
  eexists _, _, _, _. split; [reflexivity|]. split; reflexivity.
Qed.
Print Assumptions C40_annotated_refuted.

(** C40.  For all values, of any shape: the outcome, be it true, false, TypeError or
    AttributeError, is that of SpecChecks.v, where items and properties are tried in
    order. *)
Theorem C40_outcome : forall E v o, annotated E -> o <> Err EUnmodelled ->
  (forall p, checks E p (typeof v) v o <-> check_recursive E v (Some p) None None = o) /\
  (forall q, checks E (fun _ x => q x) (typeof v) v o <-> check_recursive E v None None (Some q) = o) /\
  (forall r q, checks E (fun t x => negb (r t) || q x) (typeof v) v o <-> check_recursive E v None (Some r) (Some q) = o) /\
  (checks E (fun _ _ => true) (typeof v) v o <-> check_recursive E v None None None = o).
Proof.
  intros E v o AN U. repeat split; intros; try (apply checks_spec in H; [exact H | exact AN | apply Nat.lt_succ_diag_r | exact U]);
    (apply (checks_spec E _ AN (Datatypes.S (vdepth v))); [apply Nat.lt_succ_diag_r | exact U | exact H]).
Qed.
Print Assumptions C40_outcome.

Lemma zoo_annotated : annotated Zoo.
Proof.
  intros c cl G. assert (F : exists fs, checked_fields Zoo cl = Ok fs).
  { apply nth_error_In in G. destruct G as [<-|[<-|[<-|[<-|[<-|[<-|[<-|[<-|[]]]]]]]]]; eexists; reflexivity. }
  destruct F as (fs & F). exists fs. apply fields_properties. exact F.
Qed.

(** A node whose field is annotated, and a pair without its second property: what comes
    first decides. *)
Example C40_witness_outcome : annotated Zoo /\
  let node := VObj 2 [(str "value", VInt 1); (str "children", VList [])] in
  let half := VObj 3 [(str "first", VEnum 0 (str "RED"))] in
  checks Zoo (fun _ _ => true) (typeof node) node (Err EType) /\
  checks Zoo (fun _ _ => true) (typeof half) half (Err EAttribute) /\
  checks Zoo (fun _ _ => false) (typeof half) half (Ok false).
Proof.
  split; [exact zoo_annotated|]. cbv zeta. repeat split.
  - apply (C40_outcome Zoo _ (Err EType)); [exact zoo_annotated | discriminate | reflexivity].
  - apply (C40_outcome Zoo _ (Err EAttribute)); [exact zoo_annotated | discriminate | reflexivity].
  - apply (C40_outcome Zoo _ (Ok false)); [exact zoo_annotated | discriminate | reflexivity].
Qed.
