(** C44: names of types. *)
From Coq Require Import String List NArith ZArith Bool Lia.
From Verif Require Import Base Json PyTypes TypeAlgebra Schema SpecTypes Lists Samples Names SpecNames NamesProofs.
Import ListNotations.
Open Scope list_scope.
Open Scope nat_scope.

(** C44.  [python_type_to_str] succeeds on types whose classes exist and whose texts
    are names; two types are written alike exactly if they are [alike]: equal up to
    [Union[A, B]] and [A | B], the place of None in [Optional[T]], a class and its
    name as text, and the order of the annotations of an auxiliary type. *)
Theorem C44_str_total : forall P E op n fwd t, canonical t -> legible E (py_identifier P) t ->
  exists s, python_type_to_str P E op n fwd t = Ok s.
Proof. intros P E op n fwd t C L. eexists. exact (to_str_ok P E op n fwd t C L). Qed.
Print Assumptions C44_str_total.

Theorem C44_str : forall P E op n m fwd fwd' t u, well_named E ->
  canonical t -> legible E (py_identifier P) t -> canonical u -> legible E (py_identifier P) u ->
  (python_type_to_str P E op n fwd t = python_type_to_str P E op m fwd' u <-> alike E op t u).
Proof. exact str_alike. Qed.
Print Assumptions C44_str.

(** Types without annotations and texts: only the spelling of unions is lost. *)
Inductive bare_structure : typ -> Prop :=
| bs_scalar : forall k, bare_structure (TScalar k)
| bs_bare : forall b, bare_structure (TBare b)
| bs_class : forall c, bare_structure (TClass c)
| bs_list : forall t, bare_structure t -> bare_structure (TList t)
| bs_set : forall t, bare_structure t -> bare_structure (TSet t)
| bs_dict : forall k t, bare_structure k -> bare_structure t -> bare_structure (TDict k t)
| bs_tuple : forall ts, Forall bare_structure ts -> bare_structure (TTuple ts)
| bs_union : forall ts, Forall bare_structure ts -> bare_structure (TUnion false ts)
| bs_literal : forall ls, bare_structure (TLiteral ls).

Lemma alike_equal : forall E t u, bare_structure t -> bare_structure u -> alike E true t u -> t = u.
Proof.
  intros E t. induction t as [k|b|t1 IH|t1 IH|k t1 IHk IH|ts IH|o ts IH|ls|w md IH|c|s|] using typ_induct; intros u Bt Bu H; inversion Bt; subst; inversion H; subst; try discriminate; inversion Bu; subst; try reflexivity; f_equal; auto.
  - assert (L : forall l l', Forall (fun a => forall u, bare_structure a -> bare_structure u -> alike E true a u -> a = u) l -> Forall bare_structure l -> Forall bare_structure l' -> Forall2 (alike E true) l l' -> l = l')
      by (intros l l' Fi Fb Fb' F; induction F; [reflexivity|]; inversion Fi; inversion Fb; inversion Fb'; subst; f_equal; auto). apply L; assumption.
  - assert (L : forall l l', Forall (fun a => forall u, bare_structure a -> bare_structure u -> alike E true a u -> a = u) l -> Forall bare_structure l -> Forall bare_structure l' -> Forall2 (alike E true) l l' -> l = l')
      by (intros l l' Fi Fb Fb' F; induction F; [reflexivity|]; inversion Fi; inversion Fb; inversion Fb'; subst; f_equal; auto). apply L; assumption.
Qed.

Theorem C44_str_injective : forall P E n m fwd fwd' t u, well_named E ->
  canonical t -> legible E (py_identifier P) t -> canonical u -> legible E (py_identifier P) u -> bare_structure t -> bare_structure u ->
  python_type_to_str P E true n fwd t = python_type_to_str P E true m fwd' u -> t = u.
Proof.
  intros P E n m fwd fwd' t u W Ct Lt Cu Lu Bt Bu Q. apply (alike_equal E); [exact Bt | exact Bu|]. exact (proj1 (C44_str P E true n m fwd fwd' t u W Ct Lt Cu Lu) Q).
Qed.
Print Assumptions C44_str_injective.

(** [python_type_to_name] succeeds on classes, built-in and auxiliary types, under
    annotations, and with [force] on generic types of these; otherwise it raises
    TypeError.  Two types have the same name exactly if they are the same apart from
    annotations. *)
Theorem C44_name_given : forall E force t, canonical t ->
  ((exists x, python_type_to_name E force t = Ok x) <-> exists l, called E force t l).
Proof. exact name_given. Qed.
Print Assumptions C44_name_given.

Theorem C44_name_fails : forall E ident force t e, canonical t -> legible E ident t -> python_type_to_name E force t = Err e -> e = EType.
Proof. exact name_fails. Qed.
Print Assumptions C44_name_fails.

Theorem C44_name : forall E, well_named E -> separable_names E -> forall force t u x y, canonical t -> canonical u ->
  python_type_to_name E force t = Ok x -> python_type_to_name E force u = Ok y ->
  (x = y <-> exists l, called E force t l /\ called E force u l).
Proof. exact name_alike. Qed.
Print Assumptions C44_name.

(** ** The hypotheses are met *)

Definition Ascii : python := mkPython (fun _ => false) (fun _ => []) (fun _ => []) (fun _ => true).

Ltac named := split; [discriminate | intros c I J; cbn in I, J; repeat (destruct I as [<-|I]; [repeat (destruct J as [J|J]; [discriminate J|]); exact J|]); exact I].

Lemma Zoo_names : well_named Zoo.
Proof.
  split.
  - intros c cl G. zoo_class c G; (split; [named|]); cbn [c_name Color Point Node Pair Dog Cat Version Plain]; intros I;
      apply mem_str_in in I; vm_compute in I; discriminate I.
  - intros c d cl dl G G' Q. zoo_class c G; zoo_class d G'; try reflexivity; discriminate Q.
  - intros c cl ms x j G K I. zoo_class c G; try discriminate K. injection K as <-. destruct I as [I|[I|[]]]; injection I as <- _; named.
Qed.

Lemma Zoo_separable : separable_names Zoo.
Proof. intros c cl G. zoo_class c G; apply clear_b_ok; reflexivity. Qed.

Definition fancy : typ :=
  TDict tstr (TUnion true [TList (TAnnot tint [AMaxLength 3; AAlias (str "it's")]); TLiteral [LBool false; LInt 2; LStr (str "string"); LEnum 0 (str "RED")];
    TTuple [TClass 1; TRef (str "Node")]; tnone]).

Lemma fancy_canonical : canonical fancy.
Proof.
  unfold fancy. apply cn_dict; [constructor|]. apply cn_union.
  - cbn. lia.
  - repeat (apply NoDup_cons; [cbn [In]; intros X; repeat (destruct X as [X|X]; [discriminate X|]); exact X|]). apply NoDup_nil.
  - repeat (apply Forall_cons; [split; [|intros X; exact X]|]); try apply Forall_nil.
    + apply cn_list, cn_annot; [constructor | intros X; exact X].
    + constructor.
    + apply cn_tuple. repeat (apply Forall_cons; [constructor|]). apply Forall_nil.
    + constructor.
Qed.

Lemma fancy_legible : legible Zoo (py_identifier Ascii) fancy.
Proof.
  unfold fancy. apply lg_dict; [constructor|]. apply lg_union. repeat (apply Forall_cons); try apply Forall_nil.
  - apply lg_list, lg_annot; [constructor|]. apply Forall_cons; [exact Logic.I|]. apply Forall_cons; [|apply Forall_nil]. cbn. repeat (apply Forall_cons; [reflexivity|]). apply Forall_nil.
  - apply lg_literal. apply Forall_cons; [exact Logic.I|]. apply Forall_cons; [exact Logic.I|]. apply Forall_cons; [|apply Forall_cons; [|apply Forall_nil]].
    + cbn. repeat (apply Forall_cons; [reflexivity|]). apply Forall_nil.
    + exists Color. eexists _, _. split; [reflexivity|]. split; reflexivity.
  - apply lg_tuple. repeat (apply Forall_cons); try apply Forall_nil; [apply (lg_class _ _ 1 Point); reflexivity|]. apply lg_ref; [reflexivity | named|].
    intros I. apply mem_str_in in I. vm_compute in I. discriminate I.
  - constructor.
Qed.

Example fancy_text : python_type_to_str Ascii Zoo false 3 false fancy =
  Ok (str "dict[str, Union[list[Annotated[int, MaxLength(3), Alias(""it's"")]], Literal[False, 2, 'string', <Color.RED: 'red'>], tuple[Point, Node], None]]").
Proof. vm_compute. reflexivity. Qed.
Example fancy_operator : python_type_to_str Ascii Zoo true 3 false fancy =
  Ok (str "dict[str, list[Annotated[int, MaxLength(3), Alias(""it's"")]] | Literal[False, 2, 'string', <Color.RED: 'red'>] | tuple[Point, Node] | None]").
Proof. vm_compute. reflexivity. Qed.

(** tests/test_name.py *)
Definition as_str (op : bool) (t : typ) : res pystr := python_type_to_str Ascii Zoo op 3 true t.
Definition float32 : typ := TAnnot (TScalar KFloat) [AStorage 4].
Definition int32 : typ := TAnnot tint [ASigned true; AStorage 4; AIntegerRange (-2147483648) 2147483647].
Example repo_tests :
  as_str false (TDict tstr tint) = Ok (str "dict[str, int]") /\ as_str false (TTuple [tint; tstr]) = Ok (str "tuple[int, str]") /\
  as_str false tnone = Ok (str "None") /\ as_str true (TUnion false [tstr; tnone]) = Ok (str "str | None") /\
  as_str true (TUnion false [tnone; tstr; tint]) = Ok (str "None | str | int") /\
  as_str true (TUnion false [TRef (str "SampleClass"); TRef (str "DerivedClass"); tnone]) = Ok (str "SampleClass | DerivedClass | None") /\
  as_str false (TUnion false [TRef (str "SampleClass"); tnone]) = Ok (str "Optional[SampleClass]") /\
  as_str false (TUnion false [tstr; tint; tnone]) = Ok (str "Union[str, int, None]") /\
  as_str false float32 = Ok (str "float32") /\ as_str true (TUnion false [int32; tnone]) = Ok (str "int32 | None") /\
  as_str false (TAnnot (TScalar KFloat) [AStorage 4; AAlias (str "float")]) = Ok (str "Annotated[float32, Alias('float')]").
Proof. vm_compute. repeat split. Qed.

Example repo_names :
  python_type_to_name Zoo false tnone = Ok (str "NoneType") /\ python_type_to_name Zoo true (TUnion false [tstr; tnone]) = Ok (str "Optional__str") /\
  python_type_to_name Zoo true (TDict tstr tint) = Ok (str "Dict__str__int") /\ python_type_to_name Zoo true (TTuple [tint; tstr]) = Ok (str "Tuple__int__str") /\
  python_type_to_name Zoo true (TUnion false [tstr; tint; tnone]) = Ok (str "Union__str__int__NoneType") /\
  python_type_to_name Zoo false (TList tint) = Err EType.
Proof. vm_compute. repeat split. Qed.

Example name_met : called Zoo true (TUnion true [TAnnot tstr [AMaxLength 3]; TClass 1; int32]) (OfUnion [tstr; TClass 1; int32]).
Proof.
  apply cd_union; [reflexivity | intros X; discriminate X |]. repeat (apply Forall2_cons); try apply Forall2_nil.
  - apply ba_annot; [|constructor]. intros x (k & amd & I & Q). injection Q as <- <-. cbn [numbers In] in I. repeat (destruct I as [I|I]; [discriminate I|]). exact I.
  - apply (ba_class _ _ Point). reflexivity.
  - apply (ba_auxiliary _ _ (str "int32")). exists KInt. eexists. split; [|reflexivity]. cbn [numbers In]. tauto.
Qed.

(** ** What is lost *)

(** Two types that differ may be written alike: the position of None in an optional
    type; a class called like a built-in type. *)
Theorem C44_optional_refuted : exists t u, t <> u /\ canonical t /\ canonical u /\ as_str false t = as_str false u /\ as_str true t <> as_str true u.
Proof.
  exists (TUnion false [tint; tnone]), (TUnion false [tnone; tint]). split; [discriminate|].
  split; [|split; [|split; [reflexivity | vm_compute; discriminate]]];
    (apply cn_union; [cbn; lia | repeat (apply NoDup_cons; [cbn [In]; intros X; repeat (destruct X as [X|X]; [discriminate X|]); exact X|]); apply NoDup_nil | repeat (apply Forall_cons; [split; [constructor | intros X; exact X]|]); apply Forall_nil]).
Qed.
Print Assumptions C44_optional_refuted.

(** class date: ... *)
Definition Shadow : env := mkEnv [mkClass 0 (str "date") (CPlain []) None None; mkClass 0 (str "A") (CPlain []) None None; mkClass 0 (str "B") (CPlain []) None None; mkClass 0 (str "A__B") (CPlain []) None None] [] (fun p => p).

Theorem C44_shadow_refuted : exists E t u, t <> u /\ bare_structure t /\ bare_structure u /\
  python_type_to_str Ascii E false 1 false t = python_type_to_str Ascii E false 1 false u /\ python_type_to_name E false t = python_type_to_name E false u.
Proof. exists Shadow, (TClass 0), (TScalar KDate). split; [discriminate|]. repeat split; constructor. Qed.
Print Assumptions C44_shadow_refuted.

(** Annotations are no part of the short name; class names with two underscores
    make it ambiguous; generic types of generic types have none. *)
Theorem C44_name_annotation_refuted : exists t u x, t <> u /\ python_type_to_name Zoo true t = Ok x /\ python_type_to_name Zoo true u = Ok x.
Proof. exists tint, (TAnnot tint [AIntegerRange 0 9]), (str "int"). split; [discriminate|]. split; reflexivity. Qed.
Print Assumptions C44_name_annotation_refuted.

Theorem C44_name_ambiguous_refuted : exists E t u x, bare_structure t /\ bare_structure u /\ t <> u /\ python_type_to_name E true t = Ok x /\ python_type_to_name E true u = Ok x.
Proof.
  exists Shadow, (TTuple [TClass 1; TClass 2]), (TTuple [TClass 3]), (str "Tuple__A__B"). split; [repeat constructor|]. split; [repeat constructor|]. split; [discriminate|]. split; reflexivity.
Qed.
Print Assumptions C44_name_ambiguous_refuted.

Theorem C44_name_nested_refuted : exists t, canonical t /\ legible Zoo (py_identifier Ascii) t /\ python_type_to_name Zoo true t = Err EType.
Proof. exists (TList (TList tint)). split; [repeat constructor|]. split; [repeat constructor | reflexivity]. Qed.
Print Assumptions C44_name_nested_refuted.

(** The annotations of an auxiliary type in another order: no argument follows the
    comma. *)
Theorem C44_comma_refuted : exists t u, t <> u /\ as_str false t = Ok (str "Annotated[int16, ]") /\ as_str false u = Ok (str "Annotated[int16, ]").
Proof.
  exists (TAnnot tint [AStorage 2; ASigned true; AIntegerRange (-32768) 32767]), (TAnnot tint [AIntegerRange (-32768) 32767; AStorage 2; ASigned true]). split; [discriminate|]. split; vm_compute; reflexivity.
Qed.
Print Assumptions C44_comma_refuted.
