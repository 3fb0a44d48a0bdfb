(** C72: the texts that [python_type_to_str] writes are Python expressions. *)
From Coq Require Import String List NArith ZArith Bool Lia.
From Verif Require Import Base Json PyTypes TypeAlgebra Schema SpecTypes Lists Samples Names SpecNames NamesProofs SpecNotation NotationProofs PropNames.
Import ListNotations.
Open Scope list_scope.
Open Scope nat_scope.

(** C72.  For all types without members of enumerations among literals, empty tuples and
    auxiliary annotations in another order: the text is an expression for the type, in
    the grammar of SpecNotation.v. *)
Theorem C72_expression : forall P E op n fwd t, canonical t -> legible E (py_identifier P) t -> expressible t ->
  exists s, python_type_to_str P E op n fwd t = Ok s /\ expression E s t.
Proof.
  intros P E op n fwd t C L X. exists (show P E op false t). split; [exact (to_str_ok P E op n fwd t C L) | exact (show_expression P E op t false C L X)].
Qed.
Print Assumptions C72_expression.

(** A type with annotations, literals, a tuple and unions. *)
Definition ornate : typ :=
  TDict tstr (TUnion true [TList (TAnnot tint [AMaxLength 3; AAlias (str "it's")]); TLiteral [LBool false; LInt (-2); LStr [97; 10]%N; LBytes [0; 200]%N];
    TTuple [TClass 1; TRef (str "Node"); TUnion false [int32; tnone]]; tnone]).

Example C72_witness : canonical ornate /\ legible Zoo (py_identifier Ascii) ornate /\ expressible ornate /\
  python_type_to_str Ascii Zoo false 1 false ornate =
    Ok (str "dict[str, Union[list[Annotated[int, MaxLength(3), Alias(""it's"")]], Literal[False, -2, 'a\n', b'\x00\xc8'], tuple[Point, Node, Optional[int32]], None]]").
Proof.
  unfold ornate. split; [|split; [|split]].
  - apply cn_dict; [constructor|]. apply cn_union.
    + cbn. lia.
    + repeat (apply NoDup_cons; [cbn [In]; intros X; repeat (destruct X as [X|X]; [discriminate X|]); exact X|]). apply NoDup_nil.
    + repeat (apply Forall_cons; [split; [|intros X; exact X]|]); try apply Forall_nil.
      * apply cn_list, cn_annot; [constructor | intros X; exact X].
      * constructor.
      * apply cn_tuple. apply Forall_cons; [constructor|]. apply Forall_cons; [constructor|]. apply Forall_cons; [|apply Forall_nil]. apply cn_union; [cbn; lia| |].
        -- repeat (apply NoDup_cons; [cbn [In]; intros X; repeat (destruct X as [X|X]; [discriminate X|]); exact X|]). apply NoDup_nil.
        -- apply Forall_cons; [|apply Forall_cons; [|apply Forall_nil]]; (split; [|intros X; exact X]); [|constructor]. apply cn_annot; [constructor | intros X; exact X].
      * constructor.
  - apply lg_dict; [constructor|]. apply lg_union. repeat (apply Forall_cons); try apply Forall_nil.
    + apply lg_list, lg_annot; [constructor|]. apply Forall_cons; [exact Logic.I|]. apply Forall_cons; [|apply Forall_nil]. cbn. repeat (apply Forall_cons; [reflexivity|]). apply Forall_nil.
    + apply lg_literal. repeat (apply Forall_cons; [first [exact Logic.I | cbn; repeat (apply Forall_cons; [reflexivity|]); apply Forall_nil]|]). apply Forall_nil.
    + apply lg_tuple. repeat (apply Forall_cons); try apply Forall_nil; [apply (lg_class _ _ 1 Point); reflexivity| |].
      * apply lg_ref; [reflexivity | named|]. intros I. apply mem_str_in in I. vm_compute in I. discriminate I.
      * apply lg_union. apply Forall_cons; [|apply Forall_cons; [constructor | apply Forall_nil]]. apply lg_annot; [constructor|]. repeat (apply Forall_cons; [exact Logic.I|]). apply Forall_nil.
    + constructor.
  - apply xp_dict; [constructor|]. apply xp_union. intros t [<-|[<-|[<-|[<-|[]]]]].
    + apply xp_list, xp_annot; [constructor|]. right. split; [discriminate|]. intros k x Q R. injection Q as <-. destruct R as (l1 & amd & l2 & N & I & _).
      assert (J : In (x, (KInt, amd)) numbers) by (rewrite N; apply in_or_app; right; left; reflexivity).
      cbn [numbers In] in J. repeat (destruct J as [J|J]; [try discriminate J; injection J as <- <-; pose proof (I _ (or_introl eq_refl)) as Z; destruct Z as [Z|[Z|[]]]; discriminate Z|]). exact J.
    + apply xp_literal; [discriminate|]. intros c x I. repeat (destruct I as [I|I]; [discriminate I|]). exact I.
    + apply xp_tuple; [discriminate|]. intros t [<-|[<-|[<-|[]]]]; [constructor | constructor|]. apply xp_union. intros t [<-|[<-|[]]]; [|constructor].
      apply xp_annot; [constructor|]. left. exists (str "int32"), KInt. eexists. split; [|reflexivity]. cbn [numbers In]. tauto.
    + constructor.
  - vm_compute. reflexivity.
Qed.

(** C72.  The empty tuple type, and members of enumerations, are written as what is no
    expression for them. *)
Theorem C72_tuple_refuted : exists t, canonical t /\ legible Zoo (py_identifier Ascii) t /\
  exists s, python_type_to_str Ascii Zoo false 1 false t = Ok s /\ s = str "tuple[]" /\ ~ expression Zoo s t.
Proof.
  exists (TTuple []). split; [repeat constructor|]. split; [repeat constructor|]. exists (str "tuple[]"). split; [reflexivity|]. split; [reflexivity|].
  intros H. remember (str "tuple[]") as s eqn:Z. clear Z. inversion H as [| | | | | | | | | |? ? LI| | | | | | |]; subst. inversion LI.
Qed.
Print Assumptions C72_tuple_refuted.

Theorem C72_member_refuted : exists t, canonical t /\ legible Zoo (py_identifier Ascii) t /\
  exists s, python_type_to_str Ascii Zoo false 1 false t = Ok s /\ s = str "Literal[<Color.RED: 'red'>]" /\ ~ expression Zoo s t.
Proof.
  exists (TLiteral [LEnum 0 (str "RED")]). split; [constructor|]. split.
  { apply lg_literal. apply Forall_cons; [|apply Forall_nil]. exists Color. eexists _, _. split; [reflexivity|]. split; reflexivity. }
  exists (str "Literal[<Color.RED: 'red'>]"). split; [vm_compute; reflexivity|]. split; [reflexivity|].
  intros H. remember (str "Literal[<Color.RED: 'red'>]") as s eqn:Z. clear Z. inversion H as [| | | | | | | | | | | | | |? ? LI| | |]; subst.
  inversion LI as [? ? M|? ? ? ? M K]; subst; inversion M.
Qed.
Print Assumptions C72_member_refuted.
