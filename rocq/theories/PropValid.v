(** C29: what is written for a value satisfies the schema of its type. *)
From Coq Require Import String List NArith ZArith Bool Lia.
From Verif Require Import Base Json PyTypes Mapping Deser Ser Catalog Schema Samples Lists SpecTyping TypingFacts SpecRecursion SpecTypes SpecFields SpecSer
  SpecTagged SpecDeser SpecRoundTrip SpecSchema SpecGenerate SpecValid RoundTrip SchemaValid ValidTame PropFields PropSer PropSchema.
Import ListNotations.
Open Scope list_scope.
Open Scope nat_scope.

(** C29.  For single values: [fits] says what is asked of a value of the type;
    [image] is what is written for it (C14).  Recursive classes are included. *)
Theorem C29_image : forall asserts E S n k m t doc v j, env_ok E -> canonical_env E -> lenient asserts -> coherent E S ->
  s_path S = str "#/definitions/" -> classdef_to_schema E S n k t = Ok doc ->
  (forall s, lost E S t s -> exists sch, defined doc s sch) ->
  fits E m t v -> image E v j -> satisfies asserts doc j.
Proof. exact valid_document. Qed.
Print Assumptions C29_image.

Theorem C29_valid : forall asserts E S n k m t doc v j, env_ok E -> canonical_env E -> lenient asserts -> coherent E S ->
  s_path S = str "#/definitions/" -> classdef_to_schema E S n k t = Ok doc ->
  (forall s, lost E S t s -> exists sch, defined doc s sch) ->
  fits E m t v -> conforms E v -> object_to_json E v = Ok j -> satisfies asserts doc j.
Proof.
  intros asserts E S n k m t doc v j OK CE LE CO P H L F C O. eapply valid_document; try eassumption. apply C14_image; assumption.
Qed.
Print Assumptions C29_valid.

(** C29.  For types: all values of types without addresses and without metadata
    that constrains values, in which the members of unions are visibly
    different. *)
Theorem C29_typed : forall asserts E S T n k m t doc v j, env_ok E -> canonical_env E -> lenient asserts -> coherent E S ->
  s_path S = str "#/definitions/" -> classdef_to_schema E S n k t = Ok doc ->
  (forall s, lost E S t s -> exists sch, defined doc s sch) ->
  tame E T -> T m t -> has_type E m t v -> object_to_json E v = Ok j -> satisfies asserts doc j.
Proof.
  intros asserts E S T n k m t doc v j OK CE LE CO P H L TM Tt HT O. destruct (tame_fits E OK CE T TM m t v Tt HT) as (F & C).
  eapply C29_valid; eassumption.
Qed.
Print Assumptions C29_typed.

(** C29.  Conversely, documents that are visibly not of the type violate the
    schema. *)
Theorem C29_rejects : forall asserts E S n k m t doc j, canonical_env E -> env_ok E -> coherent E S ->
  s_path S = str "#/definitions/" -> classdef_to_schema E S n k t = Ok doc ->
  (forall s, lost E S t s -> exists sch, defined doc s sch) -> alien E m t j -> violates asserts doc j.
Proof. exact alien_document. Qed.
Print Assumptions C29_rejects.

(** C29.  Members of unions are visibly different if they are written as
    different kinds of data, *)
Theorem C29_kinds : forall E m t u, (forall jk, gives E m t jk -> unlike E m u jk) -> told_apart E m t u.
Proof. exact kinds_apart. Qed.
Print Assumptions C29_kinds.

(** or if they are classes that have different literals in the same field. *)
Theorem C29_tags : forall E m c c' p l l' j j', env_ok E -> tagged_by E c p l -> tagged_by E c' p l' ->
  lit_json l = Some j -> lit_json l' = Some j' -> j <> JNull -> same j j' = false -> told_apart E m (TClass c) (TClass c').
Proof. exact tags_apart. Qed.
Print Assumptions C29_tags.

(** C29.  Sets of texts, integers and truth values are written with distinct
    elements. *)
Theorem C29_sets : forall E m k vs js, In k [KBool; KInt; KStr] -> has_type E m (TSet (TScalar k)) (VSet vs) ->
  Forall2 (image E) vs js -> distinct js = true.
Proof. exact plain_set. Qed.
Print Assumptions C29_sets.

(** *** A case in point *)

Definition union0 : typ := TUnion false [TClass 4; TClass 5; tint].

(** tuple[Pair, Union[Dog, Cat, int], set[int], dict[Color, int]] *)
Definition type0 : typ := TTuple [TClass 3; union0; TSet tint; TDict (TClass 0) tint].

Definition types0 : list typ :=
  [type0; TClass 3; TClass 2; union0; TSet tint; TDict (TClass 0) tint; TClass 4; TClass 5; tint; tstr; TDict tstr tint; TClass 0;
   TLiteral [LStr (str "dog")]; TLiteral [LStr (str "cat")]; TAnnot tint [AAlias (str "val")]; TList (TRef (str "Node")); TRef (str "Node")].

Lemma zoo_coherent : coherent Zoo registered_zoo.
Proof.
  assert (R : forall w e, (forall s, w <> TRef s) -> get (s_catalog registered_zoo) w = Ok e ->
    (w = TClass 2 /\ e = entry_for (str "Node")) \/ (w = TClass 1 /\ e = entry_for (str "Point")) \/ (w = TClass 3 /\ e = entry_for (str "Pair"))).
  { intros w e N H. assert (X : exists e0, type_get (by_type (s_catalog registered_zoo)) w = Some e0 /\ e0 = e).
    { destruct w; try (destruct (N _ eq_refl)); unfold get in H;
        (destruct (type_get _ _) as [e0|] eqn:Q; [injection H as <-; eauto | discriminate H]). }
    destruct X as (e0 & X & <-). clear H.
    assert (B : by_type (s_catalog registered_zoo) =
      [(TClass 2, entry_for (str "Node")); (TClass 1, entry_for (str "Point")); (TClass 3, entry_for (str "Pair"))]) by (vm_compute; reflexivity).
    rewrite B in X. cbn [type_get] in X.
    destruct (typ_eqb (TClass 2) w) eqn:Q1; [apply typ_eqb_eq in Q1; injection X as <-; auto|].
    destruct (typ_eqb (TClass 1) w) eqn:Q2; [apply typ_eqb_eq in Q2; injection X as <-; auto|].
    destruct (typ_eqb (TClass 3) w) eqn:Q3; [apply typ_eqb_eq in Q3; injection X as <-; auto | discriminate X]. }
  assert (F : forall s w, stands_for registered_zoo s w ->
    (s = str "Node" /\ w = TClass 2) \/ (s = str "Point" /\ w = TClass 1) \/ (s = str "Pair" /\ w = TClass 3)).
  { intros s w [e N H Q|H]; [|discriminate H]. destruct (R w e N H) as [(-> & ->)|[(-> & ->)|(-> & ->)]]; cbn [entry_for en_identifier] in Q; subst s; auto. }
  split.
  - intros s w w' A B. apply F in A, B. destruct A as [(A & ->)|[(A & ->)|(A & ->)]]; destruct B as [(B & ->)|[(B & ->)|(B & ->)]]; try reflexivity; rewrite A in B; discriminate B.
  - intros m s a w w' L B. apply F in B. destruct B as [(-> & ->)|[(-> & ->)|(-> & ->)]].
    all: unfold lookup, Zoo in L; cbn [e_refs find_ref] in L; repeat match type of L with (if ?b then _ else _) = _ => destruct b eqn:?Q end;
        try (injection L as <- <-); try reflexivity; try discriminate L;
        match goal with Q : _ && _ = true |- _ => apply andb_true_iff in Q; destruct Q as [_ Q]; vm_compute in Q; discriminate Q end.
  - intros s e H. assert (B : by_name (s_catalog registered_zoo) =
      [(str "Node", entry_for (str "Node")); (str "Point", entry_for (str "Point")); (str "Pair", entry_for (str "Pair"))]) by (vm_compute; reflexivity).
    rewrite B in H. cbn [dict_get] in H. repeat match type of H with (if pystr_eqb ?a ?b then _ else _) = _ =>
      let Q := fresh in destruct (pystr_eqb a b) eqn:Q; [apply pystr_eqb_eq in Q; subst s; injection H as <-; reflexivity|] end. discriminate H.
  - intros t e H. assert (D : (exists s, t = TRef s) \/ forall s, t <> TRef s) by (destruct t; try (right; discriminate); left; eauto).
    destruct D as [(s & ->)|N]; [|destruct (R t e N H) as [(_ & ->)|[(_ & ->)|(_ & ->)]]; reflexivity].
    assert (B : by_name (s_catalog registered_zoo) =
      [(str "Node", entry_for (str "Node")); (str "Point", entry_for (str "Point")); (str "Pair", entry_for (str "Pair"))]) by (vm_compute; reflexivity).
    unfold get in H. rewrite B in H. cbn [dict_get] in H. repeat match type of H with context [if pystr_eqb ?a ?b then _ else _] =>
      destruct (pystr_eqb a b); [injection H as <-; reflexivity|] end. discriminate H.
  - intros s w H c I. apply F in H. destruct H as [(-> & _)|[(-> & _)|(-> & _)]]; cbn in I;
      repeat (destruct I as [<-|I]; [repeat split; discriminate|]); destruct I.
Qed.

Lemma met_types0 : forall t u, met Zoo registered_zoo t u -> In t types0 -> In u types0.
Proof.
  intros t u H. induction H as [t|t u _ IH|t u _ IH|k t u _ IH|ts t u I _ IH|op ts t u I _ IH|ls l u I _ IH|t md u _ IH
    |c cl ps x t u G P I _ IH|c cl ps x t w u G P I U _ IH|s w u Q _ IH]; intros J; try exact J; try discriminate Q; try apply IH.
  all: unfold types0, type0, union0 in J |- *; cbn [In] in J;
    repeat (destruct J as [J|J]; [try discriminate J; try (injection J; intros; subst); cbn [In] in *; try tauto|]); try contradiction.
  all: try (injection G as <-; injection P as <-; cbn [In raw_fields c_kind map f_name f_type Node Dog Cat Color Pair tint tstr] in I;
    repeat (destruct I as [I|I]; [injection I as <- <-; try (discriminate U); cbn [In]; tauto|]); destruct I).
  all: destruct I as [<-|[]]; cbn [lit_type]; unfold tstr; tauto.
Qed.

Definition family0 (m : nat) (t : typ) : Prop := m = 0 /\ In t types0.

Lemma dog_tag : tagged_by Zoo 4 (str "kind") (LStr (str "dog")).
Proof.
  exists Dog, [(str "kind", TLiteral [LStr (str "dog")]); (str "age", tint)]. split; [reflexivity|]. split; [exact Logic.I|]. split; [reflexivity|].
  split; [reflexivity|]. split; [reflexivity|]. split; [|split; [|left; reflexivity]].
  - intros x t y u p I J A B. apply (proj1 (SchemaClass.out_name_spec _ _ _)) in A. apply (proj1 (SchemaClass.out_name_spec _ _ _)) in B. rewrite A in B.
    cbn [In] in I, J. repeat (destruct I as [I|I]; [injection I as <- <-|]); try contradiction;
      repeat (destruct J as [J|J]; [injection J as <- <-|]); try contradiction; try reflexivity; discriminate B.
  - intros x t k I Ik Q. cbn [In] in I. repeat (destruct I as [I|I]; [injection I as <- <-|]); try contradiction;
      cbn [In python_keywords map] in Ik; repeat (destruct Ik as [<-|Ik]; [discriminate Q|]); destruct Ik.
Qed.

Lemma cat_tag : tagged_by Zoo 5 (str "kind") (LStr (str "cat")).
Proof.
  exists Cat, [(str "kind", TLiteral [LStr (str "cat")]); (str "lives", TDict tstr tint)]. split; [reflexivity|]. split; [exact Logic.I|]. split; [reflexivity|].
  split; [reflexivity|]. split; [reflexivity|]. split; [|split; [|left; reflexivity]].
  - intros x t y u p I J A B. apply (proj1 (SchemaClass.out_name_spec _ _ _)) in A. apply (proj1 (SchemaClass.out_name_spec _ _ _)) in B. rewrite A in B.
    cbn [In] in I, J. repeat (destruct I as [I|I]; [injection I as <- <-|]); try contradiction;
      repeat (destruct J as [J|J]; [injection J as <- <-|]); try contradiction; try reflexivity; discriminate B.
  - intros x t k I Ik Q. cbn [In] in I. repeat (destruct I as [I|I]; [injection I as <- <-|]); try contradiction;
      cbn [In python_keywords map] in Ik; repeat (destruct Ik as [<-|Ik]; [discriminate Q|]); destruct Ik.
Qed.

(** An integer is told from a Dog, and a Dog from an integer. *)
Lemma number_apart : forall c cl, get_class Zoo c = Some cl -> c_to_json cl = None -> not_enum cl ->
  told_apart Zoo 0 tint (TClass c) /\ told_apart Zoo 0 (TClass c) tint.
Proof.
  intros c cl G TJ NE. split; apply kinds_apart; intros jk Gv.
  - inversion Gv; subst. eapply ul_class; [exact G | exact NE | discriminate].
  - apply ul_scalar; [reflexivity|]. inversion Gv as [| | | | | | | | |? ? cl' ms x j G' K|? ? cl' G' T' K|? ? cl' h v j G' T']; subst; rewrite G in G'; injection G' as <-.
    + destruct (NE _ K).
    + discriminate.
    + congruence.
Qed.

(** The fields of the classes at hand: names are as they are, and no field is
    optional. *)
Ltac plain_class ps :=
  split; [reflexivity|]; split; [first [reflexivity | exact Logic.I]|]; exists ps; split; [reflexivity|];
  split; [|split; [|split]];
  [ intros x t y u p I J A B; apply (proj1 (SchemaClass.out_name_spec _ _ _)) in A; apply (proj1 (SchemaClass.out_name_spec _ _ _)) in B; rewrite A in B;
    cbn [In] in I, J; repeat (destruct I as [I|I]; [injection I as <- <-|]); try contradiction;
    repeat (destruct J as [J|J]; [injection J as <- <-|]); try contradiction; try reflexivity; discriminate B
  | intros x t k I Ik Q; cbn [In] in I; repeat (destruct I as [I|I]; [injection I as <- <-|]); try contradiction;
    cbn [In python_keywords map] in Ik; repeat (destruct Ik as [<-|Ik]; [discriminate Q|]); destruct Ik
  | intros x t I H; cbn [In] in I; repeat (destruct I as [I|I]; [injection I as <- <-|]); try contradiction;
    exfalso; unfold tint, tstr in H; inversion H; subst; try contradiction;
    repeat match goal with X : has_type _ _ (TScalar _) _ |- _ => inversion X; clear X; subst; try contradiction end;
    match goal with X : lit_value ?l = VNone, Y : In ?l _ |- _ => destruct Y as [<-|[]]; discriminate X end
  | intros x t r I Rd; cbn [In] in I; repeat (destruct I as [I|I]; [injection I as <- <-|]); try contradiction;
    (destruct Rd as [((op & ts & _ & [Q|(md & Q)]) & _)|(_ & ->)]; [discriminate Q | discriminate Q |]) ].

Lemma family0_tame : tame Zoo family0.
Proof.
  assert (LK : forall m a w, lookup Zoo m (str "Node") = Some (a, w) -> w = TClass 2).
  { intros m a w L. refine (co_lookup _ _ zoo_coherent m _ a w (TClass 2) L _).
    apply (sf_registered _ _ _ (entry_for (str "Node"))); [discriminate | vm_compute; reflexivity | reflexivity]. }
  assert (FM : forall t, existsb (typ_eqb t) types0 = true -> family0 0 t).
  { intros t H. split; [reflexivity|]. apply existsb_exists in H. destruct H as (u & I & Q). apply typ_eqb_eq in Q. subst. exact I. }
  intros m t (-> & I). split.
  { unfold types0, type0, union0 in I. cbn [In] in I.
    repeat (destruct I as [<-|I]; [repeat first [apply g_leaf; exact Logic.I | apply g_union | apply g_annot | apply Forall_cons | apply Forall_nil];
      apply g_ref; intros a w L; rewrite (LK 0 a w L); apply g_leaf; exact Logic.I|]). destruct I. }
  unfold types0, type0, union0 in I. cbn [In] in I.
  repeat (destruct I as [<-|I]; [|]); [..|destruct I].
  - intros w Iw. cbn [In] in Iw. repeat (destruct Iw as [<-|Iw]; [apply FM; reflexivity|]). destruct Iw.
  - intros cl G. injection G as <-. plain_class [(str "first", TClass 0); (str "second", TSet tint)]; apply FM; reflexivity.
  - intros cl G. injection G as <-. plain_class [(str "value", TAnnot tint [AAlias (str "val")]); (str "children", TList (TRef (str "Node")))];
      apply FM; reflexivity.
  - split; [intros w Iw; cbn [In] in Iw; repeat (destruct Iw as [<-|Iw]; [apply FM; reflexivity|]); destruct Iw|].
    intros ts1 w ts2 u Q Iu.
    assert (ND : NoDup [TClass 4; TClass 5; tint]) by (repeat constructor; cbn [In]; intros X; repeat (destruct X as [X|X]; [discriminate X|]); exact X).
    assert (Nu : u <> w).
    { rewrite Q in ND. apply NoDup_remove_2 in ND. intros ->. apply ND, in_app_iff. exact Iu. }
    assert (Iw : In w [TClass 4; TClass 5; tint]) by (rewrite Q; apply in_app_iff; right; left; reflexivity).
    assert (Iv : In u [TClass 4; TClass 5; tint]) by (rewrite Q; apply in_app_iff; destruct Iu; [left | right; right]; assumption).
    assert (NE : not_enum Dog /\ not_enum Cat) by (split; intros ms X; discriminate X). destruct NE as (ND4 & ND5).
    cbn [In] in Iw, Iv. destruct Iw as [<-|[<-|[<-|[]]]]; destruct Iv as [<-|[<-|[<-|[]]]]; try (destruct (Nu eq_refl)).
    + eapply tags_apart; [apply zoo_ok | apply dog_tag | apply cat_tag | reflexivity | reflexivity | discriminate | reflexivity].
    + eapply number_apart; [reflexivity | reflexivity | exact ND4].
    + eapply tags_apart; [apply zoo_ok | apply cat_tag | apply dog_tag | reflexivity | reflexivity | discriminate | reflexivity].
    + eapply number_apart; [reflexivity | reflexivity | exact ND5].
    + eapply number_apart; [reflexivity | reflexivity | exact ND4].
    + eapply number_apart; [reflexivity | reflexivity | exact ND5].
  - split; [apply FM; reflexivity|]. intros vs js. apply plain_set. cbn [In]. auto.
  - split; [|split; apply FM; reflexivity]. right. right. exists 0, Color. eexists. split; [reflexivity|]. split; [reflexivity|]. split; [reflexivity|].
    cbn [length]. lia.
  - intros cl G. injection G as <-. plain_class [(str "kind", TLiteral [LStr (str "dog")]); (str "age", tint)]; apply FM; reflexivity.
  - intros cl G. injection G as <-. plain_class [(str "kind", TLiteral [LStr (str "cat")]); (str "lives", TDict tstr tint)]; apply FM; reflexivity.
  - reflexivity.
  - reflexivity.
  - split; [left; reflexivity|]. split; apply FM; reflexivity.
  - intros cl G. injection G as <-. split; [reflexivity|]. intros y j I. cbn [In] in I.
    repeat (destruct I as [I|I]; [injection I as <- <-; reflexivity|]). destruct I.
  - eexists _, _. split; reflexivity.
  - eexists _, _. split; reflexivity.
  - split; [apply FM; reflexivity|]. intros a [<-|[]]. exact Logic.I.
  - apply FM. reflexivity.
  - intros a w L. rewrite (LK 0 a w L). apply FM. reflexivity.
Qed.

(** (Pair(Color.GREEN, {1}), Cat("cat", {"x": 9}), {3, 5}, {Color.RED: 7}) *)
Definition value0 : value :=
  VTuple [VObj 3 [(str "first", VEnum 0 (str "GREEN")); (str "second", VSet [VInt 1])]; VObj 5 [(str "kind", vstr "cat"); (str "lives", VDict [(vstr "x", VInt 9)])]; VSet [VInt 3; VInt 5]; VDict [(VEnum 0 (str "RED"), VInt 7)]].

Lemma all_lenient : lenient (fun _ _ _ => true).
Proof. split; reflexivity. Qed.

(** Texts met on the way through [type0]: none. *)
Lemma no_text0 : forall s, ~ lost Zoo registered_zoo type0 s.
Proof.
  set (L := [type0; TClass 3; union0; TSet tint; TDict (TClass 0) tint; TClass 4; TClass 5; tint; tstr; TDict tstr tint; TClass 0;
    TLiteral [LStr (str "dog")]; TLiteral [LStr (str "cat")]]).
  assert (X : forall t u, met Zoo registered_zoo t u -> In t L -> In u L).
  { unfold L. intros t u H. induction H as [t|t u _ IH|t u _ IH|k t u _ IH|ts t u I _ IH|op ts t u I _ IH|ls l u I _ IH|t md u _ IH
      |c cl ps x t u G P I _ IH|c cl ps x t w u G P I U _ IH|s w u Q _ IH]; intros J; try exact J; try discriminate Q; try apply IH.
    all: unfold type0, union0 in J |- *; cbn [In] in J;
      repeat (destruct J as [J|J]; [try discriminate J; try (injection J; intros; subst); cbn [In] in *; try tauto|]); try contradiction.
    all: try (injection G as <-; injection P as <-; cbn [In raw_fields c_kind map f_name f_type Node Dog Cat Color Pair tint tstr] in I;
      repeat (destruct I as [I|I]; [injection I as <- <-; try (discriminate U); cbn [In]; tauto|]); destruct I).
    all: destruct I as [<-|[]]; cbn [lit_type]; unfold tstr; tauto. }
  intros s (_ & [(M & _)|(md & M)]); apply X in M; try (left; reflexivity); unfold L, type0, union0 in M; cbn [In] in M;
    repeat (destruct M as [M|M]; [discriminate M|]); destruct M.
Qed.

Example C29_witness : exists doc j,
  env_ok Zoo /\ canonical_env Zoo /\ lenient (fun _ _ _ => true) /\ coherent Zoo registered_zoo /\
  classdef_to_schema Zoo registered_zoo 9 9 type0 = Ok doc /\
  (forall s, lost Zoo registered_zoo type0 s -> exists sch, defined doc s sch) /\
  tame Zoo family0 /\ family0 0 type0 /\ has_type Zoo 0 type0 value0 /\ object_to_json Zoo value0 = Ok j /\
  alien Zoo 0 type0 (JArr [j]).
Proof.
  exists_result (classdef_to_schema Zoo registered_zoo 9 9 type0). exists_result (object_to_json Zoo value0).
  split; [exact zoo_ok|]. split; [exact zoo_canonical|]. split; [exact all_lenient|]. split; [exact zoo_coherent|].
  split; [vm_compute; reflexivity|]. split.
  { intros s L. exfalso. apply no_text0 in L. exact L. }
  split; [exact family0_tame|]. split; [split; [reflexivity | left; reflexivity]|]. split; [|split; [vm_compute; reflexivity|]].
  - assert (Int_of : forall z, has_type Zoo 0 tint (VInt z)) by (intros z; apply ht_scalar; exact Logic.I).
    assert (Str_of : forall x, has_type Zoo 0 tstr (VStr x)) by (intros x; apply ht_scalar; exact Logic.I).
    apply ht_tuple. constructor; [|constructor; [|constructor; [|constructor; [|constructor]]]].
    + eapply ht_obj; [reflexivity | exact Logic.I | reflexivity|]. cbn [c_module Pair c_kind raw_fields map snd].
      constructor; [eapply ht_enum; [reflexivity | reflexivity | right; left; reflexivity]|]. constructor; [|constructor].
      apply ht_set; repeat constructor.
    + apply (ht_union _ _ _ _ (TClass 5)); [right; left; reflexivity|]. eapply ht_obj; [reflexivity | reflexivity | reflexivity|].
      cbn [c_module Cat c_kind raw_fields map f_name f_type snd].
      constructor; [apply (ht_literal _ _ _ (LStr (str "cat"))); left; reflexivity|]. constructor; [|constructor].
      apply ht_dict; [constructor; [apply Str_of | constructor] | constructor; [apply Int_of | constructor] | repeat constructor; intros []].
    + apply ht_set; repeat constructor; try apply Int_of.
    + apply ht_dict; [constructor; [|constructor] | constructor; [apply Int_of | constructor] | repeat constructor; intros []].
      eapply ht_enum; [reflexivity | reflexivity | left; reflexivity].
  - apply al_tuple_length. discriminate.
Qed.

(** A recursive class; the serializer of such a class is never finished, but what is to be
    written for its instances satisfies the schema. *)
Example C29_recursive_witness :
  classdef_to_schema Zoo registered_zoo 9 9 (TDict tstr (TClass 2)) = Ok tree_schema /\
  (forall s, lost Zoo registered_zoo (TDict tstr (TClass 2)) s -> exists sch, defined tree_schema s sch) /\
  fits Zoo 0 (TDict tstr (TClass 2)) (VDict [(vstr "root", tree_value)]) /\
  exists j, image Zoo (VDict [(vstr "root", tree_value)]) j.
Proof.
  split; [vm_compute; reflexivity|]. split.
  { intros s L. assert (Q : s = str "Node").
    { destruct L as (_ & [(M & _)|(md & M)]).
      - inversion M as [| | |? ? ? M'| | | | | | |]; subst. apply met_types0 in M'; [|cbn; tauto]. unfold types0, type0, union0 in M'. cbn [In] in M'.
        repeat (destruct M' as [M'|M']; [try discriminate M'; try (injection M' as <-; reflexivity)|]); destruct M'.
      - inversion M as [| | |? ? ? M'| | | | | | |]; subst. apply met_types0 in M'; [|cbn; tauto]. unfold types0, type0, union0 in M'. cbn [In] in M'.
        repeat (destruct M' as [M'|M']; [discriminate M'|]); destruct M'. }
    subst s. eexists _, _, _. split; [reflexivity|]. split; [right; left; reflexivity | left; reflexivity]. }
  assert (Int_of : forall z, has_type Zoo 0 tint (VInt z)) by (intros z; apply ht_scalar; exact Logic.I).
  assert (Node_mk : forall z vs, Forall (has_type Zoo 0 (TRef (str "Node"))) vs ->
    has_type Zoo 0 (TClass 2) (VObj 2 [(str "value", VInt z); (str "children", VList vs)])).
  { intros z vs F. eapply ht_obj; [reflexivity | reflexivity | reflexivity|]. cbn [c_module Node c_kind raw_fields map f_name f_type snd].
    constructor; [apply ht_annot, Int_of | constructor; [apply ht_list; exact F | constructor]]. }
  assert (TV : has_type Zoo 0 (TClass 2) tree_value).
  { apply Node_mk. constructor; [|constructor]. eapply ht_ref; [vm_compute; reflexivity|]. apply Node_mk. constructor. }
  split.
  - apply ft_dict; [left; reflexivity | |]; intros a b [Q|[]]; injection Q as <- <-; [apply ft_scalar; [reflexivity | exact Logic.I]|].
    apply (tame_fits Zoo zoo_ok zoo_canonical family0 family0_tame 0 (TClass 2)); [split; [reflexivity | cbn; tauto] | exact TV].
  - assert (Nm : forall p t, (p = str "value" /\ t = TAnnot tint [AAlias (str "val")]) -> prop_name p t (str "val")).
    { intros p t (-> & ->). apply pn_alias. exists tint, [], []. split; [reflexivity | intros b []]. }
    assert (Nc : forall t, t = TList (TRef (str "Node")) -> prop_name (str "children") t (str "children")).
    { intros t ->. apply pn_same; [intros a (u & m1 & m2 & Q & _); discriminate Q|].
      intros k I. cbn [In python_keywords map] in I. repeat (destruct I as [<-|I]; [discriminate|]). destruct I. }
    assert (Im : forall z vs js, Forall2 (image Zoo) vs js ->
      image Zoo (VObj 2 [(str "value", VInt z); (str "children", VList vs)]) (JObj [(str "val", JInt z); (str "children", JArr js)])).
    { intros z vs js F. eapply im_fields with (cl := Node) (ps := [(str "val", JInt z); (str "children", JArr js)]); [reflexivity | reflexivity | exact Logic.I | reflexivity | | |].
      - eapply pr_some; [reflexivity | discriminate|]. eapply pr_some; [reflexivity | discriminate|]. apply pr_nil.
      - constructor; [split; cbn [fst snd f_name f_type]; [apply Nm; auto | apply im_scalar; constructor]|]. constructor; [|constructor].
        split; cbn [fst snd f_name f_type]; [apply Nc; reflexivity | apply im_list; exact F].
      - apply (me_new [(str "val", JInt z)] [(str "val", JInt z)]); [apply (me_new [] []); [apply me_nil | intros []]|].
        intros [Q|[]]. discriminate Q. }
    assert (X : exists j, image Zoo tree_value j) by (eexists; apply Im; constructor; [apply Im; constructor | constructor]).
    destruct X as (j & X). exists (JObj [(str "root", j)]). apply (im_dict _ _ [(str "root", j)]).
    + constructor; [split; [apply kt_str | exact X] | constructor].
    + apply (me_new [] []); [apply me_nil | intros []].
Qed.

(** *** The provisos are needed *)

(** An address is written as a text, but its schema is that of an object; *)
Theorem C29_address_refuted : exists E S n k t v doc j, has_type E 0 t v /\ object_to_json E v = Ok j /\
  classdef_to_schema E S n k t = Ok doc /\ violates (fun _ _ _ => true) doc j.
Proof.
  exists Zoo, (Gen [] false), 9, 9, (TScalar KIPv4), (VIPv4 2130706433).
  exists_result (classdef_to_schema Zoo (Gen [] false) 9 9 (TScalar KIPv4)). exists_result (object_to_json Zoo (VIPv4 2130706433)).
  split; [apply ht_scalar; reflexivity|]. split; [vm_compute; reflexivity|]. split; [vm_compute; reflexivity|]. exists 9. vm_compute. reflexivity.
Qed.
Print Assumptions C29_address_refuted.

(** an integer satisfies both alternatives of Union[int, float], where exactly
    one is asked for; *)
Theorem C29_overlap_refuted : exists E S n k t v doc j, has_type E 0 t v /\ object_to_json E v = Ok j /\
  classdef_to_schema E S n k t = Ok doc /\ violates (fun _ _ _ => true) doc j.
Proof.
  exists Zoo, (Gen [] false), 9, 9, (TUnion false [TScalar KInt; TScalar KFloat]), (VInt 1).
  exists_result (classdef_to_schema Zoo (Gen [] false) 9 9 (TUnion false [TScalar KInt; TScalar KFloat])). exists_result (object_to_json Zoo (VInt 1)).
  split; [apply (ht_union _ _ _ _ (TScalar KInt)); [left; reflexivity | apply ht_scalar; exact Logic.I]|].
  split; [vm_compute; reflexivity|]. split; [vm_compute; reflexivity|]. exists 9. vm_compute. reflexivity.
Qed.
Print Assumptions C29_overlap_refuted.

(** and when two classes are registered under one name, the first that is met
    is taken for the other. *)
Theorem C29_identifier_refuted : exists E S n k t v doc j, has_type E 0 t v /\ object_to_json E v = Ok j /\
  classdef_to_schema E S n k t = Ok doc /\ violates (fun _ _ _ => true) doc j.
Proof.
  exists Zoo, (Gen [(TClass 4, str "Pet"); (TClass 3, str "Pet")] false), 9, 9, (TTuple [TClass 4; TClass 3]),
    (VTuple [VObj 4 [(str "kind", vstr "dog"); (str "age", VInt 3)]; VObj 3 [(str "first", VEnum 0 (str "RED")); (str "second", VSet [])]]).
  exists_result (classdef_to_schema Zoo (Gen [(TClass 4, str "Pet"); (TClass 3, str "Pet")] false) 9 9 (TTuple [TClass 4; TClass 3])).
  exists_result (object_to_json Zoo (VTuple [VObj 4 [(str "kind", vstr "dog"); (str "age", VInt 3)]; VObj 3 [(str "first", VEnum 0 (str "RED")); (str "second", VSet [])]])).
  split; [|split; [vm_compute; reflexivity|split; [vm_compute; reflexivity|exists 9; vm_compute; reflexivity]]].
  apply ht_tuple. constructor; [|constructor; [|constructor]].
  - eapply ht_obj; [reflexivity | reflexivity | reflexivity|]. cbn [c_module Dog c_kind raw_fields map f_name f_type snd].
    constructor; [apply (ht_literal _ _ _ (LStr (str "dog"))); left; reflexivity|]. constructor; [apply ht_scalar; exact Logic.I | constructor].
  - eapply ht_obj; [reflexivity | exact Logic.I | reflexivity|]. cbn [c_module Pair c_kind raw_fields map snd].
    constructor; [eapply ht_enum; [reflexivity | reflexivity | left; reflexivity]|]. constructor; [apply ht_set; constructor | constructor].
Qed.
Print Assumptions C29_identifier_refuted.
