(** C06: tagged unions. *)
From Coq Require Import String List NArith ZArith Bool Lia Permutation.
From Verif Require Import Base Json PyTypes TypeAlgebra Mapping Deser Ser Lists SpecTyping SpecRecursion DeserUnfold SpecDeser
  SpecTypes TypeAlgebraProofs SpecFields FieldProofs SpecTagged TaggedProofs DeserFacts Samples PropDeser PropFields.
Import ListNotations.
Open Scope list_scope.
Open Scope nat_scope.

(** * The class is the one named by the tag *)

(** C06.  If a document is accepted, the value is that of a class of the union
    that lists the value of a tag given in the document. *)
Theorem C06_tag_names_class : forall E skip m op ts j v,
  env_ok E -> guarded_env E -> calm E -> shuffles (e_order E) -> ready E m (TUnion op ts) ->
  (exists p, tag E ts p) -> json_to_object E skip m (TUnion op ts) j = Ok v ->
  exists o p x c, j = JObj o /\ tag E ts p /\ given o p x /\ In (TClass c) ts /\ claims E c p x /\
    json_to_object E skip m (TClass c) j = Ok v.
Proof. intros E skip m op ts j v OK GE C ORD R. exact (tagged_ok E OK GE C ORD skip m op ts R j v). Qed.
Print Assumptions C06_tag_names_class.

(** C06.  There is only one such class: two that list the same value of a tag
    are the same. *)
Theorem C06_tag_unique : forall E m op ts p x c c',
  env_ok E -> shuffles (e_order E) -> ready E m (TUnion op ts) ->
  tag E ts p -> In (TClass c) ts -> In (TClass c') ts -> claims E c p x -> claims E c' p x -> c = c'.
Proof. intros E m op ts p x c c' OK ORD R. exact (tagged_unique E OK ORD m op ts R p x c c'). Qed.
Print Assumptions C06_tag_unique.

(** C06.  If the tags given in the document are those of class [c], the outcome
    (value or exception) is that of reading class [c]. *)
Theorem C06_tag_selects : forall E skip m op ts o c,
  env_ok E -> guarded_env E -> calm E -> shuffles (e_order E) -> ready E m (TUnion op ts) ->
  NoDup (map fst o) -> In (TClass c) ts -> (exists p x, tag E ts p /\ given o p x) ->
  (forall p x, tag E ts p -> given o p x -> claims E c p x) ->
  json_to_object E skip m (TUnion op ts) (JObj o) = json_to_object E skip m (TClass c) (JObj o).
Proof. intros E skip m op ts o c OK GE C ORD R. exact (tagged_selects E OK GE C ORD skip m op ts R o c). Qed.
Print Assumptions C06_tag_selects.

(** C06.  A document that gives no tag is rejected. *)
Theorem C06_tag_missing : forall E skip m op ts o,
  guarded_env E -> calm E -> shuffles (e_order E) -> ready E m (TUnion op ts) ->
  (exists p, tag E ts p) -> (forall p x, tag E ts p -> ~ given o p x) ->
  json_to_object E skip m (TUnion op ts) (JObj o) = Err EJsonType.
Proof. intros E skip m op ts o GE C ORD R. exact (tagged_missing E GE C ORD skip m op ts R o). Qed.
Print Assumptions C06_tag_missing.

(** C06.  A document whose tags no class lists is rejected. *)
Theorem C06_tag_wrong : forall E skip m op ts o,
  env_ok E -> guarded_env E -> calm E -> shuffles (e_order E) -> ready E m (TUnion op ts) ->
  (exists p, tag E ts p) ->
  (forall p x c, tag E ts p -> In (p, x) o -> In (TClass c) ts -> ~ claims E c p x) ->
  (forall p x, tag E ts p -> In (p, x) o -> is_scalar x) ->
  json_to_object E skip m (TUnion op ts) (JObj o) = Err EJsonType.
Proof. intros E skip m op ts o OK GE C ORD R. exact (tagged_wrong E OK GE C ORD skip m op ts R o). Qed.
Print Assumptions C06_tag_wrong.

(** * Independence of the iteration order of sets *)

(** C06.  If no union met has more than one tag, the outcome (value or
    exception) is the same for any iteration order of sets. *)
Theorem C06_order_single : forall E skip f m t j,
  env_ok E -> canonical_env E -> shuffles (e_order E) -> shuffles f -> single_tags E m t ->
  json_to_object E skip m t j = json_to_object (reorder E f) skip m t j.
Proof. intros E skip f m t j OK CE O O'. exact (jto_single E OK CE f O O' skip m t j). Qed.
Print Assumptions C06_order_single.

(** C06.  With several tags, provided that these are plain and that such unions
    do not occur inside a union without tags save in the last member, the
    documents accepted, and the values they stand for, are the same. *)
Theorem C06_order_independent : forall E skip f m t j v,
  env_ok E -> canonical_env E -> guarded_env E -> shuffles (e_order E) -> shuffles f ->
  every_part (guarded E m) t -> orderly E m t ->
  (json_to_object E skip m t j = Ok v <-> json_to_object (reorder E f) skip m t j = Ok v).
Proof. intros E skip f m t j v OK CE GE O O'. exact (jto_agree E OK CE skip GE O f O' m t j v). Qed.
Print Assumptions C06_order_independent.

(** * Witnesses *)

Definition lits (s : string) : typ := TLiteral [LStr (str s)].

(** class K(enum.Enum): X = "x"; Y = "y" *)
Definition K := mkClass 0 (str "K") (CEnum [(str "X", jstr "x"); (str "Y", jstr "y")]) None None.
(** @dataclass class C1: d: date; a: Literal["x"]; b: Literal["u"] *)
Definition C1 := mkClass 0 (str "C1")
  (CData false [mkField (str "d") (TScalar KDate) None; mkField (str "a") (lits "x") None; mkField (str "b") (lits "u") None]) None None.
(** @dataclass class C2: a: Literal["y"]; b: Literal["v"]; d: date *)
Definition C2 := mkClass 0 (str "C2")
  (CData false [mkField (str "a") (lits "y") None; mkField (str "b") (lits "v") None; mkField (str "d") (TScalar KDate) None]) None None.
(** @dataclass class E1: a: Literal[K.X]; b: Literal["u"] *)
Definition E1 := mkClass 0 (str "E1")
  (CData false [mkField (str "a") (TLiteral [LEnum 0 (str "X")]) None; mkField (str "b") (lits "u") None]) None None.
(** @dataclass class E2: a: Literal[K.Y]; b: Literal["v"] *)
Definition E2 := mkClass 0 (str "E2")
  (CData false [mkField (str "a") (TLiteral [LEnum 0 (str "Y")]) None; mkField (str "b") (lits "v") None]) None None.
(** @dataclass class W1: class_: Literal["x"] *)
Definition W1 := mkClass 0 (str "W1") (CData false [mkField (str "class_") (lits "x") None]) None None.
(** @dataclass class W2: class_: Literal["y"] *)
Definition W2 := mkClass 0 (str "W2") (CData false [mkField (str "class_") (lits "y") None]) None None.

Definition Tags : env := mkEnv [K; C1; C2; E1; E2; W1; W2] [] (fun ps => ps).

Ltac tags_class c H :=
  unfold get_class, Tags in H; cbn [e_classes] in H;
  destruct c as [|[|[|[|[|[|[|?c]]]]]]]; cbn [nth_error] in H;
  [injection H as <-..|destruct c; discriminate H].

Lemma tags_ok : env_ok Tags.
Proof.
  intros c cl H. tags_class c H; split; cbn; try discriminate; try (intros; discriminate).
  all: try (nodup; fail).
  all: try (intros ? Q; injection Q as <-; repeat split; try (nodup; fail);
            repeat constructor; cbn; try reflexivity; intros; discriminate).
  all: try (intros fr fs f v Q I D; injection Q as <- <-; cbn [In] in I;
            repeat destruct I as [<-|I]; try contradiction; cbn [f_default f_type] in *; discriminate D).
Qed.

Lemma tags_no_refs : forall m s, lookup Tags m s = None.
Proof. reflexivity. Qed.

Lemma tags_guarded : guarded_env Tags.
Proof.
  split.
  - intros c cl x t H I. tags_class c H; cbn [raw_fields c_kind map f_name f_type In K C1 C2 E1 E2 W1 W2] in I;
      repeat (destruct I as [I|I]; [injection I as <- <-|]); try contradiction; cbn [every_part fold_right lits]; prove_guarded.
  - intros m s a t L. rewrite tags_no_refs in L. discriminate.
  - intros m s t L. rewrite tags_no_refs in L. discriminate.
Qed.

Lemma tags_calm : calm Tags.
Proof.
  split.
  - intros c cl h j H. tags_class c H; cbn; discriminate.
  - intros c cl fr fs f H. tags_class c H; cbn; try discriminate; intros Q; injection Q as <- <-; cbn [In];
      intros I; repeat destruct I as [<-|I]; try contradiction; discriminate.
Qed.

Lemma tags_canonical : canonical_env Tags.
Proof.
  split.
  - intros m s a t L. rewrite tags_no_refs in L. discriminate.
  - intros c cl x t G I. tags_class c G; cbn [raw_fields c_kind map f_name f_type In K C1 C2 E1 E2 W1 W2] in I;
      repeat (destruct I as [I|I]; [injection I as <- <-|]); try contradiction; unfold lits; prove_canonical.
Qed.

Lemma tags_shuffles : shuffles (e_order Tags).
Proof. intros ps. apply Permutation_refl. Qed.

Lemma rev_shuffles : shuffles (@rev pystr).
Proof. intros ps. apply Permutation_sym, Permutation_rev. Qed.

Definition T12 : typ := TUnion false [TClass 1; TClass 2].

Lemma tag_a : tag Tags [TClass 1; TClass 2] (str "a").
Proof.
  split; [discriminate|]. constructor; [|constructor; [|constructor]].
  - exists 1, [LStr (str "x")]. split; [reflexivity|]. exists C1, (lits "x"), (raw_fields (c_kind C1)).
    split; [reflexivity|]. split; [reflexivity|]. split; [cbn; auto | reflexivity].
  - exists 2, [LStr (str "y")]. split; [reflexivity|]. exists C2, (lits "y"), (raw_fields (c_kind C2)).
    split; [reflexivity|]. split; [reflexivity|]. split; [cbn; auto | reflexivity].
Qed.

(** Reading a class of the sample program meets no union. *)
Lemma tags_reach_class : forall m t m' u, reach Tags m t m' u ->
  (exists c, t = TClass c) \/ (exists s, t = TScalar s) \/ (exists ls, t = TLiteral ls) -> ~ is_union u.
Proof.
  intros m t m' u H. induction H as [m t|m t m' u H IH|m t m' u H IH|m k t m' u H IH|m ts t m' u I H IH|m op ts t m' u I H IH
      |m ls l m' u I H IH|m t md m' u H IH|m s a t m' u L H IH|m c cl hs x t w m' u G FW HH I RD H IH];
    intros D; try (destruct D as [(? & Q)|[(? & Q)|(? & Q)]]; discriminate).
  - destruct D as [(? & ->)|[(? & ->)|(? & ->)]]; intros [].
  - apply IH. destruct l; cbn [lit_type]; eauto.
  - apply IH.
    assert (X : (exists s, t = TScalar s) \/ exists ls, t = TLiteral ls).
    { tags_class c G; vm_compute in HH; injection HH as <-; cbn [In] in I;
        repeat (destruct I as [I|I]; [injection I as <- <-; eauto|]); contradiction. }
    assert (Q : w = t).
    { assert (NO : ~ optional t).
      { intros (op & ts & _ & [Q|(md & Q)]); destruct X as [(? & ->)|(? & ->)]; discriminate Q. }
      unfold reads in RD. tags_class c G; cbn [c_kind K C1 C2 E1 E2 W1 W2] in RD; destruct RD as [[O _]|[_ Q]]; try contradiction; exact Q. }
    subst w. right. exact X.
Qed.

Lemma tags_reach_union : forall cs m m' op us, reach Tags m (TUnion false (map TClass cs)) m' (TUnion op us) ->
  m' = m /\ op = false /\ us = map TClass cs.
Proof.
  intros cs m m' op us H. inversion H as [| | | | |? ? t ? ? I H'| | | |]; subst; [auto|]. exfalso.
  apply in_map_iff in I. destruct I as (c & <- & _). eapply tags_reach_class in H'; [|eauto]. apply H'. exact I.
Qed.

Lemma tags_plain : plain_tags Tags [TClass 1; TClass 2].
Proof.
  intros p c cl ps t ls _ I G C Ip L. destruct I as [Q|[Q|[]]]; injection Q as <-; injection G as <-; injection C as <-;
    (split; [reflexivity|]); cbn [In raw_fields c_kind map f_name f_type C1 C2] in Ip;
    repeat (destruct Ip as [Ip|Ip]; [injection Ip as <- <-; cbn in L; try discriminate L|]); try contradiction; injection L as <-;
    (split; [apply json_property_spec; reflexivity|]); intros l [<-|[]]; discriminate.
Qed.

Example C06_witness_hypotheses :
  env_ok Tags /\ canonical_env Tags /\ guarded_env Tags /\ calm Tags /\ shuffles (e_order Tags) /\ shuffles (@rev pystr) /\
  ready Tags 0 T12 /\ (exists p, tag Tags [TClass 1; TClass 2] p) /\ orderly Tags 0 T12 /\
  ready Zoo 0 (TUnion false [TClass 4; TClass 5]).
Proof.
  split; [exact tags_ok|]. split; [exact tags_canonical|]. split; [exact tags_guarded|]. split; [exact tags_calm|].
  split; [exact tags_shuffles|]. split; [exact rev_shuffles|]. split; [prove_ready|]. split; [eexists; exact tag_a|].
  split; [|prove_ready]. split.
  - intros m' op ts RE _. apply (tags_reach_union [1; 2]) in RE. destruct RE as (_ & _ & ->). exact tags_plain.
  - intros m' op ts ts1 u ts2 m'' op' us RE UT. apply (tags_reach_union [1; 2]) in RE. destruct RE as (_ & _ & ->).
    exfalso. exact (UT _ tag_a).
Qed.

Definition doc1 (a b d : string) : json := JObj [(str "a", jstr a); (str "b", jstr b); (str "d", jstr d)].
Arguments doc1 (a b d)%string.

Example C06_witness :
  json_to_object Tags false 0 T12 (doc1 "y" "v" "2020-02-29") = json_to_object Tags false 0 (TClass 2) (doc1 "y" "v" "2020-02-29") /\
  (exists v, json_to_object Tags false 0 T12 (doc1 "y" "v" "2020-02-29") = Ok v) /\
  json_to_object Tags false 0 T12 (JObj [(str "d", jstr "2020-02-29")]) = Err EJsonType /\
  json_to_object Zoo false 0 (TUnion false [TClass 4; TClass 5]) (JObj [(str "kind", jstr "dog"); (str "age", JInt 3)]) =
    Ok (VObj 4 [(str "kind", vstr "dog"); (str "age", VInt 3)]).
Proof. split; [vm_compute; reflexivity|]. split; [eexists; vm_compute; reflexivity|]. split; vm_compute; reflexivity. Qed.

(** * Where it fails *)

(** Tags that are members of an enumeration are never recognised, so that
    whether a document is accepted depends on the iteration order. *)
Theorem C06_order_enum_refuted :
  exists E f m op ts j v, env_ok E /\ shuffles (e_order E) /\ shuffles f /\ ready E m (TUnion op ts) /\ many_tags E ts /\
  json_to_object (reorder E f) false m (TUnion op ts) j = Ok v /\
  json_to_object E false m (TUnion op ts) j = Err EJsonType.
Proof.
  exists Tags, (@rev pystr), 0, false, [TClass 3; TClass 4], (JObj [(str "a", jstr "x"); (str "b", jstr "u")]),
    (VObj 3 [(str "a", VEnum 0 (str "X")); (str "b", vstr "u")]).
  split; [exact tags_ok|]. split; [exact tags_shuffles|]. split; [exact rev_shuffles|]. split; [prove_ready|].
  split; [|split; vm_compute; reflexivity].
  exists (str "a"), (str "b"). split; [discriminate|].
  split; (split; [discriminate|]); (constructor; [|constructor; [|constructor]]).
  - exists 3, [LEnum 0 (str "X")]. split; [reflexivity|]. exists E1, (TLiteral [LEnum 0 (str "X")]), (raw_fields (c_kind E1)). repeat split; cbn; auto.
  - exists 4, [LEnum 0 (str "Y")]. split; [reflexivity|]. exists E2, (TLiteral [LEnum 0 (str "Y")]), (raw_fields (c_kind E2)). repeat split; cbn; auto.
  - exists 3, [LStr (str "u")]. split; [reflexivity|]. exists E1, (lits "u"), (raw_fields (c_kind E1)). repeat split; cbn; auto.
  - exists 4, [LStr (str "v")]. split; [reflexivity|]. exists E2, (lits "v"), (raw_fields (c_kind E2)). repeat split; cbn; auto.
Qed.
Print Assumptions C06_order_enum_refuted.

(** A document whose tags contradict each other is rejected with an exception
    that depends on the order, so that an enclosing union without tags may or may
    not go on to its next member. *)
Theorem C06_order_nested_refuted :
  exists E f m t j v e, env_ok E /\ shuffles (e_order E) /\ shuffles f /\ ready E m t /\
  json_to_object (reorder E f) false m t j = Ok v /\ json_to_object E false m t j = Err e.
Proof.
  exists Tags, (@rev pystr), 0, (TUnion false [TList T12; TList (TDict tstr tstr)]), (JArr [doc1 "x" "v" "bad"]),
    (VList [VDict [(vstr "a", vstr "x"); (vstr "b", vstr "v"); (vstr "d", vstr "bad")]]), EValue.
  split; [exact tags_ok|]. split; [exact tags_shuffles|]. split; [exact rev_shuffles|]. split; [prove_ready|].
  split; vm_compute; reflexivity.
Qed.
Print Assumptions C06_order_nested_refuted.

(** A tag is looked up by the name of the field, not by its JSON name: what
    [object_to_json] writes for an instance is rejected. *)
Theorem C06_tag_name_refuted :
  exists E m op ts v c j, env_ok E /\ ready E m (TUnion op ts) /\ (exists p, tag E ts p) /\
  In (TClass c) ts /\ has_type E m (TClass c) v /\ object_to_json E v = Ok j /\
  json_to_object E false m (TClass c) j = Ok v /\ json_to_object E false m (TUnion op ts) j = Err EJsonType.
Proof.
  exists Tags, 0, false, [TClass 5; TClass 6], (VObj 5 [(str "class_", vstr "x")]), 5, (JObj [(str "class", jstr "x")]).
  split; [exact tags_ok|]. split; [prove_ready|]. split.
  - exists (str "class_"). split; [discriminate|]. constructor; [|constructor; [|constructor]].
    + exists 5, [LStr (str "x")]. split; [reflexivity|]. exists W1, (lits "x"), (raw_fields (c_kind W1)). repeat split; cbn; auto.
    + exists 6, [LStr (str "y")]. split; [reflexivity|]. exists W2, (lits "y"), (raw_fields (c_kind W2)). repeat split; cbn; auto.
  - split; [left; reflexivity|]. split.
    + eapply ht_obj; [reflexivity | reflexivity | reflexivity |]. cbn. constructor; [|constructor].
      apply (ht_literal _ _ _ (LStr (str "x"))). left. reflexivity.
    + split; [vm_compute; reflexivity|]. split; vm_compute; reflexivity.
Qed.
Print Assumptions C06_tag_name_refuted.
