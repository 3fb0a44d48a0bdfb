(** C59: documents that can be deserialized satisfy the schema of the type. *)
From Coq Require Import String List NArith ZArith Bool Lia Permutation.
From Verif Require Import Base Json PyTypes Mapping Deser Ser Catalog Schema Samples Lists SpecTyping TypingFacts SpecRecursion SpecTypes SpecFields SpecSer SpecNumbers
  SpecTagged SpecDeser SpecRoundTrip SpecSchema SpecGenerate SpecValid SpecReadable SpecExact DeserUnfold DeserFacts FieldProofs TaggedProofs RoundTrip SchemaValid SchemaRead
  ExactProofs PropDeser PropFields PropRoundTrip PropSchema PropValid PropReadable.
Import ListNotations.
Open Scope list_scope.
Open Scope nat_scope.

(** C59.  [exact] lists where the reader is more lenient than the schema. *)
Theorem C59_valid : forall asserts E S skip n k m t doc v j, env_ok E -> canonical_env E -> trusting asserts -> coherent E S ->
  s_path S = str "#/definitions/" -> classdef_to_schema E S n k t = Ok doc ->
  (forall s, lost E S t s -> exists sch, defined doc s sch) -> json_wf j ->
  json_to_object E skip m t j = Ok v -> exact E skip m t j -> satisfies asserts doc j.
Proof. exact exact_document. Qed.
Print Assumptions C59_valid.

(** C59.  Together with C33: reader and schema agree on what a document is. *)
Theorem C59_same : forall asserts E S skip n k m t doc j, env_ok E -> canonical_env E -> guarded_env E -> calm E -> shuffles (e_order E) ->
  trusting asserts -> coherent E S -> s_path S = str "#/definitions/" -> classdef_to_schema E S n k t = Ok doc ->
  (forall s, lost E S t s -> exists sch, defined doc s sch) ->
  ready E m t -> readable asserts E skip m t -> plain_numbers E m t j -> json_wf j -> exact E skip m t j ->
  (exists v, json_to_object E skip m t j = Ok v) <-> satisfies asserts doc j.
Proof.
  intros asserts E S skip n k m t doc j OK CE GE CALM ORD TR CO P H L R F PN W EX. split.
  - intros (v & V). eapply exact_document; eassumption.
  - intros A. eapply read_document; eassumption.
Qed.
Print Assumptions C59_same.

(** *** A case in point: the type and the document of [C33_witness] *)

Lemma dates_trusting : trusting dates.
Proof.
  split.
  - intros k kw f j v Q P. unfold dates. destruct k; try discriminate Q; injection Q as <- <-; try reflexivity.
    replace (pystr_eqb _ _ && _) with true by reflexivity. rewrite P. reflexivity.
  - intros f lo hi z I _. unfold integer_formats in I. cbn [In] in I. cases_in I; injection I as <- _ _; reflexivity.
  - intros f j [->| ->] _; reflexivity.
Qed.

Lemma zoo_exact : forall c cl ps o, In c [2; 3; 4; 5; 7] -> get_class Zoo c = Some cl -> class_properties Zoo cl = Ok ps ->
  (forall p, ~ In (p, JNull) o) ->
  (forall x t p y r, In (x, t) ps -> schema_name x t p -> In (p, y) o -> read_type t r -> exact Zoo false 0 r y) ->
  exact Zoo false 0 (TClass c) (JObj o).
Proof.
  intros c cl ps o I G P NN F. pose proof (zoo_open false c cl I G) as OC. apply (ex_class _ _ _ _ cl ps).
  - exact G.
  - apply (oc_fieldwise _ _ _ OC).
  - exact P.
  - apply (oc_distinct _ _ _ OC), P.
  - apply (oc_name _ _ _ OC).
  - intros o' p Q. injection Q as <-. apply NN.
  - intros o' p _ Q. discriminate Q.
  - intros o' x t u d p _ FO NO OD _. exfalso. cbn [In] in I. cases_in I; subst c; injection G as <-; field_cases FO.
    all: try (destruct OD as [OD|OD]; [revert OD; not_optional | destruct (OD eq_refl)]).
    all: apply NO; exists false, [TClass 3; tnone]; split; [right; left; reflexivity | left; reflexivity].
  - intros o' x t p y r Q Ix Sn Iy RT. injection Q as <-.
    assert (Qm : c_module cl = 0) by (cbn [In] in I; cases_in I; subst c; injection G as <-; reflexivity). rewrite Qm. eauto.
Qed.

Ltac zoo_part c :=
  eapply (zoo_exact c);
  [cbn [In]; tauto | reflexivity | vm_compute; reflexivity
  | let p := fresh in let J := fresh "J" in intros p J; cbn [In] in J; cases_in J; discriminate J
  | let x := fresh "x" in let t := fresh "t" in let p := fresh "p" in let y := fresh "y" in let r := fresh "r" in
    let Ix := fresh "Ix" in let Sn := fresh "Sn" in let Iy := fresh "Iy" in let RT := fresh "RT" in
    intros x t p y r Ix Sn Iy RT; cbn [In] in Ix; cases_in Ix; injection Ix as <- <-;
    apply (proj1 (SchemaClass.out_name_spec _ _ _)) in Sn; vm_compute in Sn; subst p;
    cbn [In] in Iy; cases_in Iy; apply pair_equal_spec in Iy; let Q := fresh "Q" in destruct Iy as [Q <-]; try discriminate Q; clear Q;
    match type of RT with read_type ?t _ => apply read_type_fun with (w := t) in RT; [subst r | apply read_plain; not_optional] end].

Ltac part_int := apply ex_scalar; [reflexivity | intros _ ? Qp; discriminate Qp].

Lemma type1_exact : exact Zoo false 0 type1 j1.
Proof.
  apply ex_tuple. intros js t x Q I. injection Q as <-. cbn [combine In] in I. cases_in I; apply pair_equal_spec in I; destruct I as [<- <-].
  - zoo_part 3.
    + eapply ex_enum; [reflexivity | reflexivity|]. intros x w I JE. cbn [In] in I. cases_in I; injection I as <- <-; inversion JE as [| | ? ? ? ? Na|]; subst; try reflexivity; inversion Na.
    + apply ex_set; [intros js Q; injection Q as <-; reflexivity|]. intros js y Q I. injection Q as <-. cbn [In] in I. cases_in I; subst y; part_int.
  - apply ex_union.
    + intros t I L. destruct I as [<-|[<-|[]]].
      * zoo_part 4; [eapply ex_literal; [reflexivity | discriminate] | part_int].
      * zoo_part 5. eapply ex_literal; [reflexivity | discriminate].
    + intros ts1 t ts2 u Q L I. destruct ts1 as [|a [|b ts1]]; cbn [app] in Q; injection Q as; subst; [| |destruct ts1; discriminate].
      * destruct I as [[]|[<-|[]]].
        eapply al_class_missing with (x := str "lives") (p := str "lives"); [reflexivity | discriminate | vm_compute; reflexivity | right; left; reflexivity | not_optional
          | apply (proj2 (SchemaClass.out_name_spec _ _ _)); reflexivity |].
        intros I. cbn [map fst In] in I. cases_in I; discriminate I.
      * exfalso. inversion L as [| | | | | | | | |? ? ? ? ? ? ? G K|? ? ? ? G NE NF|? ? cl ps L' o G FW P LY Kn Ab Fl]; subst; injection G as <-; try discriminate K; try (exact (NF eq_refl)).
        destruct LY as (LH & LD). vm_compute in LH. destruct L' as [|[[x1 u1] d1] [|[[x2 u2] d2] [|? ?]]]; try discriminate LH. cbn [map snd fst] in LH, LD.
        assert (Q2 : x2 = str "lives" /\ u2 = TDict tstr tint) by (injection LH; intros; subst; split; reflexivity). destruct Q2 as [-> ->]. injection LD as -> ->.
        destruct (Ab (str "lives") (TDict tstr tint) None (str "lives")) as [D|D].
        -- right. left. reflexivity.
        -- apply json_property_spec. reflexivity.
        -- intros I'. cbn [map fst In] in I'. cases_in I'; discriminate I'.
        -- exact (D eq_refl).
        -- revert D. not_optional.
  - apply ex_union.
    + intros t I L. destruct I as [<-|[<-|[]]]; [part_int|]. apply ex_list. intros js y Q I. injection Q as <-. cbn [In] in I. cases_in I; subst y.
      zoo_part 2.
      * apply ex_annot; [part_int | intros k a _ [<-|[]]; exact Logic.I].
      * apply ex_list. intros js y Q I. injection Q as <-. cbn [In] in I. cases_in I; subst y. apply ex_ref. intros a t LU.
        assert (t = TClass 2) by (vm_compute in LU; injection LU as _ <-; reflexivity). subst t. zoo_part 2.
        -- apply ex_annot; [part_int | intros k a' _ [<-|[]]; exact Logic.I].
        -- apply ex_list. intros js y Q I. injection Q as <-. destruct I.
    + intros ts1 t ts2 u Q L I. destruct ts1 as [|a [|b ts1]]; cbn [app] in Q; injection Q as; subst; [| |destruct ts1; discriminate].
      * exfalso. inversion L as [? ? ? v PS| | | | | | | | | | |]; subst. discriminate PS.
      * destruct I as [[<-|[]]|[]]. apply al_scalar; [reflexivity|]. intros [].
  - apply ex_dict.
    + right. right. exists 0, Color, [(str "RED", jstr "red"); (str "GREEN", jstr "green")]. split; [reflexivity|]. split; [reflexivity|]. split; [reflexivity|].
      cbn [length]. lia.
    + intros o p y Q I. injection Q as <-. cbn [In] in I. cases_in I; injection I as <- <-. apply ex_scalar; [reflexivity | intros [K|K]; discriminate K].
  - zoo_part 7. apply ex_scalar; [reflexivity | intros [K|K]; discriminate K].
Qed.

Example C59_witness : exists doc v,
  env_ok Zoo /\ canonical_env Zoo /\ trusting dates /\ coherent Zoo registered_zoo /\ s_path registered_zoo = str "#/definitions/" /\
  classdef_to_schema Zoo registered_zoo 9 9 type1 = Ok doc /\
  (forall s, lost Zoo registered_zoo type1 s -> exists sch, defined doc s sch) /\ json_wf j1 /\
  json_to_object Zoo false 0 type1 j1 = Ok v /\ exact Zoo false 0 type1 j1.
Proof.
  exists_result (classdef_to_schema Zoo registered_zoo 9 9 type1). exists_result (json_to_object Zoo false 0 type1 j1).
  split; [exact zoo_ok|]. split; [exact zoo_canonical|]. split; [exact dates_trusting|]. split; [exact zoo_coherent|]. split; [reflexivity|].
  split; [vm_compute; reflexivity|]. split.
  { intros s L. apply text1 in L. subst s. eexists _, _, _. split; [reflexivity|]. split; [right; left; reflexivity | left; reflexivity]. }
  split; [repeat first [apply Forall_nil | apply Forall_cons | apply wf_arr | apply wf_obj | apply wf_str | apply wf_int | nodup]; cbn [snd map fst]|].
  split; [vm_compute; reflexivity | exact type1_exact].
Qed.

(** *** The provisos are needed *)

(** The document is read although it does not satisfy the schema. *)
Definition overread (E : env) (S : senv) (skip : bool) (t : typ) (j : json) : Prop :=
  ready E 0 t /\ json_wf j /\
  exists n k doc v, classdef_to_schema E S n k t = Ok doc /\ json_to_object E skip 0 t j = Ok v /\ violates (fun _ _ _ => true) doc j.

Ltac prove_overread E S skip t j :=
  split; [prove_ready|]; split;
  [repeat first [apply Forall_nil | apply Forall_cons | constructor | nodup]; cbn [snd map fst] |
   exists 9, 9; exists_result (classdef_to_schema E S 9 9 t); exists_result (json_to_object E skip 0 t j);
   split; [vm_compute; reflexivity|]; split; [vm_compute; reflexivity | exists 20; vm_compute; reflexivity]].

(** Truth values pass for integers, *)
Theorem C59_bool_refuted : exists E S j, overread E S false tint j.
Proof. exists Zoo, (Gen [] false), (JBool true). prove_overread Zoo (Gen [] false) false tint (JBool true). Qed.
Print Assumptions C59_bool_refuted.

(** and for the integer in a literal type. *)
Theorem C59_literal_refuted : exists E S j, overread E S false (TLiteral [LInt 1]) j.
Proof. exists Zoo, (Gen [] false), (JBool true). prove_overread Zoo (Gen [] false) false (TLiteral [LInt 1]) (JBool true). Qed.
Print Assumptions C59_literal_refuted.

(** Addresses have the schema of an object. *)
Theorem C59_address_refuted : exists E S j, overread E S false (TScalar KIPv4) j.
Proof. exists Zoo, (Gen [] false), (jstr "127.0.0.1"). prove_overread Zoo (Gen [] false) false (TScalar KIPv4) (jstr "127.0.0.1"). Qed.
Print Assumptions C59_address_refuted.

(** Items of a set may be repeated. *)
Theorem C59_set_refuted : exists E S j, overread E S false (TSet tint) j.
Proof. exists Zoo, (Gen [] false), (JArr [JInt 1; JInt 1]). prove_overread Zoo (Gen [] false) false (TSet tint) (JArr [JInt 1; JInt 1]). Qed.
Print Assumptions C59_set_refuted.

(** Ranges are not checked. *)
Theorem C59_range_refuted : exists E S t j, overread E S false t j.
Proof.
  exists Zoo, (Gen [] false), (TAnnot tint [AIntegerRange 0 5]), (JInt 9).
  prove_overread Zoo (Gen [] false) false (TAnnot tint [AIntegerRange 0 5]) (JInt 9).
Qed.
Print Assumptions C59_range_refuted.

(** The data may belong to two members of a union. *)
Theorem C59_union_refuted : exists E S t j, overread E S false t j.
Proof.
  exists Zoo, (Gen [] false), (TUnion false [tint; TScalar KFloat]), (JInt 9).
  prove_overread Zoo (Gen [] false) false (TUnion false [tint; TScalar KFloat]) (JInt 9).
Qed.
Print Assumptions C59_union_refuted.

(** An optional field may be null. *)
Theorem C59_null_refuted : exists E S t j, overread E S false t j.
Proof.
  exists Zoo, (Gen [] false), (TClass 7), (JObj [(str "name", jstr "n"); (str "link", JNull)]).
  prove_overread Zoo (Gen [] false) false (TClass 7) (JObj [(str "name", jstr "n"); (str "link", JNull)]).
Qed.
Print Assumptions C59_null_refuted.

(** Properties that belong to no field may be skipped. *)
Theorem C59_extra_refuted : exists E S t j, overread E S true t j.
Proof.
  exists Zoo, (Gen [] false), (TClass 7), (JObj [(str "name", jstr "n"); (str "size", JInt 3)]).
  prove_overread Zoo (Gen [] false) true (TClass 7) (JObj [(str "name", jstr "n"); (str "size", JInt 3)]).
Qed.
Print Assumptions C59_extra_refuted.

(** A class may read something else than an object. *)
Theorem C59_hook_refuted : exists E S t j, overread E S false t j.
Proof. exists Zoo, (Gen [] false), (TClass 6), (jstr "1.0"). prove_overread Zoo (Gen [] false) false (TClass 6) (jstr "1.0"). Qed.
Print Assumptions C59_hook_refuted.

(** - @dataclass class Item: count: int = 1
    - class Size(Enum): ONE = 1 *)
Definition Loose : env := mkEnv
  [mkClass 0 (str "Item") (CData false [mkField (str "count") tint (Some (Ok (VInt 1)))]) None None;
   mkClass 0 (str "Size") (CEnum [(str "ONE", JInt 1)]) None None]
  [] (fun ps => ps).

(** A field with a default may be left out. *)
Theorem C59_default_refuted : exists E S t j, overread E S false t j.
Proof. exists Loose, (Gen [] false), (TClass 0), (JObj []). prove_overread Loose (Gen [] false) false (TClass 0) (JObj []). Qed.
Print Assumptions C59_default_refuted.

(** True is the value of a member of an enumeration whose value is 1. *)
Theorem C59_enum_refuted : exists E S t j, overread E S false t j.
Proof. exists Loose, (Gen [] false), (TClass 1), (JBool true). prove_overread Loose (Gen [] false) false (TClass 1) (JBool true). Qed.
Print Assumptions C59_enum_refuted.

(** Keys are taken for regular expressions. *)
Theorem C59_key_refuted : exists E S t j, overread E S false t j.
Proof.
  exists Gaps, (Gen [] false), (TDict (TClass 0) tint), (JObj [(str "a|b", JInt 1)]).
  prove_overread Gaps (Gen [] false) false (TDict (TClass 0) tint) (JObj [(str "a|b", JInt 1)]).
Qed.
Print Assumptions C59_key_refuted.

(** A field [class_] is called [class] in documents but not in the schema. *)
Theorem C59_name_refuted : exists E S t j, overread E S false t j.
Proof.
  exists Gaps, (Gen [] false), (TClass 3), (JObj [(str "class", jstr "x")]).
  prove_overread Gaps (Gen [] false) false (TClass 3) (JObj [(str "class", jstr "x")]).
Qed.
Print Assumptions C59_name_refuted.
