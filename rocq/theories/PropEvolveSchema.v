(** Theorems for property C65: what schemas make of documents when classes gain fields. *)
From Coq Require Import String List NArith ZArith Bool Lia Permutation.
From Verif Require Import Base Json PyTypes Mapping Deser Ser Catalog Schema Samples Lists SpecTyping TypingFacts SpecRecursion SpecTypes SpecFields SpecSer SpecNumbers
  SpecTagged SpecDeser SpecRoundTrip SpecSchema SpecGenerate SpecValid SpecReadable SpecExact SpecEvolve DeserUnfold DeserFacts FieldProofs TaggedProofs RoundTrip SchemaValid SchemaRead
  ExactProofs EvolveProofs CatalogProofs PropDeser PropFields PropRoundTrip PropSchema PropValid PropReadable PropExact PropEvolve.
Import ListNotations.
Open Scope list_scope.
Open Scope nat_scope.

(** C65.  A document that satisfies the schema of the old version of a type, and is exact
    as a document of the new version, satisfies the schema of the new version. *)
Theorem C65_valid : forall asserts E E' S S' n n' k k' m t doc doc' j, evolved E E' ->
  canonical_env E -> canonical_env E' -> guarded_env E -> guarded_env E' -> calm E -> calm E' -> shuffles (e_order E) ->
  env_ok E -> env_ok E' -> ready E m t -> ready E' m t -> durable E m t ->
  trusting asserts -> coherent E S -> coherent E' S' -> s_path S = str "#/definitions/" -> s_path S' = str "#/definitions/" ->
  classdef_to_schema E S n k t = Ok doc -> classdef_to_schema E' S' n' k' t = Ok doc' ->
  (forall s, lost E S t s -> exists sch, defined doc s sch) -> (forall s, lost E' S' t s -> exists sch, defined doc' s sch) ->
  readable asserts E false m t -> plain_numbers E m t j -> json_wf j -> exact E' false m t j ->
  satisfies asserts doc j -> satisfies asserts doc' j.
Proof.
  intros asserts E E' S S' n n' k k' m t doc doc' j EV CE CE' GE GE' C C' ORD OK OK' R R' D TR CO CO' P P' H H' L L' RD PN W EX A.
  destruct (read_document asserts E S false n k m t doc j OK CE GE C ORD CO P H L R RD PN W A) as (v & V).
  destruct (C64_backward E E' m t j v EV CE CE' GE GE' C C' ORD OK OK' R R' D V) as (v' & V' & _).
  exact (exact_document asserts E' S' false n' k' m t doc' v' j OK' CE' TR CO' P' H' L' W V' EX).
Qed.
Print Assumptions C65_valid.

(** C65.  The new version reads every document that satisfies the schema of the old one. *)
Theorem C65_read : forall asserts E E' S n k m t doc j, evolved E E' ->
  canonical_env E -> canonical_env E' -> guarded_env E -> guarded_env E' -> calm E -> calm E' -> shuffles (e_order E) ->
  env_ok E -> env_ok E' -> ready E m t -> ready E' m t -> durable E m t ->
  coherent E S -> s_path S = str "#/definitions/" -> classdef_to_schema E S n k t = Ok doc ->
  (forall s, lost E S t s -> exists sch, defined doc s sch) ->
  readable asserts E false m t -> plain_numbers E m t j -> json_wf j -> satisfies asserts doc j ->
  exists v v', json_to_object E false m t j = Ok v /\ json_to_object E' false m t j = Ok v' /\ grown (defaulted E') v v'.
Proof.
  intros asserts E E' S n k m t doc j EV CE CE' GE GE' C C' ORD OK OK' R R' D CO P H L RD PN W A.
  destruct (read_document asserts E S false n k m t doc j OK CE GE C ORD CO P H L R RD PN W A) as (v & V).
  destruct (C64_backward E E' m t j v EV CE CE' GE GE' C C' ORD OK OK' R R' D V) as (v' & V' & G). exists v, v'. auto.
Qed.
Print Assumptions C65_read.

(** *** A case in point: Union[Dog, Cat], where Dog gains chip: Optional[str] *)

Lemma new_coherent : coherent Zoo' registered_zoo.
Proof.
  assert (F : forall s w, stands_for registered_zoo s w ->
    (s = str "Node" /\ w = TClass 2) \/ (s = str "Point" /\ w = TClass 1) \/ (s = str "Pair" /\ w = TClass 3)).
  { intros s w [e N H Q|H]; [|discriminate H].
    assert (X : exists e0, type_get (by_type (s_catalog registered_zoo)) w = Some e0 /\ e0 = e).
    { destruct w; try (destruct (N _ eq_refl)); unfold get in H;
        (destruct (type_get _ _) as [e0|] eqn:Q'; [injection H as <-; eauto | discriminate H]). }
    destruct X as (e0 & X & <-). clear H.
    assert (B : by_type (s_catalog registered_zoo) =
      [(TClass 2, entry_for (str "Node")); (TClass 1, entry_for (str "Point")); (TClass 3, entry_for (str "Pair"))]) by (vm_compute; reflexivity).
    rewrite B in X. cbn [type_get] in X.
    destruct (typ_eqb (TClass 2) w) eqn:Q1; [apply typ_eqb_eq in Q1; injection X as <-; cbn in Q; auto|].
    destruct (typ_eqb (TClass 1) w) eqn:Q2; [apply typ_eqb_eq in Q2; injection X as <-; cbn in Q; auto|].
    destruct (typ_eqb (TClass 3) w) eqn:Q3; [apply typ_eqb_eq in Q3; injection X as <-; cbn in Q; auto | discriminate X]. }
  pose proof zoo_coherent as [A B C D P]. split; try assumption.
  intros m s a w w' L X. apply F in X. destruct X as [(-> & ->)|[(-> & ->)|(-> & ->)]].
  all: unfold lookup, Zoo' in L; cbn [e_refs find_ref] in L; repeat match type of L with (if ?b then _ else _) = _ => destruct b eqn:?Q end;
      try (injection L as <- <-); try reflexivity; try discriminate L;
      match goal with Q : _ && _ = true |- _ => apply andb_true_iff in Q; destruct Q as [_ Q]; vm_compute in Q; discriminate Q end.
Qed.

(** The types met in the schemas of either version. *)
Definition pets : list typ :=
  [U2; TClass 4; TClass 5; TLiteral [LStr (str "dog")]; TLiteral [LStr (str "cat")]; TDict tstr tint; tint; tstr; TUnion false [tstr; tnone]; tnone].

Ltac pets_step :=
  let t := fresh "t" in let u := fresh "u" in let H := fresh "H" in let J := fresh "J" in
  intros t u H; induction H as [t|t u _ IH|t u _ IH|k t u _ IH|ts t u I _ IH|op ts t u I _ IH|ls l u I _ IH|t md u _ IH
    |c cl ps x t u G P I _ IH|c cl ps x t w u G P I U _ IH|s w u Q _ IH]; intros J; try exact J; try discriminate Q; try apply IH;
  unfold pets, U2 in J |- *; cbn [In] in J;
    repeat (destruct J as [J|J]; [try discriminate J; try (injection J; intros; subst); cbn [In] in *; try tauto|]); try contradiction;
  try (injection G as <-; vm_compute in P; injection P as <-; cbn [In] in I;
    repeat (destruct I as [I|I]; [injection I as <- <-; try (vm_compute in U; first [discriminate U | injection U as <-]); cbn [In]; unfold tint, tnone, tstr; tauto|]); destruct I);
  try (destruct I as [<-|[]]; cbn [lit_type]; unfold tstr; tauto).

Lemma pets_met : forall t u, SpecGenerate.met Zoo registered_zoo t u -> In t pets -> In u pets.
Proof. pets_step. Qed.

Lemma pets_met' : forall t u, SpecGenerate.met Zoo' registered_zoo t u -> In t pets -> In u pets.
Proof. pets_step. Qed.

Lemma pets_text : forall E s, (forall t u, SpecGenerate.met E registered_zoo t u -> In t pets -> In u pets) -> ~ lost E registered_zoo U2 s.
Proof.
  intros E s X (_ & [(M & _)|(md & M)]); apply X in M; try (cbn; tauto); unfold pets, U2 in M; cbn [In] in M; cases_in M; discriminate M.
Qed.

Definition dog_json : json := JObj [(str "kind", jstr "dog"); (str "age", JInt 2)].

Lemma new_exact : forall c cl ps o, In c [4; 5] -> get_class Zoo' c = Some cl -> class_properties Zoo' cl = Ok ps ->
  (forall p, ~ In (p, JNull) o) ->
  (forall x t p y r, In (x, t) ps -> schema_name x t p -> In (p, y) o -> read_type t r -> exact Zoo' false 0 r y) ->
  exact Zoo' false 0 (TClass c) (JObj o).
Proof.
  intros c cl ps o I G P NN F. apply (ex_class _ _ _ _ cl ps).
  - exact G.
  - cbn [In] in I. cases_in I; subst c; injection G as <-; reflexivity.
  - exact P.
  - cbn [In] in I. cases_in I; subst c; injection G as <-; vm_compute in P; injection P as <-; intros x t y u p J J' A B;
      apply (proj1 (SchemaClass.out_name_spec _ _ _)) in A; apply (proj1 (SchemaClass.out_name_spec _ _ _)) in B; rewrite A in B;
      cbn [In] in J, J'; cases_in J; injection J as <- <-; cases_in J'; injection J' as <- <-; try reflexivity; vm_compute in B; discriminate B.
  - cbn [In] in I. cases_in I; subst c; injection G as <-; intros x t u d p FO Sn; field_cases FO; apply (proj1 (SchemaClass.out_name_spec _ _ _)) in Sn;
      vm_compute in Sn; subst p; first [reflexivity | apply json_property_spec; reflexivity].
  - intros o' p Q. injection Q as <-. apply NN.
  - intros o' p _ Q. discriminate Q.
  - intros o' x t u d p _ FO NO OD _. exfalso. cbn [In] in I. cases_in I; subst c; injection G as <-; field_cases FO.
    all: try (destruct OD as [OD|OD]; [revert OD; not_optional | destruct (OD eq_refl)]).
    apply NO; exists false, [tstr; tnone]; split; [right; left; reflexivity | left; reflexivity].
  - intros o' x t p y r Q Ix Sn Iy RT. injection Q as <-.
    assert (Qm : c_module cl = 0) by (cbn [In] in I; cases_in I; subst c; injection G as <-; reflexivity). rewrite Qm. eauto.
Qed.

Ltac new_part c :=
  eapply (new_exact c);
  [cbn [In]; tauto | reflexivity | vm_compute; reflexivity
  | let p := fresh in let J := fresh "J" in intros p J; cbn [In] in J; cases_in J; discriminate J
  | let x := fresh "x" in let t := fresh "t" in let p := fresh "p" in let y := fresh "y" in let r := fresh "r" in
    let Ix := fresh "Ix" in let Sn := fresh "Sn" in let Iy := fresh "Iy" in let RT := fresh "RT" in
    intros x t p y r Ix Sn Iy RT; cbn [In] in Ix; cases_in Ix; injection Ix as <- <-;
    apply (proj1 (SchemaClass.out_name_spec _ _ _)) in Sn; vm_compute in Sn; subst p;
    cbn [In] in Iy; cases_in Iy; apply pair_equal_spec in Iy; let Q := fresh "Q" in destruct Iy as [Q <-]; try discriminate Q; clear Q;
    match type of RT with read_type ?t _ => apply read_type_fun with (w := t) in RT; [subst r | apply read_plain; not_optional] end].

Lemma dog_exact : exact Zoo' false 0 U2 dog_json.
Proof.
  apply ex_union.
  - intros t I L. destruct I as [<-|[<-|[]]].
    + new_part 4; [eapply ex_literal; [reflexivity | discriminate] | part_int].
    + new_part 5. eapply ex_literal; [reflexivity | discriminate].
  - intros ts1 t ts2 u Q L I. destruct ts1 as [|a [|b ts1]]; cbn [app] in Q; injection Q as; subst; [| |destruct ts1; discriminate].
    + destruct I as [[]|[<-|[]]].
      eapply al_class_missing with (x := str "lives") (p := str "lives"); [reflexivity | discriminate | vm_compute; reflexivity | right; left; reflexivity | not_optional
        | apply (proj2 (SchemaClass.out_name_spec _ _ _)); reflexivity |].
      intros I. cbn [map fst In] in I. cases_in I; discriminate I.
    + exfalso. inversion L as [| | | | | | | | |? ? ? ? ? ? ? G K|? ? ? ? G NE NF|? ? cl ps L' o G FW P LY Kn Ab Fl]; subst; injection G as <-; try discriminate K; try (exact (NF eq_refl)).
      destruct LY as (LH & LD). vm_compute in LH. destruct L' as [|[[x1 u1] d1] [|[[x2 u2] d2] [|? ?]]]; try discriminate LH. cbn [map snd fst] in LH, LD.
      assert (Q2 : x2 = str "lives" /\ u2 = TDict tstr tint) by (injection LH; intros; subst; split; reflexivity). destruct Q2 as [-> ->]. injection LD as -> ->.
      destruct (Ab (str "lives") (TDict tstr tint) None (str "lives")) as [D|D].
      * right. left. reflexivity.
      * apply json_property_spec. reflexivity.
      * intros I'. cbn [map fst In] in I'. cases_in I'; discriminate I'.
      * exact (D eq_refl).
      * revert D. not_optional.
Qed.

Lemma pets_readable : readable dates Zoo false 0 U2.
Proof. eapply readable_reach; [|apply type1_readable]. eapply re_tuple; [right; left; reflexivity | apply re_refl]. Qed.

Example C65_witness : exists doc doc', evolved Zoo Zoo' /\ canonical_env Zoo /\ canonical_env Zoo' /\ guarded_env Zoo /\ guarded_env Zoo' /\ calm Zoo /\ calm Zoo' /\
  shuffles (e_order Zoo) /\ env_ok Zoo /\ env_ok Zoo' /\ ready Zoo 0 U2 /\ ready Zoo' 0 U2 /\ durable Zoo 0 U2 /\ trusting dates /\
  coherent Zoo registered_zoo /\ coherent Zoo' registered_zoo /\ s_path registered_zoo = str "#/definitions/" /\
  classdef_to_schema Zoo registered_zoo 9 9 U2 = Ok doc /\ classdef_to_schema Zoo' registered_zoo 9 9 U2 = Ok doc' /\ doc <> doc' /\
  (forall s, ~ lost Zoo registered_zoo U2 s) /\ (forall s, ~ lost Zoo' registered_zoo U2 s) /\
  readable dates Zoo false 0 U2 /\ plain_numbers Zoo 0 U2 dog_json /\ json_wf dog_json /\ exact Zoo' false 0 U2 dog_json /\ satisfies dates doc dog_json.
Proof.
  exists_result (classdef_to_schema Zoo registered_zoo 9 9 U2). exists_result (classdef_to_schema Zoo' registered_zoo 9 9 U2).
  split; [exact evolved_zoo|]. split; [exact zoo_canonical|]. split; [exact new_canonical|]. split; [exact zoo_guarded|]. split; [exact new_guarded|].
  split; [exact zoo_calm|]. split; [exact new_calm|]. split; [exact zoo_shuffles|]. split; [exact zoo_ok|]. split; [exact new_ok|].
  split; [prove_ready|]. split; [prove_ready|]. split; [apply durable_zoo; cbn; auto 20|]. split; [exact dates_trusting|].
  split; [exact zoo_coherent|]. split; [exact new_coherent|]. split; [reflexivity|]. split; [vm_compute; reflexivity|]. split; [vm_compute; reflexivity|].
  split; [intros Q; vm_compute in Q; discriminate Q|].
  split; [intros s; apply pets_text, pets_met|]. split; [intros s; apply pets_text, pets_met'|]. split; [exact pets_readable|].
  split; [apply plain_json_numbers; vm_compute; reflexivity|].
  split; [repeat first [apply Forall_nil | apply Forall_cons | apply wf_arr | apply wf_obj | apply wf_str | apply wf_int | nodup]; cbn [snd map fst]|].
  split; [exact dog_exact|]. exists 20. vm_compute. reflexivity.
Qed.

(** *** What makes old documents violate the new schema *)

(** The document satisfies the schema of the old version, is read by both, and violates the
    schema of the new one. *)
Definition outdated (E E' : env) (t : typ) (j : json) : Prop :=
  ready E 0 t /\ ready E' 0 t /\ json_wf j /\
  exists n k doc doc' v v', classdef_to_schema E (Gen [] false) n k t = Ok doc /\ classdef_to_schema E' (Gen [] false) n k t = Ok doc' /\
    satisfies (fun _ _ _ => true) doc j /\ json_to_object E false 0 t j = Ok v /\ json_to_object E' false 0 t j = Ok v' /\
    violates (fun _ _ _ => true) doc' j.

Ltac prove_outdated E E' t j :=
  split; [prove_ready|]; split; [prove_ready|]; split;
  [repeat first [apply Forall_nil | apply Forall_cons | constructor | nodup]; cbn [snd map fst] |
   exists 9, 9; exists_result (classdef_to_schema E (Gen [] false) 9 9 t); exists_result (classdef_to_schema E' (Gen [] false) 9 9 t);
   exists_result (json_to_object E false 0 t j); exists_result (json_to_object E' false 0 t j);
   split; [vm_compute; reflexivity|]; split; [vm_compute; reflexivity|]; split; [exists 20; vm_compute; reflexivity|];
   split; [vm_compute; reflexivity|]; split; [vm_compute; reflexivity|]; exists 20; vm_compute; reflexivity].

(** class Box gains y: int = 0 *)
Definition Box3 := mkClass 0 (str "Box") (CData false [mkField (str "x") tint None; mkField (str "y") tint (Some (Ok (VInt 0)))]) None None.
Definition Store3 : env := mkEnv [Box3; Crate] [] (fun ps => ps).

Lemma evolved_store3 : evolved Store Store3.
Proof.
  split; [reflexivity | intros m s r H; discriminate H|]. intros c cl G. unfold get_class, Store in G. cbn [e_classes] in G.
  destruct c as [|[|c]]; cbn [nth_error] in G; [injection G as <-..|destruct c; discriminate G]; (eexists; split; [reflexivity|]); prove_renewed.
Qed.

(** A further field with a default is required in the schema, though not by the reader. *)
Theorem C65_default_refuted : exists E E' t j, evolved E E' /\ durable E 0 t /\ outdated E E' t j.
Proof.
  exists Store, Store3, (TClass 0), (JObj [(str "x", JInt 1)]). split; [exact evolved_store3|]. split.
  - assert (X : forall m t m' u, reach Store m t m' u -> (fun (_ : nat) t => In t [TClass 0; tint]) m t -> (fun (_ : nat) t => In t [TClass 0; tint]) m' u).
    { apply reach_kept; cbn beta; cbn [In].
      1-8: intros; match goal with I : _ \/ _ |- _ => cases_in I; discriminate I end.
      intros m c cl hs x t w I G FW H J RD. cases_in I; try discriminate I. injection I as <-. injection G as <-. vm_compute in H. injection H as <-. cbn [In] in J. cases_in J.
      injection J as <- <-. eapply read_type_fun in RD; [|apply read_plain; not_optional]. subst w. auto. }
    assert (Y : forall m' u, reach Store 0 (TClass 0) m' u -> In u [TClass 0; tint]) by (intros m' u R; apply (X _ _ _ _ R); left; reflexivity).
    split; intros *; intros RE; apply Y in RE; cbn [In] in RE; cases_in RE; discriminate RE.
  - prove_outdated Store Store3 (TClass 0) (JObj [(str "x", JInt 1)]).
Qed.
Print Assumptions C65_default_refuted.

(** A union of which another member comes to accept the documents: the new schema asks for
    exactly one. *)
Theorem C65_union_refuted : exists E E' t j, evolved E E' /\ outdated E E' t j.
Proof.
  exists Store, Store1, (TUnion false [TClass 0; TClass 1]), (JObj [(str "x", JInt 1); (str "y", JInt 2)]). split; [exact evolved_store|].
  prove_outdated Store Store1 (TUnion false [TClass 0; TClass 1]) (JObj [(str "x", JInt 1); (str "y", JInt 2)]).
Qed.
Print Assumptions C65_union_refuted.

(** The new schema is not the old one with more: a document with the further property
    satisfies the new schema, and violates the old one. *)
Theorem C65_forward_refuted : exists E E' t j n k doc doc', evolved E E' /\
  classdef_to_schema E (Gen [] false) n k t = Ok doc /\ classdef_to_schema E' (Gen [] false) n k t = Ok doc' /\
  satisfies (fun _ _ _ => true) doc' j /\ violates (fun _ _ _ => true) doc j.
Proof.
  exists Store, Store1, (TClass 0), (JObj [(str "x", JInt 1); (str "y", JInt 2)]), 9, 9.
  exists_result (classdef_to_schema Store (Gen [] false) 9 9 (TClass 0)). exists_result (classdef_to_schema Store1 (Gen [] false) 9 9 (TClass 0)).
  split; [exact evolved_store|]. split; [vm_compute; reflexivity|]. split; [vm_compute; reflexivity|]. split; exists 20; vm_compute; reflexivity.
Qed.
Print Assumptions C65_forward_refuted.
