(** C63: a program that knows only the schema reads what another program writes. *)
From Coq Require Import String List NArith ZArith Bool Lia.
From Verif Require Import Base IsoTime IsoTimeProofs Json PyTypes Mapping Deser DeserSound Ser Lists Schema SchemaSem SpecTyping SpecRecursion SpecDeser SpecTypes SpecFields SpecTagged SpecSer SerFacts
  SpecSchema SpecReadable SpecValid SchemaValid ValidTame SpecRoundTrip RoundTrip TypeDef SpecTypeDef SpecRewrite RewriteProofs ClassDef ClassDefProofs FieldProofs SchemaClass
  Samples PropDeser PropFields PropSer PropRoundTrip PropTypeDef SpecGenerate PropMirror PropRewrite.
Import ListNotations.
Open Scope list_scope.
Open Scope nat_scope.

(** C29.  Values whose texts are exact satisfy the schema also for validators that
    check the formats of these texts only. *)
Theorem C29_regular : forall asserts E S n k m t doc v j, env_ok E -> canonical_env E -> lenient_for exact_text asserts -> coherent E S ->
  s_path S = str "#/definitions/" -> classdef_to_schema E S n k t = Ok doc ->
  (forall s, lost E S t s -> exists sch, defined doc s sch) ->
  fits E m t v -> conforms E v -> SpecRoundTrip.regular v -> object_to_json E v = Ok j -> satisfies asserts doc j.
Proof.
  intros asserts E S n k m t doc v j OK CE LE CO P H L F C RG O. eapply valid_document_for; try eassumption. apply C14_image; assumption.
Qed.
Print Assumptions C29_regular.

(** Such a validator: it checks formats by reading. *)
Lemma checked_lenient : lenient_for exact_text checked.
Proof.
  assert (X : forall kw f j, (forall f' k', In (f', k') text_formats -> f = str f' -> exists v, parse_scalar k' j = Ok v) -> checked kw f j = true).
  { intros kw f j H. apply forallb_forall. intros [f' k'] I. cbn [fst snd]. destruct (pystr_eqb f (str f')) eqn:Q; [|reflexivity]. apply pystr_eqb_eq in Q.
    destruct (H _ _ I Q) as (v & ->). reflexivity. }
  split.
  - intros k kw f v j TF XT T I. apply X. intros f' k' If Q. exists v. pose proof (scalar_roundtrip k v j T XT I) as B.
    destruct k; try discriminate TF; injection TF as _ <-; unfold text_formats in If; cbn [In] in If;
      repeat (destruct If as [If|If]; [injection If as <- <-; first [discriminate Q | exact B]|]); destruct If.
  - intros f lo hi z I _. apply X. intros f' k' If Q. exfalso. unfold integer_formats in I. cbn [In] in I. unfold text_formats in If. cbn [In] in If.
    repeat (destruct I as [I|I]; [injection I as <- _ _; repeat (destruct If as [If|If]; [injection If as <- <-; discriminate Q|]); destruct If|]); destruct I.
  - intros f x [-> | ->]; apply X; intros f' k' If Q; exfalso; unfold text_formats in If; cbn [In] in If;
      repeat (destruct If as [If|If]; [injection If as <- <-; discriminate Q|]); destruct If.
Qed.

(** C63.  A program [E] makes the schema of [t]; another program, [E0], makes types from
    the schema.  What the first writes for a value of [t], the second can read. *)
Theorem C63_exchange : forall U E S n k m t doc v j E0 m0 name E' t' skip, env_ok E -> canonical_env E -> tidy E -> coherent E S ->
  s_path S = str "#/definitions/" -> classdef_to_schema E S n k t = Ok doc -> (forall s, lost E S t s -> exists sch, defined doc s sch) ->
  schema_to_type U E0 m0 name doc = Ok (E', t') ->
  guarded_env E0 -> calm E0 -> plain_module E0 m0 -> shuffles (e_order E0) -> json_wf doc -> importable U doc ->
  fits E m t v -> conforms E v -> SpecRoundTrip.regular v -> object_to_json E v = Ok j -> plain_json j = true ->
  exists v', json_to_object E' skip m0 t' j = Ok v'.
Proof.
  intros U E S n k m t doc v j E0 m0 name E' t' skip OK CE TD CO P H L ST G C PM SH W IMP F CF RG O PJ.
  eapply (C51_documents U E0 m0 name doc E' t' checked skip j); try eassumption; [exact checked_strict | eapply C62_well_formed; eassumption|].
  eapply C29_regular; try eassumption. exact checked_lenient.
Qed.
Print Assumptions C63_exchange.

(** * A witness *)

(** @dataclass class Parcel: label: str; items: list[Item]; gift: Optional[Item]; sent: date *)
Definition Parcel := mkClass 0 (str "Parcel")
  (CData false [mkField (str "label") tstr None;
                mkField (str "items") (TList (TClass 1)) None;
                mkField (str "gift") (TUnion false [TClass 1; tnone]) None;
                mkField (str "sent") (TScalar KDate) None]) None None.

(** With the classes of the market (PropMirror). *)
Definition Post : env := mkEnv [Bulk; Item; Tint; Priority; Parcel] [] (fun ps => ps).

Definition parcel_schema : json := Eval vm_compute in match classdef_to_schema Post registered_market 20 20 (TClass 4) with Ok d => d | _ => JNull end.

Definition item : value := VObj 1 [(str "name", vstr "pot"); (str "size", VEnum 0 (str "LARGE")); (str "weight", VFloat (FFin false 5 (-1))); (str "color", VEnum 2 (str "BLUE"))].

Definition parcel : value := VObj 4 [(str "label", vstr "fragile"); (str "items", VList [item; item]); (str "gift", VNone); (str "sent", VDate (mkDate 2024 2 29)%N)].

Definition item_json : json := JObj [(str "name", jstr "pot"); (str "size", jstr "extra large"); (str "weight", JFloat (FFin false 5 (-1))); (str "color", jstr "blue")].

Definition parcel_json : json := JObj [(str "label", jstr "fragile"); (str "items", JArr [item_json; item_json]); (str "sent", jstr "2024-02-29")].

Ltac post_class c H :=
  unfold get_class, Post in H; cbn [e_classes] in H;
  destruct c as [|[|[|[|[|?c]]]]]; cbn [nth_error] in H;
  [injection H as <-..|destruct c; discriminate H].

Lemma post_ok : env_ok Post.
Proof.
  intros c cl H. post_class c H; split; cbn; try discriminate; try (intros; discriminate).
  all: try (nodup; fail).
  all: try (intros ? Q; injection Q as <-; repeat split; try (nodup; fail); repeat constructor; cbn; try reflexivity; intros; discriminate).
  all: intros fr fs f v Q I D; injection Q as <- <-; cbn [In] in I;
       repeat destruct I as [<-|I]; try contradiction; cbn [f_default f_type] in *; try discriminate D; injection D as <-.
  all: eapply ht_enum; [reflexivity | reflexivity | left; reflexivity].
Qed.

Lemma post_canonical : canonical_env Post.
Proof.
  split; [intros m s a t L; discriminate L|].
  intros c cl x t G I. post_class c G; cbn [raw_fields c_kind map f_name f_type In Bulk Item Tint Priority Parcel] in I;
    repeat (destruct I as [I|I]; [injection I as <- <-|]); try contradiction; prove_canonical.
Qed.

Lemma post_distinct : forall c cl ps, get_class Post c = Some cl -> class_properties Post cl = Ok ps -> distinct_names ps.
Proof.
  intros c cl ps H P x t y u p I J A B. apply (same_key _ (fun f => out_name (fst f) (snd f)) ps); try assumption.
  - clear - H P. post_class c H; vm_compute in P; injection P as <-; vm_compute; nodup.
  - cbn [fst snd]. rewrite <- (proj1 (out_name_spec _ _ _) A). exact (proj1 (out_name_spec _ _ _) B).
Qed.

Lemma parcel_importable : importable ascii parcel_schema.
Proof.
  assert (DF : forall x d, definition parcel_schema x d -> In (x, d) (definitions_in parcel_schema)) by (intros x d D; apply definition_in in D; tauto).
  assert (PT : forall s, part parcel_schema s -> In s (within 20 parcel_schema ++ flat_map (fun q => within 20 (snd q)) (definitions_in parcel_schema))).
  { intros s [P|(x & d & D & P)]; apply in_or_app; [left; apply inside_within; [assumption | vm_compute; lia] | right].
    apply definition_in in D. destruct D as [D Ld]. apply in_flat_map. exists (x, d). split; [exact D|]. apply inside_within; [exact P | cbn [snd]; vm_compute in Ld |- *; lia]. }
  Ltac cases_of PT P := apply PT in P; vm_compute in P; repeat (destruct P as [<-|P]); try contradiction.
  constructor.
  - intros s P T. cases_of PT P; try (exfalso; get_has T; fail); eexists; given.
  - intros s ps x p k P H I K. cases_of PT P; get_has H; injection H as <-; cbn [In] in I;
      repeat (destruct I as [I|I]; [injection I as <- <-; clear - K; vm_compute in K; repeat (destruct K as [<-|K]; [discriminate|]); destruct K|]); destruct I.
  - intros s vs a b P T H Ia Ib Q. cases_of PT P; get_has H; injection H as <-; cbn [In] in Ia, Ib; in_cases Ia; injection Ia as <-; in_cases Ib; injection Ib as <-;
      try reflexivity; vm_compute in Q; discriminate Q.
  - intros s vs a cls P T H Ia. cases_of PT P; get_has H; injection H as <-; cbn [In] in Ia; in_cases Ia; injection Ia as <-; intros PV;
      apply is_private_spec in PV; unfold is_private in PV; apply andb_true_iff in PV; destruct PV as [PV _]; apply andb_true_iff in PV; destruct PV as [_ PV];
      cbn in PV; discriminate PV.
  - intros s ss P H. cases_of PT P; get_has H.
  - intros s r P H. cases_of PT P; get_has H; injection H as <-.
    all: first [exists (str "Bulk"); eexists; split; [reflexivity|] | exists (str "Item"); eexists; split; [reflexivity|]];
      (split; [eexists; split; [given | first [left; reflexivity | right; left; reflexivity]]|]); intros I; in_cases I; discriminate I.
  - intros x d s D I H. apply DF in D. vm_compute in D. in_cases D; injection D as <- <-; apply inside_within with (n := 5) in I; try (vm_compute; lia);
      vm_compute in I; repeat (destruct I as [<-|I]; [get_has H; discriminate H|]); destruct I.
Qed.

Definition parcel_types : list typ := [TClass 4; TList (TClass 1); TUnion false [TClass 1; tnone]; TScalar KDate; TClass 1; tstr; TClass 0; TUnion false [TScalar KFloat; tnone]; TScalar KFloat; tnone; TClass 2].

Lemma met_parcel : forall t u, met Post registered_market t u -> In t parcel_types -> In u parcel_types.
Proof.
  intros t u H. induction H as [t|t u _ IH|t u _ IH|k t u _ IH|ts t u I _ IH|op ts t u I _ IH|ls l u I _ IH|t md u _ IH
    |c cl ps x t u G P I _ IH|c cl ps x t w u G P I U _ IH|s w u Q _ IH]; intros J; try exact J; try discriminate Q; try apply IH.
  all: unfold parcel_types in J |- *; cbn [In] in J;
    repeat (destruct J as [J|J]; [try discriminate J; try (injection J; intros; subst); cbn [In] in *; try tauto|]); try contradiction.
  all: injection G as <-; vm_compute in P; injection P as <-; cbn [In] in I;
    repeat (destruct I as [I|I]; [injection I as <- <-; try (vm_compute in U; first [discriminate U | injection U as <-]); cbn [In]; tauto|]); destruct I.
Qed.

Lemma item_typed : Forall2 (has_type Post 0) [tstr; TClass 0; TUnion false [TScalar KFloat; tnone]; TClass 2]
  [vstr "pot"; VEnum 0 (str "LARGE"); VFloat (FFin false 5 (-1)); VEnum 2 (str "BLUE")].
Proof.
  constructor; [apply ht_scalar; exact Logic.I|]. constructor; [eapply ht_enum; [reflexivity | reflexivity | right; left; reflexivity]|].
  constructor; [apply (ht_union _ _ _ _ (TScalar KFloat)); [left; reflexivity | apply ht_scalar; exact Logic.I]|].
  constructor; [eapply ht_enum; [reflexivity | reflexivity | right; left; reflexivity] | constructor].
Qed.

Lemma leap_day : scalar_type KDate (VDate (mkDate 2024 2 29)).
Proof. apply (date_new_ok 2024 2 29). reflexivity. Qed.

Lemma plain_read : forall t u, read_type t u -> ~ optional t -> u = t.
Proof. intros t u [(O & _)|(_ & Q)] N; [destruct (N O) | exact Q]. Qed.

Lemma item_fits : fits Post 0 (TClass 1) item.
Proof.
  eapply ft_object; [reflexivity | intros ? Q; discriminate Q | reflexivity | vm_compute; reflexivity | | | |].
  - eapply (post_distinct 1); vm_compute; reflexivity.
  - intros x t k I K. cbn [In] in I. repeat (destruct I as [I|I]; [injection I as <- <-; clear - K; vm_compute in K; repeat (destruct K as [<-|K]; [discriminate|]); destruct K|]). destruct I.
  - intros x t I G. cbn [In] in I. repeat (destruct I as [I|I]; [injection I as <- <-; vm_compute in G; discriminate G|]). destruct I.
  - intros x t w r I G N RT. cbn [In] in I. repeat (destruct I as [I|I]; [injection I as <- <-; vm_compute in G; injection G as <-|]); [| | | |destruct I].
    + apply plain_read in RT; [subst r | not_optional]. apply ft_scalar; [reflexivity | first [exact Logic.I | apply leap_day]].
    + apply plain_read in RT; [subst r | not_optional]. eapply ft_enum; [reflexivity | reflexivity | reflexivity | right; left; reflexivity|].
      intros y j [Q|[Q|[]]]; injection Q as <- <-; reflexivity.
    + assert (r = TScalar KFloat) as ->.
      { eapply read_type_fun; [exact RT|]. left. split; [exists false, [TScalar KFloat; tnone]; split; [right; left; reflexivity | left; reflexivity]|].
        eapply dn_union; [|constructor]. apply wo_keep; [discriminate|]. apply wo_none. apply wo_nil. }
      apply ft_scalar; [reflexivity | first [exact Logic.I | apply leap_day]].
    + apply plain_read in RT; [subst r | not_optional]. eapply ft_enum; [reflexivity | reflexivity | reflexivity | right; left; reflexivity|].
      intros y j [Q|[Q|[]]]; injection Q as <- <-; reflexivity.
Qed.

Lemma parcel_fits : fits Post 0 (TClass 4) parcel.
Proof.
  eapply ft_object; [reflexivity | intros ? Q; discriminate Q | reflexivity | vm_compute; reflexivity | | | |].
  - eapply (post_distinct 4); vm_compute; reflexivity.
  - intros x t k I K. cbn [In] in I. repeat (destruct I as [I|I]; [injection I as <- <-; clear - K; vm_compute in K; repeat (destruct K as [<-|K]; [discriminate|]); destruct K|]). destruct I.
  - intros x t I G. cbn [In] in I. repeat (destruct I as [I|I]; [injection I as <- <-; try (vm_compute in G; discriminate G)|]); [|destruct I].
    exists false, [TClass 1; tnone]. split; [right; left; reflexivity | left; reflexivity].
  - intros x t w r I G N RT. cbn [In] in I.
    repeat (destruct I as [I|I]; [injection I as <- <-; apply (f_equal (fun o => match o with Some w0 => w0 | None => w end)) in G; vm_compute in G; subst w|]); [| | | |destruct I].
    + apply plain_read in RT; [subst r | not_optional]. apply ft_scalar; [reflexivity | first [exact Logic.I | apply leap_day]].
    + apply plain_read in RT; [subst r | not_optional]. apply ft_list. intros v [<-|[<-|[]]]; exact item_fits.
    + destruct (N eq_refl).
    + apply plain_read in RT; [subst r | not_optional]. apply ft_scalar; [reflexivity | first [exact Logic.I | apply leap_day]].
Qed.

Lemma item_conforms : conforms Post item.
Proof. eapply cf_fields; [reflexivity | reflexivity | reflexivity | exact item_typed | repeat constructor]. Qed.

Lemma parcel_conforms : conforms Post parcel.
Proof.
  eapply cf_fields; [reflexivity | reflexivity | reflexivity | |
    repeat first [apply Forall_cons | apply Forall_nil]; cbn [snd]; try (apply cf_leaf; exact Logic.I);
    apply cf_list; constructor; [exact item_conforms | constructor; [exact item_conforms | constructor]]].
  assert (I : has_type Post 0 (TClass 1) item) by (eapply ht_obj; [reflexivity | reflexivity | reflexivity | exact item_typed]).
  constructor; [apply ht_scalar; exact Logic.I|]. constructor; [apply ht_list; repeat constructor; exact I|].
  constructor; [apply (ht_union _ _ _ _ tnone); [right; left; reflexivity | apply ht_scalar; exact Logic.I]|].
  constructor; [apply ht_scalar; apply leap_day | constructor].
Qed.

(** What a second program, which has the schema only, makes of it. *)
Example C63_witness : exists E' t' v',
  env_ok Post /\ canonical_env Post /\ tidy Post /\ coherent Post registered_market /\
  classdef_to_schema Post registered_market 20 20 (TClass 4) = Ok parcel_schema /\ (forall s, ~ lost Post registered_market (TClass 4) s) /\
  schema_to_type ascii Zoo 7 (str "Parcel") parcel_schema = Ok (E', t') /\
  guarded_env Zoo /\ calm Zoo /\ plain_module Zoo 7 /\ shuffles (e_order Zoo) /\ json_wf parcel_schema /\ importable ascii parcel_schema /\
  fits Post 0 (TClass 4) parcel /\ conforms Post parcel /\ SpecRoundTrip.regular parcel /\ object_to_json Post parcel = Ok parcel_json /\ plain_json parcel_json = true /\
  json_to_object E' false 7 t' parcel_json = Ok v' /\ object_to_json E' v' = Ok parcel_json /\ v' <> parcel.
Proof.
  let r := eval vm_compute in (schema_to_type ascii Zoo 7 (str "Parcel") parcel_schema) in match r with Ok (?E', ?t) => exists E', t;
  let v := eval vm_compute in (json_to_object E' false 7 t parcel_json) in match v with Ok ?v => exists v end end.
  split; [exact post_ok|]. split; [exact post_canonical|]. split; [intros c cl h v j G; post_class c G; discriminate|]. split; [exact (nameless_coherent Post (fun _ _ => eq_refl))|].
  split; [vm_compute; reflexivity|]. split.
  { intros s (_ & [(M & _)|(md & M)]); apply met_parcel in M; try (left; reflexivity); cbn [In parcel_types] in M; repeat (destruct M as [M|M]; [discriminate M|]); destruct M. }
  split; [vm_compute; reflexivity|]. split; [exact zoo_guarded|]. split; [exact zoo_calm|]. split; [exact zoo_plain|]. split; [exact zoo_shuffles|].
  split; [prove_wf|]. split; [exact parcel_importable|]. split; [exact parcel_fits|]. split; [exact parcel_conforms|].
  split; [intros w I; walk I|]. split; [vm_compute; reflexivity|]. split; [vm_compute; reflexivity|]. split; [vm_compute; reflexivity|].
  split; [vm_compute; reflexivity|]. discriminate.
Qed.

(** Schemas of registered classes refer to their definitions at the top; no types are
    made from these. *)
Theorem C63_registered_refuted : exists doc, classdef_to_schema Post registered_market 20 20 (TClass 1) = Ok doc /\
  schema_to_type ascii Zoo 7 (str "Item") doc = Err EJsonKey.
Proof.
  match goal with |- exists doc, classdef_to_schema ?E ?S ?n ?k ?t = _ /\ _ =>
    let d := eval vm_compute in (classdef_to_schema E S n k t) in match d with Ok ?d => exists d end end.
  split; vm_compute; reflexivity.
Qed.
Print Assumptions C63_registered_refuted.
