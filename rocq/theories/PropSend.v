(** C71: types are made from the schemas of the types of SpecSend.v. *)
From Coq Require Import String List NArith ZArith Bool Lia.
From Verif Require Import Base IsoTime IsoTimeProofs Json PyTypes Mapping Deser Ser Catalog ClassDef Samples Lists SpecTyping SpecTypes SpecFields SpecRecursion SpecTagged SpecDeser SpecSer SpecGenerate
  SpecClassDef ClassDefProofs SpecReadable Schema SpecSchema SpecValid SpecRoundTrip SpecRewrite FieldProofs SchemaClass TypeDef SpecTypeDef TypeDefEnv SpecTypeShape SpecMirror SpecMake SpecSend SchemaWf SendForms SendProofs
  PropDeser PropSchema PropRoundTrip PropTypeDef PropMirror PropRewrite PropExchange PropMake.
Import ListNotations.
Open Scope list_scope.
Open Scope nat_scope.

(** C71.  Schemas have no keyword, property or definition twice. *)
Theorem C71_well_formed : forall E S n k t doc, env_ok E -> tidy E ->
  (forall t e, get (s_catalog S) t = Ok e -> (forall j, en_schema e = Some j -> json_wf j) /\ (forall j, en_examples e = Some j -> json_wf j)) ->
  classdef_to_schema E S n k t = Ok doc -> json_wf doc.
Proof. intros E S n k t doc OK TD RW H. exact (document_wf E S OK TD RW n k t doc H). Qed.
Print Assumptions C71_well_formed.

Lemma derived_wf : forall E S, coherent E S -> unexemplified S ->
  forall t e, get (s_catalog S) t = Ok e -> (forall j, en_schema e = Some j -> json_wf j) /\ (forall j, en_examples e = Some j -> json_wf j).
Proof. intros E S CO NX t e G. rewrite (co_derived _ _ CO _ _ G), (NX _ _ G). split; discriminate. Qed.

(** C71.  The schema of a class of SpecSend.v is of the forms of SpecMake.v. *)
Theorem C71_forms : forall U E S n k c name doc ds n1 n2, canonical_env E -> coherent E S -> s_path S = str "#/definitions/" -> unexemplified S ->
  classdef_to_schema E S n k (TClass c) = Ok doc -> unregistered S (TClass c) -> defines doc ds ->
  sends_definitions E S U [] (map fst ds) n1 -> sends_object E S U (rev (map fst ds)) name c n2 ->
  exists ps, makes_schema U name doc ds ps n1 n2.
Proof.
  intros U E S n k c name doc ds n1 n2 CE CO P NX H NR DS SD SO. destruct (document_makes E S U CE CO P NX n k c name doc ds n1 n2 H NR DS SD SO) as (ps & MS & _). exists ps. exact MS.
Qed.
Print Assumptions C71_forms.

(** C71.  It is regular, as C57 asks for. *)
Theorem C71_regular : forall U E S n k c name doc ds n1 n2, env_ok E -> canonical_env E -> tidy E -> coherent E S -> s_path S = str "#/definitions/" -> unexemplified S ->
  classdef_to_schema E S n k (TClass c) = Ok doc -> unregistered S (TClass c) -> defines doc ds ->
  sends_definitions E S U [] (map fst ds) n1 -> sends_object E S U (rev (map fst ds)) name c n2 ->
  SpecTypeShape.regular doc.
Proof.
  intros U E S n k c name doc ds n1 n2 OK CE TD CO P NX H NR DS SD SO.
  destruct (document_makes E S U CE CO P NX n k c name doc ds n1 n2 H NR DS SD SO) as (ps & MS & BD & BP).
  exact (orderly_regular U doc (builds_orderly U name doc ds ps n1 n2 MS BD BP (C71_well_formed E S n k (TClass c) doc OK TD (derived_wf E S CO NX) H))).
Qed.
Print Assumptions C71_regular.

(** C71.  It can be imported, as C51 asks for, if alternatives and names are told apart. *)
Theorem C71_importable : forall U E S n k c name doc ds n1 n2, env_ok E -> canonical_env E -> tidy E -> coherent E S -> s_path S = str "#/definitions/" -> unexemplified S ->
  classdef_to_schema E S n k (TClass c) = Ok doc -> unregistered S (TClass c) -> defines doc ds ->
  sends_definitions E S U [] (map fst ds) n1 -> sends_object E S U (rev (map fst ds)) name c n2 ->
  importable U doc <-> told_apart U doc.
Proof.
  intros U E S n k c name doc ds n1 n2 OK CE TD CO P NX H NR DS SD SO.
  destruct (document_makes E S U CE CO P NX n k c name doc ds n1 n2 H NR DS SD SO) as (ps & MS & BD & BP).
  split; [intros [_ A _ B C _ _]; split; assumption|].
  exact (orderly_importable U doc (builds_orderly U name doc ds ps n1 n2 MS BD BP (C71_well_formed E S n k (TClass c) doc OK TD (derived_wf E S CO NX) H))).
Qed.
Print Assumptions C71_importable.

(** C71.  Another program, which has the schema only, makes a class from it, and classes
    with the names that SpecSend.v gives; these are copies of the classes of the first
    program (C57). *)
Theorem C71_copies : forall U E S n k c name doc ds n1 n2 E0 m, env_ok E -> canonical_env E -> tidy E -> coherent E S -> s_path S = str "#/definitions/" -> unexemplified S ->
  classdef_to_schema E S n k (TClass c) = Ok doc -> unregistered S (TClass c) -> defines doc ds ->
  sends_definitions E S U [] (map fst ds) n1 -> sends_object E S U (rev (map fst ds)) name c n2 ->
  NoDup (n1 ++ n2 ++ [name]) -> (forall x, In x (n1 ++ n2 ++ [name]) -> free E0 m x) ->
  exists E' c', schema_to_type U E0 m name doc = Ok (E', TClass c') /\
  (exists cls, e_classes E' = e_classes E0 ++ cls /\ map c_name cls = n1 ++ n2 ++ [name] /\ forall cl, In cl cls -> c_module cl = m) /\
  ((forall c cl ps, get_class E c = Some cl -> class_properties E cl = Ok ps -> distinct_names ps) ->
   guarded_env E0 -> calm E0 -> plain_module E0 m ->
   copy E S U E' m true name (TClass c) (TClass c') /\
   forall x d, definition doc x d -> exists w u, stands_for S x w /\ lookup E' m x = Some (true, u) /\ copy E S U E' m false x w u).
Proof.
  intros U E S n k c name doc ds n1 n2 E0 m OK CE TD CO P NX H NR DS SD SO ND F.
  pose proof (C71_well_formed E S n k (TClass c) doc OK TD (derived_wf E S CO NX) H) as W.
  destruct (C71_forms U E S n k c name doc ds n1 n2 CE CO P NX H NR DS SD SO) as (ps & MS).
  destruct (C70_made U E0 m name doc ds ps n1 n2 W MS ND F) as (E' & c' & Q & CL & _). exists E', c'. split; [exact Q|]. split; [exact CL|].
  intros DN G C PM. pose proof (C71_regular U E S n k c name doc ds n1 n2 OK CE TD CO P NX H NR DS SD SO) as R.
  exact (C57_copies U E S E0 m n k (TClass c) name doc E' (TClass c') OK CE CO P DN H Q G C PM W R).
Qed.
Print Assumptions C71_copies.

(** C71.  It reads what the first program writes for values of the class. *)
Theorem C71_exchange : forall U E S n k c name doc ds n1 n2 E0 m0, env_ok E -> canonical_env E -> tidy E -> coherent E S -> s_path S = str "#/definitions/" -> unexemplified S ->
  classdef_to_schema E S n k (TClass c) = Ok doc -> unregistered S (TClass c) -> defines doc ds ->
  sends_definitions E S U [] (map fst ds) n1 -> sends_object E S U (rev (map fst ds)) name c n2 ->
  NoDup (n1 ++ n2 ++ [name]) -> (forall x, In x (n1 ++ n2 ++ [name]) -> free E0 m0 x) ->
  (forall s, lost E S (TClass c) s -> exists sch, defined doc s sch) ->
  guarded_env E0 -> calm E0 -> plain_module E0 m0 -> shuffles (e_order E0) -> told_apart U doc ->
  exists E' t', schema_to_type U E0 m0 name doc = Ok (E', t') /\
  forall skip m v j, fits E m (TClass c) v -> conforms E v -> SpecRoundTrip.regular v -> object_to_json E v = Ok j -> plain_json j = true ->
  exists v', json_to_object E' skip m0 t' j = Ok v'.
Proof.
  intros U E S n k c name doc ds n1 n2 E0 m0 OK CE TD CO P NX H NR DS SD SO ND F L G C PM SH TA.
  pose proof (proj2 (C71_importable U E S n k c name doc ds n1 n2 OK CE TD CO P NX H NR DS SD SO) TA) as IMP.
  pose proof (C71_well_formed E S n k (TClass c) doc OK TD (derived_wf E S CO NX) H) as W.
  destruct (C71_copies U E S n k c name doc ds n1 n2 E0 m0 OK CE TD CO P NX H NR DS SD SO ND F) as (E' & c' & Q & _).
  exists E', (TClass c'). split; [exact Q|]. intros skip m v j FT CF RG O PJ.
  exact (C63_exchange U E S n k m (TClass c) doc v j E0 m0 name E' (TClass c') skip OK CE TD CO P H L Q G C PM SH W IMP FT CF RG O PJ).
Qed.
Print Assumptions C71_exchange.

(** *** Witness: the parcels of PropExchange.v *)

Ltac attr_tac := intros v Q; vm_compute in Q; first [discriminate Q | injection Q as <-].

Lemma bulk_members : forall x, (x = str "Bulk" \/ x = str "Item__color") -> forall vs, (vs = [str "small"; str "extra large"] \/ vs = [str "red"; str "blue"]) -> members_for ascii x vs.
Proof.
  intros x X vs V. split.
  - destruct V as [-> | ->]; vm_compute; nodup.
  - intros v I. destruct X as [-> | ->], V as [-> | ->]; (destruct I as [<- | [<- | []]]; (split; [discriminate|]; split; [discriminate | private_tac])).
Qed.

Lemma optional_read : forall t, t <> tnone -> read_type (TUnion false [t; tnone]) t.
Proof.
  intros t N. left. split; [exists false, [t; tnone]; split; [right; left; reflexivity | left; reflexivity]|].
  eapply dn_union; [|constructor]. apply wo_keep; [exact N|]. apply wo_none. apply wo_nil.
Qed.

Lemma item_sends : forall D, In (str "Bulk") D -> sends_object Post registered_market ascii D (str "Item") 1 [str "Item__color"].
Proof.
  intros D I. eapply so_fields with (xs := [str "name"; str "size"; str "weight"; str "color"]); [reflexivity | discriminate | vm_compute; reflexivity | discriminate | nodup|].
  apply sp_cons with (n1 := []) (w := tstr); [apply (proj2 (out_name_spec _ _ _)); vm_compute; reflexivity | fname | apply read_plain; not_optional | | attr_tac |].
  { apply sd_stated; [intros e G; discriminate G | apply st_scalar; cbn; tauto]. }
  apply sp_cons with (n1 := []) (w := TClass 0); [apply (proj2 (out_name_spec _ _ _)); vm_compute; reflexivity | fname | apply read_plain; not_optional | | attr_tac |].
  { eapply sd_registered; [vm_compute; reflexivity|]. split; [exact I|]. split; [discriminate|]. apply forallb_forall. vm_compute. reflexivity. }
  apply sp_cons with (n1 := []) (w := TScalar KFloat); [apply (proj2 (out_name_spec _ _ _)); vm_compute; reflexivity | fname | apply optional_read; discriminate | | attr_tac |].
  { apply sd_stated; [intros e G; discriminate G | apply st_scalar; cbn; tauto]. }
  apply sp_cons with (n1 := [str "Item__color"]) (n2 := []) (w := TClass 2); [apply (proj2 (out_name_spec _ _ _)); vm_compute; reflexivity | fname | apply read_plain; not_optional | | | apply sp_nil].
  { apply sd_stated; [intros e G; discriminate G|]. apply st_class. eapply sc_enum with (vs := [str "red"; str "blue"]); [reflexivity | reflexivity | reflexivity|].
    apply bulk_members; [right; reflexivity | right; reflexivity]. }
  intros v Q _. vm_compute in Q. injection Q as <-. eapply df_member; [reflexivity | intros e G; discriminate G | reflexivity | reflexivity | reflexivity | nodup | left; reflexivity].
Qed.

Lemma parcel_sends : sends_object Post registered_market ascii [str "Item"; str "Bulk"] (str "Parcel") 4 [].
Proof.
  assert (IT : forall ctx, sends Post registered_market ascii [str "Item"; str "Bulk"] ctx (TClass 1) []).
  { intros ctx. eapply sd_registered; [vm_compute; reflexivity|]. split; [left; reflexivity|]. split; [discriminate|]. apply forallb_forall. vm_compute. reflexivity. }
  eapply so_fields with (xs := [str "label"; str "items"; str "gift"; str "sent"]); [reflexivity | discriminate | vm_compute; reflexivity | discriminate | nodup|].
  apply sp_cons with (n1 := []) (w := tstr); [apply (proj2 (out_name_spec _ _ _)); vm_compute; reflexivity | fname | apply read_plain; not_optional | | attr_tac |].
  { apply sd_stated; [intros e G; discriminate G | apply st_scalar; cbn; tauto]. }
  apply sp_cons with (n1 := []) (w := TList (TClass 1)); [apply (proj2 (out_name_spec _ _ _)); vm_compute; reflexivity | fname | apply read_plain; not_optional | | attr_tac |].
  { apply sd_stated; [intros e G; discriminate G | apply st_list; apply IT]. }
  apply sp_cons with (n1 := []) (w := TClass 1); [apply (proj2 (out_name_spec _ _ _)); vm_compute; reflexivity | fname | apply optional_read; discriminate | apply IT | attr_tac |].
  apply sp_cons with (n1 := []) (n2 := []) (w := TScalar KDate); [apply (proj2 (out_name_spec _ _ _)); vm_compute; reflexivity | fname | apply read_plain; not_optional | | attr_tac | apply sp_nil].
  apply sd_stated; [intros e G; discriminate G | apply st_scalar; cbn; tauto].
Qed.

Definition parcel_definitions : list (pystr * json) := Eval vm_compute in definitions_in parcel_schema.
Definition parcel_defined : list pystr := [str "Bulk"; str "Item__color"; str "Item"].

Lemma parcel_defines : sends_definitions Post registered_market ascii [] [str "Bulk"; str "Item"] parcel_defined.
Proof.
  pose proof (nameless_coherent Post (fun _ _ => eq_refl)) as CO.
  assert (B : forall w, stands_for registered_market (str "Bulk") w -> w = TClass 0).
  { intros w H. eapply (co_unique _ _ CO); [exact H|]. eapply sf_registered; [discriminate | vm_compute; reflexivity | reflexivity]. }
  assert (I : forall w, stands_for registered_market (str "Item") w -> w = TClass 1).
  { intros w H. eapply (co_unique _ _ CO); [exact H|]. eapply sf_registered; [discriminate | vm_compute; reflexivity | reflexivity]. }
  change parcel_defined with ([str "Bulk"] ++ ([str "Item__color"] ++ [str "Item"]) ++ []). apply sf_cons.
  - intros w H. apply B in H. subst w. eapply sc_enum with (vs := [str "small"; str "extra large"]); [reflexivity | reflexivity | reflexivity|].
    apply bulk_members; left; reflexivity.
  - apply sf_cons; [|apply sf_nil]. intros w H. apply I in H. subst w. apply sc_object. apply item_sends. left. reflexivity.
Qed.

Example C71_witness : exists E' c',
  env_ok Post /\ canonical_env Post /\ tidy Post /\ coherent Post registered_market /\ unexemplified registered_market /\
  classdef_to_schema Post registered_market 20 20 (TClass 4) = Ok parcel_schema /\ unregistered registered_market (TClass 4) /\ defines parcel_schema parcel_definitions /\
  sends_definitions Post registered_market ascii [] (map fst parcel_definitions) parcel_defined /\
  sends_object Post registered_market ascii (rev (map fst parcel_definitions)) (str "Parcel") 4 [] /\
  NoDup (parcel_defined ++ [] ++ [str "Parcel"]) /\ (forall x, In x (parcel_defined ++ [] ++ [str "Parcel"]) -> free Zoo 7 x) /\
  (forall s, ~ lost Post registered_market (TClass 4) s) /\
  (forall c cl ps, get_class Post c = Some cl -> class_properties Post cl = Ok ps -> distinct_names ps) /\
  guarded_env Zoo /\ calm Zoo /\ plain_module Zoo 7 /\ shuffles (e_order Zoo) /\ told_apart ascii parcel_schema /\
  schema_to_type ascii Zoo 7 (str "Parcel") parcel_schema = Ok (E', TClass c') /\
  fits Post 0 (TClass 4) parcel /\ conforms Post parcel /\ SpecRoundTrip.regular parcel /\ object_to_json Post parcel = Ok parcel_json /\ plain_json parcel_json = true.
Proof.
  let r := eval vm_compute in (schema_to_type ascii Zoo 7 (str "Parcel") parcel_schema) in match r with Ok (?E', TClass ?c) => exists E', c end.
  split; [exact post_ok|]. split; [exact post_canonical|]. split; [intros c cl h v j G; post_class c G; discriminate|]. split; [exact (nameless_coherent Post (fun _ _ => eq_refl))|].
  split.
  { intros t e G. unfold get in G. cbn [registered_market s_catalog] in G.
    assert (X : forall c, c = register_all [(TClass 0, entry_for (str "Bulk")); (TClass 1, entry_for (str "Item"))] ->
      (forall t e, type_get (by_type c) t = Some e -> en_examples e = None) /\ (forall s e, dict_get (by_name c) s = Some e -> en_examples e = None)).
    { intros c ->. split.
      - intros t' e' Q. vm_compute register_all in Q. cbn [by_type type_get] in Q. repeat (destruct (typ_eqb _ t'); [injection Q as <-; reflexivity|]). discriminate Q.
      - intros s e' Q. vm_compute register_all in Q. cbn [by_name dict_get] in Q. repeat (destruct (pystr_eqb _ s); [injection Q as <-; reflexivity|]). discriminate Q. }
    destruct (X _ eq_refl) as [X1 X2]. destruct t; match type of G with match ?x with _ => _ end = _ => destruct x as [e'|] eqn:Q end; try discriminate G; injection G as <-;
      first [exact (X1 _ _ Q) | exact (X2 _ _ Q)]. }
  split; [vm_compute; reflexivity|]. split; [intros e G; discriminate G|]. split; [left; given|]. split; [exact parcel_defines|]. split; [exact parcel_sends|].
  split; [unfold parcel_defined; cbn [app]; nodup|]. split.
  { intros x I. assert (X : lookup Zoo 7 x = None /\ forallb (fun cl => negb (Nat.eqb (c_module cl) 7)) (e_classes Zoo) = true).
    { split; [|vm_compute; reflexivity]. cbn in I. repeat (destruct I as [<-|I]; [vm_compute; reflexivity|]). destruct I. }
    destruct X as [L C]. split; [exact L|]. intros cl J M. rewrite forallb_forall in C. specialize (C _ J). rewrite M in C. discriminate C. }
  split.
  { intros s (_ & [(M & _)|(md & M)]); apply met_parcel in M; try (left; reflexivity); cbn [In parcel_types] in M; repeat (destruct M as [M|M]; [discriminate M|]); destruct M. }
  split; [exact post_distinct|]. split; [exact zoo_guarded|]. split; [exact zoo_calm|]. split; [exact zoo_plain|]. split; [exact zoo_shuffles|].
  split; [destruct parcel_importable as [_ A _ B C _ _]; split; assumption|]. split; [vm_compute; reflexivity|]. split; [exact parcel_fits|]. split; [exact parcel_conforms|].
  split; [intros w I; walk I|]. split; vm_compute; reflexivity.
Qed.

(** *** Defaults *)

(** @dataclass class T: x: t = d *)
Definition holder (t : typ) (d : value) : env := mkEnv [mkClass 0 (str "T") (CData false [mkField (str "x") t (Some (Ok d))]) None None] [] (fun ps => ps).

Definition holding (d : value) : senv := {|
  s_catalog := register_all [];
  s_eval := fun _ => None;
  s_forward := fun _ => true;
  s_short := fun _ => None;
  s_long := fun _ => None;
  s_props := fun _ => [];
  s_attrs := fun _ => [(str "x", d)];
  s_tenth := fun _ => FFin false 1 (-3);
  s_path := str "#/definitions/";
  s_describe := true;
  s_exemplify := true
|}.

(** class T: x: date = date(2020, 3, 29).  The schema is made into a class whose field has
    the same default. *)
Example C71_date : exists doc E' c fs, let d := VDate (mkDate 2020 3 29) in
  sends_object (holder (TScalar KDate) d) (holding d) ascii [] (str "T") 0 [] /\
  classdef_to_schema (holder (TScalar KDate) d) (holding d) 20 20 (TClass 0) = Ok doc /\ schema_to_type ascii Zoo 7 (str "T") doc = Ok (E', TClass c) /\
  get_class E' c = Some (mkClass 7 (str "T") (CData false fs) None None) /\ map f_default fs = [Some (Ok d)].
Proof.
  let d := eval vm_compute in (classdef_to_schema (holder (TScalar KDate) (VDate (mkDate 2020 3 29))) (holding (VDate (mkDate 2020 3 29))) 20 20 (TClass 0)) in
  match d with Ok ?d => exists d; let r := eval vm_compute in (schema_to_type ascii Zoo 7 (str "T") d) in match r with Ok (?E', TClass ?c) => exists E', c;
    let cl := eval vm_compute in (get_class E' c) in match cl with Some (mkClass _ _ (CData _ ?fs) _ _) => exists fs end end end.
  cbv zeta. split; [|split; [vm_compute; reflexivity|split; [vm_compute; reflexivity|split; vm_compute; reflexivity]]].
  eapply so_fields with (xs := [str "x"]); [reflexivity | discriminate | vm_compute; reflexivity | discriminate | nodup|].
  apply sp_cons with (n1 := []) (n2 := []) (w := TScalar KDate); [apply (proj2 (out_name_spec _ _ _)); vm_compute; reflexivity | fname | apply read_plain; not_optional | | | apply sp_nil].
  - apply sd_stated; [intros e G; discriminate G | apply st_scalar; cbn; tauto].
  - intros v Q _. vm_compute in Q. injection Q as <-. apply (df_time _ _ _ KDate); [cbn; tauto | left; reflexivity | apply (IsoTimeProofs.date_parse_wf (str "2020-03-29")); vm_compute; reflexivity | exact Logic.I].
Qed.

(** *** Defaults of alternatives *)

(** The schema of Union[int, str] with a default is written as one of "oneOf" and
    "default", and no type is made from that, although one is made without the default. *)
Theorem C71_default_refuted : exists t d doc doc', sends_all (holder t d) (holding VNone) ascii [] (str "T__x") [tint; tstr] [] /\ t = TUnion false [tint; tstr] /\
  classdef_to_schema (holder t d) (holding d) 20 20 (TClass 0) = Ok doc /\ schema_to_type ascii Zoo 7 (str "T") doc = Err EJsonKey /\
  classdef_to_schema (holder t d) (holding VNone) 20 20 (TClass 0) = Ok doc' /\ exists E' t', schema_to_type ascii Zoo 7 (str "T") doc' = Ok (E', t').
Proof.
  exists (TUnion false [tint; tstr]), (VInt 1).
  let d := eval vm_compute in (classdef_to_schema (holder (TUnion false [tint; tstr]) (VInt 1)) (holding (VInt 1)) 20 20 (TClass 0)) in
  let d' := eval vm_compute in (classdef_to_schema (holder (TUnion false [tint; tstr]) (VInt 1)) (holding VNone) 20 20 (TClass 0)) in
  match d with Ok ?d => match d' with Ok ?d' => exists d, d' end end.
  split.
  { apply sa_cons with (n1 := []) (n2 := [] ++ []); [apply sd_stated; [intros e G; discriminate G | apply st_scalar; cbn; tauto]|].
    apply sa_cons; [apply sd_stated; [intros e G; discriminate G | apply st_scalar; cbn; tauto] | apply sa_nil]. }
  split; [reflexivity|]. split; [vm_compute; reflexivity|]. split; [vm_compute; reflexivity|]. split; [vm_compute; reflexivity|].
  match goal with |- exists E' t', ?x = _ => let r := eval vm_compute in x in match r with Ok (?E', ?t) => exists E', t end end. vm_compute. reflexivity.
Qed.
Print Assumptions C71_default_refuted.
