(** C57: the types made from the schema generated for a type are copies of it. *)
From Coq Require Import String List NArith ZArith Bool Lia.
From Verif Require Import Base Json PyTypes TypeAlgebra Mapping Deser Ser ClassDef Samples Lists SpecTypes SpecTyping SpecFields SpecRecursion SpecClassDef
  Catalog Schema SpecSchema SpecValid TypingFacts SchemaRead SchemaClass DeserUnfold PropDeser PropRoundTrip PropFields PropSchema SpecGenerate Flatten TypeDef SpecTypeDef TypeDefEnv
  SpecTypeShape TypeDefShape PropTypeDef PropTypeShape SpecMeta SpecMirror MirrorWords MirrorProofs.
Import ListNotations.
Open Scope list_scope.
Open Scope nat_scope.

(** C57.  When a schema generated for a type can be made into types at all, they
    are copies of that type and of the registered types it refers to. *)
Theorem C57_copies : forall U E S E0 m n k t name doc E' t', env_ok E -> canonical_env E -> coherent E S -> s_path S = str "#/definitions/" ->
  (forall c cl ps, get_class E c = Some cl -> class_properties E cl = Ok ps -> distinct_names ps) ->
  classdef_to_schema E S n k t = Ok doc -> schema_to_type U E0 m name doc = Ok (E', t') ->
  guarded_env E0 -> calm E0 -> plain_module E0 m -> json_wf doc -> regular doc ->
  copy E S U E' m true name t t' /\
  forall x d, definition doc x d -> exists w u, stands_for S x w /\ lookup E' m x = Some (true, u) /\ copy E S U E' m false x w u.
Proof. exact document_copy. Qed.
Print Assumptions C57_copies.

(** C57.  Schemas that are made into types only use the keywords known. *)
Theorem C57_keywords : forall U E m name doc E' t, schema_to_type U E m name doc = Ok (E', t) -> json_wf doc -> forall s, part doc s -> spoken s.
Proof. exact parts_spoken. Qed.
Print Assumptions C57_keywords.

(** *** A program *)

(** class Bulk(Enum): SMALL = "small"; LARGE = "extra large" *)
Definition Bulk := mkClass 0 (str "Bulk") (CEnum [(str "SMALL", jstr "small"); (str "LARGE", jstr "extra large")]) None None.

(** @dataclass class Item: name: str; size: Bulk; weight: Optional[float]; color: Tint = Tint.RED *)
Definition Item := mkClass 0 (str "Item")
  (CData false [mkField (str "name") tstr None;
                mkField (str "size") (TClass 0) None;
                mkField (str "weight") (TUnion false [TScalar KFloat; tnone]) None;
                mkField (str "color") (TClass 2) (Some (Ok (VEnum 2 (str "RED"))))]) None None.

(** class Tint(Enum): RED = "red"; BLUE = "blue" *)
Definition Tint := mkClass 0 (str "Tint") (CEnum [(str "RED", jstr "red"); (str "BLUE", jstr "blue")]) None None.

(** class Priority(Enum): LOW = 1; HIGH = 300 *)
Definition Priority := mkClass 0 (str "Priority") (CEnum [(str "LOW", JInt 1); (str "HIGH", JInt 300)]) None None.

(** @dataclass class Sale: kind: Literal["sale"]; id_: UUID (named "number"); items: list[Item];
    gift: Union[Item, str, None]; count: Annotated[int, IntegerRange(0, 9)] = 1;
    priority: Priority; stock: dict[Tint, int] *)
Definition Sale := mkClass 0 (str "Sale")
  (CData false [mkField (str "kind") (TLiteral [LStr (str "sale")]) None;
                mkField (str "id_") (TAnnot (TScalar KUUID) [AAlias (str "number")]) None;
                mkField (str "items") (TList (TClass 1)) None;
                mkField (str "gift") (TUnion false [TClass 1; tstr; tnone]) None;
                mkField (str "count") (TAnnot tint [AIntegerRange 0 9]) (Some (Ok (VInt 1)));
                mkField (str "priority") (TClass 3) None;
                mkField (str "stock") (TDict (TClass 2) tint) None]) None None.

Definition Market : env := mkEnv [Bulk; Item; Tint; Priority; Sale] [] (fun ps => ps).

Definition registered_market : senv := {|
  s_catalog := register_all [(TClass 0, entry_for (str "Bulk")); (TClass 1, entry_for (str "Item"))];
  s_eval := fun _ => None;
  s_forward := fun _ => true;
  s_short := fun t => match t with TClass 1 => Some (str "For sale.") | _ => None end;
  s_long := fun _ => None;
  s_props := fun _ => [];
  s_attrs := fun c => match c with 1 => [(str "color", VEnum 2 (str "RED"))] | 4 => [(str "count", VInt 1)] | _ => [] end;
  s_tenth := fun _ => FFin false 1 (-3);
  s_path := str "#/definitions/";
  s_describe := true;
  s_exemplify := true
|}.

Definition sale_schema : json := match classdef_to_schema Market registered_market 20 20 (TClass 4) with Ok d => d | _ => JNull end.

Ltac market_class c H :=
  unfold get_class, Market in H; cbn [e_classes] in H;
  destruct c as [|[|[|[|[|?c]]]]]; cbn [nth_error] in H;
  [injection H as <-..|destruct c; discriminate H].

Lemma market_ok : env_ok Market.
Proof.
  intros c cl H. market_class c H; split; cbn; try discriminate; try (intros; discriminate).
  all: try (nodup; fail).
  all: try (intros ? Q; injection Q as <-; repeat split; try (nodup; fail); repeat constructor; cbn; try reflexivity; intros; discriminate).
  all: intros fr fs f v Q I D; injection Q as <- <-; cbn [In] in I;
       repeat destruct I as [<-|I]; try contradiction; cbn [f_default f_type] in *; try discriminate D; injection D as <-.
  - eapply ht_enum; [reflexivity | reflexivity | left; reflexivity].
  - apply ht_annot. apply ht_scalar. exact Logic.I.
Qed.

Lemma market_canonical : canonical_env Market.
Proof.
  split; [intros m s a t L; discriminate L|].
  intros c cl x t G I. market_class c G; cbn [raw_fields c_kind map f_name f_type In Bulk Item Tint Priority Sale] in I;
    repeat (destruct I as [I|I]; [injection I as <- <-|]); try contradiction; prove_canonical.
Qed.

Lemma same_key : forall (A : Type) (f : A -> pystr) l a b, NoDup (map f l) -> In a l -> In b l -> f a = f b -> a = b.
Proof.
  intros A f l a b. induction l as [|c l IH]; [intros _ []|]. intros Nd. inversion Nd as [|? ? X Y]; subst. intros [->|Ia] [->|Ib] Q; auto.
  - destruct X. rewrite Q. apply in_map. exact Ib.
  - destruct X. rewrite <- Q. apply in_map. exact Ia.
Qed.

Lemma market_distinct : forall c cl ps, get_class Market c = Some cl -> class_properties Market cl = Ok ps -> distinct_names ps.
Proof.
  intros c cl ps H P x t y u p I J A B. apply (same_key _ (fun f => out_name (fst f) (snd f)) ps); try assumption.
  - clear - H P. market_class c H; vm_compute in P; injection P as <-; vm_compute; nodup.
  - cbn [fst snd]. rewrite <- (proj1 (out_name_spec _ _ _) A). exact (proj1 (out_name_spec _ _ _) B).
Qed.

Lemma nameless_coherent : forall E, (forall m s, lookup E m s = None) -> coherent E registered_market.
Proof.
  intros E0 NL.
  assert (R : forall w e, (forall s, w <> TRef s) -> get (s_catalog registered_market) w = Ok e ->
    (w = TClass 0 /\ e = entry_for (str "Bulk")) \/ (w = TClass 1 /\ e = entry_for (str "Item"))).
  { intros w e N0 H. assert (X : exists e0, type_get (by_type (s_catalog registered_market)) w = Some e0 /\ e0 = e).
    { destruct w; try (destruct (N0 _ eq_refl)); unfold get in H;
        (destruct (type_get _ _) as [e0|] eqn:Q; [injection H as <-; eauto | discriminate H]). }
    destruct X as (e0 & X & <-). clear H.
    assert (B : by_type (s_catalog registered_market) = [(TClass 0, entry_for (str "Bulk")); (TClass 1, entry_for (str "Item"))]) by (vm_compute; reflexivity).
    rewrite B in X. cbn [type_get] in X.
    destruct (typ_eqb (TClass 0) w) eqn:Q1; [apply typ_eqb_eq in Q1; injection X as <-; auto|].
    destruct (typ_eqb (TClass 1) w) eqn:Q2; [apply typ_eqb_eq in Q2; injection X as <-; auto | discriminate X]. }
  assert (B : by_name (s_catalog registered_market) = [(str "Bulk", entry_for (str "Bulk")); (str "Item", entry_for (str "Item"))]) by (vm_compute; reflexivity).
  assert (D : forall s e, dict_get (by_name (s_catalog registered_market)) s = Some e -> e = entry_for s).
  { intros s e H. rewrite B in H. cbn [dict_get] in H. repeat match type of H with (if pystr_eqb ?a ?b then _ else _) = _ =>
      let Q := fresh in destruct (pystr_eqb a b) eqn:Q; [apply pystr_eqb_eq in Q; subst s; injection H as <-; reflexivity|] end. discriminate H. }
  assert (F : forall s w, stands_for registered_market s w -> (s = str "Bulk" /\ w = TClass 0) \/ (s = str "Item" /\ w = TClass 1)).
  { intros s w [e N0 H Q|H]; [|discriminate H]. destruct (R w e N0 H) as [(-> & ->)|(-> & ->)]; cbn [entry_for en_identifier] in Q; subst s; auto. }
  split.
  - intros s w w' X Y. apply F in X, Y. destruct X as [(X & ->)|(X & ->)]; destruct Y as [(Y & ->)|(Y & ->)]; try reflexivity; rewrite X in Y; discriminate Y.
  - intros m s a w w' L. rewrite NL in L. discriminate L.
  - intros s e H. rewrite (D s e H). reflexivity.
  - intros t e H. assert (X : (exists s, t = TRef s) \/ forall s, t <> TRef s) by (destruct t; try (right; discriminate); left; eauto).
    destruct X as [(s & ->)|N0]; [|destruct (R t e N0 H) as [(_ & ->)|(_ & ->)]; reflexivity].
    unfold get in H. destruct (dict_get (by_name (s_catalog registered_market)) s) as [e'|] eqn:Q; [|discriminate H]. injection H as <-. rewrite (D _ _ Q). reflexivity.
  - intros s w H c I. apply F in H. destruct H as [(-> & _)|(-> & _)]; cbn in I; repeat (destruct I as [<-|I]; [repeat split; discriminate|]); destruct I.
Qed.

Lemma market_coherent : coherent Market registered_market.
Proof. apply nameless_coherent. reflexivity. Qed.

Lemma sale_wf : json_wf sale_schema.
Proof. prove_wf. Qed.

(** Regularity of a document, by going through its parts. *)
Definition all_members (s : json) (f : pystr -> json -> bool) : bool := match s with JObj kws => forallb (fun q => f (fst q) (snd q)) kws | _ => true end.

Definition definitions_in (doc : json) : list (pystr * json) :=
  match doc with
  | JObj kws => flat_map (fun q => if pystr_eqb (fst q) (str "definitions") then match snd q with JObj ds => ds | _ => [] end else []) kws
  | _ => []
  end.

Definition refers_to (s : json) (p : pystr -> bool) : bool := all_members s (fun k v => match v with JStr r => implb (pystr_eqb k (str "$ref")) (p r) | _ => true end).

Definition seems_regular (n : nat) (doc : json) : bool :=
  let ds := definitions_in doc in
  forallb (fun s => refers_to s (fun r => negb (existsb (N.eqb 10) r)) &&
    (match s with JObj kws => existsb (fun q => pystr_eqb (fst q) (str "properties") && match snd q with JObj _ => true | _ => false end) kws | _ => false end ||
     all_members s (fun k v => negb (pystr_eqb k (str "type") && match v with JStr ty => pystr_eqb ty (str "object") | _ => false end))))
    (within n doc ++ flat_map (fun q => within n (snd q)) ds) &&
  forallb (fun q => forallb (fun s => refers_to s (fun r => negb (pystr_eqb r (path (fst q))))) (within n (snd q))) ds.

Lemma definition_in : forall doc x d, definition doc x d -> In (x, d) (definitions_in doc) /\ jdepth d < jdepth doc.
Proof.
  intros doc x d (ds & (kws & -> & I) & J). split.
  - cbn [definitions_in]. apply in_flat_map. exists (str "definitions", JObj ds). split; [exact I|]. cbn [fst snd]. rewrite pystr_eqb_refl. exact J.
  - pose proof (depth_obj Zoo _ _ _ I). pose proof (depth_obj Zoo _ _ _ J). lia.
Qed.

Lemma refers_to_ok : forall s p r, refers_to s p = true -> has s "$ref" (JStr r) -> p r = true.
Proof.
  intros s p r H (kws & -> & I). unfold refers_to, all_members in H. rewrite forallb_forall in H. specialize (H _ I). cbn [fst snd] in H.
  rewrite pystr_eqb_refl in H. exact H.
Qed.

Lemma seems_regular_ok : forall n doc, jdepth doc < n -> seems_regular n doc = true -> regular doc.
Proof.
  intros n doc L H. apply andb_true_iff in H. destruct H as [H K]. rewrite forallb_forall in H, K.
  assert (PT : forall s, part doc s -> In s (within n doc ++ flat_map (fun q => within n (snd q)) (definitions_in doc))).
  { intros s [P|(x & d & D & P)]; apply in_or_app; [left; apply inside_within; assumption | right].
    apply definition_in in D. destruct D as [D Ld]. apply in_flat_map. exists (x, d). split; [exact D|]. apply inside_within; [exact P | cbn [snd]; lia]. }
  constructor.
  - intros s P T. specialize (H s (PT s P)). apply andb_true_iff in H. destruct H as [_ H]. apply orb_true_iff in H. destruct H as [H|H].
    + destruct s; try discriminate H. apply existsb_exists in H. destruct H as ([k v] & I & H). apply andb_true_iff in H. destruct H as [Q H].
      apply pystr_eqb_eq in Q. cbn [fst snd] in *. subst k. destruct v; try discriminate H. eexists. eexists. split; [reflexivity | exact I].
    + destruct T as (kws & -> & I). unfold all_members in H. rewrite forallb_forall in H. specialize (H _ I). cbn [fst snd] in H. vm_compute in H. discriminate H.
  - intros s r P T I. specialize (H s (PT s P)). apply andb_true_iff in H. destruct H as [H _]. pose proof (refers_to_ok _ _ _ H T) as X. cbn beta in X.
    apply negb_true_iff in X. assert (Y : existsb (N.eqb 10) r = true) by (apply existsb_exists; exists 10%N; split; [exact I | reflexivity]). congruence.
  - intros x d s D I T. apply definition_in in D. destruct D as [D Ld]. specialize (K _ D). cbn [fst snd] in K. rewrite forallb_forall in K.
    assert (X := refers_to_ok _ _ _ (K s (inside_within _ _ I n ltac:(lia))) T). cbn beta in X. rewrite pystr_eqb_refl in X. discriminate X.
Qed.

Lemma sale_regular : regular sale_schema.
Proof. apply (seems_regular_ok 20); vm_compute; [lia | reflexivity]. Qed.

(** The schema of sales, and the types made from it. *)
Example C57_witness : exists E' t', classdef_to_schema Market registered_market 20 20 (TClass 4) = Ok sale_schema /\
  schema_to_type ascii Zoo 7 (str "Sale") sale_schema = Ok (E', t') /\
  env_ok Market /\ canonical_env Market /\ coherent Market registered_market /\
  (forall c cl ps, get_class Market c = Some cl -> class_properties Market cl = Ok ps -> distinct_names ps) /\
  guarded_env Zoo /\ calm Zoo /\ plain_module Zoo 7 /\ json_wf sale_schema /\ regular sale_schema /\
  copy Market registered_market ascii E' 7 true (str "Sale") (TClass 4) t' /\
  exists u, lookup E' 7 (str "Item") = Some (true, u) /\ copy Market registered_market ascii E' 7 false (str "Item") (TClass 1) u.
Proof.
  made ascii Zoo 7 "Sale"%string sale_schema.
  match goal with |- ?A /\ ?B /\ _ => assert (HA : A) by (vm_compute; reflexivity); assert (HB : B) by (vm_compute; reflexivity) end.
  destruct (C57_copies _ _ _ _ _ _ _ _ _ _ _ _ market_ok market_canonical market_coherent eq_refl market_distinct HA HB zoo_guarded zoo_calm zoo_plain sale_wf sale_regular) as (C & D).
  split; [exact HA|]. split; [exact HB|]. split; [exact market_ok|]. split; [exact market_canonical|]. split; [exact market_coherent|]. split; [exact market_distinct|].
  split; [exact zoo_guarded|]. split; [exact zoo_calm|]. split; [exact zoo_plain|]. split; [exact sale_wf|]. split; [exact sale_regular|]. split; [exact C|].
  assert (X : exists d, definition sale_schema (str "Item") d).
  { eexists. eexists. split; [eexists; split; [vm_compute; reflexivity | right; left; reflexivity] | right; left; reflexivity]. }
  destruct X as (d & X). destruct (D _ _ X) as (w & u & St & LK & CW). exists u. split; [exact LK|].
  assert (Q : w = TClass 1).
  { refine (co_unique _ _ market_coherent _ _ _ St _). eapply sf_registered; [discriminate | vm_compute; reflexivity | reflexivity]. }
  subst w. exact CW.
Qed.

(** The copy of the class of sales. *)
Example C57_witness_class : exists E' c, schema_to_type ascii Zoo 7 (str "Sale") sale_schema = Ok (E', TClass c) /\ exists item stock,
  lookup E' 7 (str "Item") = Some (true, item) /\ lookup E' 7 (str "Sale__stock") = Some (true, stock) /\
  get_class E' c = Some (mkClass 7 (str "Sale") (CData false
    [mkField (str "kind") (TLiteral [LStr (str "sale")]) None;
     mkField (str "number") (TScalar KUUID) None;
     mkField (str "items") (TList item) None;
     mkField (str "gift") (TUnion false [tnone; item; tstr]) None;
     mkField (str "priority") (int_typ Int16) None;
     mkField (str "stock") stock None;
     mkField (str "count") (int_typ Int16) (Some (Ok (VInt 1)))]) None None).
Proof.
  match goal with |- context [schema_to_type ?U ?E ?m ?x ?d] => let r := eval vm_compute in (schema_to_type U E m x d) in match r with Ok (?E', TClass ?c) => exists E', c end end.
  split; [vm_compute; reflexivity|]. exists (TClass 10), (TClass 11). split; [vm_compute; reflexivity|]. split; vm_compute; reflexivity.
Qed.

(** *** Not all types have copies *)

(** @dataclass class Box: held: t *)
Definition box (t : typ) : env := mkEnv [Bulk; Item; Tint; Priority; mkClass 0 (str "Box") (CData false [mkField (str "held") t None]) None None] [] (fun ps => ps).

(** The type of the field in the class made from the schema of the class. *)
Definition mirrored (S : senv) (t : typ) : res typ :=
  do doc <- classdef_to_schema (box t) S 20 20 (TClass 4);
  do x <- schema_to_type ascii Zoo 7 (str "Box") doc;
  match snd x with
  | TClass c => match get_class (fst x) c with Some {| c_kind := CData _ [f] |} => Ok (f_type f) | _ => Err EUnmodelled end
  | _ => Err EUnmodelled
  end.

(** There is a schema, but no types can be made from it. *)
Definition unmade (S : senv) (t : typ) : Prop :=
  exists doc e, classdef_to_schema (box t) S 20 20 (TClass 4) = Ok doc /\ schema_to_type ascii Zoo 7 (str "Box") doc = Err e /\ e <> EUnmodelled.

Ltac prove_unmade := unfold unmade; match goal with |- exists _ _, classdef_to_schema ?E ?S _ _ _ = _ /\ _ =>
  let d := eval vm_compute in (classdef_to_schema E S 20 20 (TClass 4)) in match d with Ok ?d =>
  let r := eval vm_compute in (schema_to_type ascii Zoo 7 (str "Box") d) in match r with Err ?e => exists d, e end end end;
  split; [vm_compute; reflexivity|]; split; [vm_compute; reflexivity | discriminate].

(** Sets, tuples, dictionaries with text for keys, and binary data. *)
Theorem C57_made_refuted : exists ts, (forall t, In t ts -> unmade registered_market t) /\
  ts = [TSet tint; TTuple [tint; tstr]; TDict tstr tint; TScalar KBytes].
Proof.
  eexists. split; [|reflexivity]. intros t [<-|[<-|[<-|[<-|[]]]]]. all: prove_unmade.
Qed.
Print Assumptions C57_made_refuted.

(** The same registrations, but the class of bulks is registered by another name. *)
Definition renamed (x : pystr) : senv := {|
  s_catalog := register_all [(TClass 0, entry_for x); (TClass 1, entry_for (str "Item"))];
  s_eval := s_eval registered_market; s_forward := s_forward registered_market; s_short := s_short registered_market; s_long := s_long registered_market;
  s_props := s_props registered_market; s_attrs := s_attrs registered_market; s_tenth := s_tenth registered_market; s_path := s_path registered_market;
  s_describe := true; s_exemplify := true
|}.

(** Definitions are sorted by name; if a registered class refers to one whose name
    comes later, no types are made. *)
Theorem C57_order_refuted : exists t x y, (exists u, mirrored (renamed x) t = Ok u) /\ unmade (renamed y) t.
Proof.
  exists (TClass 1), (str "Bulk"), (str "Volume"). split; [eexists; vm_compute; reflexivity|]. prove_unmade.
Qed.
Print Assumptions C57_order_refuted.

(** *** Copies are not the types they were made from *)

(** Some ranges of integers are forgotten; addresses become any JSON document. *)
Theorem C57_same_refuted : exists t u, mirrored registered_market t = Ok u /\ t = TAnnot tint [ASigned true; AStorage 1; AIntegerRange (-128) 127] /\ u = tint.
Proof. eexists. eexists. split; [|split; reflexivity]. vm_compute. reflexivity. Qed.
Print Assumptions C57_same_refuted.

Theorem C57_address_refuted : exists t u, mirrored registered_market t = Ok u /\ t = TScalar KIPv4 /\ In (TScalar KBool) (match u with TUnion _ us => us | _ => [] end).
Proof.
  exists (TScalar KIPv4). match goal with |- context [mirrored ?S ?t] => let r := eval vm_compute in (mirrored S t) in match r with Ok ?u => exists u end end.
  split; [vm_compute; reflexivity|]. split; [reflexivity|]. right. left. reflexivity.
Qed.
Print Assumptions C57_address_refuted.

(** A document that the copy reads, and the type itself does not. *)
Definition odd_box : json := JObj [(str "held", JInt 7)].

Theorem C57_reads_refuted : exists t doc E' t' j v e, classdef_to_schema (box t) registered_market 20 20 (TClass 4) = Ok doc /\
  schema_to_type ascii Zoo 7 (str "Box") doc = Ok (E', t') /\ json_to_object E' false 7 t' j = Ok v /\ json_to_object (box t) false 0 (TClass 4) j = Err e.
Proof.
  exists (TClass 3).
  match goal with |- exists doc _ _ _ _ _, classdef_to_schema ?E ?S _ _ _ = _ /\ _ =>
    let d := eval vm_compute in (classdef_to_schema E S 20 20 (TClass 4)) in match d with Ok ?d => exists d;
    let r := eval vm_compute in (schema_to_type ascii Zoo 7 (str "Box") d) in match r with Ok (?E', ?t) => exists E', t, odd_box;
    let v := eval vm_compute in (json_to_object E' false 7 t odd_box) in match v with Ok ?v => exists v end end end end.
  exists EValue. split; [vm_compute; reflexivity|]. split; [vm_compute; reflexivity|]. split; vm_compute; reflexivity.
Qed.
Print Assumptions C57_reads_refuted.
