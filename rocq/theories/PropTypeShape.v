(** C55: the types made from a schema mirror it. *)
From Coq Require Import String List NArith ZArith Bool Lia Permutation.
From Verif Require Import Base Json PyTypes TypeAlgebra Mapping Deser ClassDef Samples Lists SpecTypes SpecRecursion SpecClassDef DeserUnfold PropDeser PropRoundTrip
  Flatten TypeDef SpecTypeDef TypeDefEnv SpecTypeShape TypeDefShape PropTypeDef.
Import ListNotations.
Open Scope list_scope.
Open Scope nat_scope.

(** C55.  Every part of the schema becomes the type that [shaped] says, in the
    program with the new types; every definition becomes a name of the module,
    for a type of its shape. *)
Theorem C55_types : forall U E m name doc E' t, schema_to_type U E m name doc = Ok (E', t) ->
  guarded_env E -> calm E -> plain_module E m -> json_wf doc -> regular doc ->
  shaped U E' m name doc t /\ forall x d, definition doc x d -> exists u, lookup E' m x = Some (true, u) /\ shaped U E' m x d u.
Proof. intros U E m name doc E' t H G C P W R. exact (schema_shape U E m name doc E' t H (Build_sound _ _ G C P) W R). Qed.
Print Assumptions C55_types.

(** The schemas of C51 are regular. *)
Theorem C55_importable : forall U doc, importable U doc -> regular doc.
Proof. exact importable_regular. Qed.
Print Assumptions C55_importable.

(** *** A schema *)

Example C55_witness : exists E' t, schema_to_type ascii Zoo 7 (str "Shop") shop = Ok (E', t) /\
  guarded_env Zoo /\ calm Zoo /\ plain_module Zoo 7 /\ json_wf shop /\ regular shop /\ shaped ascii E' 7 (str "Shop") shop t.
Proof.
  made ascii Zoo 7 "Shop"%string shop.
  match goal with |- ?A /\ _ => assert (H : A) by (vm_compute; reflexivity) end.
  pose proof (importable_regular _ _ shop_importable) as R.
  split; [exact H|]. split; [exact zoo_guarded|]. split; [exact zoo_calm|]. split; [exact zoo_plain|]. split; [exact shop_wf|]. split; [exact R|].
  exact (proj1 (C55_types _ _ _ _ _ _ _ H zoo_guarded zoo_calm zoo_plain shop_wf R)).
Qed.

(** The class made for dogs: the age takes 32 bits. *)
Example C55_witness_dog : exists E' t c, schema_to_type ascii Zoo 7 (str "Shop") shop = Ok (E', t) /\
  lookup E' 7 (str "Dog") = Some (true, TClass c) /\
  get_class E' c = Some (mkClass 7 (str "Dog") (CData false
    [mkField (str "kind") (TLiteral [LStr (str "dog")]) None;
     mkField (str "age") (TAnnot (TScalar KInt) [ASigned true; AStorage 4; AIntegerRange (-2147483648) 2147483647]) None]) None None).
Proof.
  made ascii Zoo 7 "Shop"%string shop.
  match goal with |- exists c, _ /\ lookup ?E ?m ?x = _ /\ _ => let r := eval vm_compute in (lookup E m x) in match r with Some (_, TClass ?c) => exists c end end.
  split; [vm_compute; reflexivity|]. split; vm_compute; reflexivity.
Qed.

(** The smallest type for a range, and a default. *)
Definition settings : json := top
  [("port", of "integer" [("minimum", JInt 0); ("maximum", JInt 65535); ("default", JInt 80)]);
   ("level", of "integer" [("enum", JArr [JInt 3; JInt (-2); JInt 10])]);
   ("host", of "string" [("maxLength", JInt 255)])]%string ["port"; "level"]%string [].

Lemma settings_regular : regular settings.
Proof.
  assert (NR : forall s r, part settings s -> ~ has s "$ref" r) by (intros s r P H; part_cases P 9; get_has H).
  constructor.
  - intros s P T. part_cases P 9; try (exfalso; get_has T; fail); eexists; given.
  - intros s r P H. destruct (NR _ _ P H).
  - intros x d s D I H. apply (NR s (JStr (path x))); [right; exists x, d; auto | exact H].
Qed.

Example C55_witness_settings : exists E' t c, schema_to_type ascii Zoo 7 (str "Settings") settings = Ok (E', t) /\ json_wf settings /\
  t = TClass c /\ shaped ascii E' 7 (str "Settings") settings t /\
  get_class E' c = Some (mkClass 7 (str "Settings") (CData false
    [mkField (str "level") (int_typ Int16) None;
     mkField (str "host") (TUnion false [TScalar KNone; TAnnot (TScalar KStr) [AMaxLength 255]]) None;
     mkField (str "port") (int_typ Int32) (Some (Ok (VInt 80)))]) None None).
Proof.
  made ascii Zoo 7 "Settings"%string settings.
  match goal with |- exists c, _ /\ _ /\ TClass ?n = _ /\ _ => exists n end.
  match goal with |- ?A /\ _ => assert (H : A) by (vm_compute; reflexivity) end.
  assert (W : json_wf settings) by prove_wf.
  split; [exact H|]. split; [exact W|]. split; [reflexivity|].
  split; [exact (proj1 (C55_types _ _ _ _ _ _ _ H zoo_guarded zoo_calm zoo_plain W settings_regular))|]. vm_compute. reflexivity.
Qed.

(** *** The provisos are needed *)

(** A type of another shape is made. *)
Definition misshapen (doc : json) (x : pystr) : Prop := json_wf doc /\ exists E' t d u, schema_to_type ascii Zoo 7 (str "Top") doc = Ok (E', t) /\
  definition doc x d /\ lookup E' 7 x = Some (true, u) /\ ~ shaped ascii E' 7 x d u.

(** A definition that refers to itself: inside of it, the name stands for the class
    that was made last. *)
Theorem C55_self_refuted : exists doc x, misshapen doc x.
Proof.
  exists (top [("a", ref "T")] ["a"] [("T", one_of [object [("x", of "integer" [])] ["x"]; of "array" [("items", ref "T")]])])%string, (str "T").
  split; [prove_wf|]. made ascii Zoo 7 "Top"%string (top [("a", ref "T")] ["a"] [("T", one_of [object [("x", of "integer" [])] ["x"]; of "array" [("items", ref "T")]])])%string.
  eexists _, _. split; [vm_compute; reflexivity|]. split; [eexists; split; [given | left; reflexivity]|]. split; [vm_compute; reflexivity|].
  intros S. inversion S as [? ? ? ? H|? H|? ? H|? ? H|? ? ? H|? H|? ? ? H|? ? H|? ? ? H|? ? ? ? H|? ? ? H|? H|? ? ? H|? ? ? ? H|? ss ts ? H F M]; subst;
    try (get_has H; fail).
  get_has H. injection H as <-. inversion F as [|? t1 ? ts1 S1 F1]; subst. inversion F1 as [|? t2 ? ts2 S2 F2]; subst. inversion F2; subst.
  inversion S2 as [? ? ? ? H|? H|? ? H|? ? H|? ? ? H|? H|? ? ? H|? ? H|? ? ? H|? ? ? ? H|? ? ? H|? H|? p t3 _ H S3|? ? ? ? H|? ? ? ? H]; subst; try (get_has H; fail).
  get_has H. injection H as <-.
  inversion S3 as [? x b ? H L|? H|? ? H|? ? H|? ? ? H|? H|? ? ? H|? ? H|? ? ? H|? ? ? ? H|? ? ? H|? H|? p ? H|? ? ? ? H|? ? ? ? H]; subst; try (get_has H; fail).
  get_has H. injection H as <-. vm_compute in L. injection L as _ <-.
  inversion S1 as [? ? ? ? H|? H|? ? H|? ? H|? ? ? H|? H|? ? ? H|? ? H|? ? ? H|? ? ? ? H|? ? ? H|? H|? ? ? H|? ? c ? H|? ? ? ? H]; subst; try (get_has H; fail).
  vm_compute in M. discriminate M.
Qed.
Print Assumptions C55_self_refuted.
