(** Types are made from every schema of the forms of SpecMake.v. *)
From Coq Require Import String List NArith ZArith Bool Lia.
From Verif Require Import Base Json PyTypes Mapping Deser ClassDef Samples Lists SpecTypes SpecFields SpecRecursion SpecTagged SpecDeser SpecGenerate SpecClassDef ClassDefProofs
  SpecSchema SchemaProofs SpecReadable SchemaRead DeserUnfold PropDeser PropSchema PropRoundTrip Flatten TypeDef SpecTypeDef TypeDefNodes TypeDefEnv TypeDefGrow TypeDefParts TypeDefProofs
  PropTypeDef SpecMake MakeProofs MakeAll MakeNames.
Import ListNotations.
Open Scope list_scope.
Open Scope nat_scope.

(** ** C70 *)

(** Nothing in the module has the name. *)
Definition free (E : env) (m : nat) (x : pystr) : Prop :=
  lookup E m x = None /\ forall cl, In cl (e_classes E) -> c_module cl = m -> c_name cl <> x.

Lemma free_untaken : forall E m names, (forall x, In x names -> free E m x) -> untaken m E names.
Proof.
  intros E m names F x I. destruct (F x I) as [L C]. unfold taken. rewrite L. cbn [orb]. destruct (existsb _ (e_classes E)) eqn:X; [|reflexivity].
  apply existsb_exists in X. destruct X as (cl & J & X). apply andb_true_iff in X. destruct X as [X1 X2]. apply Nat.eqb_eq in X1. apply pystr_eqb_eq in X2.
  destruct (C cl J X1 X2).
Qed.

(** A type is made from the schema.  The new classes have the names that SpecMake.v
    gives, in that order, and no others are made; nothing else of the program
    changes; the definitions and the type itself can be found by their names. *)
Theorem C70_made : forall U E m name doc ds ps n1 n2, json_wf doc -> makes_schema U name doc ds ps n1 n2 ->
  NoDup (n1 ++ n2 ++ [name]) -> (forall x, In x (n1 ++ n2 ++ [name]) -> free E m x) ->
  exists E' c, schema_to_type U E m name doc = Ok (E', TClass c) /\
  (exists cls, e_classes E' = e_classes E ++ cls /\ map c_name cls = n1 ++ n2 ++ [name] /\ forall cl, In cl cls -> c_module cl = m) /\
  (forall x b, lookup E m x = Some b -> lookup E' m x = Some b) /\
  lookup E' m name = Some (true, TClass c) /\ forall x, In x (map fst ds) -> exists k, lookup E' m x = Some (true, TClass k).
Proof.
  intros U E m name doc ds ps n1 n2 W MS N F. destruct (schema_made U m E name doc ds ps n1 n2 W MS N (free_untaken _ _ _ F)) as (E' & c & Q & [GC _ GK] & L & D).
  exists E', c. split; [exact Q|]. split; [exact GC|]. split; [exact GK|]. split; [exact L | exact D].
Qed.
Print Assumptions C70_made.

(** The names differ, if those of the properties and definitions are neat. *)
Theorem C70_names : forall U name doc ds ps n1 n2, json_wf doc -> makes_schema U name doc ds ps n1 n2 -> neatly doc ->
  (forall x, In x (name :: map fst ds) -> neat x) -> ~ In name (map fst ds) -> NoDup (n1 ++ n2 ++ [name]).
Proof.
  intros U name doc ds ps n1 n2 W MS NT NN NI. apply (schema_names U name doc ds ps n1 n2); try assumption; [apply NN; left; reflexivity | intros x I; apply NN; right; exact I].
Qed.
Print Assumptions C70_names.

(** A type that reads all documents that satisfy the schema. *)
Theorem C70_reader : forall U E m name doc ds ps n1 n2 asserts, json_wf doc -> makes_schema U name doc ds ps n1 n2 -> neatly doc ->
  (forall x, In x (name :: map fst ds) -> neat x) -> ~ In name (map fst ds) -> (forall x, In x (n1 ++ n2 ++ [name]) -> free E m x) ->
  guarded_env E -> calm E -> plain_module E m -> shuffles (e_order E) -> importable U doc -> strict_formats asserts ->
  exists E' t, schema_to_type U E m name doc = Ok (E', t) /\
  forall skip j, plain_json j = true -> json_wf j -> satisfies asserts doc j -> exists v, json_to_object E' skip m t j = Ok v.
Proof.
  intros U E m name doc ds ps n1 n2 asserts W MS NT NN NI F G C P SH IMP ST.
  destruct (C70_made U E m name doc ds ps n1 n2 W MS (C70_names U name doc ds ps n1 n2 W MS NT NN NI) F) as (E' & c & Q & _).
  exists E', (TClass c). split; [exact Q|]. intros skip j PJ WJ S. exact (C51_documents U E m name doc E' (TClass c) asserts skip j Q G C P SH W IMP ST PJ WJ S).
Qed.
Print Assumptions C70_reader.
(** *** Witness: a schema with classes inside of classes *)

Lemma only_of : forall kws ks, forallb (fun kv : pystr * json => existsb (fun x => pystr_eqb (fst kv) (str x)) ks) kws = true -> only (JObj kws) ks.
Proof.
  intros kws ks H. exists kws. split; [reflexivity|]. intros k j I. rewrite forallb_forall in H. specialize (H _ I). cbn [fst] in H. apply existsb_exists in H.
  destruct H as (x & J & H). exists x. split; [exact J | apply pystr_eqb_eq; exact H].
Qed.

Ltac texts_tac := let I := fresh in intros ? I; repeat (destruct I as [<-|I]; [eexists; reflexivity|]); destruct I.
Ltac may_tac := let j := fresh in let H := fresh in intros j H; apply (proj1 (has_object _ _ _)) in H; vm_compute in H;
  repeat (destruct H as [H|H]; [first [discriminate H | injection H as <-; first [eexists; reflexivity | eexists; split; [reflexivity | first [discriminate | texts_tac]]]]|]); destruct H.
Lemma untimed : forall s, lacks s "default" -> timely s.
Proof. intros s L f k d _ _ H. destruct (L _ H). Qed.

Ltac side := unfold headed, labelled, valued; repeat match goal with |- _ /\ _ => split end;
  match goal with
  | |- only _ _ => apply only_of; vm_compute; reflexivity
  | |- may _ _ _ => may_tac
  | |- has _ _ _ => given
  | |- lacks _ _ => no_has
  | |- _ => idtac
  end.

Definition level : json := of "string" [("enum", JArr [jstr "low"; jstr "high"])]%string.
Definition person : json := object [("name", of "string" []); ("level", level)]%string ["name"]%string.
Definition place : json := object [("lat", of "number" [("format", jstr "float64")])]%string ["lat"]%string.
Definition address : json := object [("street", of "string" [("maxLength", JInt 40)]); ("place", place)]%string ["street"]%string.
Definition office : json := top
  [("address", address); ("notes", of "array" [("items", one_of [of "string" []; level])]); ("head", ref "Person");
   ("floor", of "integer" [("default", JInt 1)])]%string ["address"; "notes"; "head"]%string [("Person", person)]%string.

(** The classes. *)
Definition office_defined : list pystr := [str "Person__level"; str "Person"].
Definition office_inside : list pystr := [str "Office__address__place"; str "Office__address"; str "Office__notes"].

Ltac private_tac := let PV := fresh in intros PV; apply is_private_spec in PV; vm_compute in PV; discriminate PV.
Ltac fname := split; [vm_compute; reflexivity | split; [vm_compute; reflexivity | intros ? ?; discriminate]].

Lemma level_makes : forall D c, (c = str "Person__level" \/ c = str "Office__notes") -> makes_class ascii D c level [c].
Proof.
  intros D c C. apply mc_enum with (values := [str "low"; str "high"]); side.
  destruct C as [-> | ->]; (split; [nodup|]; intros v [<- | [<- | []]]; (split; [discriminate|]; split; [discriminate | private_tac])).
Qed.

Lemma office_makes : makes_schema ascii (str "Office") office (defs [("Person", person)]%string)
  (defs [("address", address); ("notes", of "array" [("items", one_of [of "string" []; level])]); ("head", ref "Person"); ("floor", of "integer" [("default", JInt 1)])]%string)
  office_defined office_inside.
Proof.
  split; side.
  - eexists. given.
  - left. given.
  - unfold office_defined. change [str "Person__level"; str "Person"] with (([str "Person__level"] ++ [str "Person"]) ++ []). apply md_cons; [|side | apply md_nil].
    eapply mc_object; side.
    apply mp_cons with (n1 := []); [fname | apply mk_text; side; apply untimed; side |].
    apply mp_cons with (n1 := [str "Person__level"]) (n2 := []); [fname | apply mk_class; apply level_makes; left; reflexivity | apply mp_nil].
  - apply mp_cons with (n1 := [str "Office__address__place"; str "Office__address"]) (n2 := [str "Office__notes"]); [fname | |].
    { apply mk_class. change [str "Office__address__place"; str "Office__address"] with ([str "Office__address__place"] ++ [str "Office__address"]). eapply mc_object; side.
      apply mp_cons with (n1 := []); [fname | apply mk_text; side; apply untimed; side |].
      apply mp_cons with (n1 := [str "Office__address__place"]) (n2 := []); [fname | | apply mp_nil].
      apply mk_class. change [str "Office__address__place"] with ([] ++ [str "Office__address__place"]). eapply mc_object; side.
      apply mp_cons with (n1 := []); [fname | apply mk_number; side | apply mp_nil]. }
    apply mp_cons with (n1 := [str "Office__notes"]) (n2 := []); [fname | |].
    { eapply mk_array; side. eapply mk_one_of; side; [discriminate|].
      apply mm_cons with (n1 := []); [apply mk_text; side; apply untimed; side | side|].
      apply mm_cons with (n1 := [str "Office__notes"]) (n2 := []); [apply mk_class; apply level_makes; right; reflexivity | side | apply mm_nil]. }
    apply mp_cons with (n1 := []); [fname | |].
    { apply mk_ref with (x := str "Person"); side; [discriminate | | left; reflexivity]. apply forallb_forall. vm_compute. reflexivity. }
    apply mp_cons with (n1 := []); [fname | | apply mp_nil]. apply mk_integer; side.
Qed.

Fixpoint neatb (x : pystr) : bool :=
  match x with
  | [] => true
  | c :: r => match r with [] => negb (N.eqb c 95) | d :: _ => negb (N.eqb c 95 && N.eqb d 95) && neatb r end
  end.

Lemma neat_of : forall x, neatb x = true -> neat x.
Proof.
  intros x H. split.
  - intros a. revert x H. induction a as [|c a IH]; intros x H b ->; [discriminate H|]. cbn [app neatb] in H.
    destruct (a ++ str "__" ++ b) as [|d r] eqn:Q; [destruct a; discriminate Q|]. apply andb_true_iff in H. apply (IH _ (proj2 H) b). symmetry. exact Q.
  - intros r. revert x H. induction r as [|c r IH]; intros x H ->; [discriminate H|]. cbn [app neatb] in H.
    destruct (r ++ str "_") as [|d q] eqn:Q; [destruct r; discriminate Q|]. apply andb_true_iff in H. exact (IH _ (proj2 H) eq_refl).
Qed.

Ltac no_key H := apply (proj1 (has_object _ _ _)) in H; vm_compute in H; repeat (destruct H as [H|H]; [discriminate H|]); destruct H.

Lemma plain_text : ~ inline (of "string" []).
Proof.
  intros H. remember (of "string" []) as j eqn:Q. destruct H as [s ps HP|s vs TY HE|s i HI IL|s ss i HO IS IL]; subst s; [no_key HP | no_key HE | no_key HI | no_key HO].
Qed.

Lemma office_neatly : neatly office.
Proof.
  split.
  - intros s ps x q P H I. part_cases P 9; get_has H; injection H as <-; cbn [In] in I; repeat (destruct I as [I|I]; [injection I as <- <-; apply neat_of; vm_compute; reflexivity|]); destruct I.
  - intros s a b c p q P H Ip Iq. part_cases P 9; get_has H. injection H as H. destruct a as [|x a]; [injection H as <- _; exact (plain_text Ip)|].
    injection H as _ H. destruct a as [|y a]; [injection H as _ H; destruct b; discriminate H|]. destruct a; discriminate H.
Qed.

Lemma office_free : forall x, In x (office_defined ++ office_inside ++ [str "Office"]) -> free Zoo 7 x.
Proof.
  intros x I. split; [reflexivity|]. intros cl J M. exfalso. vm_compute in J. repeat (destruct J as [<- | J]; [discriminate M|]). destruct J.
Qed.

Lemma office_apart : (forall x, In x (str "Office" :: map fst (defs [("Person", person)]%string)) -> neat x) /\ ~ In (str "Office") (map fst (defs [("Person", person)]%string)).
Proof. split; [intros x [<- | [<- | []]]; apply neat_of; vm_compute; reflexivity | intros [Q | []]; discriminate Q]. Qed.

Example C70_witness : json_wf office /\ neatly office /\ (exists ds ps, makes_schema ascii (str "Office") office ds ps office_defined office_inside /\
    (forall x, In x (str "Office" :: map fst ds) -> neat x) /\ ~ In (str "Office") (map fst ds)) /\
  (forall x, In x (office_defined ++ office_inside ++ [str "Office"]) -> free Zoo 7 x) /\
  match schema_to_type ascii Zoo 7 (str "Office") office with
  | Ok (E', TClass c) => map c_name (skipn (length (e_classes Zoo)) (e_classes E')) = office_defined ++ office_inside ++ [str "Office"]
  | _ => False
  end.
Proof.
  split; [prove_wf|]. split; [exact office_neatly|]. split; [eexists; eexists; split; [exact office_makes | exact office_apart]|]. split; [exact office_free|].
  vm_compute. reflexivity.
Qed.

(** The schema of C51: documents are read. *)
Definition shop_properties : list (pystr * json) := defs
  [("pets", of "array" [("items", one_of [ref "Dog"; ref "Cat"])]);
   ("label", one_of [of "boolean" []; of "string" []]);
   ("open", of "string" [("format", jstr "date")]);
   ("count", of "integer" [("default", JInt 3)])]%string.
Definition shop_definitions : list (pystr * json) := defs [("Color", color); ("Dog", dog); ("Cat", cat)]%string.
Definition shop_names : list pystr := [str "Color"; str "Dog"; str "Cat"].

Ltac ref_tac r := apply mk_ref with (x := str r); side; [discriminate | apply forallb_forall; vm_compute; reflexivity | cbn [In]; repeat (first [left; reflexivity | right])].
Ltac no_name t := apply mp_cons with (n1 := []); [fname | t |].

Lemma shop_makes : makes_schema ascii (str "Shop") shop shop_definitions shop_properties shop_names [].
Proof.
  split; side.
  - eexists. given.
  - left. given.
  - apply md_cons with (n1 := [str "Color"]) (n2 := [str "Dog"; str "Cat"]); [|side|].
    { apply mc_enum with (values := [str "dark red"; str "blue"]); side. split; [nodup|]. intros v [<- | [<- | []]]; (split; [discriminate|]; split; [discriminate | private_tac]). }
    apply md_cons with (n1 := [] ++ [str "Dog"]) (n2 := [str "Cat"]); [|side|].
    { eapply mc_object; side. no_name ltac:(apply mk_text; side; apply untimed; side). no_name ltac:(apply mk_integer; side). apply mp_nil. }
    apply md_cons with (n1 := [] ++ [str "Cat"]) (n2 := []); [|side | apply md_nil].
    eapply mc_object; side. no_name ltac:(apply mk_text; side; apply untimed; side). no_name ltac:(ref_tac "Color"%string). apply mp_nil.
  - apply mp_cons with (n1 := []); [fname | |].
    { eapply mk_array; side. eapply mk_one_of; side; [discriminate|]. apply mm_cons with (n1 := []); [ref_tac "Dog"%string | side|]. apply mm_cons with (n1 := []); [ref_tac "Cat"%string | side | apply mm_nil]. }
    apply mp_cons with (n1 := []); [fname | |].
    { eapply mk_one_of; side; [discriminate|]. apply mm_cons with (n1 := []); [apply mk_boolean; side | side|]. apply mm_cons with (n1 := []); [apply mk_text; side; apply untimed; side | side | apply mm_nil]. }
    no_name ltac:(apply mk_text; side; apply untimed; side). no_name ltac:(apply mk_integer; side). apply mp_nil.
Qed.

Lemma no_inline_ref : forall x, ~ inline (ref x).
Proof.
  intros x H. remember (ref x) as j eqn:Q. destruct H as [s ps HP|s vs TY HE|s i HI IL|s ss i HO IS IL]; subst s;
    [rename HP into K | rename HE into K | rename HI into K | rename HO into K]; apply (proj1 (has_object _ _ _)) in K; destruct K as [K | []]; discriminate K.
Qed.

Lemma shop_neatly : neatly shop.
Proof.
  split.
  - intros s ps x q P H I. part_cases P 9; get_has H; injection H as <-; cbn [In] in I; repeat (destruct I as [I|I]; [injection I as <- <-; apply neat_of; vm_compute; reflexivity|]); destruct I.
  - intros s a b c p q P H Ip Iq. part_cases P 9; get_has H; injection H as H.
    + destruct a as [|x a]; [injection H as <- _; exact (no_inline_ref "Dog" Ip)|]. injection H as _ H. destruct a as [|y a]; [injection H as _ H; destruct b; discriminate H|]. destruct a; discriminate H.
    + destruct a as [|x a]; [|injection H as _ H; destruct a as [|y a]; [injection H as _ H; destruct b; discriminate H | destruct a; discriminate H]].
      injection H as _ H. destruct b as [|y b]; [|injection H as _ H; destruct b; discriminate H]. injection H as <- _. exact (plain_text Iq).
Qed.

Example C70_reader_witness : exists E' t, schema_to_type ascii Zoo 7 (str "Shop") shop = Ok (E', t) /\
  (forall skip j, plain_json j = true -> json_wf j -> satisfies checked shop j -> exists v, json_to_object E' skip 7 t j = Ok v) /\
  plain_json order = true /\ json_wf order /\ satisfies checked shop order.
Proof.
  destruct (C70_reader ascii Zoo 7 (str "Shop") shop shop_definitions shop_properties shop_names [] checked) as (E' & t & Q & R);
    [exact shop_wf | exact shop_makes | exact shop_neatly | | | | exact zoo_guarded | exact zoo_calm | exact zoo_plain | exact zoo_shuffles | exact shop_importable | exact checked_strict |].
  - intros x I. apply neat_of. cbn [In shop_definitions defs map fst] in I. repeat (destruct I as [<- | I]; [vm_compute; reflexivity|]). destruct I.
  - intros I. cbn [In shop_definitions defs map fst] in I. repeat (destruct I as [I | I]; [discriminate I|]). destruct I.
  - intros x I. split; [reflexivity|]. intros cl J M. exfalso. vm_compute in J. repeat (destruct J as [<- | J]; [discriminate M|]). destruct J.
  - exists E', t. split; [exact Q|]. split; [exact R|]. clear. split; [vm_compute; reflexivity|]. split; [prove_wf | exists 20; vm_compute; reflexivity].
Qed.

(** *** Names that clash *)

(** Without neat names, two classes can have the same name: the property [b__c] of
    [a], and the property [c] of [a__b]. *)
Definition short : json := of "string" [("enum", JArr [jstr "x"])]%string.
Definition clash : json := top [("a", object [("b__c", short)] []); ("a__b", object [("c", short)] [])]%string [] [].
Definition clash_names : list pystr := map str ["T__a__b__c"; "T__a"; "T__a__b__c"; "T__a__b"]%string.

Theorem C70_clash_refuted : exists U name doc ds ps n1 n2, json_wf doc /\ makes_schema U name doc ds ps n1 n2 /\
  (forall s a b c p q, part doc s -> has s "oneOf" (JArr (a ++ p :: b ++ q :: c)) -> False) /\ ~ NoDup (n1 ++ n2 ++ [name]).
Proof.
  exists ascii, (str "T"), clash, [], (defs [("a", object [("b__c", short)] []); ("a__b", object [("c", short)] [])]%string), [], clash_names.
  split; [prove_wf|]. split; [|split].
  - split; side.
    + eexists. given.
    + left. given.
    + apply md_nil.
    + assert (X : forall D, makes_class ascii D (str "T__a__b__c") short [str "T__a__b__c"]).
      { intros D. apply mc_enum with (values := [str "x"]); side. split; [nodup|]. intros v [<- | []]; (split; [discriminate|]; split; [discriminate | private_tac]). }
      apply mp_cons with (n1 := [str "T__a__b__c"] ++ [str "T__a"]) (n2 := [str "T__a__b__c"] ++ [str "T__a__b"]); [fname | |].
      { apply mk_class. eapply mc_object; side. apply mp_cons with (n1 := [str "T__a__b__c"]) (n2 := []); [fname | apply mk_class; apply X | apply mp_nil]. }
      apply mp_cons with (n1 := [str "T__a__b__c"] ++ [str "T__a__b"]) (n2 := []); [fname | | apply mp_nil].
      apply mk_class. eapply mc_object; side. apply mp_cons with (n1 := [str "T__a__b__c"]) (n2 := []); [fname | apply mk_class; apply X | apply mp_nil].
  - intros s a b c p q P H. part_cases P 9; get_has H.
  - intros N. cbn [app] in N. unfold clash_names in N. cbn [map app] in N. inversion N as [|? ? N1 _]; subst. apply N1. right. left. reflexivity.
Qed.
Print Assumptions C70_clash_refuted.

(** So do the members of an alternative. *)
Definition choice : json := one_of [object [("u", of "integer" [])] ["u"]; object [("v", of "integer" [])] ["v"]]%string.
Definition union_names : list pystr := map str ["T__a"; "T__a"]%string.

Theorem C70_members_refuted : exists U name doc ds ps n1 n2, json_wf doc /\ makes_schema U name doc ds ps n1 n2 /\
  (forall s ps x q, part doc s -> has s "properties" (JObj ps) -> In (x, q) ps -> neat x) /\ ~ NoDup (n1 ++ n2 ++ [name]).
Proof.
  exists ascii, (str "T"), (top [("a", choice)]%string [] []), [], (defs [("a", choice)]%string), [], union_names.
  split; [prove_wf|]. split; [|split].
  - split; side.
    + eexists. given.
    + left. given.
    + apply md_nil.
    + apply mp_cons with (n1 := [str "T__a"; str "T__a"]) (n2 := []); [fname | | apply mp_nil]. eapply mk_one_of; side; [discriminate|].
      apply mm_cons with (n1 := [] ++ [str "T__a"]) (n2 := [str "T__a"]); [|side|].
      { apply mk_class. eapply mc_object; side. no_name ltac:(apply mk_integer; side). apply mp_nil. }
      apply mm_cons with (n1 := [] ++ [str "T__a"]) (n2 := []); [|side | apply mm_nil].
      apply mk_class. eapply mc_object; side. no_name ltac:(apply mk_integer; side). apply mp_nil.
  - intros s ps x q P H I. part_cases P 9; get_has H; injection H as <-; cbn [In] in I; repeat (destruct I as [I|I]; [injection I as <- <-; apply neat_of; vm_compute; reflexivity|]); destruct I.
  - intros N. cbn [app map union_names] in N. inversion N as [|? ? N1 _]; subst. apply N1. left. reflexivity.
Qed.
Print Assumptions C70_members_refuted.
