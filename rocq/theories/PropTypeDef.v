(** C51: the types made from a schema read the documents that satisfy it. *)
From Coq Require Import String List NArith ZArith Bool Lia Permutation.
From Verif Require Import Base Json PyTypes Mapping Deser ClassDef Samples Lists SpecTypes SpecFields SpecRecursion SpecTagged SpecDeser SpecGenerate SpecClassDef ClassDefProofs
  SpecSchema SchemaProofs SpecReadable SchemaRead DeserUnfold PropDeser PropSchema PropRoundTrip Flatten TypeDef SpecTypeDef TypeDefNodes TypeDefEnv TypeDefGrow TypeDefParts TypeDefProofs.
Import ListNotations.
Open Scope list_scope.
Open Scope nat_scope.

(** C51.  A program [E], whose module [m] does not name types in texts, makes the
    types of the schema [doc]; every document that satisfies the schema is then
    read.  [importable] lists what is asked of the schema. *)
Theorem C51_documents : forall U E m name doc E' t asserts skip j, schema_to_type U E m name doc = Ok (E', t) ->
  guarded_env E -> calm E -> plain_module E m -> shuffles (e_order E) -> json_wf doc -> importable U doc -> strict_formats asserts ->
  plain_json j = true -> json_wf j -> satisfies asserts doc j -> exists v, json_to_object E' skip m t j = Ok v.
Proof.
  intros U E m name doc E' t asserts skip j H G C P SH W IMP ST PJ WJ A.
  destruct (schema_type_good _ _ _ _ _ _ _ asserts skip H (Build_sound _ _ G C P) SH W IMP ST) as (_ & _ & _ & GD).
  apply (g_reads _ _ _ _ _ _ _ GD); assumption.
Qed.
Print Assumptions C51_documents.

(** The type is a new class of the module, with a field for each property of the
    schema.  The properties that may be missing have types that allow None, and
    the fields with a default come last. *)
Theorem C51_class : forall U E m name doc E' t ps, schema_to_type U E m name doc = Ok (E', t) ->
  guarded_env E -> calm E -> plain_module E m -> shuffles (e_order E) -> json_wf doc -> importable U doc -> has doc "properties" (JObj ps) ->
  exists c fs, t = TClass c /\ get_class E c = None /\ get_class E' c = Some (mkClass m name (CData false fs) None None) /\ lookup E' m name = Some (true, t) /\
  Permutation (map f_name fs) (map fst ps) /\
  (forall f, In f fs -> (demanded doc (f_name f) <-> ~ optional (f_type f))) /\
  exists fs1 fs2, fs = fs1 ++ fs2 /\ (forall f, In f fs1 -> f_default f = None) /\ (forall f, In f fs2 -> f_default f <> None).
Proof.
  intros U E m name doc E' t ps H G C P SH W IMP HP.
  apply (schema_class U E m name doc E' t (fun _ _ _ => false) ps H (Build_sound _ _ G C P) SH W IMP); [|exact HP].
  intros f k s _ Q. discriminate Q.
Qed.
Print Assumptions C51_class.

(** What was in the program stays: classes keep their numbers, and the names of the
    module their types. *)
Theorem C51_program : forall U E m name doc E' t, schema_to_type U E m name doc = Ok (E', t) ->
  guarded_env E -> calm E -> plain_module E m -> shuffles (e_order E) -> json_wf doc -> importable U doc ->
  (forall c cl, get_class E c = Some cl -> get_class E' c = Some cl) /\
  (forall x b, lookup E m x = Some b -> lookup E' m x = Some b) /\
  guarded_env E' /\ calm E' /\ plain_module E' m.
Proof.
  intros U E m name doc E' t H G C P SH W IMP.
  destruct (schema_type_good _ _ _ _ _ _ _ (fun _ _ _ => false) false H (Build_sound _ _ G C P) SH W IMP ltac:(intros f k s _ Q; discriminate Q)) as (S & X & K & _).
  split; [intros c cl; apply ext_class; exact X|]. split; [exact K|]. destruct S. auto.
Qed.
Print Assumptions C51_program.

(** *** A schema *)

Definition jstr := fun s => JStr (str s).
Definition ascii : unicode := {|
  u_word := fun _ => false;
  u_identifier := fun x => match x with [] => false | c :: _ => forallb (word_char (fun _ => false)) x && negb ((48 <=? c)%N && (c <=? 57)%N) end
|}.

(** A validator that checks the formats of texts. *)
Definition checked (kw f : pystr) (j : json) : bool :=
  forallb (fun fk : string * scalar => if pystr_eqb f (str (fst fk)) then match parse_scalar (snd fk) j with Ok _ => true | Err _ => false end else true) text_formats.

Lemma checked_strict : strict_formats checked.
Proof.
  intros f k s I A. unfold checked in A. rewrite forallb_forall in A. specialize (A _ I). cbn [fst snd] in A. rewrite pystr_eqb_refl in A.
  destruct (parse_scalar k (JStr s)) as [v|e]; [eauto | discriminate A].
Qed.

Definition object (ps : list (string * json)) (req : list string) : json :=
  JObj [(str "type", jstr "object"); (str "properties", JObj (map (fun q => (str (fst q), snd q)) ps)); (str "additionalProperties", JBool false);
        (str "required", JArr (map jstr req))].
Definition top (ps : list (string * json)) (req : list string) (ds : list (string * json)) : json :=
  JObj [(str "$schema", jstr "https://json-schema.org/draft/2020-12/schema"); (str "definitions", JObj (map (fun q => (str (fst q), snd q)) ds));
        (str "type", jstr "object"); (str "properties", JObj (map (fun q => (str (fst q), snd q)) ps)); (str "additionalProperties", JBool false);
        (str "required", JArr (map jstr req))].
Definition ref (x : string) : json := JObj [(str "$ref", JStr (str "#/definitions/" ++ str x))].
Definition of (ty : string) (kws : list (string * json)) : json := JObj ((str "type", jstr ty) :: map (fun q => (str (fst q), snd q)) kws).
Definition one_of (ss : list json) : json := JObj [(str "oneOf", JArr ss)].

Definition dog : json := object [("kind", of "string" [("const", jstr "dog")]); ("age", of "integer" [("format", jstr "int32")])]%string ["kind"; "age"]%string.
Definition cat : json := object [("kind", of "string" [("const", jstr "cat")]); ("color", ref "Color")]%string ["kind"]%string.
Definition color : json := of "string" [("enum", JArr [jstr "dark red"; jstr "blue"])]%string.
Definition shop : json := top
  [("pets", of "array" [("items", one_of [ref "Dog"; ref "Cat"])]);
   ("label", one_of [of "boolean" []; of "string" []]);
   ("open", of "string" [("format", jstr "date")]);
   ("count", of "integer" [("default", JInt 3)])]%string ["pets"; "label"]%string
  [("Color", color); ("Dog", dog); ("Cat", cat)]%string.

(** The parts of a schema. *)
Fixpoint within (n : nat) (s : json) : list json :=
  match n with
  | 0 => []
  | S n => s :: match s with
                | JObj kws => flat_map (fun kv : pystr * json =>
                    match snd kv with
                    | JObj ps => (if pystr_eqb (fst kv) (str "properties") then flat_map (fun q => within n (snd q)) ps else []) ++
                                 (if pystr_eqb (fst kv) (str "items") then within n (snd kv) else [])
                    | JArr ss => (if pystr_eqb (fst kv) (str "oneOf") then flat_map (within n) ss else []) ++
                                 (if pystr_eqb (fst kv) (str "items") then within n (snd kv) else [])
                    | q => if pystr_eqb (fst kv) (str "items") then within n q else []
                    end) kws
                | _ => []
                end
  end.

Lemma inside_within : forall s p, inside s p -> forall n, jdepth s < n -> In p (within n s).
Proof.
  intros s p H. induction H as [s|s ps x q p (kws & -> & J) I _ IH|s q p (kws & -> & J) _ IH|s ss q p (kws & -> & J) I _ IH]; intros [|n] L; try lia; [left; reflexivity | right..].
  - apply in_flat_map. exists (str "properties", JObj ps). split; [exact J|]. cbn [fst snd]. rewrite pystr_eqb_refl. apply in_or_app. left.
    apply in_flat_map. exists (x, q). split; [exact I|]. apply IH. pose proof (depth_obj Zoo _ _ _ J). pose proof (depth_obj Zoo _ _ _ I). lia.
  - apply in_flat_map. exists (str "items", q). split; [exact J|]. cbn [fst snd]. rewrite pystr_eqb_refl.
    assert (W : In p (within n q)) by (apply IH; pose proof (depth_obj Zoo _ _ _ J); lia).
    destruct q; try exact W; apply in_or_app; right; exact W.
  - apply in_flat_map. exists (str "oneOf", JArr ss). split; [exact J|]. cbn [fst snd]. rewrite pystr_eqb_refl. apply in_or_app. left.
    apply in_flat_map. exists q. split; [exact I|]. apply IH. pose proof (depth_obj Zoo _ _ _ J). pose proof (depth_arr Zoo _ _ I). lia.
Qed.

Definition defs (ds : list (string * json)) : list (pystr * json) := map (fun q => (str (fst q), snd q)) ds.

Lemma top_definition : forall ps req ds x s, definition (top ps req ds) x s -> In (x, s) (defs ds).
Proof.
  intros ps req ds x s (ds' & (kws & Q & I) & J). injection Q as <-. cbn [In] in I.
  repeat destruct I as [I|I]; try discriminate I; [|destruct I]. injection I as <-. exact J.
Qed.

Definition all_parts (n : nat) (doc : json) (ds : list (string * json)) : list json := within n doc ++ flat_map (fun q => within n (snd q)) ds.

Lemma top_part : forall n ps req ds s, part (top ps req ds) s -> jdepth (top ps req ds) < n -> In s (all_parts n (top ps req ds) ds).
Proof.
  intros n ps req ds s P L. apply in_or_app. destruct P as [P|(x & d & D & P)]; [left | right]; [apply inside_within; assumption|].
  pose proof (top_definition _ _ _ _ _ D) as I. unfold defs in I. apply in_map_iff in I. destruct I as (q & Q & I). injection Q as <- <-.
  apply in_flat_map. exists q. split; [exact I|]. apply inside_within; [exact P|].
  destruct D as (ds' & (kws & Q & J) & J'). injection Q as <-. pose proof (depth_obj Zoo _ _ _ J). pose proof (depth_obj Zoo _ _ _ J'). unfold top in L. lia.
Qed.

Ltac in_cases H := cbn [In] in H; repeat (destruct H as [H|H]; [|]); try contradiction.
Ltac part_cases P n := apply (top_part n) in P; [|vm_compute; lia]; vm_compute in P; repeat (destruct P as [<-|P]); try contradiction.
Ltac has_cases H := let kws := fresh in let Q := fresh in let I := fresh in destruct H as (kws & Q & I); try discriminate Q; injection Q as <-; cbn [In] in I;
  repeat (destruct I as [I|I]; [try discriminate I; try (injection I as <-)|]); try contradiction.


Lemma has_object : forall kws k v, has (JObj kws) k v <-> In (str k, v) kws.
Proof. intros kws k v. split; [intros (kws' & Q & I); injection Q as <-; exact I | intros I; exists kws; auto]. Qed.

(** The values of keywords. *)
Ltac given := apply has_object; cbn [In]; repeat (first [left; reflexivity | right]).
Ltac no_has := let x := fresh in let H := fresh in intros x H; apply (proj1 (has_object _ _ _)) in H; vm_compute in H;
  repeat (destruct H as [H|H]; [discriminate H|]); destruct H.
Ltac get_has H := apply (proj1 (has_object _ _ _)) in H; vm_compute in H; repeat (destruct H as [H|H]; [try discriminate H|]); try contradiction.

Lemma leads_ref : forall x s, points_to shop (str "#/definitions/" ++ str x) = Some s -> (forall r, ~ has s "$ref" r) -> leads_to shop (ref x) s.
Proof. intros x s P N. eapply ld_ref; [given | exact P | apply ld_here; exact N]. Qed.

Lemma dog_marked : marked shop (ref "Dog") (str "kind") (str "dog").
Proof.
  exists dog, (defs [("kind", of "string" [("const", jstr "dog")]); ("age", of "integer" [("format", jstr "int32")])]%string), (of "string" [("const", jstr "dog")]%string).
  split; [apply leads_ref; [vm_compute; reflexivity | no_has]|]. split; [given|]. split; [given|]. split; [left; reflexivity|].
  split; [eexists; split; [given | left; reflexivity]|].
  split; [eexists; split; [apply ld_here; no_has | split; given]|].
  intros y q [Q|[Q|[]]] NE _; injection Q as <- <-; [destruct NE; reflexivity|].
  eapply vr_type; [apply ld_here; no_has | given | no_has].
Qed.

Lemma cat_marked : marked shop (ref "Cat") (str "kind") (str "cat").
Proof.
  exists cat, (defs [("kind", of "string" [("const", jstr "cat")]); ("color", ref "Color")]%string), (of "string" [("const", jstr "cat")]%string).
  split; [apply leads_ref; [vm_compute; reflexivity | no_has]|]. split; [given|]. split; [given|]. split; [left; reflexivity|].
  split; [eexists; split; [given | left; reflexivity]|].
  split; [eexists; split; [apply ld_here; no_has | split; given]|].
  intros y q [Q|[Q|[]]] NE _; injection Q as <- <-; [destruct NE; reflexivity|].
  eapply vr_type with (s' := color); [apply leads_ref; [vm_compute; reflexivity | no_has] | given | no_has].
Qed.

Lemma shop_importable : importable ascii shop.
Proof.
  constructor.
  - intros s P T. part_cases P 9; try (exfalso; get_has T; fail); eexists; given.
  - intros s ps x p k P H I K. part_cases P 9; get_has H; injection H as <-; cbn [In] in I;
      repeat (destruct I as [I|I]; [injection I as <- <-; clear - K; vm_compute in K; repeat (destruct K as [<-|K]; [discriminate|]); destruct K|]); destruct I.
  - intros s vs a b P T H Ia Ib Q. part_cases P 9; get_has H; injection H as <-; cbn [In] in Ia, Ib; in_cases Ia; injection Ia as <-; in_cases Ib; injection Ib as <-;
      try reflexivity; vm_compute in Q; discriminate Q.
  - intros s vs a cls P T H Ia. part_cases P 9; get_has H; injection H as <-; cbn [In] in Ia; in_cases Ia; injection Ia as <-; intros PV;
      apply is_private_spec in PV; unfold is_private in PV; apply andb_true_iff in PV; destruct PV as [PV _]; apply andb_true_iff in PV; destruct PV as [_ PV];
      cbn in PV; discriminate PV.
  - intros s ss P H. part_cases P 9; get_has H; injection H as <-; right; [right | left].
    + exists (str "kind"), [str "dog"; str "cat"]. split; [|nodup]. constructor; [exact dog_marked | constructor; [exact cat_marked | constructor]].
    + split; [|split].
      * intros s [<-|[<-|[]]]; eexists _, _; (split; [apply ld_here; no_has | given]).
      * intros [|a [|b ss1]] s s' ss2 Q; try discriminate Q; injection Q as; subst; [apply sd_boolean; given | destruct ss1; discriminate].
      * eexists. split; [left; reflexivity|]. left. eexists _, _. split; [apply ld_here; no_has|]. split; [given | discriminate].
  - intros s r P H. part_cases P 9; get_has H; injection H as <-.
    + exists (str "Dog"), dog. split; [reflexivity|]. split; [eexists; split; [given | right; left; reflexivity]|]. intros I; in_cases I; discriminate I.
    + exists (str "Cat"), cat. split; [reflexivity|]. split; [eexists; split; [given | right; right; left; reflexivity]|]. intros I; in_cases I; discriminate I.
    + exists (str "Color"), color. split; [reflexivity|]. split; [eexists; split; [given | left; reflexivity]|]. intros I; in_cases I; discriminate I.
  - intros x d s D I H. apply top_definition in D. in_cases D; injection D as <- <-; apply inside_within with (n := 5) in I; try (vm_compute; lia);
      vm_compute in I; repeat (destruct I as [<-|I]; [get_has H; discriminate H|]); destruct I.
Qed.

Definition order : json := JObj
  [(str "pets", JArr [JObj [(str "age", JInt 7); (str "kind", jstr "dog")]; JObj [(str "kind", jstr "cat"); (str "color", jstr "dark red")]; JObj [(str "kind", jstr "cat")]]);
   (str "label", jstr "true"); (str "open", jstr "2024-02-29")].

Lemma zoo_plain : plain_module Zoo 7.
Proof.
  split.
  - intros c cl x t G M. zoo_class c G; discriminate M.
  - intros x a t L. discriminate L.
Qed.

Ltac prove_wf := vm_compute; repeat first [apply Forall_nil | apply Forall_cons | apply wf_arr | apply wf_obj | apply wf_str | apply wf_int | apply wf_bool | nodup]; cbn [snd map fst].

Lemma shop_wf : json_wf shop.
Proof. prove_wf. Qed.

Ltac made U E m name doc := let x := eval vm_compute in (schema_to_type U E m (str name) doc) in match x with Ok (?E', ?t) => exists E', t end.

Example C51_witness : exists E' t v, schema_to_type ascii Zoo 7 (str "Shop") shop = Ok (E', t) /\
  guarded_env Zoo /\ calm Zoo /\ plain_module Zoo 7 /\ shuffles (e_order Zoo) /\ json_wf shop /\ importable ascii shop /\ strict_formats checked /\
  plain_json order = true /\ json_wf order /\ satisfies checked shop order /\ json_to_object E' false 7 t order = Ok v.
Proof.
  made ascii Zoo 7 "Shop"%string shop.
  match goal with |- exists v, schema_to_type _ _ _ _ _ = Ok (?E', ?t) /\ _ => exists_result (json_to_object E' false 7 t order) end.
  split; [vm_compute; reflexivity|].
  split; [exact zoo_guarded|]. split; [exact zoo_calm|]. split; [exact zoo_plain|]. split; [exact zoo_shuffles|]. split; [exact shop_wf|].
  split; [exact shop_importable|]. split; [exact checked_strict|]. split; [vm_compute; reflexivity|]. split; [prove_wf|]. split; [exists 20; vm_compute; reflexivity|].
  vm_compute. reflexivity.
Qed.

(** The theorem, on the schema. *)
Example C51_witness_all : forall E' t j, schema_to_type ascii Zoo 7 (str "Shop") shop = Ok (E', t) ->
  plain_json j = true -> json_wf j -> satisfies checked shop j -> exists v, json_to_object E' false 7 t j = Ok v.
Proof.
  intros E' t j H PJ WJ A.
  exact (C51_documents ascii Zoo 7 (str "Shop") shop E' t checked false j H zoo_guarded zoo_calm zoo_plain zoo_shuffles shop_wf shop_importable checked_strict PJ WJ A).
Qed.

(** *** Schemas for which no types are made *)

(** A schema with documents, and the exception raised for it. *)
Definition unmade (doc : json) (e : exn) : Prop := json_wf doc /\ (exists j, json_wf j /\ plain_json j = true /\ satisfies checked doc j) /\
  schema_to_type ascii Zoo 7 (str "Top") doc = Err e.

Ltac prove_unmade j := split; [prove_wf|]; split; [exists j; split; [prove_wf|]; split; [vm_compute; reflexivity | exists 20; vm_compute; reflexivity] | vm_compute; reflexivity].

(** Definitions that refer to later ones (or to themselves), *)
Theorem C51_order_refuted : exists doc, unmade doc EAttribute.
Proof.
  exists (top [("a", ref "A")] ["a"] [("A", object [("b", ref "B")] ["b"]); ("B", object [("x", of "integer" [])] ["x"])])%string.
  prove_unmade (JObj [(str "a", JObj [(str "b", JObj [(str "x", JInt 1)])])]).
Qed.
Print Assumptions C51_order_refuted.

(** definitions of texts, *)
Theorem C51_builtin_refuted : exists doc, unmade doc EType.
Proof.
  exists (top [("a", ref "Name")] ["a"] [("Name", of "string" [])])%string. prove_unmade (JObj [(str "a", jstr "x")]).
Qed.
Print Assumptions C51_builtin_refuted.

(** definitions of arrays, *)
Theorem C51_array_refuted : exists doc, unmade doc EAttribute.
Proof.
  exists (top [("a", ref "Names")] ["a"] [("Names", of "array" [("items", of "string" [])])])%string. prove_unmade (JObj [(str "a", JArr [jstr "x"])]).
Qed.
Print Assumptions C51_array_refuted.

(** and properties named by a keyword. *)
Theorem C51_keyword_refuted : exists doc, unmade doc EType.
Proof. exists (top [("class", of "string" [])] ["class"] [])%string. prove_unmade (JObj [(str "class", jstr "x")]). Qed.
Print Assumptions C51_keyword_refuted.

(** *** The provisos are needed *)

(** The types are made, and do not read a document that satisfies the schema. *)
Definition unread (doc j : json) (e : exn) : Prop := json_wf doc /\ json_wf j /\ plain_json j = true /\ satisfies checked doc j /\
  exists E' t, schema_to_type ascii Zoo 7 (str "Top") doc = Ok (E', t) /\ json_to_object E' false 7 t j = Err e.

Ltac prove_unread doc := split; [prove_wf|]; split; [prove_wf|]; split; [vm_compute; reflexivity|]; split; [exists 20; vm_compute; reflexivity|];
  made ascii Zoo 7 "Top"%string doc; split; vm_compute; reflexivity.

(** Objects without a list of properties: the type names types that the module
    does not have; *)
Theorem C51_free_refuted : exists doc j, unread doc j EName.
Proof.
  exists (top [("a", of "object" [])] ["a"] [])%string, (JObj [(str "a", JObj [])]). prove_unread (top [("a", of "object" [])] ["a"] [])%string.
Qed.
Print Assumptions C51_free_refuted.

(** properties named like [class_] are read from [class]; *)
Theorem C51_name_refuted : exists doc j, unread doc j EJsonKey.
Proof.
  exists (top [("class_", of "string" [])] ["class_"] [])%string, (JObj [(str "class_", jstr "x")]). prove_unread (top [("class_", of "string" [])] ["class_"] [])%string.
Qed.
Print Assumptions C51_name_refuted.

(** texts with the same label are one member; *)
Theorem C51_label_refuted : exists doc j, unread doc j EValue.
Proof.
  exists (top [("a", of "string" [("enum", JArr [jstr "x y"; jstr "x_y"])])] ["a"] [])%string, (JObj [(str "a", jstr "x y")]).
  prove_unread (top [("a", of "string" [("enum", JArr [jstr "x y"; jstr "x_y"])])] ["a"] [])%string.
Qed.
Print Assumptions C51_label_refuted.

(** a member of a union may fail for good, before the one that would do; *)
Theorem C51_union_refuted : exists doc j, unread doc j EValue.
Proof.
  exists (top [("a", one_of [of "string" [("format", jstr "date")]; of "string" [("const", jstr "today")]])] ["a"] [])%string, (JObj [(str "a", jstr "today")]).
  prove_unread (top [("a", one_of [of "string" [("format", jstr "date")]; of "string" [("const", jstr "today")]])] ["a"] [])%string.
Qed.
Print Assumptions C51_union_refuted.

(** a definition that refers to itself may stand for one of its parts. *)
Theorem C51_self_refuted : exists doc j, unread doc j EJsonKey.
Proof.
  exists (top [("a", ref "T")] ["a"] [("T", one_of [object [("x", of "integer" [])] ["x"]; of "array" [("items", ref "T")]])])%string,
    (JObj [(str "a", JArr [JArr []])]).
  prove_unread (top [("a", ref "T")] ["a"] [("T", one_of [object [("x", of "integer" [])] ["x"]; of "array" [("items", ref "T")]])])%string.
Qed.
Print Assumptions C51_self_refuted.

(** The converse fails: bounds of lengths and ranges are not enforced. *)
Theorem C51_bounds_refuted : exists doc j E' t v, importable ascii doc /\ json_wf doc /\ json_wf j /\ plain_json j = true /\
  schema_to_type ascii Zoo 7 (str "Top") doc = Ok (E', t) /\ json_to_object E' false 7 t j = Ok v /\ violates checked doc j.
Proof.
  exists (top [("a", of "string" [("maxLength", JInt 2)])] ["a"] [])%string, (JObj [(str "a", jstr "long")]).
  made ascii Zoo 7 "Top"%string (top [("a", of "string" [("maxLength", JInt 2)])] ["a"] [])%string.
  match goal with |- exists v, _ /\ _ /\ _ /\ _ /\ schema_to_type _ _ _ _ _ = Ok (?E', ?t) /\ json_to_object _ _ _ _ ?j = _ /\ _ =>
    exists_result (json_to_object E' false 7 t j) end.
  split.
  - constructor.
    + intros s P T. part_cases P 9; try (exfalso; get_has T; fail); eexists; given.
    + intros s ps x p k P H I K. part_cases P 9; get_has H; injection H as <-; cbn [In] in I;
        repeat (destruct I as [I|I]; [injection I as <- <-; clear - K; vm_compute in K; repeat (destruct K as [<-|K]; [discriminate|]); destruct K|]); destruct I.
    + intros s vs a b P T H. part_cases P 9; get_has H.
    + intros s vs a cls P T H. part_cases P 9; get_has H.
    + intros s ss P H. part_cases P 9; get_has H.
    + intros s r P H. part_cases P 9; get_has H.
    + intros x d s D. apply top_definition in D. destruct D.
  - split; [prove_wf|]. split; [prove_wf|]. split; [vm_compute; reflexivity|]. split; [vm_compute; reflexivity|].
    split; [vm_compute; reflexivity | exists 20; vm_compute; reflexivity].
Qed.
Print Assumptions C51_bounds_refuted.
