(** C60: the JSON types of the library. *)
From Coq Require Import String List NArith ZArith Bool Lia.
From Verif Require Import Base Json PyTypes TypingFacts Deser Ser Catalog Names Schema JsonTypes SpecRecursion Context SpecSchema SpecGenerate SpecJsonTypes
  JsonTypeProofs Samples PropSchema.
Import ListNotations.
Open Scope list_scope.
Open Scope nat_scope.

(** C60.  In a module in which the name "JsonType" is bound to it, [JsonType]
    reads every JSON document, as the data that the document is. *)
Theorem C60_reads : forall E skip m j v, guarded_env E -> calm E -> lookup E m (str "JsonType") = Some (true, JsonType) ->
  Deser.json_to_object E skip m JsonType j = Ok v <-> data_of j v.
Proof.
  intros E skip m j v GE CA L. assert (R : forall v, data_of j v -> Deser.json_to_object E skip m JsonType j = Ok v)
    by (intros w D; apply (json_read E GE CA skip m true (str "JsonType") L j w D); left; reflexivity).
  split; [|apply R]. intros H. destruct (data_total j) as (w & D). rewrite (R w D) in H. injection H as <-. exact D.
Qed.
Print Assumptions C60_reads.

(** C60.  Every document is some data; writing the data gives the document. *)
Theorem C60_writes : forall E j, json_wf j -> exists v, data_of j v /\ (forall w, data_of j w -> w = v) /\ object_to_json E v = Ok j.
Proof.
  intros E j W. destruct (data_total j) as (v & D). exists v. split; [exact D|]. split; [|apply data_written; assumption].
  intros w D'. exact (data_unique j w v D' D).
Qed.
Print Assumptions C60_writes.

(** C60.  [StrictJsonType] reads the documents that have no null, at any depth,
    and raises JsonKeyError for all others. *)
Theorem C60_strict : forall E skip m j, guarded_env E -> calm E -> lookup E m (str "StrictJsonType") = Some (true, StrictJsonType) ->
  (forall v, Deser.json_to_object E skip m StrictJsonType j = Ok v <-> data_of j v /\ ~ anywhere is_null j) /\
  (Deser.json_to_object E skip m StrictJsonType j = Err EJsonKey <-> anywhere is_null j).
Proof.
  intros E skip m j GE CA L.
  assert (R : forall v, data_of j v -> ~ anywhere is_null j -> Deser.json_to_object E skip m StrictJsonType j = Ok v)
    by (intros w D N; apply (json_read E GE CA skip m false (str "StrictJsonType") L j w D); right; exact N).
  assert (X : anywhere is_null j -> Deser.json_to_object E skip m StrictJsonType j = Err EJsonKey)
    by (apply (json_null E GE CA skip m false (str "StrictJsonType") L eq_refl)).
  destruct (data_total j) as (w & D). split; [intros v|]; (split; intros H).
  - destruct (null_dec j) as [N|N]; [rewrite (X N) in H; discriminate H|]. rewrite (R w D N) in H. injection H as <-. auto.
  - apply R; tauto.
  - destruct (null_dec j) as [N|N]; [exact N|]. rewrite (R w D N) in H. discriminate H.
  - exact (X H).
Qed.
Print Assumptions C60_strict.

(** C60.  The schema of [JsonType], in a program that has imported the library
    and registered further types, exists and is satisfied by the documents in
    which no number is an integer: integers match two of its alternatives. *)
Theorem C60_schema : forall E S jo ja c rs, library E jo ja = Ok c -> s_catalog S = attempts E c rs ->
  ~ In (TDict (TScalar KStr) (TRef (str "JsonType"))) (map rq_type rs) -> ~ In (TList (TRef (str "JsonType"))) (map rq_type rs) ->
  s_eval S (str "JsonType") = Some JsonType -> s_path S = str "#/definitions/" ->
  (forall n k, 3 <= n -> 1 <= k -> exists doc, classdef_to_schema E S n k JsonType = Ok doc) /\
  forall asserts n k doc j, classdef_to_schema E S n k JsonType = Ok doc ->
    (satisfies asserts doc j <-> ~ anywhere is_integer j) /\ (violates asserts doc j <-> anywhere is_integer j).
Proof.
  intros E S jo ja c rs LIB CAT N1 N2 EV P. pose proof (library_imported E jo ja c LIB) as IM.
  destruct (json_schema E S jo ja c rs LIB CAT true (str "JsonType") _ (im_json E c IM) eq_refl eq_refl (conj N1 N2) EV) as [T M].
  split; [exact T|]. intros asserts n k doc j H. destruct (M P (plain_names _ (or_introl eq_refl)) asserts n k doc j H) as [A B].
  unfold fine in A, B. destruct (integer_dec j) as [I|I]; tauto.
Qed.
Print Assumptions C60_schema.

(** C60.  Likewise that of [StrictJsonType]: no integers and no null. *)
Theorem C60_strict_schema : forall E S jo ja c rs, library E jo ja = Ok c -> s_catalog S = attempts E c rs ->
  ~ In (TDict (TScalar KStr) (TRef (str "StrictJsonType"))) (map rq_type rs) -> ~ In (TList (TRef (str "StrictJsonType"))) (map rq_type rs) ->
  s_eval S (str "StrictJsonType") = Some StrictJsonType -> s_path S = str "#/definitions/" ->
  (forall n k, 3 <= n -> 1 <= k -> exists doc, classdef_to_schema E S n k StrictJsonType = Ok doc) /\
  forall asserts n k doc j, classdef_to_schema E S n k StrictJsonType = Ok doc ->
    (satisfies asserts doc j <-> ~ anywhere is_integer j /\ ~ anywhere is_null j) /\
    (violates asserts doc j <-> anywhere is_integer j \/ anywhere is_null j).
Proof.
  intros E S jo ja c rs LIB CAT N1 N2 EV P. pose proof (library_imported E jo ja c LIB) as IM.
  destruct (json_schema E S jo ja c rs LIB CAT false (str "StrictJsonType") _ (im_strict E c IM) eq_refl eq_refl (conj N1 N2) EV) as [T M].
  split; [exact T|]. intros asserts n k doc j H. destruct (M P (plain_names _ (or_intror (or_introl eq_refl))) asserts n k doc j H) as [A B].
  unfold fine in A, B. destruct (integer_dec j) as [I|I]; destruct (null_dec j) as [I'|I']; intuition (discriminate || tauto).
Qed.
Print Assumptions C60_strict_schema.

(** C60.  The placeholders [JsonObject] and [JsonArray]: both have the schema of
    an object; both read the empty object only. *)
Theorem C60_placeholders : forall E S jo ja c rs m x, library E jo ja = Ok c -> s_catalog S = attempts E c rs ->
  get_class E jo = Some (JsonObject m) -> get_class E ja = Some (JsonArray m) -> s_path S = str "#/definitions/" -> x = jo \/ x = ja ->
  (forall n k, 1 <= n -> 1 <= k -> exists doc, classdef_to_schema E S n k (TClass x) = Ok doc) /\
  (forall asserts n k doc j, classdef_to_schema E S n k (TClass x) = Ok doc ->
    (satisfies asserts doc j <-> exists o, j = JObj o) /\ (violates asserts doc j <-> ~ exists o, j = JObj o)) /\
  (forall m' j, Deser.json_to_object E false m' (TClass x) j =
    match j with JObj [] => Ok (VObj x []) | JObj _ => Err EJsonKey | _ => Err EJsonType end).
Proof.
  intros E S jo ja c rs m x LIB CAT CO CA P X. pose proof (library_imported E jo ja c LIB) as IM.
  assert (Q : exists cl (s : pystr), get_class E x = Some cl /\ c_kind cl = CPlain [] /\ c_from_json cl = None /\ plain_name s /\
    type_get (by_type (s_catalog S)) (TClass x) = Some {| en_schema := None; en_identifier := s; en_examples := None |}).
  { destruct X as [-> | ->].
    - exists (JsonObject m), (str "JsonObject"). split; [assumption|]. split; [reflexivity|]. split; [reflexivity|].
      split; [apply plain_names; auto 6 using in_eq, in_cons|]. apply (still E S c rs CAT). exact (im_object E c IM jo ja LIB).
    - exists (JsonArray m), (str "JsonArray"). split; [assumption|]. split; [reflexivity|]. split; [reflexivity|].
      split; [apply plain_names; auto 6 using in_eq, in_cons|]. apply (still E S c rs CAT). exact (im_array E c IM jo ja LIB). }
  destruct Q as (cl & s & CL & K & F & PN & G). split; [|split].
  - intros n k A B. destruct n as [|n]; [lia|]. destruct k as [|k]; [lia|]. eexists. eapply empty_form; try eassumption; reflexivity.
  - intros asserts n k doc j H. rewrite (empty_only E S x cl _ CL K G eq_refl eq_refl n k doc H). apply empty_meaning; [exact P | exact PN].
  - intros m' j. apply (empty_read E m' x cl j CL K F).
Qed.
Print Assumptions C60_placeholders.

(** A program: module 0 is the user's, which imports both types; module 1 is
    strong_typing.core, module 2 strong_typing.serialization, which imports
    [JsonType] only.  The program registers a class of its own. *)
Definition Lib : env := mkEnv
  [JsonObject 1; JsonArray 1; mkClass 0 (str "Box") (CData false [mkField (str "content") (TRef (str "JsonType")) None]) None None]
  [(0, str "JsonType", (true, JsonType)); (0, str "StrictJsonType", (true, StrictJsonType)); (2, str "JsonType", (true, JsonType))]
  (fun ps => ps).

Definition lib_catalog : catalog := match library Lib 0 1 with Ok c => c | Err _ => new_catalog end.

Definition box_request : request := {| rq_type := TClass 2; rq_schema := None; rq_name := None; rq_examples := None |}.

Definition Libs : senv := {|
  s_catalog := attempts Lib lib_catalog [box_request];
  s_eval := fun s => if pystr_eqb s (str "JsonType") then Some JsonType else if pystr_eqb s (str "StrictJsonType") then Some StrictJsonType else None;
  s_forward := fun _ => false;
  s_short := fun t => match t with TClass 0 => Some (str "Placeholder type for an unrestricted JSON object.")
                                | TClass 1 => Some (str "Placeholder type for an unrestricted JSON array.") | _ => None end;
  s_long := fun _ => None;
  s_props := fun _ => [];
  s_attrs := fun _ => [];
  s_tenth := fun _ => FFin false 1 (-3);
  s_path := str "#/definitions/";
  s_describe := true;
  s_exemplify := true
|}.

Lemma lib_library : library Lib 0 1 = Ok lib_catalog.
Proof. reflexivity. Qed.

Lemma lib_refs : forall m s a t, lookup Lib m s = Some (a, t) -> a = true /\ (t = JsonType \/ t = StrictJsonType).
Proof.
  intros m s a t H. unfold lookup, Lib in H. cbn [e_refs find_ref] in H.
  repeat match type of H with (if ?b then _ else _) = _ => destruct b end; try discriminate H; injection H as <- <-; auto.
Qed.

Lemma lib_guarded : guarded_env Lib.
Proof.
  assert (GJ : forall m t, t = JsonType \/ t = StrictJsonType -> guarded Lib m t).
  { intros m t [-> | ->]; apply g_union; repeat (constructor; [apply g_leaf; exact Logic.I|]); constructor. }
  assert (RR : forall m s, guarded Lib m (TRef s)).
  { intros m s. apply g_ref. intros a t L. apply lib_refs in L. apply GJ. tauto. }
  split.
  - intros c cl x t G I. destruct c as [|[|[|c]]]; try (injection G as <-; destruct I as [Q|I]; [injection Q as <- <-; split; [apply RR | exact Logic.I] | destruct I]);
      try (injection G as <-; destruct I). cbn in G. destruct c; discriminate G.
  - intros m s a t L. apply lib_refs in L. destruct L as [_ L].
    destruct L as [-> | ->]; cbn [every_part JsonType StrictJsonType fold_right]; repeat split; try apply RR; try (apply g_leaf; exact Logic.I);
      try (apply (GJ m JsonType); left; reflexivity); try (apply (GJ m StrictJsonType); right; reflexivity).
  - intros m s t L. apply lib_refs in L. destruct L as [Q _]. discriminate Q.
Qed.

Lemma lib_calm : calm Lib.
Proof.
  split.
  - intros c cl h j G F. destruct c as [|[|[|c]]]; try (injection G as <-; discriminate F). cbn in G. destruct c; discriminate G.
  - intros c cl fr fs f G K I. destruct c as [|[|[|c]]]; try (injection G as <-; discriminate K).
    + injection G as <-. injection K as <- <-. destruct I as [<-|[]]. discriminate.
    + cbn in G. destruct c; discriminate G.
Qed.

Definition mixed : json :=
  JObj [(str "a", JArr [JInt 1; JFloat (FFin false 1 (-1)); JNull; JBool true]); (str "b", JObj []); (str "c", JStr (str "x"))].

(** The hypotheses of the theorems are met, and the cases occur. *)
Example C60_witness :
  library Lib 0 1 = Ok lib_catalog /\ s_catalog Libs = attempts Lib lib_catalog [box_request] /\
  guarded_env Lib /\ calm Lib /\ lookup Lib 0 (str "JsonType") = Some (true, JsonType) /\
  lookup Lib 0 (str "StrictJsonType") = Some (true, StrictJsonType) /\
  s_eval Libs (str "JsonType") = Some JsonType /\ s_eval Libs (str "StrictJsonType") = Some StrictJsonType /\
  ~ In (TDict (TScalar KStr) (TRef (str "JsonType"))) (map rq_type [box_request]) /\
  get_schema_identifier (s_catalog Libs) (TClass 2) = Ok (Some (str "Box")) /\ json_wf mixed /\
  anywhere is_null mixed /\ anywhere is_integer mixed /\ ~ anywhere is_integer (JArr [JFloat (FFin false 1 (-1)); JStr (str "x")]).
Proof.
  split; [reflexivity|]. split; [reflexivity|]. split; [exact lib_guarded|]. split; [exact lib_calm|].
  do 4 (split; [reflexivity|]). split; [intros [Q|F]; [discriminate Q | destruct F]|]. split; [reflexivity|].
  split; [apply wf_obj; [cbn [map fst]; nodup | repeat constructor]|].
  split; [eapply any_member; [left; reflexivity|]; eapply any_item; [right; right; left; reflexivity|]; apply any_here; reflexivity|].
  split; [eapply any_member; [left; reflexivity|]; eapply any_item; [left; reflexivity|]; apply any_here; exact Logic.I|].
  intros A. inversion A as [? B|? x I B|]; subst; [destruct B|]. destruct I as [<- | [<- | F]]; [| |destruct F]; inversion B as [? C| |]; subst; [discriminate C | destruct C].
Qed.

(** C60.  A document that [JsonType] reads and that is written again need not
    satisfy its schema. *)
Theorem C60_integer_refuted : exists E S n k v j doc,
  Deser.json_to_object E false 0 JsonType j = Ok v /\ object_to_json E v = Ok j /\
  classdef_to_schema E S n k JsonType = Ok doc /\ forall asserts, violates asserts doc j.
Proof.
  exists Lib, Libs, 3, 1, (VInt 1), (JInt 1).
  destruct (proj1 (C60_schema Lib Libs 0 1 lib_catalog [box_request] lib_library eq_refl ltac:(intros [Q|F]; [discriminate Q | destruct F])
    ltac:(intros [Q|F]; [discriminate Q | destruct F]) eq_refl eq_refl) 3 1 (le_n 3) (le_n 1)) as (doc & D).
  exists doc. split; [apply C60_reads; [exact lib_guarded | exact lib_calm | reflexivity | constructor]|].
  split; [reflexivity|]. split; [exact D|]. intros asserts.
  apply (proj2 (C60_schema Lib Libs 0 1 lib_catalog [box_request] lib_library eq_refl ltac:(intros [Q|F]; [discriminate Q | destruct F])
    ltac:(intros [Q|F]; [discriminate Q | destruct F]) eq_refl eq_refl) asserts 3 1 doc (JInt 1) D). apply any_here. exact Logic.I.
Qed.
Print Assumptions C60_integer_refuted.

(** C60.  The examples that the library registers for its own types violate
    the schemas that they are examples of. *)
Theorem C60_example_refuted : exists E S n k t name ex doc d,
  classdef_to_schema E S n k t = Ok doc /\ defined doc name (JObj d) /\ dict_get d (str "examples") = Some (JArr [ex]) /\
  dict_get d (str "oneOf") <> None /\ forall asserts, violates asserts doc ex.
Proof.
  exists Lib, Libs, 3, 1, JsonType, (str "JsonType"), json_example.
  exists_result (classdef_to_schema Lib Libs 3 1 JsonType). eexists.
  split; [vm_compute; reflexivity|]. split; [do 2 eexists; split; [reflexivity|]; split; [right; left; reflexivity | left; reflexivity]|].
  split; [reflexivity|]. split; [discriminate|]. intros asserts.
  apply (proj2 (C60_schema Lib Libs 0 1 lib_catalog [box_request] lib_library eq_refl ltac:(intros [Q|F]; [discriminate Q | destruct F])
    ltac:(intros [Q|F]; [discriminate Q | destruct F]) eq_refl eq_refl) asserts 3 1); [vm_compute; reflexivity|].
  eapply any_member; [right; right; left; reflexivity|]. apply any_here. exact Logic.I.
Qed.
Print Assumptions C60_example_refuted.

(** C60.  No array satisfies the schema of [JsonArray], and none is read. *)
Theorem C60_array_refuted : exists E S x m n k doc, get_class E x = Some (JsonArray m) /\ classdef_to_schema E S n k (TClass x) = Ok doc /\
  forall l, (forall asserts, violates asserts doc (JArr l)) /\ Deser.json_to_object E false 0 (TClass x) (JArr l) = Err EJsonType.
Proof.
  destruct (C60_placeholders Lib Libs 0 1 lib_catalog [box_request] 1 1 lib_library eq_refl eq_refl eq_refl eq_refl (or_intror eq_refl)) as (T & M & R).
  destruct (T 1 1 (le_n 1) (le_n 1)) as (doc & D). exists Lib, Libs, 1, 1, 1, 1, doc. split; [reflexivity|]. split; [exact D|].
  intros l. split; [|rewrite R; reflexivity]. intros asserts. apply (M asserts 1 1 doc (JArr l) D). intros (o & Q). discriminate Q.
Qed.
Print Assumptions C60_array_refuted.

(** C60.  Every object satisfies the schema of [JsonObject]; none but the empty
    one is read. *)
Theorem C60_object_refuted : exists E S x m n k doc j, get_class E x = Some (JsonObject m) /\ classdef_to_schema E S n k (TClass x) = Ok doc /\
  (forall asserts, satisfies asserts doc j) /\ Deser.json_to_object E false 0 (TClass x) j = Err EJsonKey.
Proof.
  destruct (C60_placeholders Lib Libs 0 1 lib_catalog [box_request] 1 0 lib_library eq_refl eq_refl eq_refl eq_refl (or_introl eq_refl)) as (T & M & R).
  destruct (T 1 1 (le_n 1) (le_n 1)) as (doc & D). exists Lib, Libs, 0, 1, 1, 1, doc, mixed. split; [reflexivity|]. split; [exact D|].
  split; [|rewrite R; reflexivity]. intros asserts. apply (M asserts 1 1 doc mixed D). eexists. reflexivity.
Qed.
Print Assumptions C60_object_refuted.

(** C60.  Without a context no document at all is read with [StrictJsonType]:
    the name is looked up in strong_typing.serialization, which does not have
    it, although the caller does. *)
Theorem C60_context_refuted : exists E own caller, guarded_env E /\ calm E /\
  lookup E caller (str "StrictJsonType") = Some (true, StrictJsonType) /\
  lookup E own (str "JsonType") = Some (true, JsonType) /\
  forall skip j, Context.json_to_object E skip own caller None StrictJsonType j = Err EName.
Proof.
  exists Lib, 2, 0. split; [exact lib_guarded|]. split; [exact lib_calm|]. split; [reflexivity|]. split; [reflexivity|].
  intros skip j. reflexivity.
Qed.
Print Assumptions C60_context_refuted.
