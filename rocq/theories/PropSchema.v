(** C30, C32: the shape of schema documents. *)
From Coq Require Import String List NArith ZArith Bool Lia.
From Verif Require Import Base Json PyTypes Samples Catalog Schema SpecTypes SpecFields SpecSchema SpecGenerate SchemaProofs SchemaClass.
Import ListNotations.
Open Scope list_scope.
Open Scope nat_scope.

(** C30.  Every reference in a schema document is the prefix of references
    followed by a name, and the name is among the definitions unless it is a
    text that the generator could not make use of. *)
Theorem C30_references : forall E S n k t doc r, selfcontained S -> classdef_to_schema E S n k t = Ok doc -> refers doc r ->
  exists name, r = s_path S ++ name /\ ((exists sch, defined doc name sch) \/ lost E S t name).
Proof. exact references_defined. Qed.
Print Assumptions C30_references.

(** C30.  With the usual prefix the references are JSON pointers to the
    definitions. *)
Theorem C30_pointers : forall E S n k t doc r, selfcontained S -> s_path S = str "#/definitions/" ->
  (forall name, ~ lost E S t name) -> classdef_to_schema E S n k t = Ok doc -> refers doc r ->
  exists name sch, r = str "#/definitions/" ++ name /\ defined doc name sch /\ (plain_name name -> points_to doc r = Some sch).
Proof.
  intros E S n k t doc r SC P L H R. destruct (references_defined _ _ _ _ _ _ _ SC H R) as (name & Q & [(sch & D)|X]); [|destruct (L _ X)].
  rewrite P in Q. exists name, sch. split; [exact Q|]. split; [exact D|]. intros N. rewrite Q. eapply reference_target; eassumption.
Qed.
Print Assumptions C30_pointers.

Definition entry_for (s : pystr) : entry := {| en_schema := None; en_identifier := s; en_examples := None |}.

(** A generator for the sample program, with some classes registered. *)
Definition Gen (rs : list (typ * pystr)) (forward : bool) : senv := {|
  s_catalog := register_all (map (fun r => (fst r, entry_for (snd r))) rs);
  s_eval := fun _ => None;
  s_forward := fun _ => forward;
  s_short := fun t => match t with TClass 2 => Some (str "A tree.") | _ => None end;
  s_long := fun _ => None;
  s_props := fun c => if Nat.eqb c 2 then [(str "value", str "The value.")] else [];
  s_attrs := fun c => if Nat.eqb c 1 then [(str "class_", vstr "p"); (str "y", VNone)] else [];
  s_tenth := fun _ => FFin false 1 (-3);
  s_path := str "#/definitions/";
  s_describe := true;
  s_exemplify := true
|}.

Lemma gen_selfcontained : forall rs forward, selfcontained (Gen rs forward).
Proof.
  intros rs forward t e s r G Q. exfalso.
  assert (X : forall rs c, (forall t e, get c t = Ok e -> en_schema e = None) ->
    forall t e, get (fold_left register (map (fun r : typ * pystr => (fst r, entry_for (snd r))) rs) c) t = Ok e -> en_schema e = None).
  { clear. intros rs. induction rs as [|[u i] rs IH]; intros c H t e G; [exact (H t e G)|]. cbn [map fold_left fst snd] in G.
    revert G. apply IH. clear IH t e. intros t e G. unfold register in G. cbn [fst snd entry_for en_schema en_identifier en_examples] in G.
    destruct (add c u None i None) as [c'|x] eqn:A; [|exact (H t e G)].
    assert (A' : exists e0, en_schema e0 = None /\ c' = {| by_type := type_set (by_type c) u e0; by_name := dict_set (by_name c) i e0 |}).
    { unfold add in A. destruct u; try discriminate A; destruct (type_get (by_type c) _); try discriminate A; injection A as <-;
        exists (entry_for i); (split; reflexivity). }
    destruct A' as (e0 & E0 & ->). clear A.
    assert (T : forall d, type_get (type_set d u e0) t = Some e -> e = e0 \/ type_get d t = Some e).
    { clear. induction d as [|[v f] d IH]; cbn [type_set type_get].
      - destruct (typ_eqb u t); [intros Q; injection Q as ->; auto | discriminate].
      - destruct (typ_eqb v u); cbn [type_get]; destruct (typ_eqb v t); try (intros Q; injection Q as ->; auto; fail); auto. }
    assert (D : forall d s, dict_get (dict_set d i e0) s = Some e -> e = e0 \/ dict_get d s = Some e).
    { clear. induction d as [|[v f] d IH]; intros s; cbn [dict_set dict_get].
      - destruct (pystr_eqb i s); [intros Q; injection Q as ->; auto | discriminate].
      - destruct (pystr_eqb v i); cbn [dict_get]; destruct (pystr_eqb v s); try (intros Q; injection Q as ->; auto; fail); auto. }
    assert (G' : e = e0 \/ get c t = Ok e).
    { unfold get in *. cbn [by_type by_name] in G. destruct t;
        try (match type of G with match ?x with _ => _ end = _ => destruct x as [e1|] eqn:Y; [|discriminate G] end;
             injection G as ->; first [destruct (T _ Y) as [->|Y'] | destruct (D _ _ Y) as [->|Y']]; [left; reflexivity | right; rewrite Y'; reflexivity]). }
    destruct G' as [->|G']; [exact E0 | exact (H _ _ G')]. }
  assert (Y : en_schema e = None).
  { eapply (X rs new_catalog); [|exact G]. intros t' e' G'. destruct t'; discriminate G'. }
  congruence.
Qed.

Ltac exists_result f := let x := eval vm_compute in f in match x with Ok ?v => exists v end.

Definition registered_zoo : senv := Gen [(TClass 2, str "Node"); (TClass 1, str "Point"); (TClass 3, str "Pair")] false.

(** The document of dict[str, Node]: the recursive class is defined once, and the
    references in its own schema lead back to it. *)
Definition tree_schema : json :=
  JObj [(str "$schema", jstr "https://json-schema.org/draft/2020-12/schema");
        (str "definitions", JObj [(str "Node",
          JObj [(str "type", jstr "object");
                (str "properties", JObj [
                  (str "val", JObj [(str "type", jstr "integer"); (str "description", jstr "The value.")]);
                  (str "children", JObj [(str "type", jstr "array"); (str "items", JObj [(str "$ref", jstr "#/definitions/Node")])])]);
                (str "additionalProperties", JBool false);
                (str "required", JArr [jstr "val"; jstr "children"]);
                (str "title", jstr "A tree.")])]);
        (str "type", jstr "object");
        (str "additionalProperties", JObj [(str "$ref", jstr "#/definitions/Node")])].

Example C30_witness :
  classdef_to_schema Zoo registered_zoo 9 9 (TDict tstr (TClass 2)) = Ok tree_schema /\
  points_to tree_schema (str "#/definitions/Node") <> None /\ refers tree_schema (str "#/definitions/Node").
Proof.
  split; [vm_compute; reflexivity|]. split; [vm_compute; discriminate|].
  eapply rf_one; [right; left; reflexivity | right; right; right; left; reflexivity |]. apply rf_here. left. reflexivity.
Qed.

(** C30.  As first stated the property is false: list["Point"] with Point
    registered under its name has a reference that leads nowhere. *)
Theorem C30_text_refuted : exists E S n k t doc r, selfcontained S /\ t = TList (TRef (str "Point")) /\
  contains (s_catalog S) (TRef (str "Point")) = true /\
  classdef_to_schema E S n k t = Ok doc /\ refers doc r /\ points_to doc r = None.
Proof.
  exists Zoo, registered_zoo, 9, 9, (TList (TRef (str "Point"))),
    (JObj [(str "$schema", jstr "https://json-schema.org/draft/2020-12/schema"); (str "type", jstr "array");
           (str "items", JObj [(str "$ref", jstr "#/definitions/Point")])]), (str "#/definitions/Point").
  split; [apply gen_selfcontained|]. split; [reflexivity|]. split; [vm_compute; reflexivity|]. split; [vm_compute; reflexivity|].
  split; [|vm_compute; reflexivity].
  eapply rf_one; [left; reflexivity | right; right; left; reflexivity |]. apply rf_here. left. reflexivity.
Qed.
Print Assumptions C30_text_refuted.

(** C30.  The same for Annotated["Point", ...], where the name is written as a
    forward reference. *)
Theorem C30_annotated_refuted : exists E S n k t doc r, selfcontained S /\ (forall s, s_forward S s = true) /\
  t = TAnnot (TRef (str "Point")) [AAlias (str "p")] /\ contains (s_catalog S) (TRef (str "Point")) = true /\
  classdef_to_schema E S n k t = Ok doc /\ refers doc r /\ points_to doc r = None.
Proof.
  exists Zoo, (Gen [(TClass 1, str "Point")] true), 9, 9, (TAnnot (TRef (str "Point")) [AAlias (str "p")]),
    (JObj [(str "$schema", jstr "https://json-schema.org/draft/2020-12/schema"); (str "$ref", jstr "#/definitions/Point")]), (str "#/definitions/Point").
  split; [apply gen_selfcontained|]. split; [reflexivity|]. split; [reflexivity|]. split; [vm_compute; reflexivity|]. split; [vm_compute; reflexivity|].
  split; [|vm_compute; reflexivity]. apply rf_here. right. left. reflexivity.
Qed.
Print Assumptions C30_annotated_refuted.

(** A class that the catalog does not have. *)
Lemma not_in_catalog : forall S c, (forall e, get (s_catalog S) (TClass c) <> Ok e) -> in_catalog S (TClass c) = false.
Proof.
  intros S c H. cbn [in_catalog contains get] in *. destruct (type_get (by_type (s_catalog S)) (TClass c)) as [e|]; [|reflexivity].
  destruct (H e eq_refl).
Qed.

(** C32.  The schema of a class that is written in place, of the document of a
    class that is not registered, and of the definition of a registered class. *)
Theorem C32_class : forall E S n force c cl ps u d u', get_class E c = Some cl -> not_enum cl -> class_properties E cl = Ok ps ->
  force = true \/ (forall e, get (s_catalog S) (TClass c) <> Ok e) ->
  type_to_schema E S n force (TClass c) u = Ok (d, u') -> class_schema ps d.
Proof.
  intros E S n force c cl ps u d u' G N P F. eapply class_shape; try eassumption.
  destruct F as [F|F]; [left; exact F | right; apply not_in_catalog; exact F].
Qed.
Print Assumptions C32_class.

Theorem C32_document : forall E S n k c cl ps doc, get_class E c = Some cl -> not_enum cl -> class_properties E cl = Ok ps ->
  (forall e, get (s_catalog S) (TClass c) <> Ok e) -> classdef_to_schema E S n k (TClass c) = Ok doc -> exists d, doc = JObj d /\ class_schema ps d.
Proof. intros E S n k c cl ps doc G N P F. eapply class_document; try eassumption. apply not_in_catalog. exact F. Qed.
Print Assumptions C32_document.

Theorem C32_definition : forall E S n c cl ps e u d u', get_class E c = Some cl -> not_enum cl -> class_properties E cl = Ok ps ->
  get (s_catalog S) (TClass c) = Ok e -> en_schema e = None ->
  type_to_schema_with_lookup E S n (TClass c) u = Ok (d, u') -> class_schema ps d.
Proof. exact class_shape_lookup. Qed.
Print Assumptions C32_definition.

(** C32.  What that means for documents: properties other than the fields are
    rejected, and so are documents in which a field is missing that is not
    optional. *)
Theorem C32_accepts : forall asserts root ps d j, class_schema ps d -> accepts asserts root (JObj d) j ->
  exists o, j = JObj o /\
    (ps <> [] -> forall p, In p (map fst o) -> exists x t, In (x, t) ps /\ schema_name x t p) /\
    (forall x t p, In (x, t) ps -> schema_name x t p -> ~ optional t -> In p (map fst o)).
Proof. exact class_accepts. Qed.
Print Assumptions C32_accepts.

Theorem C32_extra_rejected : forall asserts root ps d o p, class_schema ps d -> ps <> [] -> In p (map fst o) ->
  (forall x t, In (x, t) ps -> ~ schema_name x t p) -> rejects asserts root (JObj d) (JObj o).
Proof. exact class_rejects_extra. Qed.
Print Assumptions C32_extra_rejected.

Theorem C32_missing_rejected : forall asserts root ps d o x t p, class_schema ps d -> In (x, t) ps -> schema_name x t p -> ~ optional t ->
  ~ In p (map fst o) -> rejects asserts root (JObj d) (JObj o).
Proof. exact class_rejects_missing. Qed.
Print Assumptions C32_missing_rejected.

(** C32.  The names in the schema are those in JSON documents, except for names
    with an underscore after a keyword and aliases in named tuples. *)
Theorem C32_names : forall cl x t p, plain_field cl x t -> (schema_name x t p <-> json_name cl x t p).
Proof. exact plain_names. Qed.
Print Assumptions C32_names.

Example C32_witness : exists d u',
  type_to_schema Zoo registered_zoo 9 true (TClass 2) [] = Ok (d, u') /\
  class_properties Zoo Node = Ok [(str "value", TAnnot tint [AAlias (str "val")]); (str "children", TList (TRef (str "Node")))] /\
  plain_field Node (str "value") (TAnnot tint [AAlias (str "val")]) /\
  accepts (fun _ _ _ => true) tree_schema (JObj d) tree_json /\
  rejects (fun _ _ _ => true) tree_schema (JObj d) (JObj [(str "val", JInt 1)]) /\
  rejects (fun _ _ _ => true) tree_schema (JObj d) (JObj [(str "val", JInt 1); (str "children", JArr []); (str "value", JInt 1)]).
Proof.
  let x := eval vm_compute in (type_to_schema Zoo registered_zoo 9 true (TClass 2) []) in match x with Ok (?d, ?u) => exists d, u end.
  split; [vm_compute; reflexivity|]. split; [reflexivity|]. split.
  { split; [|exact Logic.I]. intros k I. cbn [In python_keywords map] in I. repeat (destruct I as [<-|I]; [discriminate|]). destruct I. }
  split; [exists 9; vm_compute; reflexivity|]. split; exists 9; vm_compute; reflexivity.
Qed.

(** C32.  The three provisos are needed.  The field class_ of Point is called
    "class" in documents but "class_" in the schema, so that what is written is
    rejected; *)
Theorem C32_keyword_refuted : exists E S n k c cl x t p v doc j,
  get_class E c = Some cl /\ In (x, t) (raw_fields (c_kind cl)) /\ json_name cl x t p /\ ~ schema_name x t p /\
  classdef_to_schema E S n k (TClass c) = Ok doc /\ Ser.object_to_json E v = Ok j /\
  violates (fun _ _ _ => true) doc j.
Proof.
  exists Zoo, (Gen [] false), 9, 9, 1, Point, (str "class_"), tstr, (str "class"),
    (VObj 1 [(str "x", VInt 1); (str "y", VInt 2); (str "class_", vstr "q")]).
  exists_result (classdef_to_schema Zoo (Gen [] false) 9 9 (TClass 1)).
  exists_result (Ser.object_to_json Zoo (VObj 1 [(str "x", VInt 1); (str "y", VInt 2); (str "class_", vstr "q")])).
  split; [reflexivity|]. split; [right; right; left; reflexivity|]. split; [|split; [|split; [vm_compute; reflexivity|split; [vm_compute; reflexivity|]]]].
  - apply pn_keyword.
    + intros a (u & m1 & m2 & Q & _). discriminate Q.
    + apply (proj1 (Lists.mem_str_in _ _)). vm_compute. reflexivity.
    + reflexivity.
  - intros H. inversion H; subst. destruct H0 as (u & m1 & m2 & Q & _). discriminate Q.
  - exists 9. vm_compute. reflexivity.
Qed.
Print Assumptions C32_keyword_refuted.

(** class Tagged(NamedTuple): first: Annotated[int, Alias("one")], and class
    Empty without fields. *)
Definition Odd : env := mkEnv
  [mkClass 0 (str "Tagged") (CTuple [(str "first", TAnnot tint [AAlias (str "one")])]) None None;
   mkClass 0 (str "Empty") (CPlain []) None None] [] (fun ps => ps).

(** a named tuple is read by its field names, the schema has the aliases; *)
Theorem C32_namedtuple_refuted : exists E S n k c v doc j,
  classdef_to_schema E S n k (TClass c) = Ok doc /\ Deser.json_to_object E false 0 (TClass c) j = Ok v /\ violates (fun _ _ _ => true) doc j.
Proof.
  exists Odd, (Gen [] false), 9, 9, 0, (VObj 0 [(str "first", VInt 1)]).
  exists_result (classdef_to_schema Odd (Gen [] false) 9 9 (TClass 0)). exists (JObj [(str "first", JInt 1)]).
  split; [vm_compute; reflexivity|]. split; [vm_compute; reflexivity|]. exists 9. vm_compute. reflexivity.
Qed.
Print Assumptions C32_namedtuple_refuted.

(** and a class without fields is not closed. *)
Theorem C32_empty_refuted : exists E S n k c cl doc p x,
  get_class E c = Some cl /\ class_properties E cl = Ok [] /\ classdef_to_schema E S n k (TClass c) = Ok doc /\
  satisfies (fun _ _ _ => true) doc (JObj [(p, x)]).
Proof.
  exists Odd, (Gen [] false), 9, 9, 1. eexists.
  exists_result (classdef_to_schema Odd (Gen [] false) 9 9 (TClass 1)). exists (str "a"), JNull. split; [reflexivity|]. split; [reflexivity|].
  split; [vm_compute; reflexivity|]. exists 9. vm_compute. reflexivity.
Qed.
Print Assumptions C32_empty_refuted.
