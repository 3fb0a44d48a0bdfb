(** C36: flattening of schemas. *)
From Coq Require Import String List NArith ZArith Bool Lia.
From Verif Require Import Base Json PyTypes Deser Ser Lists SpecTyping SpecSer SerFacts TypingFacts DeserSound RoundTrip Samples Flatten SpecFlatten FlattenProofs.
Import ListNotations.
Open Scope list_scope.
Open Scope nat_scope.

(** C36.  Every schema for objects can be flattened; what results is again a
    schema for objects. *)
Theorem C36_total : forall o c v, node_class c -> has_type Nodes 0 (TClass c) v ->
  exists n v', forall k, n <= k -> flatten o k v = Ok v' /\ has_type Nodes 0 (TClass c) v'.
Proof.
  intros o c v NC T. apply (proj1 (node_typed 0 c v NC)) in T. destruct T as (attrs & -> & T).
  destruct (flatten_spec o (S (vdepth (VObj c attrs))) c attrs NC T ltac:(lia)) as (attrs' & ps & rs & Fl & FF).
  exists (S (vdepth (VObj c attrs))), (VObj c attrs'). intros k L. split; [exact (flatten_more _ _ _ _ _ Fl L)|].
  apply (proj2 (node_typed 0 c _ NC)). exists attrs'. split; [reflexivity | exact (fl_typed _ _ _ _ _ _ FF)].
Qed.
Print Assumptions C36_total.

Lemma flatten_result : forall o n c v v' ps rs, node_class c -> has_type Nodes 0 (TClass c) v -> flatten o n v = Ok v' -> describes v' ps rs ->
  exists attrs attrs', v = VObj c attrs /\ v' = VObj c attrs' /\ attrs_typed (node_attrs c) attrs /\ flattens o c attrs attrs' ps rs.
Proof.
  intros o n c v v' ps rs NC T Fl D. apply (proj1 (node_typed 0 c v NC)) in T. destruct T as (attrs & -> & T).
  destruct (flatten_spec o (S (vdepth (VObj c attrs))) c attrs NC T ltac:(lia)) as (attrs' & ps' & rs' & Fl' & FF).
  assert (Q : VObj c attrs' = v').
  { apply (flatten_more _ _ (Nat.max n (S (vdepth (VObj c attrs))))) in Fl; [|lia]. apply (flatten_more _ _ (Nat.max n (S (vdepth (VObj c attrs))))) in Fl'; [|lia]. congruence. }
  subst v'. exists attrs, attrs'. split; [reflexivity|]. split; [reflexivity|]. split; [exact T|].
  destruct (describes_fun _ _ _ _ _ _ (attrs_nodup _ _ (fl_typed _ _ _ _ _ _ FF) (node_attrs_nodup c NC)) D (fl_describes _ _ _ _ _ _ FF)) as (-> & ->). exact FF.
Qed.

(** C36.  The properties of the flat schema are leaves of the given one, under
    their flat names, and every leaf's name is there. *)
Theorem C36_names : forall o n c v v' ps rs, node_class c -> has_type Nodes 0 (TClass c) v -> flatten o n v = Ok v' -> describes v' ps rs ->
  NoDup (map fst ps) /\
  (forall x p, In (x, p) ps -> exists path, leaf (recursive o) v path p /\ x = flat_name (qualified_names o) path) /\
  (forall path p, leaf (recursive o) v path p -> In (flat_name (qualified_names o) path) (map fst ps)).
Proof.
  intros o n c v v' ps rs NC T Fl D. destruct (flatten_result _ _ _ _ _ _ _ NC T Fl D) as (attrs & attrs' & -> & -> & TA & FF).
  split; [exact (fl_nodup _ _ _ _ _ _ FF)|]. split; [exact (fl_leaf _ _ _ _ _ _ FF) | exact (fl_name _ _ _ _ _ _ FF)].
Qed.
Print Assumptions C36_names.

(** C36.  If no two leaves get the same name, the properties are exactly the
    leaves. *)
Theorem C36_properties : forall o n c v v' ps rs, node_class c -> has_type Nodes 0 (TClass c) v -> flatten o n v = Ok v' -> describes v' ps rs ->
  no_clash (qualified_names o) (recursive o) v ->
  forall x p, In (x, p) ps <-> exists path, leaf (recursive o) v path p /\ x = flat_name (qualified_names o) path.
Proof.
  intros o n c v v' ps rs NC T Fl D CL. destruct (flatten_result _ _ _ _ _ _ _ NC T Fl D) as (attrs & attrs' & -> & -> & TA & FF).
  exact (flattens_exact _ _ _ _ _ _ NC TA FF CL).
Qed.
Print Assumptions C36_properties.

(** C36.  Qualified names do not clash unless property names have dots. *)
Theorem C36_qualified : forall deep v, undotted deep v -> no_clash true deep v.
Proof. exact undotted_no_clash. Qed.
Print Assumptions C36_qualified.

(** C36.  Recursive flattening leaves no schema for objects among the properties. *)
Theorem C36_flat : forall o n c v v' ps rs x p, node_class c -> has_type Nodes 0 (TClass c) v -> flatten o n v = Ok v' -> describes v' ps rs ->
  recursive o = true -> In (x, p) ps -> ~ for_objects p.
Proof.
  intros o n c v v' ps rs x p NC T Fl D R I. destruct (flatten_result _ _ _ _ _ _ _ NC T Fl D) as (attrs & attrs' & -> & -> & TA & FF).
  destruct (fl_leaf _ _ _ _ _ _ FF _ _ I) as (path & L & _). rewrite R in L. exact (leaf_plain _ _ _ L).
Qed.
Print Assumptions C36_flat.

(** C36.  A flat name is required if a leaf of that name is required where it
    occurs, and only then. *)
Theorem C36_required : forall o n c v v' ps rs, node_class c -> has_type Nodes 0 (TClass c) v -> flatten o n v = Ok v' -> describes v' ps rs ->
  forall x, In x rs <-> exists path, asked (recursive o) v path /\ x = flat_name (qualified_names o) path.
Proof.
  intros o n c v v' ps rs NC T Fl D. destruct (flatten_result _ _ _ _ _ _ _ NC T Fl D) as (attrs & attrs' & -> & -> & TA & FF).
  exact (fl_required _ _ _ _ _ _ FF).
Qed.
Print Assumptions C36_required.

(** C36.  What is required is a property: always if flattening is recursive,
    otherwise if that is so in the nested schemas. *)
Theorem C36_required_listed : forall o n c v v' ps rs, node_class c -> has_type Nodes 0 (TClass c) v -> flatten o n v = Ok v' -> describes v' ps rs ->
  (recursive o = true \/ forall ops ors x q qs ss, describes v ops ors -> In (x, q) ops -> describes q qs ss -> incl ss (map fst qs)) ->
  incl rs (map fst ps).
Proof.
  intros o n c v v' ps rs NC T Fl D H. destruct (flatten_result _ _ _ _ _ _ _ NC T Fl D) as (attrs & attrs' & -> & -> & TA & FF).
  exact (flattens_required _ _ _ _ _ _ FF H).
Qed.
Print Assumptions C36_required_listed.

(** C36.  Other properties are refused; the rest of the schema is kept. *)
Theorem C36_rest : forall o n c attrs v', node_class c -> has_type Nodes 0 (TClass c) (VObj c attrs) -> flatten o n (VObj c attrs) = Ok v' ->
  exists attrs', v' = VObj c attrs' /\ In (str "additionalProperties", VBool false) attrs' /\
  forall x w, ~ In x [str "properties"; str "additionalProperties"; str "required"] -> (In (x, w) attrs' <-> In (x, w) attrs).
Proof.
  intros o n c attrs v' NC T Fl. pose proof (proj1 (node_typed 0 c _ NC) T) as (at0 & Q & TA). injection Q as <-.
  destruct (flatten_spec o (S (vdepth (VObj c attrs))) c attrs NC TA ltac:(lia)) as (attrs' & ps & rs & Fl' & FF).
  assert (Q : VObj c attrs' = v').
  { apply (flatten_more _ _ (Nat.max n (S (vdepth (VObj c attrs))))) in Fl; [|lia]. apply (flatten_more _ _ (Nat.max n (S (vdepth (VObj c attrs))))) in Fl'; [|lia]. congruence. }
  subst v'. exists attrs'. split; [reflexivity|]. split; [apply dict_get_in; exact (fl_closed _ _ _ _ _ _ FF)|].
  pose proof (node_attrs_nodup c NC) as NA. pose proof (attrs_nodup _ _ TA NA) as N1. pose proof (attrs_nodup _ _ (fl_typed _ _ _ _ _ _ FF) NA) as N2.
  intros x w NI. cbn [In] in NI. assert (X : dict_get attrs' x = dict_get attrs x) by (apply (fl_rest _ _ _ _ _ _ FF); intros ->; tauto).
  split; intros I; apply dict_get_in; [apply (dict_get_nodup _ _ _ N2) in I | apply (dict_get_nodup _ _ _ N1) in I]; congruence.
Qed.
Print Assumptions C36_rest.

(** C36.  Whenever the schema can be read, [flatten_schema] returns the document
    of the flattened schema. *)
Theorem C36_schema : forall o schema v, json_wf schema -> json_to_object Nodes false 0 (TClass c_top) schema = Ok v ->
  exists n v' j, forall k, n <= k -> flatten o k v = Ok v' /\ image Nodes v' j /\ flatten_schema o k schema = Ok j.
Proof.
  intros o schema v WF R. destruct (flatten_schema_total o schema v WF R) as (attrs & attrs' & ps & rs & -> & FF & j & W & S).
  assert (NC : node_class c_top) by (right; reflexivity).
  pose proof (json_to_object_sound Nodes false nodes_ok 0 (TClass c_top) schema _ WF R) as T.
  destruct (C36_total o c_top _ NC T) as (n & v' & H).
  exists (Nat.max n (Datatypes.S (vdepth (VObj c_top attrs)))), v', j. intros k L. destruct (H k ltac:(lia)) as (Fl & T'). split; [exact Fl|].
  pose proof (S k ltac:(lia)) as Fs. split; [|exact Fs].
  unfold flatten_schema in Fs. rewrite R in Fs. cbn [bind] in Fs. rewrite Fl in Fs. cbn [bind] in Fs.
  apply (object_to_json_image Nodes nodes_ok); [|exact Fs]. apply (nodal_conforms (Datatypes.S (vdepth v'))); [lia|].
  exists (TClass c_top). split; [apply ti_class | exact T'].
Qed.
Print Assumptions C36_schema.

(** * The schema of tests/test_classdef.py 243-306 *)

Definition nested : json := JObj [(str "$schema", JStr (str "https://json-schema.org/draft/2020-12/schema"));
  (str "type", JStr (str "object"));
  (str "properties", JObj [(str "meta", JObj [(str "type", JStr (str "object"));
  (str "properties", JObj [(str "ts", JObj [(str "type", JStr (str "string"));
  (str "format", JStr (str "date-time"))]);
  (str "action", JObj [(str "type", JStr (str "string"));
  (str "enum", JArr [JStr (str "U"); JStr (str "D")])])]);
  (str "additionalProperties", JBool false);
  (str "required", JArr [JStr (str "ts")])]);
  (str "key", JObj [(str "type", JStr (str "object"));
  (str "properties", JObj [(str "id", JObj [(str "type", JStr (str "integer"));
  (str "format", JStr (str "int64"))])]);
  (str "additionalProperties", JBool false);
  (str "required", JArr [JStr (str "id")])]);
  (str "value", JObj [(str "type", JStr (str "object"));
  (str "properties", JObj [(str "name", JObj [(str "type", JStr (str "string"));
  (str "maxLength", JInt 255);
  (str "description", JStr (str "Display name."))]);
  (str "created_at", JObj [(str "type", JStr (str "string"));
  (str "format", JStr (str "date-time"));
  (str "description", JStr (str "Timestamp of when the record was created."))]);
  (str "updated_at", JObj [(str "type", JStr (str "string"));
  (str "format", JStr (str "date-time"));
  (str "description", JStr (str "Timestamp of when the record was updated."))]);
  (str "nested", JObj [(str "type", JStr (str "object"));
  (str "properties", JObj [(str "id", JObj [(str "type", JStr (str "integer"));
  (str "format", JStr (str "int64"))])]);
  (str "additionalProperties", JBool false);
  (str "required", JArr [JStr (str "id")])])]);
  (str "additionalProperties", JBool false);
  (str "required", JArr [JStr (str "created_at"); JStr (str "updated_at")])])]);
  (str "additionalProperties", JBool false);
  (str "required", JArr [JStr (str "key")])].

(** (The order of the properties of a schema is that of the fields; that of
    the tests differs, which does not matter to ==.) *)
Definition flat_all : json := JObj [(str "type", JStr (str "object"));
  (str "properties", JObj [(str "meta.ts", JObj [(str "type", JStr (str "string"));
  (str "format", JStr (str "date-time"))]);
  (str "meta.action", JObj [(str "type", JStr (str "string"));
  (str "enum", JArr [JStr (str "U"); JStr (str "D")])]);
  (str "key.id", JObj [(str "type", JStr (str "integer"));
  (str "format", JStr (str "int64"))]);
  (str "value.name", JObj [(str "description", JStr (str "Display name."));
  (str "type", JStr (str "string"));
  (str "maxLength", JInt 255)]);
  (str "value.created_at", JObj [(str "description", JStr (str "Timestamp of when the record was created."));
  (str "type", JStr (str "string"));
  (str "format", JStr (str "date-time"))]);
  (str "value.updated_at", JObj [(str "description", JStr (str "Timestamp of when the record was updated."));
  (str "type", JStr (str "string"));
  (str "format", JStr (str "date-time"))]);
  (str "value.nested.id", JObj [(str "type", JStr (str "integer"));
  (str "format", JStr (str "int64"))])]);
  (str "additionalProperties", JBool false);
  (str "required", JArr [JStr (str "meta.ts"); JStr (str "key.id"); JStr (str "value.created_at"); JStr (str "value.updated_at"); JStr (str "value.nested.id")]);
  (str "$schema", JStr (str "https://json-schema.org/draft/2020-12/schema"))].

Definition flat_once : json := JObj [(str "type", JStr (str "object"));
  (str "properties", JObj [(str "ts", JObj [(str "type", JStr (str "string"));
  (str "format", JStr (str "date-time"))]);
  (str "action", JObj [(str "type", JStr (str "string"));
  (str "enum", JArr [JStr (str "U"); JStr (str "D")])]);
  (str "id", JObj [(str "type", JStr (str "integer"));
  (str "format", JStr (str "int64"))]);
  (str "name", JObj [(str "description", JStr (str "Display name."));
  (str "type", JStr (str "string"));
  (str "maxLength", JInt 255)]);
  (str "created_at", JObj [(str "description", JStr (str "Timestamp of when the record was created."));
  (str "type", JStr (str "string"));
  (str "format", JStr (str "date-time"))]);
  (str "updated_at", JObj [(str "description", JStr (str "Timestamp of when the record was updated."));
  (str "type", JStr (str "string"));
  (str "format", JStr (str "date-time"))]);
  (str "nested", JObj [(str "type", JStr (str "object"));
  (str "properties", JObj [(str "id", JObj [(str "type", JStr (str "integer"));
  (str "format", JStr (str "int64"))])]);
  (str "additionalProperties", JBool false);
  (str "required", JArr [JStr (str "id")])])]);
  (str "additionalProperties", JBool false);
  (str "required", JArr [JStr (str "ts"); JStr (str "id"); JStr (str "created_at"); JStr (str "updated_at")]);
  (str "$schema", JStr (str "https://json-schema.org/draft/2020-12/schema"))].

Definition deep_qualified := {| qualified_names := true; recursive := true |}.
Definition shallow_plain := {| qualified_names := false; recursive := false |}.
Definition deep_plain := {| qualified_names := false; recursive := true |}.

Definition read_top (j : json) : res value := json_to_object Nodes false 0 (TClass c_top) j.

Example C36_witness_deep : flatten_schema deep_qualified 10 nested = Ok flat_all.
Proof. vm_compute. reflexivity. Qed.
Example C36_witness_shallow : flatten_schema shallow_plain 10 nested = Ok flat_once.
Proof. vm_compute. reflexivity. Qed.

(** Tools for the examples. *)
Definition props_of (v : value) : list (pystr * value) := match get_properties v with Ok o => odef o | Err _ => [] end.
Definition reqs_of (v : value) : list pystr := match get_required v with Ok o => odef o | Err _ => [] end.
Definition the {A} (d : A) (r : res A) : A := match r with Ok x => x | Err _ => d end.
Definition good {A} (r : res A) : bool := match r with Ok _ => true | Err _ => false end.

Lemma the_ok : forall A (d : A) r, good r = true -> r = Ok (the d r).
Proof. intros A d [x|] H; [reflexivity | discriminate H]. Qed.

Lemma describes_of : forall v, is_object_node v && good (get_properties v) && good (get_required v) = true -> describes v (props_of v) (reqs_of v).
Proof.
  intros v H. apply andb_true_iff in H. destruct H as (H & H3). apply andb_true_iff in H. destruct H as (H1 & H2).
  apply object_node_spec in H1. destruct H1 as (c & attrs & -> & NC). unfold props_of, reqs_of.
  unfold get_properties, get_required, getattr in *.
  destruct (dict_get attrs (str "properties")) as [p|] eqn:Gp; [|discriminate H2]. destruct (dict_get attrs (str "required")) as [r|] eqn:Gr; [|discriminate H3].
  cbn [bind] in *. apply dict_get_in in Gp, Gr. eapply ds_node; try eassumption.
  - destruct p; try discriminate H2; [left; auto|]. right. destruct (mapM _ kvs) as [ps|] eqn:M; [|discriminate H2]. cbn [bind odef]. f_equal.
    apply (proj1 (mapM_ok _ _ _ _ _)) in M. clear - M. induction M as [|[k w] [x u] kvs ps K M IH]; [reflexivity|]. cbn [fst snd map] in *.
    destruct k; try discriminate K. injection K as <- <-. f_equal. exact IH.
  - destruct r; try discriminate H3; [left; auto|]. right. destruct (mapM _ vs) as [rs|] eqn:M; [|discriminate H3]. cbn [bind odef]. f_equal.
    apply (proj1 (mapM_ok _ _ _ _ _)) in M. clear - M. induction M as [|w x kvs ps K M IH]; [reflexivity|]. cbn [map].
    destruct w; try discriminate K. injection K as <-. f_equal. exact IH.
Qed.

Definition no_value : value := VNone.
Definition top_of (j : json) : value := the no_value (read_top j).
Definition flat_of (o : options) (j : json) : value := the no_value (flatten o 10 (top_of j)).

(** The hypotheses hold of the schema that is read. *)
Definition int64_node : value :=
  VObj 2 [(str "title", VNone); (str "description", VNone); (str "type", VStr (str "integer")); (str "format", VStr (str "int64"));
    (str "const", VNone); (str "default", VNone); (str "examples", VNone); (str "enum", VNone); (str "minimum", VNone); (str "maximum", VNone)].

Ltac find := vm_compute; repeat first [left; reflexivity | right].
Ltac described := apply describes_of; vm_compute; reflexivity.

Example C36_witness_typed : json_wf nested /\ read_top nested = Ok (top_of nested) /\ has_type Nodes 0 (TClass c_top) (top_of nested).
Proof.
  assert (WF : json_wf nested) by (unfold nested; repeat (constructor; cbn); nodup).
  assert (R : read_top nested = Ok (top_of nested)) by (apply the_ok; vm_compute; reflexivity).
  split; [exact WF|]. split; [exact R|]. exact (json_to_object_sound Nodes false nodes_ok 0 (TClass c_top) nested _ WF R).
Qed.

Example C36_witness_leaf :
  leaf true (top_of nested) [str "value"; str "nested"; str "id"] int64_node /\ asked true (top_of nested) [str "value"; str "nested"; str "id"] /\
  In (str "value.nested.id", int64_node) (props_of (flat_of deep_qualified nested)) /\
  describes (flat_of deep_qualified nested) (props_of (flat_of deep_qualified nested)) (reqs_of (flat_of deep_qualified nested)).
Proof.
  assert (exists w u, In (str "value", w) (props_of (top_of nested)) /\ describes w (props_of w) (reqs_of w) /\
    In (str "nested", u) (props_of w) /\ describes u (props_of u) (reqs_of u) /\ In (str "id", int64_node) (props_of u) /\ In (str "id") (reqs_of u)) as (w & u & I1 & D1 & I2 & D2 & I3 & I4).
  { set (w := the no_value (match dict_get (props_of (top_of nested)) (str "value") with Some w => Ok w | None => Err EKey end)).
    set (u := the no_value (match dict_get (props_of w) (str "nested") with Some w => Ok w | None => Err EKey end)).
    exists w, u. split; [apply dict_get_in; vm_compute; reflexivity|]. split; [described|]. split; [apply dict_get_in; vm_compute; reflexivity|]. split; [described|].
    split; find. }
  assert (N : ~ for_objects int64_node) by (intros H; apply object_node_spec in H; discriminate H).
  assert (O1 : for_objects w) by (inversion D1; subst; eexists _, _; eauto). assert (O2 : for_objects u) by (inversion D2; subst; eexists _, _; eauto).
  assert (D0 : describes (top_of nested) (props_of (top_of nested)) (reqs_of (top_of nested))) by described.
  split; [|split; [|split]].
  - eapply lf_in; [reflexivity | exact D0 | exact I1 | exact O1|]. eapply lf_in; [reflexivity | exact D1 | exact I2 | exact O2|]. eapply lf_here; eassumption.
  - eapply ak_in; [reflexivity | exact D0 | exact I1 | exact O1|]. eapply ak_in; [reflexivity | exact D1 | exact I2 | exact O2|]. eapply ak_here; eassumption.
  - find.
  - described.
Qed.

(** A schema without dots in its names. *)
Definition obj (ps : list (string * json)) (rs : list string) : json :=
  JObj [(str "type", JStr (str "object")); (str "properties", JObj (map (fun q => (str (fst q), snd q)) ps));
        (str "additionalProperties", JBool false); (str "required", JArr (map (fun x => JStr (str x)) rs))].
Definition top (ps : list (string * json)) (rs : list string) : json :=
  JObj [(str "$schema", JStr (str "https://json-schema.org/draft/2020-12/schema"));
        (str "type", JStr (str "object")); (str "properties", JObj (map (fun q => (str (fst q), snd q)) ps));
        (str "additionalProperties", JBool false); (str "required", JArr (map (fun x => JStr (str x)) rs))].
Definition typed (t : string) : json := JObj [(str "type", JStr (str t))].

Open Scope string_scope.
Open Scope list_scope.
Definition small : json := top [("a", obj [("x", typed "integer")] ["x"]); ("b", typed "string")] ["b"].

Lemma describes_is : forall v ps rs, attrs_typed (node_attrs 6) (match v with VObj _ a => a | _ => [] end) \/ NoDup (map fst (match v with VObj _ a => a | _ => [] end)) ->
  is_object_node v && good (get_properties v) && good (get_required v) = true -> describes v ps rs -> ps = props_of v /\ rs = reqs_of v.
Proof.
  intros v ps rs H G D. pose proof (describes_of v G) as D'. inversion D as [c attrs p r ? ? NC]; subst. eapply describes_fun; [|exact D | exact D'].
  destruct H as [H|H]; [|exact H]. eapply attrs_nodup; [exact H | apply node_attrs_nodup; left; reflexivity].
Qed.

Example C36_witness_undotted : undotted true (top_of small).
Proof.
  intros path p x L. revert x.
  assert (D0 : forall ps rs, describes (top_of small) ps rs -> ps = props_of (top_of small)).
  { intros ps rs D. apply (describes_is _ ps rs) in D; [apply D | right; vm_compute; nodup | vm_compute; reflexivity]. }
  set (w := the no_value (match dict_get (props_of (top_of small)) (str "a") with Some w => Ok w | None => Err EKey end)).
  assert (D1 : forall ps rs, describes w ps rs -> ps = props_of w).
  { intros ps rs D. apply (describes_is _ ps rs) in D; [apply D | right; vm_compute; nodup | vm_compute; reflexivity]. }
  assert (X0 : forall y q, In (y, q) (props_of (top_of small)) -> ~ In 46%N y /\ (for_objects q -> q = w)).
  { intros y q I. vm_compute in I. destruct I as [I|[I|[]]]; injection I as <- <-; (split; [intros J; cbn in J; intuition discriminate|]); intros O; [vm_compute; reflexivity|].
    apply object_node_spec in O. discriminate O. }
  assert (X1 : forall y q, In (y, q) (props_of w) -> ~ In 46%N y /\ ~ for_objects q).
  { intros y q I. vm_compute in I. destruct I as [I|[]]; injection I as <- <-; (split; [intros J; cbn in J; intuition discriminate|]); intros O.
    apply object_node_spec in O. discriminate O. }
  inversion L as [? ps rs y ? D I N|? ps rs y o path' ? _ D I O L'|? ps rs y o qs ss z ? B]; subst; [| |discriminate B]; apply D0 in D; subst ps; destruct (X0 _ _ I) as (N1 & N2).
  - intros x [<-|[]]. exact N1.
  - rewrite (N2 O) in L'. inversion L' as [? ps' rs' y' ? D' I' N'|? ps' rs' y' o' path'' ? _ D' I' O' L''|? ? ? ? ? ? ? ? ? B]; subst; [| |discriminate B];
      apply D1 in D'; subst ps'; destruct (X1 _ _ I') as (N3 & N4); [|contradiction].
    intros x [<-|[<-|[]]]; assumption.
Qed.

(** * What does not hold *)

(** Without qualified names, a leaf may be lost. *)
Theorem C36_plain_names_refuted : exists schema v v' ps rs path p,
  read_top schema = Ok v /\ flatten deep_plain 10 v = Ok v' /\ describes v' ps rs /\ leaf true v path p /\ forall x, ~ In (x, p) ps.
Proof.
  exists (top [("a", obj [("id", typed "integer")] []); ("b", obj [("id", typed "string")] [])] []).
  match goal with |- exists v v' ps rs path p, read_top ?s = _ /\ _ => set (s0 := s) end.
  set (a := the no_value (match dict_get (props_of (top_of s0)) (str "a") with Some w => Ok w | None => Err EKey end)).
  set (q := the no_value (match dict_get (props_of a) (str "id") with Some w => Ok w | None => Err EKey end)).
  exists (top_of s0), (flat_of deep_plain s0), (props_of (flat_of deep_plain s0)), (reqs_of (flat_of deep_plain s0)), [str "a"; str "id"], q.
  split; [apply the_ok; vm_compute; reflexivity|]. split; [apply the_ok; vm_compute; reflexivity|]. split; [described|]. split.
  - eapply lf_in; [reflexivity | described | apply dict_get_in; instantiate (1 := a); vm_compute; reflexivity | apply object_node_spec; vm_compute; reflexivity|].
    eapply lf_here; [described | apply dict_get_in; vm_compute; reflexivity | intros O; apply object_node_spec in O; vm_compute in O; discriminate O].
  - intros x I. vm_compute in I. destruct I as [I|[]]. discriminate I.
Qed.
Print Assumptions C36_plain_names_refuted.

(** Qualified names may clash if property names have dots. *)
Theorem C36_dotted_refuted : exists schema v v' ps rs path p,
  read_top schema = Ok v /\ flatten deep_qualified 10 v = Ok v' /\ describes v' ps rs /\ leaf true v path p /\ forall x, ~ In (x, p) ps.
Proof.
  exists (top [("a", obj [("id", typed "integer")] []); ("a.id", typed "string")] []).
  match goal with |- exists v v' ps rs path p, read_top ?s = _ /\ _ => set (s0 := s) end.
  set (a := the no_value (match dict_get (props_of (top_of s0)) (str "a") with Some w => Ok w | None => Err EKey end)).
  set (q := the no_value (match dict_get (props_of a) (str "id") with Some w => Ok w | None => Err EKey end)).
  exists (top_of s0), (flat_of deep_qualified s0), (props_of (flat_of deep_qualified s0)), (reqs_of (flat_of deep_qualified s0)), [str "a"; str "id"], q.
  split; [apply the_ok; vm_compute; reflexivity|]. split; [apply the_ok; vm_compute; reflexivity|]. split; [described|]. split.
  - eapply lf_in; [reflexivity | described | apply dict_get_in; instantiate (1 := a); vm_compute; reflexivity | apply object_node_spec; vm_compute; reflexivity|].
    eapply lf_here; [described | apply dict_get_in; vm_compute; reflexivity | intros O; apply object_node_spec in O; vm_compute in O; discriminate O].
  - intros x I. vm_compute in I. destruct I as [I|[]]. discriminate I.
Qed.
Print Assumptions C36_dotted_refuted.

(** What is required within an object that is not required becomes required. *)
Theorem C36_optional_refuted : exists schema v v' ops ors ps rs x y,
  read_top schema = Ok v /\ describes v ops ors /\ ors = [] /\ flatten deep_qualified 10 v = Ok v' /\ describes v' ps rs /\
  In x (map fst ops) /\ In (x ++ str "." ++ y) rs.
Proof.
  exists (top [("a", obj [("id", typed "integer")] ["id"])] []).
  match goal with |- exists v v' ops ors ps rs x y, read_top ?s = _ /\ _ => set (s0 := s) end.
  exists (top_of s0), (flat_of deep_qualified s0), (props_of (top_of s0)), (reqs_of (top_of s0)), (props_of (flat_of deep_qualified s0)), (reqs_of (flat_of deep_qualified s0)), (str "a"), (str "id").
  split; [apply the_ok; vm_compute; reflexivity|]. split; [described|]. split; [vm_compute; reflexivity|]. split; [apply the_ok; vm_compute; reflexivity|]. split; [described|].
  split; find.
Qed.
Print Assumptions C36_optional_refuted.

(** A required object without listed properties disappears. *)
Theorem C36_empty_refuted : exists schema v v' ops ors x,
  read_top schema = Ok v /\ describes v ops ors /\ In x (map fst ops) /\ In x ors /\ flatten deep_qualified 10 v = Ok v' /\ describes v' [] [].
Proof.
  exists (top [("a", typed "object")] ["a"]).
  match goal with |- exists v v' ops ors x, read_top ?s = _ /\ _ => set (s0 := s) end.
  exists (top_of s0), (flat_of deep_qualified s0), (props_of (top_of s0)), (reqs_of (top_of s0)), (str "a").
  split; [apply the_ok; vm_compute; reflexivity|]. split; [described|]. split; [find|]. split; [find|]. split; [apply the_ok; vm_compute; reflexivity|].
  exact (describes_of (flat_of deep_qualified s0) eq_refl).
Qed.
Print Assumptions C36_empty_refuted.

(** Without recursion, a name may be required that is no property. *)
Theorem C36_required_listed_refuted : exists schema v v' ps rs x,
  read_top schema = Ok v /\ flatten shallow_plain 10 v = Ok v' /\ describes v' ps rs /\ In x rs /\ ~ In x (map fst ps).
Proof.
  exists (top [("a", obj [("id", typed "integer")] ["name"])] []).
  match goal with |- exists v v' ps rs x, read_top ?s = _ /\ _ => set (s0 := s) end.
  exists (top_of s0), (flat_of shallow_plain s0), (props_of (flat_of shallow_plain s0)), (reqs_of (flat_of shallow_plain s0)), (str "name").
  split; [apply the_ok; vm_compute; reflexivity|]. split; [apply the_ok; vm_compute; reflexivity|]. split; [described|]. split; [find|].
  intros I. vm_compute in I. destruct I as [I|[]]. discriminate I.
Qed.
Print Assumptions C36_required_listed_refuted.
