(** C58: titles, descriptions, defaults and examples in generated schemas. *)
From Coq Require Import String List NArith ZArith Bool Lia.
From Verif Require Import Base Json PyTypes TypeAlgebra Deser Ser Samples Lists SpecTypes SpecTyping SpecFields Catalog CatalogProofs Schema SpecSchema SpecGenerate SpecValid
  SchemaClass SchemaForm SpecMirror Docstring DocType SpecDocType PropDocType PropFields PropSchema PropMirror SpecNotes NotesProofs.
Import ListNotations.
Open Scope list_scope.
Open Scope nat_scope.

(** C58.  A document, and each of its definitions, carries the notes of its type,
    and so do all its parts; fields and definitions have their own in addition. *)
Theorem C58_notes : forall E S n k t doc, env_ok E -> canonical_env E -> classdef_to_schema E S n k t = Ok doc ->
  (exists ns, own S true t ns /\ noted E S true t ns doc) /\
  forall x d, defined doc x d -> exists w e, names S x w /\ get (s_catalog S) w = Ok e /\
    match en_schema e with
    | None => exists ns ns', own S false w ns /\ definition_notes S e w ns ns' /\ noted E S false w ns' d
    | Some s => exists o o' ns ns', s = JObj o /\ d = JObj o' /\ carries o ns /\ definition_notes S e w ns ns' /\ carries o' ns'
    end.
Proof. intros E S n k t doc OK CE H. exact (document_notes E S OK CE n k t doc H). Qed.
Print Assumptions C58_notes.

(** C58, for a class that is not registered: title and description of the class,
    and of each field its description and its default. *)
Theorem C58_class : forall E S n k c cl ps o, env_ok E -> canonical_env E -> classdef_to_schema E S n k (TClass c) = Ok (JObj o) ->
  (forall e, get (s_catalog S) (TClass c) <> Ok e) -> get_class E c = Some cl -> (forall ms, c_kind cl <> CEnum ms) ->
  class_properties E cl = Ok ps -> distinct_names ps ->
  (s_describe S = true -> dict_get o (str "title") = said (s_short S (TClass c)) /\ dict_get o (str "description") = said (s_long S (TClass c))) /\
  (s_describe S = false -> dict_get o (str "title") = None /\ dict_get o (str "description") = None) /\
  forall x t p, In (x, t) ps -> schema_name x t p -> exists qs q, dict_get o (str "properties") = Some (JObj qs) /\ In (p, JObj q) qs /\
    (forall s, said (dict_get (s_props S c) x) = Some s -> dict_get q (str "description") = Some s /\ dict_get q (str "title") = None) /\
    (forall v, dict_get (s_attrs S c) x = Some v -> written_default v -> exists j, object_to_json E v = Ok j /\ dict_get q (str "default") = Some j) /\
    ((forall v, dict_get (s_attrs S c) x = Some v -> ~ written_default v) -> dict_get q (str "default") = None).
Proof.
  intros E S n k c cl ps o OK CE H NR GC NE CP DN. destruct (document_notes E S OK CE n k _ _ H) as ((ns & O & X) & _).
  assert (Qn : ns = documented S (TClass c)).
  { inversion O; subst; try reflexivity; try contradiction.
    - match goal with Z : is_simple _ |- _ => destruct Z as (? & Z & _); discriminate Z end.
    - match goal with Z : get _ _ = Ok _ |- _ => destruct (NR _ Z) end. }
  assert (Z : carries o ns /\ (ps <> [] -> exists qs, dict_get o (str "properties") = Some (JObj qs) /\
        Forall2 (fun xt yq => schema_name (fst xt) (snd xt) (fst yq) /\ exists w ns1 ns2, read_type (snd xt) w /\ own S true w ns1 /\
          field_notes E S c (fst xt) ns1 ns2 /\ noted E S true w ns2 (snd yq)) ps qs)).
  { inversion X as [? ? ? ? SI| ? ? ? ? ? GE | | | | |? ? ? ? ? BI|? ? cl' ms' ? ? ? GC' KC'|? ? ? ? ? ? ? ? BI|? ? ? ? ? ? ? ? BI| |? ? cl' ps' ? ? ? GC' NE' CP' CA FA]; subst.
    - destruct SI as (? & SI & _). discriminate SI.
    - destruct (NR _ GE).
    - destruct BI as [(? & BI & _)|(? & BI)]; discriminate BI.
    - rewrite GC in GC'. injection GC' as <-. destruct (NE _ KC').
    - destruct BI as [BI|BI]; discriminate BI.
    - destruct BI as [(BI & _)|(? & BI & _)]; discriminate BI.
    - rewrite GC in GC'. injection GC' as <-. rewrite CP in CP'. injection CP' as <-. split; [exact CA | exact (FA DN)]. }
  destruct Z as ((C1 & C2 & _ & _) & FA). rewrite Qn in C1, C2. unfold documented in C1, C2. split; [intros D; rewrite D in C1, C2; auto|]. split; [intros D; rewrite D in C1, C2; auto|].
  intros x t p I SN. destruct FA as (qs & GP & FA); [intros Q; subst ps; destruct I|]. destruct (Forall2_in_l _ _ _ _ _ _ FA I) as ([y q] & J & SN' & w & ns1 & ns2 & _ & _ & (F1 & F2 & _ & F4) & NQ).
  cbn [fst snd] in *. assert (Qp : y = p) by (apply out_name_spec in SN, SN'; congruence). subst y.
  assert (CQ : exists oq, q = JObj oq /\ carries oq ns2).
  { clear - NQ. induction NQ; eauto. }
  destruct CQ as (oq & -> & D1 & D2 & D3 & _). exists qs, oq. split; [exact GP|]. split; [exact J|]. split.
  - intros s SD. rewrite SD in F4. rewrite D1, D2. destruct F4. auto.
  - rewrite D3. split; [exact F1 | exact F2].
Qed.
Print Assumptions C58_class.

(** C58, together with C54: the description of a field is the text of the first
    class, in the order of method resolution, whose docstring describes it. *)
Theorem C58_docstrings : forall E S n k c cl ps o builtins mro before y bs after x t p text, env_ok E -> canonical_env E ->
  classdef_to_schema E S n k (TClass c) = Ok (JObj o) ->
  (forall e, get (s_catalog S) (TClass c) <> Ok e) -> get_class E c = Some cl -> (forall ms, c_kind cl <> CEnum ms) ->
  class_properties E cl = Ok ps -> distinct_names ps ->
  (forall z cs, In (z, cs) mro -> names_once builtins z) -> get_class_property_docstrings builtins None mro = Ok (s_props S c) ->
  mro = before ++ (y, bs) :: after -> describes y x text -> text <> [] -> (forall z cs raw, In (z, cs) before -> ~ describes z x raw) ->
  In (x, t) ps -> schema_name x t p ->
  exists qs q, dict_get o (str "properties") = Some (JObj qs) /\ In (p, JObj q) qs /\ dict_get q (str "description") = Some (JStr text) /\ dict_get q (str "title") = None.
Proof.
  intros E S n k c cl ps o builtins mro before y bs after x t p text OK CE H NR GC NE CP DN NO PD QM DT NT NB I SN.
  destruct (C58_class E S n k c cl ps o OK CE H NR GC NE CP DN) as (_ & _ & X). destruct (X x t p I SN) as (qs & q & G & J & D & _). exists qs, q. split; [exact G|]. split; [exact J|].
  destruct (C54_properties builtins None mro _ NO PD) as (ND & IFF).
  assert (IN : In (x, text) (s_props S c)) by (apply IFF; exists before, y, bs, after, text; repeat split; assumption).
  apply D. rewrite (dict_get_nodup _ _ _ ND IN). destruct text; [destruct (NT eq_refl) | reflexivity].
Qed.
Print Assumptions C58_docstrings.

(** *** A program *)

(** @dataclass class Derived(Base3): id: int; name: str = "none", documented as in
    [hierarchy]; @dataclass class Holder: part: Derived; spare: Derived; box: Box,
    which describes [part] only; @dataclass class Box: size: int, registered with an example. *)
Definition Shelf : env := mkEnv
  [mkClass 0 (str "Derived") (CData false [mkField (str "id") tint None; mkField (str "name") tstr (Some (Ok (VStr (str "none"))))]) None None;
   mkClass 0 (str "Holder") (CData false [mkField (str "part") (TClass 0) None; mkField (str "spare") (TClass 0) None; mkField (str "box") (TClass 2) None]) None None;
   mkClass 0 (str "Box") (CData false [mkField (str "size") tint None]) None None] [] (fun ps => ps).

Definition ten : json := JArr [JObj [(str "size", JInt 10)]].

Definition shelving (described : bool) : senv := {|
  s_catalog := register_all [(TClass 2, {| en_schema := None; en_identifier := str "Box"; en_examples := Some ten |})];
  s_eval := fun _ => None;
  s_forward := fun _ => true;
  s_short := fun t => match t with TClass 0 => Some (str "The rest.") | TClass 2 => Some (str "A box.") | _ => None end;
  s_long := fun t => match t with TClass 0 => Some (str "In detail.") | _ => None end;
  s_props := fun c => match c with
                      | 0 => match get_class_property_docstrings exceptions None hierarchy with Ok r => r | Err _ => [] end
                      | 1 => [(str "part", str "The part held.")]
                      | _ => []
                      end;
  s_attrs := fun c => match c with 0 => [(str "name", VStr (str "none"))] | _ => [] end;
  s_tenth := fun _ => FFin false 1 (-3);
  s_path := str "#/definitions/";
  s_describe := described;
  s_exemplify := true
|}.

Ltac shelf_class c H :=
  unfold get_class, Shelf in H; cbn [e_classes] in H;
  destruct c as [|[|[|?c]]]; cbn [nth_error] in H;
  [injection H as <-..|destruct c; discriminate H].

Lemma shelf_ok : env_ok Shelf.
Proof.
  intros c cl H. shelf_class c H; split; cbn; try discriminate; try (intros; discriminate).
  all: try (nodup; fail).
  all: intros fr fs f v Q I D; injection Q as <- <-; cbn [In] in I;
       repeat destruct I as [<-|I]; try contradiction; cbn [f_default f_type] in *; try discriminate D; injection D as <-.
  apply ht_scalar. exact Logic.I.
Qed.

Lemma shelf_canonical : canonical_env Shelf.
Proof.
  split; [intros m s a t L; discriminate L|].
  intros c cl x t G I. shelf_class c G; cbn [raw_fields c_kind map f_name f_type In] in I;
    repeat (destruct I as [I|I]; [injection I as <- <-|]); try contradiction; prove_canonical.
Qed.

Definition holder_schema : json := match classdef_to_schema Shelf (shelving true) 20 20 (TClass 1) with Ok d => d | _ => JNull end.

(** What the schema of the property says beside validation. *)
Definition notes_of (doc : json) (p : pystr) : option notes :=
  match doc with
  | JObj o => match dict_get o (str "properties") with
              | Some (JObj qs) => match dict_get qs p with
                                  | Some (JObj q) => Some (Notes (dict_get q (str "title")) (dict_get q (str "description")) (dict_get q (str "default")) (dict_get q (str "examples")))
                                  | _ => None
                                  end
              | _ => None
              end
  | _ => None
  end.

Example C58_witness : env_ok Shelf /\ canonical_env Shelf /\ classdef_to_schema Shelf (shelving true) 20 20 (TClass 1) = Ok holder_schema /\
  notes_of holder_schema (str "part") = Some (Notes None (Some (jstr "The part held.")) None None) /\
  notes_of holder_schema (str "spare") = Some (Notes (Some (jstr "The rest.")) (Some (jstr "In detail.")) None None) /\
  notes_of holder_schema (str "box") = Some no_notes /\
  (exists d, defined holder_schema (str "Box") (JObj d) /\ carries d (Notes (Some (jstr "A box.")) None None (Some ten))).
Proof.
  split; [exact shelf_ok|]. split; [exact shelf_canonical|]. do 4 (split; [vm_compute; reflexivity|]).
  exists (match holder_schema with JObj o => match dict_get o (str "definitions") with Some (JObj ds) => match dict_get ds (str "Box") with Some (JObj d) => d | _ => [] end | _ => [] end | _ => [] end).
  split; [|repeat split; vm_compute; reflexivity].
  exists (match holder_schema with JObj o => o | _ => [] end), (definitions_in holder_schema).
  split; [vm_compute; reflexivity|]. split; apply dict_get_in; vm_compute; reflexivity.
Qed.

Definition derived_schema : list (pystr * json) := match classdef_to_schema Shelf (shelving true) 20 20 (TClass 0) with Ok (JObj d) => d | _ => [] end.

Lemma unregistered : forall e, get (s_catalog (shelving true)) (TClass 0) <> Ok e.
Proof. intros e H. vm_compute in H. discriminate H. Qed.

(** The class itself: the docstrings of the whole hierarchy. *)
Example C58_witness_class : classdef_to_schema Shelf (shelving true) 20 20 (TClass 0) = Ok (JObj derived_schema) /\
  dict_get derived_schema (str "title") = Some (jstr "The rest.") /\ dict_get derived_schema (str "description") = Some (jstr "In detail.") /\
  notes_of (JObj derived_schema) (str "name") = Some (Notes None (Some (jstr "A text.")) (Some (jstr "none")) None) /\
  notes_of (JObj derived_schema) (str "id") = Some (Notes None (Some (jstr "A number.")) None None) /\
  exists qs q, dict_get derived_schema (str "properties") = Some (JObj qs) /\ In (str "id", JObj q) qs /\ dict_get q (str "description") = Some (jstr "A number.") /\ dict_get q (str "title") = None.
Proof.
  match goal with |- ?A /\ _ => assert (HA : A) by (vm_compute; reflexivity) end.
  split; [exact HA|]. do 4 (split; [vm_compute; reflexivity|]).
  destruct C54_witness_properties as (P1 & _ & P2 & P3).
  refine (C58_docstrings Shelf (shelving true) 20 20 0 _ [(str "id", tint); (str "name", tstr)] derived_schema exceptions hierarchy
    [(derived, [base3; an_object])] base3 [an_object] [(an_object, [])] (str "id") tint (str "id") (str "A number.") shelf_ok shelf_canonical HA unregistered eq_refl _ _ _ P2 _ eq_refl P3 _ _ _ _).
  - intros ms; discriminate.
  - vm_compute; reflexivity.
  - intros x t y u p I J A B. apply (same_key _ (fun f => out_name (fst f) (snd f)) [(str "id", tint); (str "name", tstr)]); try assumption.
    + vm_compute; nodup.
    + cbn [fst snd]. rewrite <- (proj1 (out_name_spec _ _ _) A). exact (proj1 (out_name_spec _ _ _) B).
  - vm_compute; reflexivity.
  - discriminate.
  - intros z cs raw [I|[]]. injection I as <- <-. intros (doc & d & W & PT & I).
    destruct W as [W _ _]. injection W as <-.
    match type of PT with ?r = _ => assert (Q : match r with Ok d => forallb (fun e => negb (pystr_eqb (fst e) (str "id"))) (Docstring.params d) = true | Err _ => True end) by (vm_compute; reflexivity) end.
    rewrite PT in Q. rewrite forallb_forall in Q. specialize (Q _ I). discriminate Q.
  - left; reflexivity.
  - apply out_name_spec. vm_compute; reflexivity.
Qed.

(** Descriptions of fields are written even if descriptions are not wanted. *)
Theorem C58_switch_refuted : exists E S n k t doc p s, env_ok E /\ canonical_env E /\ s_describe S = false /\
  classdef_to_schema E S n k t = Ok doc /\ notes_of doc p = Some (Notes None (Some (JStr s)) None None).
Proof.
  exists Shelf, (shelving false), 20, 20, (TClass 1), (match classdef_to_schema Shelf (shelving false) 20 20 (TClass 1) with Ok d => d | _ => JNull end), (str "part"), (str "The part held.").
  split; [exact shelf_ok|]. split; [exact shelf_canonical|]. repeat split; vm_compute; reflexivity.
Qed.
Print Assumptions C58_switch_refuted.
