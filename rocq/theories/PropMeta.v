(** C53: generated schemas are JSON schemas. *)
From Coq Require Import String List NArith ZArith Bool Lia.
From Verif Require Import Base Json PyTypes Deser Ser Catalog Schema Samples Lists PropRoundTrip PropSchema SpecSchema SpecGenerate SchemaProofs SpecMeta MetaProofs.
Import ListNotations.
Open Scope list_scope.
Open Scope nat_scope.

(** C53.  Whatever is taken to be a regular expression: the document that is
    generated for a type is a JSON Schema, if the types met in it and the
    registrations are [presentable]. *)
Theorem C53_schema : forall regex E S n k t doc, presentable regex E S t -> classdef_to_schema E S n k t = Ok doc -> schema regex doc.
Proof. exact document_schema. Qed.
Print Assumptions C53_schema.

(** - class Size(Enum): XS = "xs"; S = "s"; M = "m"; L = "l"; XL = "xl"
    - @dataclass class Item: name: Annotated[str, MaxLength(40)]; price: Annotated[float, Precision(6, 2)];
      stock: dict[Size, int]; note: Optional[str]; box: tuple[int, Optional[Blob], ...]; parts: list[Item]
    - class Blob, registered with a schema *)
Definition Stock : env := mkEnv
  [mkClass 0 (str "Size") (CEnum [(str "XS", jstr "xs"); (str "S", jstr "s"); (str "M", jstr "m"); (str "L", jstr "l"); (str "XL", jstr "xl")]) None None;
   mkClass 0 (str "Item") (CData false
     [mkField (str "name") (TAnnot tstr [AMaxLength 40]) None;
      mkField (str "price") (TAnnot (TScalar KFloat) [APrecision 6 2]) None;
      mkField (str "stock") (TDict (TClass 0) tint) None;
      mkField (str "note") (TUnion false [tstr; tnone]) None;
      mkField (str "box") (TTuple [tint; TClass 2]) None;
      mkField (str "parts") (TList (TClass 1)) None]) None None;
   mkClass 0 (str "Blob") (CPlain []) None None]
  [] (fun ps => ps).

Definition StockGen : senv := {|
  s_catalog := register_all
    [(TClass 1, {| en_schema := None; en_identifier := str "Item"; en_examples := Some (JArr [JObj [(str "name", jstr "nut")]]) |});
     (TClass 2, {| en_schema := Some (JObj [(str "type", jstr "string"); (str "format", jstr "blob")]); en_identifier := str "Blob"; en_examples := None |})];
  s_eval := fun _ => None;
  s_forward := fun _ => false;
  s_short := fun t => match t with TClass 1 => Some (str "An item.") | _ => None end;
  s_long := fun _ => None;
  s_props := fun c => if Nat.eqb c 1 then [(str "name", str "The name.")] else [];
  s_attrs := fun _ => [];
  s_tenth := fun n => if (n =? 2)%N then FFin false 5764607523034235 (-59) else FFin false 0 0;
  s_path := str "#/definitions/";
  s_describe := true;
  s_exemplify := true
|}.

Definition stock_type : typ := TUnion false [TSet (TClass 0); TLiteral [LStr (str "none")]; TClass 1].

Definition stock_types : list typ :=
  [stock_type; TSet (TClass 0); TClass 0; TLiteral [LStr (str "none")]; TClass 1; tstr; tint; tnone; TScalar KFloat;
   TAnnot tstr [AMaxLength 40]; TAnnot (TScalar KFloat) [APrecision 6 2]; TDict (TClass 0) tint; TUnion false [tstr; tnone];
   TTuple [tint; TClass 2]; TClass 2; TList (TClass 1)].

Lemma stock_met : forall t u, met Stock StockGen t u -> In t stock_types -> In u stock_types.
Proof.
  intros t u H. induction H as [t|t u _ IH|t u _ IH|k t u _ IH|ts t u I _ IH|op ts t u I _ IH|ls l u I _ IH|t md u _ IH
    |c cl ps x t u G P I _ IH|c cl ps x t w u G P I U _ IH|s w u Q _ IH]; intros J; try exact J; try discriminate Q; try apply IH.
  all: unfold stock_types, stock_type in J |- *; cbn [In] in J;
    repeat (destruct J as [J|J]; [try discriminate J; try (injection J; intros; subst); cbn [In] in *; try tauto|]); try contradiction.
  all: try (injection G as <-; vm_compute in P; injection P as <-; cbn [In] in I;
    repeat (destruct I as [I|I]; [injection I as <- <-; try (vm_compute in U; first [discriminate U | injection U as <-]); cbn [In]; unfold tint, tnone, tstr; tauto|]); destruct I).
  all: try (destruct I as [<-|[]]; cbn [lit_type]; unfold tstr; tauto).
Qed.

Definition literal_regex (p : pystr) : Prop := matches p [] <> None.

Lemma stock_get : forall u e, get (s_catalog StockGen) u = Ok e ->
  (en_schema e = None \/ en_schema e = Some (JObj [(str "type", jstr "string"); (str "format", jstr "blob")])) /\
  (en_examples e = None \/ en_examples e = Some (JArr [JObj [(str "name", jstr "nut")]])).
Proof.
  intros u e G. vm_compute in G.
  destruct u as [| | | | | | | | |c|s|]; try discriminate G.
  - destruct c as [|[|[|c]]]; try discriminate G; injection G as <-; split; cbn [en_schema en_examples]; auto.
  - repeat match type of G with
    | match (if ?b then _ else _) with _ => _ end = _ => destruct b
    | match (match ?x with _ => _ end) with _ => _ end = _ => destruct x
    end; try discriminate G; injection G as <-; split; cbn [en_schema en_examples]; auto.
Qed.

Lemma stock_presentable : presentable literal_regex Stock StockGen stock_type.
Proof.
  assert (R : forall u, met Stock StockGen stock_type u -> In u stock_types) by (intros u M; eapply stock_met; [exact M | left; reflexivity]).
  constructor.
  - intros M. apply R in M. unfold stock_types, stock_type in M. cbn [In] in M. cases_in M; discriminate M.
  - intros op M. apply R in M. unfold stock_types, stock_type in M. cbn [In] in M. cases_in M; discriminate M.
  - intros c cl ps M G P. apply R in M. unfold stock_types, stock_type in M. cbn [In] in M.
    cases_in M; try discriminate M; injection M as <-; injection G as <-; vm_compute in P; injection P as <-; cbn; nodup.
  - intros w md sig dec M I L. apply R in M. unfold stock_types, stock_type in M. cbn [In] in M.
    cases_in M; try discriminate M; injection M as <- <-; destruct I as [I|[]]; try discriminate I. injection I as <- <-. split; reflexivity.
  - intros c cl ms vs w M G K L F. apply R in M. unfold stock_types, stock_type in M. cbn [In] in M.
    cases_in M; try discriminate M. injection M as <- <-. injection G as <-. injection K as <-. cbn [map snd] in F.
    repeat match goal with H : Forall2 _ (_ :: _) _ |- _ => inversion H; clear H; subst | H : Forall2 _ [] _ |- _ => inversion H; clear H; subst end.
    repeat match goal with H : spelled _ _ |- _ => inversion H; clear H; subst end. unfold literal_regex. vm_compute. discriminate.
  - intros u e s G Q. apply stock_get in G. destruct G as ([G|G] & _); rewrite G in Q; [discriminate Q|]. injection Q as <-.
    apply sc_object. intros k j [I|[I|[]]]; injection I as <- <-; [apply kw_type | apply kw_text]; cbn [In simple_types]; auto 10.
  - intros u e j G Q _. apply stock_get in G. destruct G as (_ & [G|G]); rewrite G in Q; [discriminate Q|]. injection Q as <-. eexists. reflexivity.
Qed.

Example C53_witness : exists doc, presentable literal_regex Stock StockGen stock_type /\
  classdef_to_schema Stock StockGen 9 9 stock_type = Ok doc /\
  points_to doc (str "#/definitions/Item") <> None /\ points_to doc (str "#/definitions/Blob") <> None.
Proof.
  exists_result (classdef_to_schema Stock StockGen 9 9 stock_type). split; [exact stock_presentable|].
  split; [vm_compute; reflexivity|]. split; vm_compute; discriminate.
Qed.

(** *** The conditions are needed *)

Lemma member_of : forall regex d k j, schema regex (JObj d) -> In (k, j) d -> keyword regex k j.
Proof. intros regex d k j H I. inversion H; subst. auto. Qed.

(** C53.  The schema of tuple[()] has an empty list of items. *)
Theorem C53_tuple_refuted : exists E S n k doc, classdef_to_schema E S n k (TTuple []) = Ok doc /\ forall regex, ~ schema regex doc.
Proof.
  exists Stock, StockGen, 9, 9. exists_result (classdef_to_schema Stock StockGen 9 9 (TTuple [])). split; [vm_compute; reflexivity|].
  intros regex H.
  assert (K : keyword regex (str "prefixItems") (JArr [])) by (eapply member_of; [exact H | cbn [In]; auto 10]).
  inversion K as [ | k j I Q | | k l I Q | l I Q | k j I X Q | | | | | k j I X Q | k l I X Y Q | ]; subst;
    try (cbn [In] in I; cases_in I; discriminate I).
Qed.
Print Assumptions C53_tuple_refuted.

(** @dataclass class Twice: a: Annotated[int, Alias("x")]; b: Annotated[int, Alias("x")] *)
Definition Twice : env := mkEnv
  [mkClass 0 (str "Twice") (CData false
     [mkField (str "a") (TAnnot tint [AAlias (str "x")]) None; mkField (str "b") (TAnnot tint [AAlias (str "x")]) None]) None None]
  [] (fun ps => ps).

(** C53.  Two fields of the same name in the document. *)
Theorem C53_required_refuted : exists E S n k c cl ps doc, get_class E c = Some cl /\ class_properties E cl = Ok ps /\
  required_names ps = [str "x"; str "x"] /\
  classdef_to_schema E S n k (TClass c) = Ok doc /\ forall regex, ~ schema regex doc.
Proof.
  exists Twice, (Gen [] false), 9, 9, 0. eexists _, _. exists_result (classdef_to_schema Twice (Gen [] false) 9 9 (TClass 0)).
  split; [reflexivity|]. split; [reflexivity|]. split; [reflexivity|]. split; [vm_compute; reflexivity|].
  intros regex H.
  assert (K : keyword regex (str "required") (JArr (map JStr [str "x"; str "x"]))) by (eapply member_of; [exact H | cbn [In]; auto 10]).
  inversion K as [ | k j I Q | | k l I Q | l I Q | k j I X Q | | | | | k j I X Q | k l I X Y Q | ]; subst;
    try (cbn [In] in I; cases_in I; discriminate I).
  destruct l as [|a [|b l]]; try discriminate. match goal with Q : map _ _ = _ |- _ => injection Q as -> -> _ end.
  inversion I as [|? ? NI _]; subst. apply NI. left. reflexivity.
Qed.
Print Assumptions C53_required_refuted.

(** C53.  More decimal digits than a floating-point number can have: 10 ** -400
    is zero. *)
Theorem C53_precision_refuted : exists E S n k t doc, t = TAnnot (TScalar KFloat) [APrecision 410 400] /\ s_tenth S 400 = FFin false 0 0 /\
  classdef_to_schema E S n k t = Ok doc /\ forall regex, ~ schema regex doc.
Proof.
  exists Stock, StockGen, 9, 9. eexists. exists (JObj [(str "$schema", jstr "https://json-schema.org/draft/2020-12/schema"); (str "type", jstr "number");
    (str "multipleOf", JFloat (FFin false 0 0)); (str "exclusiveMinimum", JInt (-10000000000)); (str "exclusiveMaximum", JInt 10000000000)]).
  split; [reflexivity|]. split; [reflexivity|]. split; [vm_compute; reflexivity|].
  intros regex H.
  assert (K : keyword regex (str "multipleOf") (JFloat (FFin false 0 0))) by (eapply member_of; [exact H | cbn [In]; auto 10]).
  inversion K as [ | k j I Q | | k l I Q | l I Q | k j I X Q | j I Q | | | | k j I X Q | k l I X Y Q | ]; subst;
    try (cbn [In] in I; cases_in I; discriminate I). destruct I as [_ I]. discriminate I.
Qed.
Print Assumptions C53_precision_refuted.

(** class Bracket(Enum): with the values "(", ")", "[", "]" and "{" *)
Definition Bracket : env := mkEnv
  [mkClass 0 (str "Bracket") (CEnum [(str "A", jstr "("); (str "B", jstr ")"); (str "C", jstr "["); (str "D", jstr "]"); (str "E", jstr "{")]) None None]
  [] (fun ps => ps).

(** C53.  The names of keys are put in the pattern as they are. *)
Theorem C53_pattern_refuted : exists E S n k c t doc p, t = TDict (TClass c) tint /\ p = str "^((|)|[|]|{)$" /\
  classdef_to_schema E S n k t = Ok doc /\ forall regex, ~ regex p -> ~ schema regex doc.
Proof.
  exists Bracket, (Gen [] false), 9, 9, 0. eexists. exists_result (classdef_to_schema Bracket (Gen [] false) 9 9 (TDict (TClass 0) tint)). eexists.
  split; [reflexivity|]. split; [reflexivity|]. split; [vm_compute; reflexivity|].
  intros regex N H.
  assert (K : keyword regex (str "propertyNames") (JObj [(str "pattern", JStr (str "^((|)|[|]|{)$"))])) by (eapply member_of; [exact H | cbn [In]; auto 10]).
  inversion K as [ | k j I Q | | | | k j I X Q | | | | | k j I X Q | | k d I X Q ]; subst;
    try (cbn [In] in I; cases_in I; discriminate I).
  assert (P : keyword regex (str "pattern") (JStr (str "^((|)|[|]|{)$"))) by (eapply member_of; [exact X | left; reflexivity]).
  inversion P as [k s J Q | k j J Q | s J Q | | | k j J Y Q | j J Q | | | s J Q | k j J Y Q | | ]; subst;
    try (cbn [In] in J; cases_in J; discriminate J).
Qed.
Print Assumptions C53_pattern_refuted.

(** C53.  A schema given with a registration is not looked at. *)
Theorem C53_registered_refuted : exists E S n k c e doc, get (s_catalog S) (TClass c) = Ok e /\ en_schema e = Some (JObj [(str "type", jstr "text")]) /\
  classdef_to_schema E S n k (TClass c) = Ok doc /\ forall regex, ~ schema regex doc.
Proof.
  pose (S := {| s_catalog := register_all [(TClass 2, {| en_schema := Some (JObj [(str "type", jstr "text")]); en_identifier := str "Blob"; en_examples := None |})];
    s_eval := fun _ => None; s_forward := fun _ => false; s_short := fun _ => None; s_long := fun _ => None; s_props := fun _ => [];
    s_attrs := fun _ => []; s_tenth := fun _ => FFin false 1 (-3); s_path := str "#/definitions/"; s_describe := true; s_exemplify := true |}).
  exists Stock, S, 9, 9, 2. eexists. exists_result (classdef_to_schema Stock S 9 9 (TClass 2)).
  split; [vm_compute; reflexivity|]. split; [reflexivity|]. split; [vm_compute; reflexivity|].
  intros regex H.
  assert (K : keyword regex (str "definitions") (JObj [(str "Blob", JObj [(str "type", jstr "text")])])) by (eapply member_of; [exact H | cbn [In]; auto 10]).
  inversion K as [ | k j I Q | | | | k j I X Q | | | | | k j I X Q | | k d I X Q ]; subst;
    try (cbn [In] in I; cases_in I; discriminate I).
  pose proof (X _ _ (or_introl eq_refl)) as V.
  assert (P : keyword regex (str "type") (jstr "text")) by (eapply member_of; [exact V | left; reflexivity]).
  inversion P as [k s J Q | k j J Q | s J Q | | | k j J Y Q | j J Q | | | s J Q | k j J Y Q | | ]; subst;
    try (cbn [In simple_types] in J; cases_in J; discriminate J).
Qed.
Print Assumptions C53_registered_refuted.
