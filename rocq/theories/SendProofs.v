(** The schemas of the types of SpecSend.v are of the forms of SpecMake.v. *)
From Coq Require Import String List NArith ZArith Bool Lia Permutation.
From Verif Require Import Base Json PyTypes TypeAlgebra TypeAlgebraProofs Lists Mapping Deser Ser SerFacts TypingFacts FieldProofs Catalog CatalogProofs ClassDef Schema
  SpecTyping SpecTypes SpecFields SpecSer SpecTagged SpecSchema SchemaSem SpecGenerate SchemaProofs SchemaClass SpecValid SchemaForm SchemaValid TypeDef SpecClassDef SpecTypeDef SpecMake SpecSend SpecRoundTrip RoundTrip SendForms.
From Verif Require SpecMirror MirrorProofs.
Import ListNotations.
Open Scope list_scope.
Open Scope nat_scope.

(** ** Dictionaries whose keywords have certain values *)

Definition obeys (R : list (string * (json -> Prop))) (d : list (pystr * json)) : Prop :=
  forall k j, In (k, j) d -> exists x P, In (x, P) R /\ k = str x /\ P j.

Lemma set_in : forall (d : list (pystr * json)) k v k' j, In (k', j) d -> k' <> k -> In (k', j) (dict_set d k v).
Proof.
  intros d k v k' j. induction d as [|[k0 v0] d IH]; cbn [dict_set In]; [tauto|]. intros [Q|I] N.
  - injection Q as -> ->. destruct (pystr_eqb k' k) eqn:B; [apply pystr_eqb_eq in B; contradiction | left; reflexivity].
  - destruct (pystr_eqb k0 k); [right; exact I | right; exact (IH I N)].
Qed.

Lemma set_new : forall (d : list (pystr * json)) k v, In (k, v) (dict_set d k v).
Proof.
  intros d k v. induction d as [|[k0 v0] d IH]; cbn [dict_set]; [left; reflexivity|].
  destruct (pystr_eqb k0 k) eqn:B; [apply pystr_eqb_eq in B; subst; left; reflexivity | right; exact IH].
Qed.

Lemma obeys_set : forall R d x P j, obeys R d -> In (x, P) R -> P j -> obeys R (dict_set d (str x) j).
Proof. intros R d x P j O I H k v J. apply SchemaProofs.dict_set_in in J. destruct J as [[-> ->]|J]; [eauto | exact (O _ _ J)]. Qed.

Lemma obeys_weaken : forall (R R' : list (string * (json -> Prop))) d, obeys R d -> (forall x P, In (x, P) R -> exists P', In (x, P') R' /\ forall j, P j -> P' j) -> obeys R' d.
Proof. intros R R' d O W k j I. destruct (O k j I) as (x & P & J & -> & H). destruct (W x P J) as (P' & J' & X). exists x, P'. auto. Qed.

Lemma obeys_only : forall R d ks, obeys R d -> (forall x P, In (x, P) R -> In x ks) -> only (JObj d) ks.
Proof. intros R d ks O W. exists d. split; [reflexivity|]. intros k j I. destruct (O k j I) as (x & P & J & -> & _). exists x. split; [exact (W _ _ J) | reflexivity]. Qed.

Lemma obeys_may : forall R d x (P : json -> Prop), obeys R d -> (forall y Q, In (y, Q) R -> str x = str y -> forall j, Q j -> P j) -> may (JObj d) x P.
Proof. intros R d x P O W j (kws & Q & I). injection Q as <-. destruct (O _ _ I) as (y & Q & J & X & H). exact (W y Q J X j H). Qed.

Lemma obeys_lacks : forall R d x, obeys R d -> (forall y Q, In (y, Q) R -> str x <> str y) -> lacks (JObj d) x.
Proof. intros R d x O W j (kws & Q & I). injection Q as <-. destruct (O _ _ I) as (y & P & J & X & _). exact (W y P J X). Qed.

(** ** Dressing: what is added to the schema of a type *)

Inductive dressed (P : json -> Prop) (d0 : list (pystr * json)) : list (pystr * json) -> Prop :=
| dr_same : dressed P d0 d0
| dr_title : forall d s, dressed P d0 d -> dressed P d0 (dict_set d (str "title") (JStr s))
| dr_description : forall d s, dressed P d0 d -> dressed P d0 (dict_set d (str "description") (JStr s))
| dr_untitled : forall d, dressed P d0 d -> dressed P d0 (pop d (str "title"))
| dr_default : forall d j, P j -> dressed P d0 d -> dressed P d0 (dict_set d (str "default") j).

Definition nothing : json -> Prop := fun _ => False.

Lemma dressed_trans : forall P d d' d'', dressed P d d' -> dressed P d' d'' -> dressed P d d''.
Proof. intros P d d' d'' A B. induction B; eauto using dressed. Qed.

Lemma dressed_impl : forall (P Q : json -> Prop) d d', (forall j, P j -> Q j) -> dressed P d d' -> dressed Q d d'.
Proof. intros P Q d d' W H. induction H; eauto using dressed. Qed.

Lemma dressed_docs : forall P S t d, dressed P d (upd d (docstring_to_schema S t)).
Proof.
  intros P S t d. unfold docstring_to_schema. destruct (text_or_none (s_short S t)), (text_or_none (s_long S t)); cbn [app]; unfold upd; cbn [fold_left fst snd]; eauto using dressed.
Qed.

Lemma dressed_describe : forall P S t d, dressed P d (describe S t d).
Proof. intros P S t d. unfold describe. destruct (s_describe S); [apply dressed_docs | apply dr_same]. Qed.

Lemma dressed_obeys : forall P R d d', dressed P d d' -> obeys R d -> In ("title"%string, text) R -> In ("description"%string, text) R ->
  (forall j, P j -> exists Q, In ("default"%string, Q) R /\ Q j) -> obeys R d'.
Proof.
  intros P R d d' H O T D F. induction H as [|d1 s H IH|d1 s H IH|d1 H IH|d1 j Pj H IH]; [exact O | | | |].
  - eapply obeys_set; [exact IH | exact T | eexists; reflexivity].
  - eapply obeys_set; [exact IH | exact D | eexists; reflexivity].
  - intros k j I. unfold pop in I. apply filter_In in I. exact (IH _ _ (proj1 I)).
  - destruct (F _ Pj) as (Q & J & X). eapply obeys_set; eassumption.
Qed.

Lemma dressed_has : forall P d d' k v, dressed P d d' -> has (JObj d) k v -> str k <> str "title" -> str k <> str "description" -> str k <> str "default" -> has (JObj d') k v.
Proof.
  intros P d d' k v H (kws & Q & I) N1 N2 N3. injection Q as <-. exists d'. split; [reflexivity|]. induction H as [|d1 s H IH|d1 s H IH|d1 H IH|d1 j Pj H IH]; [exact I | | | |].
  - apply set_in; assumption.
  - apply set_in; assumption.
  - apply filter_In. split; [exact IH|]. cbn [fst]. destruct (pystr_eqb _ _) eqn:B; [apply pystr_eqb_eq in B; contradiction | reflexivity].
  - apply set_in; assumption.
Qed.

Lemma dressed_default : forall d d', dressed nothing d d' -> dict_get d (str "default") = None -> dict_get d' (str "default") = None.
Proof.
  intros d d' H N. induction H as [|d1 s H IH|d1 s H IH|d1 H IH|d1 j Pj H IH]; [exact N | | | |destruct Pj].
  - rewrite set_lookup. exact IH.
  - rewrite set_lookup. exact IH.
  - unfold pop. rewrite (MirrorProofs.filter_get (fun k => negb (pystr_eqb k (str "title")))); [exact IH | reflexivity].
Qed.

Lemma get_lacks : forall d x, dict_get d (str x) = None -> NoDup (map fst d) -> lacks (JObj d) x.
Proof.
  intros d x N ND j (kws & Q & I). injection Q as <-. apply (dict_get_nodup d) in I; [congruence | exact ND].
Qed.

(** ** Forms *)

Lemma obeys_nil : forall R, obeys R [].
Proof. intros R k j []. Qed.

Lemma obeys_cons : forall R x (P : json -> Prop) j d, In (x, P) R -> P j -> obeys R d -> obeys R ((str x, j) :: d).
Proof. intros R x P j d I H O k v [Q|J]; [injection Q as <- <-; eauto | exact (O _ _ J)]. Qed.

Ltac listed := cbn [In app map fst snd]; repeat (first [left; reflexivity | right]).
Ltac keys := let x := fresh in let P := fresh in let J := fresh in intros x P J; cbn [In app] in J;
  repeat (destruct J as [J|J]; [injection J as <- _; listed|]); destruct J.
Ltac by_may O := eapply obeys_may; [exact O|];
  let y := fresh in let Q := fresh in let J := fresh in let X := fresh in let j := fresh in let H := fresh in
  intros y Q J X j H; cbn [In app] in J; repeat (destruct J as [J|J]; [injection J as <- <-; first [exact H | discriminate X | apply H]|]); destruct J.
Ltac by_lacks O := eapply obeys_lacks; [exact O|];
  let y := fresh in let Q := fresh in let J := fresh in let X := fresh in
  intros y Q J X; cbn [In app] in J; repeat (destruct J as [J|J]; [injection J as <- _; discriminate X|]); destruct J.
Ltac by_only O := eapply obeys_only; [exact O | keys].
Ltac by_head O T := split; [split; by_may O|]; split; [exact T | by_may O].

Notation rules := (list (string * (json -> Prop))).
Definition heads : rules := [("title"%string, text); ("description"%string, text)].
Definition typed_as (ty : string) : rules := heads ++ [("type"%string, eq (JStr (str ty)))].
Definition boolean_rules : rules := typed_as "boolean" ++ [("format"%string, text); ("const"%string, truth); ("default"%string, truth)].
Definition integer_rules : rules := typed_as "integer" ++ [("format"%string, text); ("const"%string, whole); ("default"%string, whole);
  ("minimum"%string, whole); ("maximum"%string, whole); ("enum"%string, fun j => each whole j /\ j <> JArr [])].
Definition number_rules : rules := typed_as "number" ++ [("format"%string, text); ("default"%string, real)].
Definition text_rules : rules := typed_as "string" ++ [("const"%string, text); ("default"%string, text); ("minLength"%string, whole); ("maxLength"%string, natural)].
Definition timed (k : scalar) (j : json) : Prop := exists s v, j = JStr s /\ parse_scalar k j = Ok v.
Definition format_rules (f : string) (k : scalar) : rules := typed_as "string" ++ [("format"%string, eq (JStr (str f))); ("default"%string, timed k)].
Definition reference_rules (r : json) : rules := heads ++ [("$ref"%string, eq r)].
Definition array_rules : rules := typed_as "array" ++ [("items"%string, fun _ => True)].
Definition choice_rules : rules := heads ++ [("oneOf"%string, fun _ => True)].
Definition enum_rules (vs : list pystr) : rules := typed_as "string" ++ [("enum"%string, fun _ => True); ("default"%string, fun j => exists v, j = JStr v /\ In v vs)].
Definition object_rules : rules := typed_as "object" ++ [("properties"%string, fun _ => True); ("additionalProperties"%string, fun _ => True); ("required"%string, each text)].

Section Forms.
  Variables (U : unicode) (D : list pystr) (ctx : pystr) (dx : list (pystr * json)).

  Lemma make_boolean : obeys boolean_rules dx -> has (JObj dx) "type" (JStr (str "boolean")) -> builds U D ctx (JObj dx) [].
  Proof. intros O T. apply bd_boolean; [by_only O | by_head O T|]. split; [by_may O|]. split; by_may O. Qed.

  Lemma make_integer : obeys integer_rules dx -> has (JObj dx) "type" (JStr (str "integer")) -> builds U D ctx (JObj dx) [].
  Proof. intros O T. apply bd_integer; [by_only O | by_head O T | | by_may O | by_may O | by_may O]. split; [by_may O|]. split; by_may O. Qed.

  Lemma make_number : obeys number_rules dx -> has (JObj dx) "type" (JStr (str "number")) -> builds U D ctx (JObj dx) [].
  Proof. intros O T. apply bd_number; [by_only O | by_head O T | | by_may O | by_may O]. split; [by_may O|]. split; by_may O. Qed.

  Lemma make_text : obeys text_rules dx -> has (JObj dx) "type" (JStr (str "string")) -> builds U D ctx (JObj dx) [].
  Proof. intros O T. apply bd_text; [by_only O | by_head O T | | by_may O | by_may O|]; [split; [by_may O|]; split; by_may O|].
    intros f k d _ H. exfalso. revert H. apply (fun L : lacks (JObj dx) "format" => L _). by_lacks O.
  Qed.

  Lemma make_format : forall f k, In (f, k) text_formats -> obeys (format_rules f k) dx -> has (JObj dx) "type" (JStr (str "string")) -> builds U D ctx (JObj dx) [].
  Proof.
    intros f k I O T. assert (DF : may (JObj dx) "default" (timed k)) by by_may O. assert (FM : may (JObj dx) "format" (eq (JStr (str f)))) by by_may O.
    apply bd_text; [by_only O | | | by_may O | by_may O|].
    - split; [split; by_may O|]. split; [exact T|]. intros j J. exists (str f). symmetry. exact (FM j J).
    - split; [by_may O|]. split; [|by_may O]. intros j J. destruct (DF j J) as (s & v & -> & _). eexists. reflexivity.
    - intros f' k' d I' H J. specialize (FM _ H). injection FM as FM. apply str_inj in FM. subst f'. destruct (DF _ J) as (s & v & _ & Q). exists v.
      assert (X : k' = k); [|subst k'; exact Q]. clear - I I'. unfold text_formats in I, I'. cbn [In] in I, I'.
      repeat (destruct I as [I|I]; [injection I as <- <-; repeat (destruct I' as [I'|I']; [first [discriminate I' | injection I' as I'; symmetry; exact I']|]); destruct I'|]); destruct I.
  Qed.

  Lemma make_ref : forall x, obeys (reference_rules (JStr (path x))) dx -> has (JObj dx) "$ref" (JStr (path x)) -> referable U D x -> builds U D ctx (JObj dx) [].
  Proof. intros x O T (I & N & C). eapply bd_ref; [by_only O | split; by_may O | exact T | exact N | exact C | exact I]. Qed.

  Lemma make_array : forall i names, obeys array_rules dx -> has (JObj dx) "type" (JStr (str "array")) -> has (JObj dx) "items" i -> lacks i "default" ->
    builds U D ctx i names -> builds U D ctx (JObj dx) names.
  Proof. intros i names O T I L M. eapply bd_array; [by_only O | by_head O T | exact I | exact L | exact M]. Qed.

  Lemma make_one_of : forall ss names, obeys choice_rules dx -> has (JObj dx) "oneOf" (JArr ss) -> ss <> [] -> builds_members U D ctx ss names -> builds U D ctx (JObj dx) names.
  Proof. intros ss names O T N M. eapply bd_one_of; [by_only O | split; by_may O | exact T | exact N | exact M]. Qed.

  Lemma make_enum : forall vs, obeys (enum_rules vs) dx -> has (JObj dx) "type" (JStr (str "string")) -> has (JObj dx) "enum" (JArr (map JStr vs)) -> members_for U ctx vs ->
    builds_class U D ctx (JObj dx) [ctx].
  Proof.
    intros vs O T H M. assert (DF : may (JObj dx) "default" (fun j => exists v, j = JStr v /\ In v vs)) by by_may O.
    eapply bc_enum; [by_only O | by_head O T | | exact H | exact M | exact DF | by_may O | by_may O].
    split; [by_may O|]. split; [|by_may O]. intros j J. destruct (DF j J) as (v & -> & _). eexists. reflexivity.
  Qed.

  Lemma make_object : forall ps names, obeys object_rules dx -> has (JObj dx) "type" (JStr (str "object")) -> has (JObj dx) "properties" (JObj ps) ->
    has (JObj dx) "additionalProperties" (JBool false) -> builds_properties U D ctx ps names -> builds_class U D ctx (JObj dx) (names ++ [ctx]).
  Proof. intros ps names O T P A M. eapply bc_object; [by_only O | by_head O T | exact P | exact A | by_may O | exact M]. Qed.
End Forms.

(** ** Defaults *)

Definition fit (k : scalar) (j : json) : Prop :=
  match k with KBool => truth j | KInt => whole j | KFloat => real j | KStr => text j | KDateTime | KDate | KTime | KTimeDelta => timed k j | _ => False end.

Definition base_of (w : typ) : option scalar :=
  match w with
  | TScalar k | TAnnot (TScalar k) _ => Some k
  | TLiteral [l] => match lit_type l with TScalar k => Some k | _ => None end
  | _ => None
  end.

Lemma based_base : forall S w k, based S w k -> base_of w = Some k.
Proof. intros S w k [->|[(md & -> & _)|(l & -> & Q & _)]]; [reflexivity | reflexivity | cbn [base_of]; rewrite Q; reflexivity]. Qed.

Definition dflt (E : env) (S : senv) (w : typ) (j : json) : Prop := exists v, default_for E S w v /\ object_to_json E v = Ok j.

Lemma dflt_cases : forall E S w j, dflt E S w j -> (exists k, base_of w = Some k /\ fit k j) \/
  exists c cl ms x, w = TClass c /\ unregistered S w /\ get_class E c = Some cl /\ c_kind cl = CEnum ms /\ In (x, j) ms.
Proof.
  intros E S w j (v & H & O). destruct H as [b B|z B|f B|s B|k v I B T X|c cl ms x j0 W N G K T ND I].
  - left. exists KBool. split; [eapply based_base; exact B|]. injection O as <-. eexists. reflexivity.
  - left. exists KInt. split; [eapply based_base; exact B|]. injection O as <-. eexists. reflexivity.
  - left. exists KFloat. split; [eapply based_base; exact B|]. injection O as <-. eexists. reflexivity.
  - left. exists KStr. split; [eapply based_base; exact B|]. injection O as <-. eexists. reflexivity.
  - left. exists k. split; [eapply based_base; exact B|].
    assert (Y : exists s, j = JStr s /\ scalar_image v j).
    { cbn [In] in I. destruct I as [<-|[<-|[<-|[<-|[]]]]]; destruct v; try contradiction T; unfold object_to_json in O; cbn in O.
      - apply bind_ok in O. destruct O as (s & Q & O). injection O as <-. exists s. split; [reflexivity | apply si_datetime; exact Q].
      - injection O as <-. eexists. split; [reflexivity | apply si_date].
      - injection O as <-. eexists. split; [reflexivity | apply si_time].
      - injection O as <-. eexists. split; [reflexivity | apply si_timedelta]. }
    destruct Y as (s & -> & Im). pose proof (scalar_roundtrip k v _ T X Im) as R.
    assert (Z : timed k (JStr s)) by (exists s, v; split; [reflexivity | exact R]).
    cbn [In] in I. destruct I as [<-|[<-|[<-|[<-|[]]]]]; exact Z.
  - right. exists c, cl, ms, x. repeat (split; [assumption|]). unfold object_to_json in O. apply bind_ok in O. destruct O as (s & Sr & O).
    unfold serializer_of, ser_fuel in Sr. cbn [typeof] in Sr. destruct (build_fuel E (TClass c)) as [|n]; [discriminate Sr|].
    cbn [mkser] in Sr. rewrite G, T, K in Sr. injection Sr as <-. unfold gen_fuel in O. cbn [vdepth Nat.mul Nat.add gen enum_value] in O. rewrite G, K in O.
    rewrite (dict_get_nodup ms x j0 ND I) in O. injection O as <-. exact I.
Qed.

(** ** Types *)

Lemma none_lacks : forall d x, dict_get d (str x) = None -> lacks (JObj d) x.
Proof. intros d x N j (kws & Q & I). injection Q as <-. apply dict_get_none in N. apply N. apply in_map_iff. exists (str x, j). auto. Qed.

Lemma has_here : forall (d : list (pystr * json)) k v, In (str k, v) d -> has (JObj d) k v.
Proof. intros d k v I. exists d. auto. Qed.

Ltac rule := first [apply obeys_nil | eapply obeys_cons; [listed | | rule]].
Ltac dress H := eapply dressed_obeys; [exact H | | listed | listed |].
Ltac kept H := eapply dressed_has; [exact H | apply has_here; listed | discriminate | discriminate | discriminate].

Section Types.
  Variables (E : env) (S : senv) (U : unicode) (D : list pystr).
  Hypothesis CE : canonical_env E.
  Hypothesis CO : coherent E S.
  Hypothesis PATH : s_path S = str "#/definitions/".

  Definition plainly (w : typ) : Prop := forall j, ~ dflt E S w j.

  Lemma plain_dressed : forall w P d dx, plainly w -> dressed (dflt E S w) d dx -> dressed P d dx.
  Proof. intros w P d dx N H. eapply dressed_impl; [|exact H]. intros j J. destruct (N j J). Qed.

  Lemma plainly_base : forall w, base_of w = None -> (forall c, w <> TClass c) -> plainly w.
  Proof. intros w B C j J. apply dflt_cases in J. destruct J as [(k & Q & _)|(c & cl & ms & x & Q & _)]; [congruence | exact (C c Q)]. Qed.

  Lemma plainly_registered : forall c e, get (s_catalog S) (TClass c) = Ok e -> plainly (TClass c).
  Proof. intros c e G j J. apply dflt_cases in J. destruct J as [(k & Q & _)|(c' & cl & ms & x & Q & N & _)]; [discriminate Q | exact (N e G)]. Qed.

  Lemma dflt_fit : forall w k j, base_of w = Some k -> dflt E S w j -> fit k j.
  Proof. intros w k j B J. apply dflt_cases in J. destruct J as [(k' & Q & F)|(c & cl & ms & x & -> & _)]; [congruence | discriminate B]. Qed.

  Lemma finish_dressed : forall c x w d0 dx, finish_property E S c x d0 = Ok dx ->
    (forall v, dict_get (s_attrs S c) x = Some v -> given_default v -> default_for E S w v) -> dressed (dflt E S w) d0 dx.
  Proof.
    intros c x w d0 dx H F. unfold finish_property in H. apply bind_ok in H. destruct H as (df & Q & H). cbv zeta in H.
    assert (X : dressed (dflt E S w) d0 (upd d0 df)).
    { unfold default_schema in Q. destruct (dict_get (s_attrs S c) x) as [v|]; [|injection Q as <-; apply dr_same]. specialize (F v eq_refl).
      assert (Y : (exists j, object_to_json E v = Ok j /\ given_default v /\ df = [(str "default", j)]) \/ df = []).
      { destruct v; try (right; injection Q as <-; reflexivity); left; apply bind_ok in Q; destruct Q as (j & A & Q); injection Q as <-; exists j;
          (split; [exact A|]; split; [exact Logic.I | reflexivity]). }
      destruct Y as [(j & A & G & ->)| ->]; [|apply dr_same]. unfold upd. cbn [fold_left fst snd]. apply dr_default; [|apply dr_same]. exists v. split; [exact (F G) | exact A]. }
    destruct (text_or_none _); injection H as <-; [|exact X]. apply dr_description, dr_untitled. exact X.
  Qed.

  (** Scalars *)
  Lemma scalar_makes : forall ctx t k d dx, In k sent_scalars -> simple_type_to_schema (TScalar k) = Some d -> base_of t = Some k -> dressed (dflt E S t) d dx ->
    builds U D ctx (JObj dx) [].
  Proof.
    intros ctx t k d dx I Q B H. pose proof (fun j => dflt_fit t k j B) as F.
    cbn [sent_scalars In] in I. destruct I as [<-|[<-|[<-|[<-|[<-|[<-|[<-|[<-|[<-|[]]]]]]]]]]; injection Q as <-; unfold typed, formatted in H.
    - apply make_boolean; [|kept H]. dress H; [rule; reflexivity|]. intros j J. eexists. split; [listed | exact (F j J)].
    - apply make_integer; [|kept H]. dress H; [rule; reflexivity|]. intros j J. eexists. split; [listed | exact (F j J)].
    - apply make_number; [|kept H]. dress H; [rule; reflexivity|]. intros j J. eexists. split; [listed | exact (F j J)].
    - apply make_text; [|kept H]. dress H; [rule; reflexivity|]. intros j J. eexists. split; [listed | exact (F j J)].
    - apply (make_format _ _ _ _ "date-time" KDateTime); [cbn; tauto | |kept H]. dress H; [rule; reflexivity|]. intros j J. eexists. split; [listed | exact (F j J)].
    - apply (make_format _ _ _ _ "date" KDate); [cbn; tauto | |kept H]. dress H; [rule; reflexivity|]. intros j J. eexists. split; [listed | exact (F j J)].
    - apply (make_format _ _ _ _ "time" KTime); [cbn; tauto | |kept H]. dress H; [rule; reflexivity|]. intros j J. eexists. split; [listed | exact (F j J)].
    - apply (make_format _ _ _ _ "duration" KTimeDelta); [cbn; tauto | |kept H]. dress H; [rule; reflexivity|]. intros j J. eexists. split; [listed | exact (F j J)].
    - apply (make_format _ _ _ _ "uuid" KUUID); [cbn; tauto | |kept H]. dress H; [rule; reflexivity|]. intros j J. destruct (F j J).
  Qed.

  Lemma metadata_obeys : forall R k md d, obeys R d -> (forall a, In a md -> expressible k a) ->
    (k = KInt -> In ("minimum"%string, whole) R /\ In ("maximum"%string, whole) R) ->
    (k = KStr -> In ("minLength"%string, whole) R /\ In ("maxLength"%string, natural) R) -> obeys R (with_metadata S d md).
  Proof.
    intros R k md. unfold with_metadata. induction md as [|a md IH]; intros d O X I1 I2; cbn [fold_left]; [exact O|].
    apply IH; [|intros b J; apply X; right; exact J | exact I1 | exact I2]. specialize (X a (or_introl eq_refl)). clear IH.
    destruct a; cbn [metadata_to_schema expressible] in *; unfold upd; cbn [fold_left fst snd]; try exact O.
    all: try contradiction.
    all: first [destruct (I1 X) as [A B] | destruct (I2 X) as [A B]].
    - eapply obeys_set; [eapply obeys_set; [exact O | exact A | eexists; reflexivity] | exact B | eexists; reflexivity].
    - eapply obeys_set; [exact O | exact A | eexists; reflexivity].
    - eapply obeys_set; [exact O | exact B | eexists; split; [reflexivity | apply N2Z.is_nonneg]].
  Qed.

  Lemma metadata_type : forall md d j, dict_get d (str "type") = Some j -> has (JObj (with_metadata S d md)) "type" j.
  Proof. intros md d j H. apply has_here. apply dict_get_in. rewrite MirrorProofs.meta_other; [exact H|]. intros I. cbn in I. intuition discriminate. Qed.

  Lemma annotated_makes : forall ctx k md d0 d dx, In k sent_scalars -> (forall a, In a md -> expressible k a) -> simple_type_to_schema (TScalar k) = Some d0 ->
    (exists f, get_auxiliary_format (TAnnot (TScalar k) md) = Some f /\ d = upd d0 [(str "format", JStr f)]) \/ d = with_metadata S d0 md ->
    dressed (dflt E S (TAnnot (TScalar k) md)) d dx -> builds U D ctx (JObj dx) [].
  Proof.
    intros ctx k md d0 d dx I X Q [(f & AX & ->)| ->] H.
    - apply MirrorProofs.aux_in in AX. pose proof (fun j => dflt_fit (TAnnot (TScalar k) md) k j eq_refl) as F.
      assert (K : k = KInt \/ k = KFloat).
      { clear - AX. unfold auxiliary_types in AX. repeat (destruct AX as [AX|AX]; [injection AX as <-; auto|]). destruct AX. }
      clear AX X. destruct K as [-> | ->]; injection Q as <-; unfold typed, upd in H; cbn [fold_left fst snd] in H;
        change (dict_set [(str "type", ?a)] (str "format") ?b) with [(str "type", a); (str "format", b)] in H.
      + apply make_integer; [|kept H]. dress H; [rule; first [reflexivity | eexists; reflexivity]|]. intros j J. eexists. split; [listed | exact (F j J)].
      + apply make_number; [|kept H]. dress H; [rule; first [reflexivity | eexists; reflexivity]|]. intros j J. eexists. split; [listed | exact (F j J)].
    - pose proof (fun j => dflt_fit (TAnnot (TScalar k) md) k j eq_refl) as F.
      assert (T : forall j, dict_get d0 (str "type") = Some j -> has (JObj dx) "type" j).
      { intros j G. eapply dressed_has; [exact H | apply metadata_type; exact G | discriminate | discriminate | discriminate]. }
      cbn [sent_scalars In] in I. destruct I as [<-|[<-|[<-|[<-|[<-|[<-|[<-|[<-|[<-|[]]]]]]]]]]; injection Q as <-; unfold typed, formatted in *; specialize (T _ eq_refl).
      + apply make_boolean; [|exact T]. dress H; [eapply metadata_obeys; [rule; reflexivity | exact X | discriminate | discriminate]|]. intros j J. eexists. split; [listed | exact (F j J)].
      + apply make_integer; [|exact T]. dress H; [eapply metadata_obeys; [rule; reflexivity | exact X | intros _; split; listed | discriminate]|]. intros j J. eexists. split; [listed | exact (F j J)].
      + apply make_number; [|exact T]. dress H; [eapply metadata_obeys; [rule; reflexivity | exact X | discriminate | discriminate]|]. intros j J. eexists. split; [listed | exact (F j J)].
      + apply make_text; [|exact T]. dress H; [eapply metadata_obeys; [rule; reflexivity | exact X | discriminate | intros _; split; listed]|]. intros j J. eexists. split; [listed | exact (F j J)].
      + apply (make_format _ _ _ _ "date-time" KDateTime); [cbn; tauto | |exact T]. dress H; [eapply metadata_obeys; [rule; reflexivity | exact X | discriminate | discriminate]|]. intros j J. eexists. split; [listed | exact (F j J)].
      + apply (make_format _ _ _ _ "date" KDate); [cbn; tauto | |exact T]. dress H; [eapply metadata_obeys; [rule; reflexivity | exact X | discriminate | discriminate]|]. intros j J. eexists. split; [listed | exact (F j J)].
      + apply (make_format _ _ _ _ "time" KTime); [cbn; tauto | |exact T]. dress H; [eapply metadata_obeys; [rule; reflexivity | exact X | discriminate | discriminate]|]. intros j J. eexists. split; [listed | exact (F j J)].
      + apply (make_format _ _ _ _ "duration" KTimeDelta); [cbn; tauto | |exact T]. dress H; [eapply metadata_obeys; [rule; reflexivity | exact X | discriminate | discriminate]|]. intros j J. eexists. split; [listed | exact (F j J)].
      + apply (make_format _ _ _ _ "uuid" KUUID); [cbn; tauto | |exact T]. dress H; [eapply metadata_obeys; [rule; reflexivity | exact X | discriminate | discriminate]|]. intros j J. destruct (F j J).
  Qed.

  (** Classes *)
  Lemma enum_values : forall ms d (c : nat), enum_to_schema S (TClass c) ms = Ok d -> ms <> [] /\ exists k, forall mj, In mj ms -> json_scalar (snd mj) = Ok k.
  Proof.
    intros ms d c H. unfold enum_to_schema in H. apply bind_ok in H. destruct H as (ks & V & H). destruct ks as [|k [|? ?]]; try discriminate H. split.
    - intros ->. discriminate V.
    - exists k. exact (MirrorProofs.enum_types_one _ _ V).
  Qed.

  Lemma enum_written : forall ms d c k, enum_to_schema S (TClass c) ms = Ok d -> (forall mj, In mj ms -> json_scalar (snd mj) = Ok k) ->
    (k = KInt -> d = describe S (TClass c) [(str "type", JStr (str "integer")); (str "enum", JArr (map snd ms))]) /\
    (k = KStr -> d = describe S (TClass c) [(str "type", JStr (str "string")); (str "enum", JArr (map snd ms))]).
  Proof.
    intros ms d c k H K. pose proof (enum_values _ _ _ H) as (N & _). unfold enum_to_schema in H. apply bind_ok in H. destruct H as (ks & V & H).
    destruct ks as [|k' [|? ?]]; try discriminate H. pose proof (MirrorProofs.enum_types_one _ _ V) as K'. destruct ms as [|mj ms]; [destruct (N eq_refl)|].
    assert (Q : k' = k) by (pose proof (K _ (or_introl eq_refl)); pose proof (K' _ (or_introl eq_refl)); congruence). subst k'.
    split; intros ->; injection H as <-; reflexivity.
  Qed.

  Lemma scalar_of : forall (A : Type) (f : A -> json) k (ms : list (pystr * json)) vs, (forall a, json_scalar (f a) = Ok k) -> map snd ms = map f vs ->
    forall mj, In mj ms -> json_scalar (snd mj) = Ok k.
  Proof.
    intros A f k ms vs F Q mj I. apply (in_map snd) in I. rewrite Q in I. apply in_map_iff in I. destruct I as (a & <- & _). apply F.
  Qed.

  Lemma dflt_member : forall c cl ms j, get_class E c = Some cl -> c_kind cl = CEnum ms -> dflt E S (TClass c) j -> In j (map snd ms).
  Proof.
    intros c cl ms j G K J. apply dflt_cases in J. destruct J as [(k & Q & _)|(c' & cl' & ms' & x & Q & _ & G' & K' & I)]; [discriminate Q|].
    assert (X : c' = c) by congruence. subst c'. assert (X : cl' = cl) by congruence. subst cl'. assert (X : ms' = ms) by congruence. subst ms'.
    apply in_map_iff. exists (x, j). auto.
  Qed.

  Lemma numbers_make : forall ctx c cl ms zs d dx, get_class E c = Some cl -> c_kind cl = CEnum ms -> map snd ms = map JInt zs ->
    enum_to_schema S (TClass c) ms = Ok d -> dressed (dflt E S (TClass c)) d dx -> builds U D ctx (JObj dx) [].
  Proof.
    intros ctx c cl ms zs d dx G K Q H DR. destruct (enum_values _ _ _ H) as (N & _).
    destruct (enum_written ms d c KInt H (scalar_of _ JInt KInt ms zs (fun _ => eq_refl) Q)) as (W & _). rewrite (W eq_refl) in DR. clear W H.
    pose proof (dressed_trans _ _ _ _ (dressed_describe (dflt E S (TClass c)) S (TClass c) _) DR) as DX. clear DR.
    assert (ZS : forall j, In j (map snd ms) -> whole j) by (intros j I; rewrite Q in I; apply in_map_iff in I; destruct I as (z & <- & _); eexists; reflexivity).
    apply make_integer; [|kept DX]. dress DX.
    - rule; [reflexivity|]. split; [exists (map snd ms); auto|]. intros X. injection X as X. destruct ms; [destruct (N eq_refl) | discriminate X].
    - intros j J. eexists. split; [listed|]. exact (ZS j (dflt_member _ _ _ _ G K J)).
  Qed.

  Lemma enum_makes : forall ctx c cl ms vs d dx, get_class E c = Some cl -> c_kind cl = CEnum ms -> map snd ms = map JStr vs -> members_for U ctx vs ->
    enum_to_schema S (TClass c) ms = Ok d -> dressed (dflt E S (TClass c)) d dx -> builds_class U D ctx (JObj dx) [ctx].
  Proof.
    intros ctx c cl ms vs d dx G K Q MF H DR.
    destruct (enum_written ms d c KStr H (scalar_of _ JStr KStr ms vs (fun _ => eq_refl) Q)) as (_ & W). rewrite (W eq_refl), Q in DR. clear W H.
    pose proof (dressed_trans _ _ _ _ (dressed_describe (dflt E S (TClass c)) S (TClass c) _) DR) as DX. clear DR.
    apply make_enum with (vs := vs); [|kept DX | kept DX | exact MF]. dress DX.
    - rule; [reflexivity | exact Logic.I].
    - intros j J. eexists. split; [listed|]. pose proof (dflt_member _ _ _ _ G K J) as I. rewrite Q in I. apply in_map_iff in I. destruct I as (v & <- & I). exists v. auto.
  Qed.

  Section Step.
    Variable n : nat.
    Hypothesis IH : forall ctx t names u d u' dx, sends E S U D ctx t names -> type_to_schema E S n false t u = Ok (d, u') -> dressed (dflt E S t) d dx ->
      builds U D ctx (JObj dx) names.

    Lemma all_make : forall ctx ts names u js u', sends_all E S U D ctx ts names -> seq_schema (type_to_schema E S n false) ts u = Ok (js, u') ->
      builds_members U D ctx js names.
    Proof.
      intros ctx ts. induction ts as [|t ts IHt]; intros names u js u' X H; cbn [seq_schema] in H; inversion X; subst.
      - injection H as <- _. apply bm_nil.
      - apply bind_ok in H. destruct H as ([d u1] & A & H). apply bind_ok in H. destruct H as ([js' u2] & B & H). cbn [fst snd] in *. injection H as <- _.
        apply bm_cons; [eapply IH; [eassumption | exact A | apply dr_same] | apply none_lacks; exact (MirrorProofs.no_default _ _ _ _ _ _ _ _ A) | eapply IHt; eassumption].
    Qed.

    Lemma properties_make : forall ctx c ps xs names new, sends_properties E S U D ctx c ps xs names -> (forall x t, In (x, t) ps -> canonical t) ->
      Forall2 (MirrorProofs.property_schema E S n c) ps new -> builds_properties U D ctx new names.
    Proof.
      intros ctx c ps. induction ps as [|[x t] ps IHp]; intros xs names new X C F; inversion X; subst; inversion F as [|? [y j] ? new' (Q & w' & d0 & dx & u & u' & W & A & B & J) F']; subst.
      - apply bp_nil.
      - cbn [fst snd] in *. subst j y. apply read_by in W; [|eapply C; left; reflexivity].
        assert (Y : w' = w) by (eapply read_type_fun; eassumption). subst w'. match goal with N : schema_name x t p |- _ => apply out_name_spec in N; subst p end.
        apply bp_cons; [assumption | | eapply IHp; [eassumption | intros y r I; eapply C; right; exact I | exact F']].
        eapply IH; [eassumption | exact A | eapply finish_dressed; eassumption].
    Qed.

    Lemma names_out : forall ctx c ps xs names, sends_properties E S U D ctx c ps xs names -> xs = map (fun f => out_name (fst f) (snd f)) ps.
    Proof.
      intros ctx c ps. induction ps as [|[x t] ps IHp]; intros xs names X; inversion X; subst; [reflexivity|]. cbn [map fst snd].
      f_equal; [apply out_name_spec; assumption | eapply IHp; eassumption].
    Qed.

    (** The schema of a class with fields. *)
    Lemma object_made : forall force ctx c names u d u', sends_object E S U D ctx c names -> expand E S (type_to_schema E S n) force (TClass c) u = Ok (d, u') ->
      exists ps req, d = describe S (TClass c) ([(str "type", JStr (str "object")); (str "properties", JObj ps); (str "additionalProperties", JBool false)] ++
        match req with [] => [] | _ => [(str "required", JArr (map JStr req))] end) /\ builds_properties U D ctx ps names.
    Proof.
      intros force ctx c names u d u' X H. inversion X as [? ? cl ps xs ? GC NE CP N ND SP]; subst. cbn [expand] in H. rewrite GC in H.
      assert (H' : (do ps <- class_properties E cl; do x <- properties_schema (type_to_schema E S n false) E S c ps [] [] u;
        Ok (describe S (TClass c) (object_schema (fst (fst x)) (snd (fst x))), snd x)) = Ok (d, u')).
      { destruct (c_kind cl) eqn:K; try exact H. destruct (NE _ eq_refl). }
      clear H. rewrite CP in H'. cbn [bind] in H'. apply bind_ok in H'. destruct H' as ([[props req] u1] & A & H). cbn [fst snd] in H.
      rewrite (names_out _ _ _ _ _ SP) in ND. apply MirrorProofs.properties_listed in A; [|exact ND | intros f _ []]. destruct A as (new & -> & F). cbn [app] in H.
      assert (M : builds_properties U D ctx new names) by (eapply properties_make; [exact SP | intros x t I; eapply properties_canonical; eassumption | exact F]).
      exists new, req. split; [|exact M]. injection H as <- _. destruct new as [|p new]; [inversion F; subst; destruct (N eq_refl)|]. reflexivity.
    Qed.

    Lemma object_makes : forall force ctx c names u d u' dx, sends_object E S U D ctx c names -> expand E S (type_to_schema E S n) force (TClass c) u = Ok (d, u') ->
      dressed (dflt E S (TClass c)) d dx -> builds_class U D ctx (JObj dx) (names ++ [ctx]).
    Proof.
      intros force ctx c names u d u' dx X H DR. pose proof (object_made _ _ _ _ _ _ _ X H) as (ps & req & Q & M).
      assert (N : plainly (TClass c)).
      { intros j J. inversion X as [? ? cl ? ? ? GC NE _ _ _ _]; subst. apply dflt_cases in J. destruct J as [(k & R & _)|(c' & cl' & ms & x & R & _ & G' & K' & _)]; [discriminate R|].
        injection R as <-. assert (Y : cl' = cl) by congruence. subst cl'. exact (NE _ K'). }
      subst d. pose proof (dressed_trans _ _ _ _ (dressed_describe (dflt E S (TClass c)) S (TClass c) _) DR) as DX. clear DR.
      cbn [app] in DX. apply make_object with (ps := ps); [|kept DX | kept DX | kept DX | exact M]. dress DX; [|intros j J; destruct (N j J)].
      eapply obeys_cons; [listed | reflexivity|]. eapply obeys_cons; [listed | exact Logic.I|]. eapply obeys_cons; [listed | exact Logic.I|].
      destruct req as [|r req]; [apply obeys_nil|]. eapply obeys_cons; [listed | | apply obeys_nil].
      exists (map JStr (r :: req)). split; [reflexivity|]. intros y I. apply in_map_iff in I. destruct I as (v & <- & _). eexists. reflexivity.
    Qed.

    Lemma class_makes : forall force ctx t names u d u' dx, states_class E S U D ctx t names -> expand E S (type_to_schema E S n) force t u = Ok (d, u') ->
      dressed (dflt E S t) d dx -> builds_class U D ctx (JObj dx) names.
    Proof.
      intros force ctx t names u d u' dx X H DR. inversion X as [? c cl ms vs GC K Q MF|? c ns SO]; subst.
      - cbn [expand] in H. rewrite GC, K in H. apply bind_ok in H. destruct H as (d' & A & H). injection H as -> _. eapply enum_makes; eassumption.
      - eapply object_makes; eassumption.
    Qed.

    Lemma expand_makes : forall force ctx t names u d u' dx, states E S U D ctx t names -> simple_type_to_schema t = None ->
      expand E S (type_to_schema E S n) force t u = Ok (d, u') -> dressed (dflt E S t) d dx -> builds U D ctx (JObj dx) names.
    Proof.
      intros force ctx t names u d u' dx X SI H DR. inversion X as [? k I|? k md I _|? w md ? N1 N2 SW|? w ? SW|? l L|? op ts ? NE SA|? c cl ms zs GC K Q|? ? ? SC]; subst.
      - exfalso. cbn [sent_scalars In] in I. repeat (destruct I as [<-|I]; [discriminate SI|]). destruct I.
      - discriminate H.
      - discriminate H.
      - cbn [expand] in H. apply bind_ok in H. destruct H as ([dw u1] & A & H). cbn [fst snd] in H. injection H as <- _. unfold typed in DR. cbn [app] in DR.
        apply make_array with (i := JObj dw); [|kept DR | kept DR | |].
        + dress DR; [rule; first [reflexivity | exact Logic.I]|]. intros j J. destruct (plainly_base (TList w) eq_refl ltac:(discriminate) j J).
        + apply none_lacks. exact (MirrorProofs.no_default _ _ _ _ _ _ _ _ A).
        + eapply IH; [exact SW | exact A | apply dr_same].
      - destruct n as [|n']; [cbn [expand] in H; apply bind_ok in H; destruct H as (j & _ & H); discriminate H|].
        pose proof (fun k j Q => dflt_fit (TLiteral [l]) k j Q) as F.
        destruct L as [(b & ->)|[(z & ->)|(s & ->)]]; cbn [expand lit_const lit_type bind type_to_schema simple_type_to_schema fst snd] in H; injection H as <- _;
          change (dict_set (typed ?a) (str "const") ?b) with [(str "type", JStr a); (str "const", b)] in DR.
        + apply make_boolean; [|kept DR]. dress DR; [rule; first [reflexivity | eexists; reflexivity]|]. intros j J. eexists. split; [listed | exact (F _ j eq_refl J)].
        + apply make_integer; [|kept DR]. dress DR; [rule; first [reflexivity | eexists; reflexivity]|]. intros j J. eexists. split; [listed | exact (F _ j eq_refl J)].
        + apply make_text; [|kept DR]. dress DR; [rule; first [reflexivity | eexists; reflexivity]|]. intros j J. eexists. split; [listed | exact (F _ j eq_refl J)].
      - cbn [expand] in H. destruct (is_type_union (TUnion op ts)); [|discriminate H]. apply bind_ok in H. destruct H as ([js u1] & A & H). cbn [fst snd] in H. injection H as <- _.
        apply make_one_of with (ss := js); [|kept DR | | eapply all_make; eassumption].
        + dress DR; [rule; first [reflexivity | exact Logic.I]|]. intros j J. destruct (plainly_base (TUnion op ts) eq_refl ltac:(discriminate) j J).
        + destruct ts as [|t ts]; [destruct (NE eq_refl)|]. cbn [seq_schema] in A. apply bind_ok in A. destruct A as (x & _ & A). apply bind_ok in A. destruct A as (y & _ & A). injection A as <- _. discriminate.
      - cbn [expand] in H. rewrite GC, K in H. apply bind_ok in H. destruct H as (d' & A & H). injection H as -> _. eapply numbers_make; eassumption.
      - apply bd_class. eapply class_makes; eassumption.
    Qed.
  End Step.

  Lemma registered_in : forall t e, (forall s, t <> TRef s) -> get (s_catalog S) t = Ok e -> in_catalog S t = true.
  Proof. intros t e NR G. destruct t; try (unfold get in G; unfold in_catalog, contains; destruct (type_get _ _); [reflexivity | discriminate G]). destruct (NR s eq_refl). Qed.

  Lemma unregistered_out : forall t, (forall s, t <> TRef s) -> unregistered S t -> in_catalog S t = false.
  Proof.
    intros t NR N. destruct (in_catalog S t) eqn:C; [|reflexivity]. exfalso.
    assert (X : exists e, get (s_catalog S) t = Ok e); [|destruct X as (e & G); exact (N e G)].
    destruct t; try (unfold in_catalog, contains in C; unfold get; destruct (type_get _ _); [eauto | discriminate C]). destruct (NR s eq_refl).
  Qed.

  Lemma ref_makes : forall ctx s t dx, referable U D s -> plainly t -> dressed (dflt E S t) (ref_to S s) dx -> builds U D ctx (JObj dx) [].
  Proof.
    intros ctx s t dx R N H. unfold ref_to in H. rewrite PATH in H. fold (path s) in H.
    apply make_ref with (x := s); [|kept H | exact R]. dress H; [rule; reflexivity|]. intros j J. destruct (N j J).
  Qed.

  Lemma stated : forall D0 ctx t names, states E S U D0 ctx t names -> forall s, t <> TRef s.
  Proof. intros D0 ctx t names X s ->. inversion X as [| | | | | | |? ? ? SC]; subst. inversion SC. Qed.

  Lemma schema_states : forall n, (forall ctx t names u d u' dx, sends E S U D ctx t names -> type_to_schema E S n false t u = Ok (d, u') -> dressed (dflt E S t) d dx ->
      builds U D ctx (JObj dx) names) ->
    forall force ctx t names u d u' dx, force = true \/ unregistered S t -> states E S U D ctx t names -> type_to_schema E S (Datatypes.S n) force t u = Ok (d, u') ->
    dressed (dflt E S t) d dx -> builds U D ctx (JObj dx) names.
  Proof.
    intros n IH force ctx t names u d u' dx FR X H DR. pose proof (stated _ _ _ _ X) as NR. cbn [type_to_schema] in H.
    destruct (simple_type_to_schema t) as [d0|] eqn:SI.
    { injection H as <- _. inversion X as [? k I|? k md I _|? w md ? N1 N2 SW|? w ? SW|? l L|? op ts ? NE SA|? c cl ms zs GC K Q|? ? ? SC]; subst; try discriminate SI.
      - eapply (scalar_makes ctx (TScalar k)); [exact I | exact SI | reflexivity | exact DR].
      - inversion SC; subst; discriminate SI. }
    assert (Q : negb force && in_catalog S t = false) by (destruct FR as [-> |N]; [reflexivity | rewrite (unregistered_out t NR N); apply andb_false_r]).
    rewrite Q in H. clear Q.
    destruct t as [k|b|w|w|k w|ts|op ts|ls|w md|c|s|]; try (eapply (expand_makes n IH); [exact X | exact SI | exact H | exact DR]).
    destruct (simple_type_to_schema w) as [d0|] eqn:SW.
    - inversion X as [|? k md' I EX|? w' md' ? N1 N2 SX| | | | |? ? ? SC]; subst.
      + eapply annotated_makes; [exact I | exact EX | exact SW | | exact DR].
        destruct (get_auxiliary_format _) as [f|] eqn:AX; injection H as <- _; [left; exists f; auto | right; reflexivity].
      + destruct w; try discriminate SW. destruct (N1 _ eq_refl).
      + inversion SC.
    - inversion X as [|? k md' I EX|? w' md' ? N1 N2 SX| | | | |? ? ? SC]; subst.
      + exfalso. cbn [sent_scalars In] in I. clear - I SW. repeat (destruct I as [<-|I]; [discriminate SW|]). destruct I.
      + eapply (expand_makes n IH); [exact SX | exact SW | exact H|]. eapply plain_dressed; [|exact DR].
        apply plainly_base; [|discriminate]. cbn [base_of]. destruct w; try reflexivity. destruct (N1 _ eq_refl).
      + inversion SC.
  Qed.

  Lemma schema_makes : forall n ctx t names u d u' dx, sends E S U D ctx t names -> type_to_schema E S n false t u = Ok (d, u') -> dressed (dflt E S t) d dx ->
    builds U D ctx (JObj dx) names.
  Proof.
    induction n as [|n IH]; intros ctx t names u d u' dx X H DR; [discriminate H|]. inversion X as [? c e G R|? s R|? ? ? N ST]; subst.
    - cbn [type_to_schema simple_type_to_schema] in H. rewrite (registered_in (TClass c) e ltac:(discriminate) G), G in H. cbn [negb andb bind] in H. injection H as <- _.
      eapply ref_makes; [exact R | eapply plainly_registered; exact G | exact DR].
    - assert (Q : d = ref_to S s).
      { cbn [type_to_schema simple_type_to_schema negb andb] in H. destruct (in_catalog S (TRef s)).
        - apply bind_ok in H. destruct H as (e & G & H). cbv zeta in H. cbn [get] in G. destruct (dict_get (by_name (s_catalog S)) s) as [e'|] eqn:G'; [|discriminate G].
          injection G as ->. rewrite (co_named _ _ CO _ _ G') in H. injection H as <- _. reflexivity.
        - cbn [expand] in H. destruct (s_eval S s); injection H as <- _; reflexivity. }
      subst d. apply (ref_makes ctx s (TRef s)); [exact R | apply plainly_base; [reflexivity | discriminate] | exact DR].
    - eapply schema_states; [exact IH | right; exact N | exact ST | exact H | exact DR].
  Qed.

  (** Classes where they are defined. *)
  Lemma definition_makes : forall n x w names u d u' dx, states_class E S U D x w names -> type_to_schema E S n true w u = Ok (d, u') -> dressed nothing d dx ->
    builds_class U D x (JObj dx) names.
  Proof.
    intros n x w names u d u' dx X H DR. destruct n as [|n]; [discriminate H|].
    assert (Q : exists c, w = TClass c) by (inversion X; eauto). destruct Q as (c & ->). cbn [type_to_schema simple_type_to_schema negb andb] in H.
    eapply (class_makes n (schema_makes n)); [exact X | exact H | eapply dressed_impl; [|exact DR]; intros j []].
  Qed.
End Types.

(** ** Documents *)

Section Documents.
  Variables (E : env) (S : senv) (U : unicode).
  Hypothesis CE : canonical_env E.
  Hypothesis CO : coherent E S.
  Hypothesis PATH : s_path S = str "#/definitions/".
  Hypothesis NX : unexemplified S.

  Definition worn (s : pystr) (j : json) : Prop := exists w d d', recorded S s w /\ schema_of E S true w d /\ dressed nothing d d' /\ j = JObj d'.

  Lemma lookup_worn : forall n s t u d u', recorded S s t -> type_to_schema_with_lookup E S n t u = Ok (d, u') -> records S u -> worn s (JObj d) /\ records S u'.
  Proof.
    intros n s t u d u' Rs H R. unfold type_to_schema_with_lookup in H. apply bind_ok in H. destruct H as (e & G & H).
    assert (G' : get (s_catalog S) t = Ok e).
    { destruct t; try exact G. destruct (s_forward S s0); [exact G | discriminate G]. }
    rewrite (co_derived _ _ CO _ _ G'), (NX _ _ G') in H. apply bind_ok in H. destruct H as ([x u1] & A & H). cbn [fst snd] in H. cbv zeta in H. injection H as <- <-.
    split; [|eapply schema_records; eassumption]. exists t, x. eexists. split; [exact Rs|]. split; [exists n, u, u1; exact A|]. split; [|reflexivity].
    destruct (s_describe S && is_python_class t); [apply dressed_docs | apply dr_same].
  Qed.

  Lemma define_all_worn : forall n todo def u def' u', (forall s t, In (s, t) todo -> recorded S s t) -> (forall s j, In (s, j) def -> worn s j) -> records S u ->
    define_all E S n todo def u = Ok (def', u') -> (forall s j, In (s, j) def' -> worn s j) /\ records S u'.
  Proof.
    intros n todo. induction todo as [|[s t] todo IH]; intros def u def' u' T D R H; cbn [define_all] in H.
    - injection H as <- <-. auto.
    - apply bind_ok in H. destruct H as ([d u1] & A & H). cbn [fst snd] in H.
      pose proof (lookup_worn _ s _ _ _ _ (T s t (or_introl eq_refl)) A R) as (X & R1).
      eapply IH in H; [exact H | intros s' t' I; apply T; right; exact I | | exact R1].
      intros s' j I. apply SchemaProofs.dict_set_in in I. destruct I as [[-> ->]|I]; [exact X | exact (D s' j I)].
  Qed.

  Lemma define_loop_worn : forall n k def u defs, (forall s j, In (s, j) def -> worn s j) -> records S u -> define_loop E S n k def u = Ok defs ->
    forall s j, In (s, j) defs -> worn s j.
  Proof.
    intros n k. induction k as [|k IH]; intros def u defs D R H; cbn [define_loop] in H; destruct (length def <? length u);
      try discriminate H; try (injection H as <-; exact D).
    apply bind_ok in H. destruct H as ([def' u'] & A & H). cbn [fst snd] in H.
    apply define_all_worn in A; [| intros s t I; apply filter_In in I; apply R; tauto | exact D | exact R].
    destruct A as (A1 & A2). eapply IH; [exact A1 | exact A2 | exact H].
  Qed.

  Lemma worn_class : forall D x j names, (forall w, stands_for S x w -> states_class E S U D x w names) -> worn x j -> builds_class U D x j names /\ lacks j "default".
  Proof.
    intros D x j names X (w & d & d' & Rw & Sw & Dw & ->). destruct (recorded_stands E S CO _ _ _ Rw Sw) as (w' & St & n & u & u' & A). split.
    - exact (definition_makes E S U D CE CO PATH n x w' names u d u' d' (X w' St) A Dw).
    - apply none_lacks. eapply dressed_default; [exact Dw | exact (MirrorProofs.no_default _ _ _ _ _ _ _ _ A)].
  Qed.

  Lemma definitions_make : forall ds D names, sends_definitions E S U D (map fst ds) names -> (forall x j, In (x, j) ds -> worn x j) -> builds_definitions U D ds names.
  Proof.
    intros ds. induction ds as [|[x j] ds IH]; intros D names X W; cbn [map fst] in X; inversion X as [|? ? ? n1 n2 A B]; subst; [apply bn_nil|].
    destruct (worn_class D x j n1 A (W _ _ (or_introl eq_refl))) as (M & L). apply bn_cons; [exact M | exact L | apply IH; [exact B | intros y i I; apply W; right; exact I]].
  Qed.

  Theorem document_makes : forall n k c name doc ds n1 n2, classdef_to_schema E S n k (TClass c) = Ok doc -> unregistered S (TClass c) ->
    has doc "definitions" (JObj ds) \/ ds = [] /\ lacks doc "definitions" ->
    sends_definitions E S U [] (map fst ds) n1 -> sends_object E S U (rev (map fst ds)) name c n2 ->
    exists ps, makes_schema U name doc ds ps n1 n2 /\ builds_definitions U [] ds n1 /\ builds_properties U (rev (map fst ds)) name ps n2.
  Proof.
    intros n k c name doc ds n1 n2 H NR DS SD SO. apply document_shape in H. destruct H as (d & u & defs & A & B & T & ->).
    assert (Q : definitions_of (sort_attrs defs) = definitions_of ds /\ (forall p, In p ds -> In p defs)).
    { assert (ND : forall j, ~ In (str "definitions", j) d).
      { intros j I. apply (in_map fst) in I. apply T in I. apply mem_str_in in I. discriminate I. }
      destruct DS as [(o & Q & I)|(-> & L)].
      - injection Q as <-. destruct I as [I|I]; [discriminate I|]. apply in_app_iff in I. destruct I as [I|I]; [|destruct (ND _ I)].
        assert (Y : sort_attrs defs = ds) by (unfold definitions_of in I; destruct (sort_attrs defs); [destruct I | destruct I as [I|[]]; injection I as <-; reflexivity]).
        split; [rewrite Y; reflexivity|]. intros p J. rewrite <- Y in J. eapply Permutation_in; [apply Permutation_sym, sort_perm | exact J].
      - split; [|intros p []]. destruct (sort_attrs defs) as [|p l]; [reflexivity|]. exfalso. apply (L (JObj (p :: l))). eexists. split; [reflexivity|]. right. left. reflexivity. }
    destruct Q as (Q & SUB). rewrite Q in *. clear Q.
    assert (WN : forall x j, In (x, j) ds -> worn x j).
    { intros x j I. eapply (define_loop_worn n k [] u defs); [intros s i [] | eapply schema_records; [exact A | intros s' w' []] | exact B | exact (SUB _ I)]. }
    destruct n as [|n]; [discriminate A|]. cbn [type_to_schema simple_type_to_schema negb] in A. rewrite (unregistered_out S (TClass c) ltac:(discriminate) NR) in A. cbn [andb] in A.
    pose proof (object_made E S U (rev (map fst ds)) CE n (schema_makes E S U _ CE CO PATH n) false name c n2 _ _ _ SO A) as (ps & req & Q & M).
    pose proof (dressed_describe nothing S (TClass c) ([(str "type", JStr (str "object")); (str "properties", JObj ps); (str "additionalProperties", JBool false)] ++
        match req with [] => [] | _ => [(str "required", JArr (map JStr req))] end)) as DX. rewrite <- Q in DX. cbn [app] in DX.
    assert (O : obeys object_rules d).
    { dress DX; [|intros j []].
      eapply obeys_cons; [listed | reflexivity|]. eapply obeys_cons; [listed | exact Logic.I|]. eapply obeys_cons; [listed | exact Logic.I|].
      destruct req as [|r req]; [apply obeys_nil|]. eapply obeys_cons; [listed | | apply obeys_nil].
      exists (map JStr (r :: req)). split; [reflexivity|]. intros y I. apply in_map_iff in I. destruct I as (v & <- & _). eexists. reflexivity. }
    assert (OD : obeys (object_rules ++ [("$schema"%string, text); ("definitions"%string, eq (JObj ds))]) (dialect :: definitions_of ds ++ d)).
    { unfold dialect. eapply obeys_cons; [listed | eexists; reflexivity|].
      assert (O' : obeys (object_rules ++ [("$schema"%string, text); ("definitions"%string, eq (JObj ds))]) d).
      { eapply obeys_weaken; [exact O|]. intros x P I. exists P. split; [apply in_app_iff; left; exact I | auto]. }
      unfold definitions_of. destruct ds; [exact O'|]. cbn [app]. eapply obeys_cons; [listed | reflexivity | exact O']. }
    assert (G : forall key v, has (JObj d) key v -> has (JObj (dialect :: definitions_of ds ++ d)) key v).
    { intros key v (o & Y & I). injection Y as <-. eexists. split; [reflexivity|]. right. apply in_app_iff. right. exact I. }
    assert (BD : builds_definitions U [] ds n1) by (apply definitions_make; assumption).
    exists ps. split; [|split; [exact BD | exact M]]. split.
    - by_only OD.
    - split; [split; by_may OD|]. split; [apply G; kept DX | by_may OD].
    - eexists. eexists. split; [reflexivity|]. left. reflexivity.
    - exact DS.
    - apply G. kept DX.
    - apply G. kept DX.
    - by_may OD.
    - apply builds_definitions_make. exact BD.
    - apply builds_make. exact M.
  Qed.
End Documents.
