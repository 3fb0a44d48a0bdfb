(** Titles, descriptions, defaults and examples of generated schemas. *)
From Coq Require Import String List NArith ZArith Bool Lia Permutation.
From Verif Require Import Base Json PyTypes TypeAlgebra TypeAlgebraProofs Deser Ser Lists SerFacts Catalog CatalogProofs Schema SpecTyping SpecTypes SpecFields SpecSchema
  SchemaSem SpecGenerate SchemaProofs SchemaClass SpecValid SchemaForm SchemaValid SpecMirror MirrorProofs SpecNotes.
Import ListNotations.
Open Scope list_scope.
Open Scope nat_scope.

Lemma pop_get : forall d k k', dict_get (pop d k) k' = if pystr_eqb k k' then None else dict_get d k'.
Proof.
  intros d k k'. unfold pop. induction d as [|[k0 x] d IH]; cbn [filter fst dict_get]; [destruct (pystr_eqb k k'); reflexivity|].
  destruct (pystr_eqb k0 k) eqn:Q; cbn [negb].
  - apply pystr_eqb_eq in Q. subst k0. rewrite IH. destruct (pystr_eqb k k'); reflexivity.
  - cbn [dict_get]. rewrite IH. destruct (pystr_eqb k k') eqn:Q'; [|reflexivity]. apply pystr_eqb_eq in Q'. subst k'. rewrite Q. reflexivity.
Qed.

Definition read_notes (o : list (pystr * json)) : notes :=
  Notes (dict_get o (str "title")) (dict_get o (str "description")) (dict_get o (str "default")) (dict_get o (str "examples")).

Lemma read_carries : forall o, carries o (read_notes o).
Proof. intros o. repeat split. Qed.

Section Schemas.
  Variables (E : env) (S : senv).
  Hypothesis OK : env_ok E.
  Hypothesis CE : canonical_env E.
  Notation own := (own S).
  Notation noted := (noted E S).

  Lemma text_said : forall s, match text_or_none s with Some t => Some (JStr t) | None => None end = said s.
  Proof. intros [[|c s]|]; reflexivity. Qed.

  (** Descriptions added to a schema. *)
  Lemma doc_title : forall t d, dict_get (upd d (docstring_to_schema S t)) (str "title") = first_of (said (s_short S t)) (dict_get d (str "title")).
  Proof.
    intros t d. unfold docstring_to_schema. rewrite upd_app, <- text_said.
    destruct (text_or_none (s_long S t)); cbn [upd fold_left fst snd]; [rewrite set_lookup; cbn [pystr_eqb]|];
      destruct (text_or_none (s_short S t)); cbn [upd fold_left fst snd first_of]; try rewrite set_lookup; reflexivity.
  Qed.

  Lemma doc_description : forall t d, dict_get (upd d (docstring_to_schema S t)) (str "description") = first_of (said (s_long S t)) (dict_get d (str "description")).
  Proof.
    intros t d. unfold docstring_to_schema. rewrite upd_app, <- text_said.
    destruct (text_or_none (s_long S t)); cbn [upd fold_left fst snd first_of]; [rewrite set_lookup; reflexivity|].
    destruct (text_or_none (s_short S t)); cbn [upd fold_left fst snd]; try rewrite set_lookup; reflexivity.
  Qed.

  Lemma doc_other : forall t d k, k <> str "title" -> k <> str "description" -> dict_get (upd d (docstring_to_schema S t)) k = dict_get d k.
  Proof.
    intros t d k N1 N2. apply upd_other. unfold docstring_to_schema. intros H. rewrite map_app in H. apply in_app_iff in H.
    destruct H as [H|H]; [destruct (text_or_none (s_short S t)) | destruct (text_or_none (s_long S t))]; cbn [map fst In] in H; tauto || (destruct H as [H|[]]; congruence).
  Qed.

  Lemma describe_carries : forall t d, carries d no_notes -> carries (describe S t d) (documented S t).
  Proof.
    intros t d (H1 & H2 & H3 & H4). unfold describe, documented. destruct (s_describe S); [|repeat split; assumption]. unfold carries. cbn [n_title n_description n_default n_examples].
    rewrite doc_title, doc_description, !doc_other, H1, H2, H3, H4 by discriminate. destruct (said (s_short S t)), (said (s_long S t)); repeat split.
  Qed.

  (** Fields. *)
  Lemma finish_notes : forall c x d d' ns, finish_property E S c x d = Ok d' -> carries d ns -> n_default ns = None -> field_notes E S c x ns (read_notes d').
  Proof.
    intros c x d d' ns H (C1 & C2 & C3 & C4) ND. rewrite ND in C3. destruct (finish_default _ _ _ _ _ _ H C3) as (D1 & D2). split.
    { intros v Q WD. rewrite Q in D1. destruct (D1 WD) as (v' & j & Q' & OJ & DG). exists j. injection Q' as <-. auto. }
    split.
    { intros NW. apply D2. destruct (dict_get (s_attrs S c) x) as [v|]; [apply NW; reflexivity | exact (fun f => f)]. }
    unfold finish_property in H. apply bind_ok in H. destruct H as (df & D & H). cbv zeta in H.
    assert (X : forall k, k <> str "default" -> dict_get (upd d df) k = dict_get d k).
    { intros k Nk. apply upd_other. unfold default_schema in D. intros I.
      destruct (dict_get (s_attrs S c) x) as [v|]; [|injection D as <-; destruct I].
      assert (Y : (exists j, df = [(str "default", j)]) \/ df = []).
      { destruct v; try (injection D as <-; right; reflexivity); apply bind_ok in D; destruct D as (j & _ & D); injection D as <-; left; eauto. }
      destruct Y as [(j & Y)|Y]; subst df; [|destruct I]. destruct I as [I|[]]. cbn [fst] in I. congruence. }
    rewrite <- text_said. cbn [read_notes n_examples n_title n_description].
    destruct (text_or_none (dict_get (s_props S c) x)) as [s|]; injection H as <-.
    - rewrite !set_lookup, !pop_get. cbn [pystr_eqb]. rewrite X by discriminate. split; [exact C4|]. split; reflexivity.
    - rewrite !X by discriminate. split; [exact C4|]. split; assumption.
  Qed.

  Lemma own_default : forall named t ns, own named t ns -> n_default ns = None.
  Proof. intros named t ns H. induction H; try reflexivity; try assumption. unfold documented. destruct (s_describe S); reflexivity. Qed.

  Lemma simple_is : forall t d, simple_type_to_schema t = Some d -> is_simple t.
  Proof. intros t d H. destruct t as [k| | | | | | | | | | |]; try discriminate H. exists k. split; [reflexivity|]. destruct k; try discriminate H; cbn; tauto. Qed.

  Lemma not_simple : forall t, simple_type_to_schema t = None -> ~ is_simple t.
  Proof. intros t H (k & -> & I). cbn in I. repeat (destruct I as [<-|I]; [discriminate H|]). exact I. Qed.

  Lemma core_look : forall dx d k, core dx = core d -> note (str k) = false -> dict_get dx (str k) = dict_get d (str k).
  Proof. intros dx d k C Nk. rewrite <- (core_get dx _ Nk), C. apply core_get. exact Nk. Qed.

  Section Step.
    Variable n : nat.
    Hypothesis IH : forall force t u d u', type_to_schema E S n force t u = Ok (d, u') ->
      exists ns, own (negb force) t ns /\ carries d ns /\ forall dx ns', core dx = core d -> carries dx ns' -> noted (negb force) t ns' (JObj dx).

    Lemma seq_noted : forall ts u js u', seq_schema (type_to_schema E S n false) ts u = Ok (js, u') ->
      Forall2 (fun w q => exists ns', own true w ns' /\ noted true w ns' q) ts js.
    Proof.
      intros ts. induction ts as [|t ts IHt]; intros u js u' H; cbn [seq_schema] in H; [injection H as <- _; constructor|].
      apply bind_ok in H. destruct H as ([d u1] & A & H). apply bind_ok in H. destruct H as ([js' u2] & B & H). cbn [fst snd] in *. injection H as <- _.
      constructor; [|eapply IHt; exact B]. destruct (IH _ _ _ _ _ A) as (ns & O & C & X). exists ns. split; [exact O | exact (X d ns eq_refl C)].
    Qed.

    Lemma expand_noted : forall force named t u d u', expand E S (type_to_schema E S n) force t u = Ok (d, u') -> simple_type_to_schema t = None ->
      (forall s, t = TRef s -> named = negb force) -> ((forall s, t <> TRef s) -> inlined S named t) ->
      exists ns, own named t ns /\ carries d ns /\ forall dx ns', core dx = core d -> carries dx ns' -> noted named t ns' (JObj dx).
    Proof.
      intros force named t u d u' H NS NR IL. apply not_simple in NS.
      destruct t as [k|b|w|w|k w|ts|op ts|ls|w md|c|s|]; cbn [expand] in H; try discriminate H; try (assert (ILL := IL ltac:(intros; discriminate))).
      - injection H as <- _. exists (documented S (TScalar k)). split; [apply ow_class; [exact ILL | right; left; eauto]|].
        split; [apply describe_carries; repeat split|]. intros dx ns' _ C. apply nt_builtin; [exact ILL | left; eauto | exact C].
      - injection H as <- _. exists (documented S (TBare b)). split; [apply ow_class; [exact ILL | right; right; eauto]|].
        split; [apply describe_carries; repeat split|]. intros dx ns' _ C. apply nt_builtin; [exact ILL | right; eauto | exact C].
      - apply bind_ok in H. destruct H as ([dw u1] & A & H). injection H as <- _. destruct (IH _ _ _ _ _ A) as (ns & O & C & X).
        exists no_notes. split; [apply ow_compound; [exact ILL | exact Logic.I]|]. split; [repeat split|]. intros dx ns' Q C'.
        eapply (nt_items E S _ _ w _ _ (JObj dw) ns); [exact ILL | left; reflexivity | exact C' | rewrite (core_look _ _ "items" Q eq_refl); reflexivity | exact O | exact (X dw ns eq_refl C)].
      - apply bind_ok in H. destruct H as ([dw u1] & A & H). injection H as <- _. destruct (IH _ _ _ _ _ A) as (ns & O & C & X).
        exists no_notes. split; [apply ow_compound; [exact ILL | exact Logic.I]|]. split; [repeat split|]. intros dx ns' Q C'.
        eapply (nt_items E S _ _ w _ _ (JObj dw) ns); [exact ILL | right; reflexivity | exact C' | rewrite (core_look _ _ "items" Q eq_refl); reflexivity | exact O | exact (X dw ns eq_refl C)].
      - apply bind_ok in H. destruct H as (? & _ & H). apply bind_ok in H. destruct H as ([dw u1] & A & H). apply bind_ok in H. destruct H as (dd & D & H).
        cbn [fst snd] in *. injection H as <- _. destruct (IH _ _ _ _ _ A) as (ns & O & C & X).
        exists no_notes. split; [apply ow_compound; [exact ILL | exact Logic.I]|].
        assert (Y : carries (typed (str "object") ++ dd) no_notes /\ (dict_get (typed (str "object") ++ dd) (str "additionalProperties") = Some (JObj dw) \/
          exists qs, dict_get (typed (str "object") ++ dd) (str "properties") = Some (JObj qs) /\ forall x q', In (x, q') qs -> q' = JObj dw)).
        { unfold dict_to_schema in D. destruct k as [k| | | | | | | |kt md|c| |]; try discriminate D.
          - destruct k; try discriminate D; injection D as <-; (split; [repeat split | left; reflexivity]).
          - destruct kt; discriminate D.
          - destruct (get_class E c) as [cl|]; [|discriminate D]. destruct (c_kind cl); try discriminate D. apply bind_ok in D. destruct D as (vs & _ & D).
            destruct (4 <? length vs); injection D as <-; (split; [repeat split|]); [left; reflexivity | right]. eexists. split; [reflexivity|].
            intros y q1 I. unfold dict_of in I.
            assert (Z : forall l acc, (forall x q', In (x, q') acc -> q' = JObj dw) -> forall x q', In (x, q') (fold_left (fun d kv => dict_set d (fst kv) (snd kv)) (map (fun s : pystr => (s, JObj dw)) l) acc) -> q' = JObj dw).
            { clear. intros l. induction l as [|y l IHl]; intros acc HA x q'; cbn [map fold_left fst snd]; [apply HA|]. apply IHl. intros x' q'' J.
              apply SchemaProofs.dict_set_in in J. destruct J as [[_ ->]|J]; [reflexivity | exact (HA _ _ J)]. }
            eapply (Z vs []); [intros ? ? [] | exact I]. }
        destruct Y as (Y1 & Y2). split; [exact Y1|]. intros dx ns' Q C'. eapply (nt_values E S _ k w ns' dx (JObj dw) ns ILL C' O (X dw ns eq_refl C)).
        rewrite (core_look _ _ "additionalProperties" Q eq_refl), (core_look _ _ "properties" Q eq_refl). exact Y2.
      - apply bind_ok in H. destruct H as ([js u1] & A & H). injection H as <- _. apply seq_noted in A.
        exists no_notes. split; [apply ow_compound; [exact ILL | exact Logic.I]|]. split; [repeat split|]. intros dx ns' Q C'.
        eapply (nt_members E S _ _ ts "prefixItems" ns' dx js); [exact ILL | left; auto | exact C' | rewrite (core_look _ _ "prefixItems" Q eq_refl); reflexivity | exact A].
      - destruct (is_type_union (TUnion op ts)); [|discriminate H]. apply bind_ok in H. destruct H as ([js u1] & A & H). injection H as <- _. apply seq_noted in A.
        exists no_notes. split; [apply ow_compound; [exact ILL | exact Logic.I]|]. split; [repeat split|]. intros dx ns' Q C'.
        eapply (nt_members E S _ _ ts "oneOf" ns' dx js); [exact ILL | right; eauto | exact C' | rewrite (core_look _ _ "oneOf" Q eq_refl); reflexivity | exact A].
      - destruct ls as [|l [|? ?]]; try discriminate H. apply bind_ok in H. destruct H as (j & LC & H). apply bind_ok in H. destruct H as ([dw u1] & A & H).
        cbn [fst snd] in *. injection H as <- _. exists no_notes. split; [apply ow_compound; [exact ILL | exact Logic.I]|]. split.
        + destruct (IH _ _ _ _ _ A) as (ns & O & C & _). 
          assert (SI : is_simple (lit_type l)).
          { destruct l; try discriminate LC; cbn [lit_type]; eexists; (split; [reflexivity|]); cbn; tauto. }
          assert (NN : ns = no_notes).
          { destruct SI as (k & Q & I). clear - O Q I. rewrite Q in O. inversion O; subst; try reflexivity; try (destruct H0 as [(? & ?)|[(? & ? & Z)|(? & ?)]]; try discriminate; destruct Z; exists k; auto). }
          subst ns. unfold carries in *. rewrite !set_lookup. cbn [pystr_eqb]. exact C.
        + intros dx ns' _ C'. apply nt_literal; [exact ILL | exact C'].
      - destruct (get_class E c) as [cl|] eqn:GC; [|discriminate H]. exists (documented S (TClass c)). split; [apply ow_class; [exact ILL | left; eauto]|].
        assert (OB : (forall ms, c_kind cl <> CEnum ms) -> (do ps <- class_properties E cl; do x <- properties_schema (type_to_schema E S n false) E S c ps [] [] u;
          Ok (describe S (TClass c) (object_schema (fst (fst x)) (snd (fst x))), snd x)) = Ok (d, u') ->
          carries d (documented S (TClass c)) /\ forall dx ns', core dx = core d -> carries dx ns' -> noted named (TClass c) ns' (JObj dx)).
        { intros NE H'. apply bind_ok in H'. destruct H' as (ps & CP & H'). apply bind_ok in H'. destruct H' as ([[props required] u1] & PS & H').
          cbn [fst snd] in H'. injection H' as <- _. split; [apply describe_carries; unfold object_schema; destruct props, required; repeat split|].
          intros dx ns' Q C'. eapply nt_class; try eassumption. intros DN NP.
          pose proof (distinct_out _ (field_names _ OK _ _ _ GC CP) DN) as ND.
          destruct (properties_listed _ _ _ _ _ _ _ _ _ _ _ PS ND (fun f _ I => I)) as (new & QN & FP). cbn [app] in QN. subst new. exists props. split.
          - rewrite describe_core in Q. rewrite (core_look _ _ "properties" Q eq_refl). unfold object_schema. destruct props; [|destruct required; reflexivity].
            inversion FP; subst. destruct (NP eq_refl).
          - eapply Forall2_impl_in; [|exact FP]. intros [x t] [y q] It _ (Q1 & w & d0 & dx0 & u2 & u3 & RW & TS & FN & Q2). cbn [fst snd] in *. subst y q.
            split; [apply out_name_spec; reflexivity|]. destruct (IH _ _ _ _ _ TS) as (ns & O & C & X). exists w, ns, (read_notes dx0).
            split; [apply read_by; [exact (properties_canonical _ _ _ _ _ _ CE GC CP It) | exact RW]|]. split; [exact O|].
            split; [eapply finish_notes; [exact FN | exact C | eapply own_default; exact O]|].
            apply X; [eapply finish_core; exact FN | apply read_carries]. }
        destruct (c_kind cl) as [ms|fs|ts|fr fs|fs] eqn:KC; try (apply OB; [intros ? Q; congruence | exact H]).
        apply bind_ok in H. destruct H as (d' & D & H). injection H as <- _. split.
        + unfold enum_to_schema in D. apply bind_ok in D. destruct D as (ks & EV & D). destruct ks as [|k [|? ?]]; try discriminate D.
          destruct k; cbn [simple_type_to_schema] in D; try discriminate D; injection D as <-; apply describe_carries; repeat split.
        + intros dx ns' _ C'. eapply nt_enum; eassumption.
      - rewrite (NR _ eq_refl). destruct force.
        + destruct (s_eval S s) as [w|] eqn:V; [|discriminate H]. destruct (IH _ _ _ _ _ H) as (ns & O & C & X). exists ns.
          split; [eapply ow_evaluated; eassumption|]. split; [exact C|]. intros dx ns' Q C'. eapply nt_evaluated; [exact V | exact (X _ _ Q C')].
        + assert (Q : d = ref_to S s) by (destruct (s_eval S s); injection H as <- _; reflexivity). subst d. exists no_notes.
          split; [apply ow_text|]. split; [repeat split|]. intros dx ns' _ C'. apply nt_text. exact C'.
    Qed.
  End Step.

  Lemma schema_noted : forall n force t u d u', type_to_schema E S n force t u = Ok (d, u') ->
    exists ns, own (negb force) t ns /\ carries d ns /\ forall dx ns', core dx = core d -> carries dx ns' -> noted (negb force) t ns' (JObj dx).
  Proof.
    induction n as [|n IH]; intros force t u d u' H; [discriminate H|]. cbn [type_to_schema] in H.
    destruct (simple_type_to_schema t) as [d0|] eqn:B.
    { injection H as <- _. exists no_notes. split; [apply ow_simple; eapply simple_is; exact B|]. split.
      - destruct t as [k| | | | | | | | | | |]; try discriminate B. destruct k; try discriminate B; injection B as <-; repeat split.
      - intros dx ns' _ C. apply nt_simple; [eapply simple_is; exact B | exact C]. }
    destruct (negb force && in_catalog S t) eqn:IC.
    { apply bind_ok in H. destruct H as (e & GE & H). cbv zeta in H. injection H as <- _. apply andb_true_iff in IC. destruct IC as [IC _]. rewrite IC.
      apply not_simple in B. exists no_notes. split; [eapply ow_registered; eassumption|]. split; [repeat split|]. intros dx ns' _ C. eapply nt_registered; eassumption. }
    assert (IL : (forall s, t <> TRef s) -> inlined S (negb force) t).
    { intros NR Q. rewrite Q in IC. cbn [andb] in IC. apply uncatalogued; assumption. }
    destruct t as [k|b|w|w|k w|ts|op ts|ls|w md|c|s|]; try (eapply expand_noted; [exact IH | exact H | exact B | intros; first [reflexivity | discriminate] | exact IL]).
    assert (ILA := IL ltac:(intros; discriminate)).
    destruct (simple_type_to_schema w) as [d0|] eqn:B0.
    - destruct w as [k| | | | | | | | | | |]; try discriminate B0. exists no_notes.
      split; [apply ow_annot; [exact ILA | apply ow_simple; eapply simple_is; exact B0]|]. split.
      + assert (C0 : carries d0 no_notes) by (destruct k; try discriminate B0; injection B0 as <-; repeat split).
        destruct (get_auxiliary_format (TAnnot (TScalar k) md)) as [f|].
        * assert (Q : d = upd d0 [(str "format", JStr f)]) by congruence. subst d. unfold carries in *. rewrite !upd_other by (intros [Q|[]]; discriminate Q). exact C0.
        * assert (Q : d = with_metadata S d0 md) by congruence. subst d. unfold carries in *. rewrite !meta_other by (intros I; cbn in I; repeat (destruct I as [I|I]; [discriminate I|]); exact I). exact C0.
      + intros dx ns' _ C. apply nt_annot; [exact ILA|]. apply nt_simple; [eapply simple_is; exact B0 | exact C].
    - assert (X : exists ns, own (match w with TRef _ => negb force | _ => false end) w ns /\ carries d ns /\
        forall dx ns', core dx = core d -> carries dx ns' -> noted (match w with TRef _ => negb force | _ => false end) w ns' (JObj dx)).
      { destruct w as [k|b|w|w|k w|ts|op ts|ls|w md'|c|s|];
          try (eapply expand_noted; [exact IH | exact H | exact B0 | intros; first [reflexivity | discriminate] | intros _ Q; discriminate Q]).
        eapply expand_noted; [exact IH | exact H | exact B0 | intros; reflexivity | intros NR; destruct (NR s eq_refl)]. }
      destruct X as (ns & O & C & X). exists ns. split; [apply ow_annot; assumption|]. split; [exact C|]. intros dx ns' Q C'. apply nt_annot; [exact ILA | exact (X _ _ Q C')].
  Qed.
End Schemas.

Section Definitions.
  Variables (E : env) (S : senv).
  Hypothesis OK : env_ok E.
  Hypothesis CE : canonical_env E.

  Definition accounted (x : pystr) (j : json) : Prop := exists w e, names S x w /\ get (s_catalog S) w = Ok e /\
    match en_schema e with
    | None => exists ns ns', own S false w ns /\ definition_notes S e w ns ns' /\ noted E S false w ns' j
    | Some s => exists o o' ns ns', s = JObj o /\ j = JObj o' /\ carries o ns /\ definition_notes S e w ns ns' /\ carries o' ns'
    end.

  (** Texts and examples added to a definition. *)
  Lemma lookup_notes : forall e w o d ns,
    d = (let d := if s_describe S && is_python_class w then upd o (docstring_to_schema S w) else o in
         match en_examples e with Some j => if s_exemplify S && truthy j then dict_set d (str "examples") j else d | None => d end) ->
    carries o ns -> definition_notes S e w ns (read_notes d) /\ core d = core o.
  Proof.
    intros e w o d ns Q (C1 & C2 & C3 & C4). cbv zeta in Q.
    set (d1 := if s_describe S && is_python_class w then upd o (docstring_to_schema S w) else o) in *.
    assert (X : forall k, k <> str "title" -> k <> str "description" -> dict_get d1 k = dict_get o k).
    { intros k N1 N2. unfold d1. destruct (s_describe S && is_python_class w); [apply doc_other; assumption | reflexivity]. }
    assert (Y : forall k, k <> str "examples" -> dict_get d k = dict_get d1 k).
    { intros k Nk. rewrite Q. destruct (en_examples e) as [j|]; [|reflexivity]. destruct (s_exemplify S && truthy j); [|reflexivity].
      rewrite set_lookup. destruct (pystr_eqb _ k) eqn:B; [apply pystr_eqb_eq in B; congruence | reflexivity]. }
    split.
    - split; [cbn [read_notes n_default]; rewrite Y, X by discriminate; exact C3|]. split.
      + cbn [read_notes n_examples]. unfold shown. rewrite Q. destruct (en_examples e) as [j|]; [|rewrite X by discriminate; exact C4].
        destruct (s_exemplify S && truthy j); [rewrite set_lookup; reflexivity | rewrite X by discriminate; exact C4].
      + cbn [read_notes n_title n_description]. rewrite !Y by discriminate. unfold documented, d1.
        destruct w; cbn [is_python_class]; rewrite ?andb_true_r, ?andb_false_r;
          try (destruct (s_describe S); [rewrite doc_title, doc_description, C1, C2|]); split; try reflexivity; assumption.
    - rewrite Q. unfold d1. assert (Z : core (if s_describe S && is_python_class w then upd o (docstring_to_schema S w) else o) = core o).
      { destruct (s_describe S && is_python_class w); [|reflexivity]. unfold core. apply (upd_filter (fun k => negb (note k))).
        unfold docstring_to_schema. destruct (text_or_none (s_short S w)), (text_or_none (s_long S w)); repeat constructor. }
      destruct (en_examples e) as [j|]; [|exact Z]. destruct (s_exemplify S && truthy j); [|exact Z].
      rewrite <- Z. unfold core. apply (dict_set_filter (fun k => negb (note k))). reflexivity.
  Qed.

  Lemma lookup_accounted : forall n s t u d u', recorded S s t -> type_to_schema_with_lookup E S n t u = Ok (d, u') -> records S u ->
    accounted s (JObj d) /\ records S u'.
  Proof.
    intros n s t u d u' Rs H R. unfold type_to_schema_with_lookup in H. apply bind_ok in H. destruct H as (e & G & H).
    assert (G' : get (s_catalog S) t = Ok e).
    { destruct t; try exact G. destruct (s_forward S s0); [exact G | discriminate G]. }
    apply bind_ok in H. destruct H as ([x u1] & A & H). cbn [fst snd] in H.
    assert (Qd : d = (let d := if s_describe S && is_python_class t then upd x (docstring_to_schema S t) else x in
      match en_examples e with Some j => if s_exemplify S && truthy j then dict_set d (str "examples") j else d | None => d end)) by (cbv zeta in *; congruence).
    assert (Qu : u' = u1) by (cbv zeta in H; congruence). subst u'. clear H.
    destruct (en_schema e) as [j|] eqn:Sc.
    - destruct j as [| | | | | |o]; try discriminate A. injection A as -> ->. split; [|exact R].
      exists t, e. split; [exact Rs|]. split; [exact G'|]. rewrite Sc. destruct (lookup_notes e t x d _ Qd (read_carries x)) as (DN & _).
      exists x, d, (read_notes x), (read_notes d). split; [reflexivity|]. split; [reflexivity|]. split; [apply read_carries|]. split; [exact DN | apply read_carries].
    - split; [|eapply schema_records; eassumption]. exists t, e. split; [exact Rs|]. split; [exact G'|]. rewrite Sc.
      destruct (schema_noted E S OK CE _ _ _ _ _ _ A) as (ns & O & C & X). destruct (lookup_notes e t x d ns Qd C) as (DN & CR).
      exists ns, (read_notes d). split; [exact O|]. split; [exact DN|]. apply X; [exact CR | apply read_carries].
  Qed.

  Lemma all_accounted : forall n todo def u def' u', (forall s t, In (s, t) todo -> recorded S s t) -> (forall s j, In (s, j) def -> accounted s j) -> records S u ->
    define_all E S n todo def u = Ok (def', u') -> (forall s j, In (s, j) def' -> accounted s j) /\ records S u'.
  Proof.
    intros n todo. induction todo as [|[s t] todo IH]; intros def u def' u' T D R H; cbn [define_all] in H; [injection H as <- <-; auto|].
    apply bind_ok in H. destruct H as ([x u1] & A & H). cbn [fst snd] in H. destruct (lookup_accounted _ _ _ _ _ _ (T s t (or_introl eq_refl)) A R) as (X & R1).
    eapply IH; [| |exact R1 | exact H]; [intros s' t' I; apply T; right; exact I|].
    intros s' j I. apply SchemaProofs.dict_set_in in I. destruct I as [[-> ->]|I]; [exact X | exact (D s' j I)].
  Qed.

  Lemma loop_accounted : forall n k def u defs, (forall s j, In (s, j) def -> accounted s j) -> records S u ->
    define_loop E S n k def u = Ok defs -> forall s j, In (s, j) defs -> accounted s j.
  Proof.
    intros n k. induction k as [|k IH]; intros def u defs D R H; cbn [define_loop] in H; destruct (length def <? length u);
      try discriminate H; try (injection H as <-; exact D).
    apply bind_ok in H. destruct H as ([def' u'] & A & H). cbn [fst snd] in H.
    apply all_accounted in A; [| intros s t I; apply filter_In in I; apply R; tauto | exact D | exact R].
    destruct A as (A1 & A2). eapply IH; [exact A1 | exact A2 | exact H].
  Qed.

  Theorem document_notes : forall n k t doc, classdef_to_schema E S n k t = Ok doc ->
    (exists ns, own S true t ns /\ noted E S true t ns doc) /\ forall x d, defined doc x d -> accounted x d.
  Proof.
    intros n k t doc H. apply document_shape in H. destruct H as (d & u & defs & A & B & T & Qd). split.
    - destruct (schema_noted E S OK CE _ _ _ _ _ _ A) as (ns & O & C & X). exists ns. split; [exact O|]. rewrite Qd. apply X.
      + unfold core, definitions_of. destruct (sort_attrs defs); reflexivity.
      + destruct C as (C1 & C2 & C3 & C4). unfold carries, definitions_of. destruct (sort_attrs defs); repeat split; assumption.
    - intros x j (o & defs' & Qo & I & J). rewrite Qd in Qo. injection Qo as <-. destruct I as [I|I]; [discriminate I|]. apply in_app_iff in I. destruct I as [I|I].
      + eapply (loop_accounted n k [] u defs); [intros s' j' []| eapply schema_records; [exact A | intros s' w' []] | exact B|].
        unfold definitions_of in I. destruct (sort_attrs defs) as [|p l] eqn:Sd; [destruct I|]. destruct I as [I|[]]. injection I as <-.
        eapply Permutation_in; [apply Permutation_sym, sort_perm | rewrite Sd; exact J].
      + exfalso. apply (in_map fst) in I. apply T in I. apply mem_str_in in I. discriminate I.
  Qed.
End Definitions.
