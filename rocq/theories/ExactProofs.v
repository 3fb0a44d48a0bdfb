(** Documents that can be deserialized satisfy the generated schema. *)
From Coq Require Import String List NArith ZArith Bool Lia Permutation.
From Verif Require Import Base Json PyTypes TypeAlgebra TypeAlgebraProofs Lists Mapping Deser DeserFuel DeserBuild DeserUnfold DeserFacts DeserSound
  TypingFacts FieldProofs TaggedProofs Catalog CatalogProofs Ser Schema SpecTyping SpecTypes SpecFields SpecNumbers NumbersProofs SpecRecursion SpecDeser SpecSer SpecTagged SpecRoundTrip
  SpecSchema SchemaSem SpecGenerate SchemaProofs SchemaClass SpecValid SchemaForm SchemaValid RoundTrip SpecReadable SchemaRead SpecExact.
Import ListNotations.
Open Scope list_scope.
Open Scope nat_scope.

Section Legible.
  Variables (E : env) (skip : bool).
  Notation legible := (legible E skip).

  Lemma legible_union : forall m op ts j, legible m (TUnion op ts) j <-> exists t, In t ts /\ legible m t j.
  Proof. intros m op ts j. split; [intros H; inversion H; subst; eauto | intros (t & I & H); eapply lg_union; eassumption]. Qed.

  Lemma legible_annot : forall m t md j, legible m (TAnnot t md) j <-> legible m t j.
  Proof. intros m t md j. split; [intros H; inversion H; subst; assumption | apply lg_annot]. Qed.

  Lemma flatten_union_legible : forall m ts j,
    (exists t, In t (flatten_union ts) /\ legible m t j) <-> (exists t, In t ts /\ legible m t j).
  Proof.
    intros m ts v. unfold flatten_union. split.
    - intros (t & I & H). apply in_flat_map in I. destruct I as (u & Iu & I).
      exists u. split; [exact Iu|].
      destruct u; try (destruct I as [<-|[]]; exact H).
      apply legible_union. exists t. auto.
    - intros (t & I & H).
      assert (D : (exists op us, t = TUnion op us) \/ In t (match t with TUnion _ us => us | _ => [t] end)).
      { destruct t; try (right; left; reflexivity). left. eauto. }
      destruct D as [(op & us & ->)|D].
      + apply legible_union in H. destruct H as (u & Iu & H). exists u. split; [|exact H].
        apply in_flat_map. exists (TUnion op us). auto.
      + exists t. split; [|exact H]. apply in_flat_map. exists t. auto.
  Qed.

  Lemma mk_union_legible : forall m op ts t j, mk_union op ts = Ok t -> (legible m t j <-> exists u, In u ts /\ legible m u j).
  Proof.
    intros m op ts t v H. rewrite <- flatten_union_legible. unfold mk_union in H.
    assert (D : (exists u, In u (dedup [] (flatten_union ts)) /\ legible m u v) <->
                (exists u, In u (flatten_union ts) /\ legible m u v)).
    { split; intros (u & I & Hu); exists u; (split; [|exact Hu]).
      - eapply dedup_in. exact I.
      - destruct (in_dedup (flatten_union ts) [] u I) as [[]|J]. exact J. }
    rewrite <- D. destruct (dedup [] (flatten_union ts)) as [|u [|u' us]].
    - discriminate.
    - injection H as <-. split.
      + intros Hu. exists u. split; [left; reflexivity | exact Hu].
      + intros (w & [<-|[]] & Hw). exact Hw.
    - injection H as <-. apply legible_union.
  Qed.

  Lemma mk_annot_legible : forall m t md j, legible m (mk_annot t md) j <-> legible m t j.
  Proof. intros m t md v. destruct t; cbn [mk_annot]; rewrite ?legible_annot; tauto. Qed.

  Lemma unwrap_inner_legible : forall m t u j, unwrap_optional_inner t = Ok u ->
    (legible m u j -> legible m t j) /\ (j <> JNull -> legible m t j -> legible m u j).
  Proof.
    intros m t u v H. destruct t; try discriminate. cbn [unwrap_optional_inner] in H.
    rewrite (mk_union_legible _ _ _ _ _ H), legible_union. split.
    - intros (w & I & Hw). apply filter_In in I. exists w. tauto.
    - intros Nv (w & I & Hw). exists w. split; [|exact Hw]. apply filter_In. split; [exact I|].
      destruct (typ_eqb (TScalar KNone) w) eqn:X; [|reflexivity].
      apply typ_eqb_eq in X. subst. inversion Hw as [? ? ? ? Nt| | | | | | | | | | |]; subst. destruct v; try discriminate Nt. contradiction.
  Qed.

  Lemma unwrap_optional_legible : forall m t u j, unwrap_optional t = Ok u ->
    (legible m u j -> legible m t j) /\ (j <> JNull -> legible m t j -> legible m u j).
  Proof.
    intros m t u v H. destruct t; try (apply unwrap_inner_legible; exact H).
    cbn [unwrap_optional] in H. apply bind_ok in H. destruct H as (w & H & Q). injection Q as <-.
    rewrite mk_annot_legible, legible_annot. apply unwrap_inner_legible. exact H.
  Qed.

  (** Names may be put back for what they stand for. *)
  Lemma unresolve_legible : forall m n g t t', resolve E m n g t = Ok t' -> forall j, legible m t' j -> legible m t j.
  Proof.
    intros m. induction n as [|n IHn]; intros g t.
    all: induction t using typ_induct; intros t' R j Sh; rewrite resolve_eq in R.
    all: try (injection R as <-; exact Sh).
    all: try (apply bind_ok in R; destruct R as (u' & R1 & R2)).
    all: try (injection R2 as <-).
    all: try (apply bind_ok in R2; destruct R2 as (w' & R2 & R3); injection R3 as <-).
    all: try (match goal with
      | |- legible _ (TList _) _ => inversion Sh; subst; constructor; intros; eapply IHt; eauto
      | |- legible _ (TSet _) _ => inversion Sh; subst; constructor; intros; eapply IHt; eauto
      | |- legible _ (TAnnot _ _) _ => apply legible_annot; apply (proj1 (mk_annot_legible _ _ _ _)) in Sh; eapply IHt; eauto
      end).
    all: try (match type of R1 with mapM _ _ = Ok _ => apply mapM_ok in R1 end).
    all: try (rewrite Forall_forall in H).
    all: try (match goal with
      | |- legible _ (TDict _ _) _ =>
          inversion Sh as [| | |? ? ? o Kd Vs| | | | | | | |]; subst; constructor;
          [ intros p x I; specialize (Kd p x I); destruct t1; try exact Logic.I; rewrite resolve_eq in R1; injection R1 as <-; exact Kd
          | intros p x I; eapply IHt2; eauto ]
      | |- legible _ (TTuple _) _ =>
          inversion Sh as [| | | |? ? js Ln Pt| | | | | | |]; subst; constructor;
          [ rewrite Ln; symmetry; exact (Forall2_length_eq _ _ _ _ _ R1)
          | clear Sh Ln; revert js Pt; clear - H R1; induction R1 as [|a b l r Hab _ IH]; intros [|x js] Pt t y I; try contradiction;
            cbn [combine In] in *; destruct I as [Q|I];
            [ injection Q as <- <-; apply (H a (or_introl eq_refl) _ Hab); apply Pt; left; reflexivity
            | eapply IH; [intros z Iz; apply H; right; exact Iz | intros z w Iz; apply Pt; right; exact Iz | exact I]] ]
      | R2 : mk_union _ _ = Ok _ |- _ =>
          rewrite (mk_union_legible _ _ _ _ _ R2) in Sh; destruct Sh as (u & I & Hu);
          destruct (Forall2_in_r _ _ _ _ _ _ R1 I) as (x & J & Hx);
          apply legible_union; exists x; split; [exact J | apply (H x J _ Hx); exact Hu]
      end).
    all: destruct (mem_str s g); [injection R as <-; exact Sh|].
    all: destruct (lookup E m s) as [[a u]|] eqn:L; [|discriminate]; try discriminate.
    eapply lg_ref; [exact L|]. eapply IHn; [exact R | exact Sh].
  Qed.
End Legible.

(** ** What is read is legible *)

Section Readings.
  Variables (E : env) (skip : bool).
  Hypothesis OK : env_ok E.
  Hypothesis CE : canonical_env E.
  Notation legible := (legible E skip).

  Lemma zip_parse_in : forall p ts js vs, length js = length ts -> zip_parse p ts js = Ok vs -> forall t j, In (t, j) (combine ts js) -> exists v, p t j = Ok v.
  Proof.
    intros p ts. induction ts as [|t ts IH]; intros js vs L H u x I; [destruct I|]. destruct js as [|j js]; [destruct I|]. cbn [zip_parse combine In length] in *.
    destruct (p t j) as [v|] eqn:P; [|discriminate]. destruct (zip_parse p ts js) as [vs'|] eqn:Z; [|discriminate].
    destruct I as [Q|I]; [injection Q as <- <-; eauto|]. eapply IH; [|exact Z | exact I]. congruence.
  Qed.

  Lemma layout_any : forall cl hs, hints E cl = Ok hs -> exists L, layout E cl L.
  Proof.
    intros cl hs H. exists (combine hs (defaults (c_kind cl))).
    assert (LEN : length hs = length (defaults (c_kind cl))).
    { apply hints_names in H. apply (f_equal (@length _)) in H. rewrite !map_length in H. rewrite H.
      destruct (c_kind cl); cbn [defaults raw_fields]; rewrite ?map_length; reflexivity. }
    split.
    - rewrite H. f_equal. clear H. revert LEN. generalize (defaults (c_kind cl)). induction hs as [|h hs IH]; intros [|d l] Q; try discriminate; [reflexivity|].
      cbn [combine map fst]. f_equal. apply IH. injection Q as Q. exact Q.
    - clear H. revert LEN. generalize (defaults (c_kind cl)). induction hs as [|h hs IH]; intros [|d l] Q; try discriminate; [reflexivity|].
      cbn [combine map snd]. f_equal. apply IH. injection Q as Q. exact Q.
  Qed.

  (** A field is declared with an annotation that resolves to the one it is read at. *)
  Lemma field_legible : forall c cl ps L x t u d, get_class E c = Some cl -> class_properties E cl = Ok ps -> layout E cl L -> In (x, t) ps -> In (x, u, d) L ->
    forall j, legible (c_module cl) u j -> legible (c_module cl) t j.
  Proof.
    intros c cl fs L x t u d G CP (H & D) I J j Sh.
    assert (X : In (x, u) (map fst L)) by (apply in_map_iff; exists (x, u, d); split; [reflexivity | exact J]).
    pose proof (ok_names _ _ _ (OK _ _ G)) as ND. unfold class_properties in CP.
    assert (Y : hints E cl = Ok fs -> t = u).
    { intros Q. rewrite H in Q. injection Q as <-. eapply unique_type; [|exact I | exact X]. rewrite (hints_names E cl _ H). exact ND. }
    destruct (c_kind cl) eqn:K; try (rewrite (Y CP); exact Sh).
    destruct (hints_raw E _ _ _ _ H X) as (t0 & J0 & n & g & R). eapply unresolve_legible; [|exact Sh].
    assert (Q : fs = raw_fields (c_kind cl)) by (rewrite K; congruence). subst fs. rewrite <- K in ND.
    rewrite (unique_type _ _ _ _ ND I J0). exact R.
  Qed.

  (** The parsers of the fields. *)
  Lemma parsers_of : forall c cl L fps, get_class E c = Some cl -> fieldwise cl -> layout E cl L -> field_parsers E cl = Ok fps ->
    Forall2 (fun f fp => let '(x, u, d) := f in
      (forall p, json_name cl x u p <-> p = fp_prop fp) /\ (fp_mode fp <> FRequired -> d <> None \/ optional u) /\
      (forall j, legible (c_module cl) (fp_type fp) j -> legible (c_module cl) u j)) L fps.
  Proof.
    intros c cl L fps G FW LAY FP. assert (O : ordinary cl \/ (exists hs, c_kind cl = CTuple hs) \/ L = []).
    { unfold fieldwise, ordinary in *. destruct LAY as (H & D). destruct (c_kind cl) eqn:K; try contradiction; eauto.
      right. right. cbn [defaults raw_fields map] in D. destruct L; [reflexivity | discriminate D]. }
    destruct O as [O|[(hs & K)|Q]].
    - rewrite (layout_parsers E c cl L G O LAY) in FP. apply mapM_ok in FP. eapply Forall2_impl_in; [|exact FP]. intros [[x u] d] fp I _ Q. cbn beta iota in Q.
      assert (CN : canonical u).
      { eapply (hints_canonical E CE); [exact G | exact (proj1 LAY)|]. apply in_map_iff. exists (x, u, d). split; [reflexivity | exact I]. }
      destruct (field_parser_spec x u d fp CN Q) as (PN & _ & RT & M). split.
      { assert (X : forall p, json_name cl x u p <-> prop_name x u p) by (intros p; unfold json_name, ordinary in *; destruct (c_kind cl); try contradiction; tauto).
        intros p. rewrite X. unfold field_parser in Q. apply bind_ok in Q. destruct Q as (r & _ & Q). injection Q as <-. cbn [fp_prop].
        rewrite <- (json_property_spec x u p). split; intros Z; symmetry; exact Z. }
      split.
      { intros NR. destruct d; [left; discriminate|]. right. apply is_type_optional_spec. rewrite M in NR. destruct (is_type_optional u); [reflexivity | destruct (NR eq_refl)]. }
      intros j LG. unfold field_parser in Q. apply bind_ok in Q. destruct Q as (r & U & Q). injection Q as <-. cbn [fp_type] in *.
      destruct (is_type_optional u); [|injection U as <-; exact LG]. exact (proj1 (unwrap_optional_legible E skip _ _ _ j U) LG).
    - destruct LAY as (H & D). unfold field_parsers in FP. rewrite H in FP. cbn [bind] in FP. rewrite K in FP. injection FP as <-.
      clear H D G FW. unfold json_name. rewrite K. clear K. induction L as [|[[x u] d] L IH]; [constructor|]. cbn [map fst]. constructor; [|exact IH].
      cbn [fp_prop fp_mode fp_type]. split; [tauto|]. split; [intros Q; destruct (Q eq_refl) | auto].
    - subst L. destruct LAY as (H & _). unfold field_parsers in FP. rewrite H in FP. cbn [bind map] in FP.
      destruct (c_kind cl) as [| | |fz [|f fs]|]; cbn in FP; injection FP as <-; constructor.
  Qed.

  Theorem read_legible : forall n m t j v, json_wf j -> parse E skip n m t j = Ok v -> legible m t j.
  Proof.
    induction n as [|n IH]; intros m t j v W H; [discriminate|]. destruct t; cbn [parse] in H.
    - eapply lg_scalar. exact H.
    - discriminate.
    - destruct j; try discriminate. apply bind_ok in H. destruct H as (vs & H & _). apply mapM_ok in H. constructor. intros x I.
      destruct (Forall2_in_l _ _ _ _ _ _ H I) as (w & _ & Q). eapply IH; [eapply wf_item; eassumption | exact Q].
    - destruct j; try discriminate. apply bind_ok in H. destruct H as (vs & H & _). apply mapM_ok in H. constructor. intros x I.
      destruct (Forall2_in_l _ _ _ _ _ _ H I) as (w & _ & Q). apply bind_ok in Q. destruct Q as (w' & Q & _). eapply IH; [eapply wf_item; eassumption | exact Q].
    - destruct j; try discriminate. apply bind_ok in H. destruct H as (kvs & H & _). apply mapM_ok in H. constructor; intros p x I;
        destruct (Forall2_in_l _ _ _ _ _ _ H I) as (w & _ & Q); apply bind_ok in Q; destruct Q as (kv & PK & Q); apply bind_ok in Q; destruct Q as (w' & Q & _).
      + destruct t1 as [k0| | | | | | | | |c| |]; try exact Logic.I. cbn [parse_key] in PK. destruct (get_class E c) as [cl|] eqn:G; [|discriminate]. destruct (c_kind cl) as [ms| | | |] eqn:K; try discriminate.
        unfold parse_enum in PK. destruct (enum_find ms (JStr p)) as [y|] eqn:Y; [|discriminate].
        apply enum_find_in in Y. destruct Y as (w0 & Iw & S). apply scalar_eqb_spec in S. inversion S; subst; [|match goal with X : numeric (JStr _) _ |- _ => inversion X end].
        exists (VEnum c y). eapply ko_enum; eassumption.
      + eapply IH; [eapply wf_member; eassumption | exact Q].
    - destruct j as [| | | | |js|]; try discriminate. destruct (Nat.eqb (length js) (length ts)) eqn:Q; [|discriminate]. apply Nat.eqb_eq in Q.
      apply bind_ok in H. destruct H as (vs & H & _). constructor; [exact Q|]. intros t x I. destruct (zip_parse_in _ _ _ _ Q H _ _ I) as (w & P).
      eapply IH; [eapply wf_item; [exact W | eapply in_combine_r; exact I] | exact P].
    - apply bind_ok in H. destruct H as (ps & D & H). destruct ps as [|p ps].
      + apply union_try_ok in H. destruct H as (t & I & H). eapply lg_union; [exact I|]. eapply IH; eassumption.
      + apply bind_ok in H. destruct H as (tbl & T & H). destruct j as [| | | | | |o]; try discriminate.
        apply bind_ok in H. destruct H as (u & S & H). eapply lg_union; [|eapply IH; eassumption].
        apply tag_select_in in S. destruct S as (p' & l & x & _ & I & _). apply (tag_table_in _ _ _ _ _ _ _ T) in I. tauto.
    - apply bind_ok in H. destruct H as (u & L & H). apply bind_ok in H. destruct H as (w & P & H).
      destruct (existsb (fun l => py_eq E (lit_value l) w) ls) eqn:X; [|discriminate]. injection H as <-.
      apply existsb_exists in X. destruct X as (l & I & X). pose proof (literal_type_all _ _ L _ I) as Q. rewrite <- Q in P.
      eapply lg_literal; [exact I | eapply IH; eassumption|].
      intros c LJ. destruct n as [|n]; [discriminate P|].
      destruct l; try discriminate LJ; injection LJ as <-; cbn [lit_type parse parse_scalar] in P; destruct j; try discriminate P; injection P as <-; cbn [lit_value py_eq] in X.
      + constructor.
      + destruct b, b0; try discriminate X; eapply je_num; try constructor; reflexivity.
      + cbn [value_number number_eqb] in X. apply Z.eqb_eq in X. eapply je_num; [constructor | constructor | rewrite X; reflexivity].
      + cbn [value_number number_eqb] in X. apply Z.eqb_eq in X. eapply je_num; [constructor | constructor | rewrite X; reflexivity].
      + cbn [value_number] in X. apply pystr_eqb_eq in X. subst. constructor.
    - apply lg_annot. destruct t; try discriminate; eapply IH; eassumption.
    - destruct (get_class E c) as [cl|] eqn:G; [|discriminate].
      assert (X : (do fps <- field_parsers E cl; parse_object (parse E skip n (c_module cl)) skip c cl fps j) = Ok v -> fieldwise cl -> legible m (TClass c) j).
      { intros Q FW. apply bind_ok in Q. destruct Q as (fps & FP & Q). destruct j as [| | | | | |o]; try discriminate. cbn [parse_object] in Q.
        apply bind_ok in Q. destruct Q as (vals & V & Q). apply mapM_ok in V.
        destruct (skip || forallb (fun kv => mem_str (fst kv) (map fp_prop fps)) o) eqn:SK; [|discriminate].
        assert (HS : exists hs, hints E cl = Ok hs) by (unfold field_parsers in FP; destruct (hints E cl) as [hs|]; [eauto | discriminate FP]).
        destruct HS as (hs & HS). destruct (layout_any _ _ HS) as (L & LAY).
        assert (CP : exists ps, class_properties E cl = Ok ps) by (unfold class_properties; destruct (c_kind cl); eauto).
        destruct CP as (ps & CP). pose proof (parsers_of _ _ _ _ G FW LAY FP) as F. eapply lg_class; try eassumption.
        - apply orb_true_iff in SK. destruct SK as [SK|SK]; [left; exact SK | right]. rewrite forallb_forall in SK. intros p I.
          apply in_map_iff in I. destruct I as ([p' y] & <- & I). specialize (SK _ I). cbn [fst] in *. apply mem_str_in in SK. apply in_map_iff in SK. destruct SK as (fp & <- & If).
          destruct (Forall2_in_r _ _ _ _ _ _ F If) as ([[x u] d] & Il & A & _). exists x, u, d. split; [exact Il | apply A; reflexivity].
        - intros x u d p I JN AB. destruct (Forall2_in_l _ _ _ _ _ _ F I) as (fp & If & A & B & _). apply A in JN. subst p.
          destruct (Forall2_in_l _ _ _ _ _ _ V If) as (w & _ & Pf). apply bind_ok in Pf. destruct Pf as (w' & Pf & _). apply B. intros M.
          unfold parse_field in Pf. rewrite M in Pf. destruct (dict_get o (fp_prop fp)) as [y|] eqn:Gd; [|discriminate Pf].
          apply AB. apply in_map_iff. exists (fp_prop fp, y). split; [reflexivity | apply dict_get_in; exact Gd].
        - intros x t u d p y Ix I JN Io NN. destruct (Forall2_in_l _ _ _ _ _ _ F I) as (fp & If & A & _ & B). apply A in JN. subst p.
          destruct (Forall2_in_l _ _ _ _ _ _ V If) as (w & _ & Pf). apply bind_ok in Pf. destruct Pf as (w' & Pf & _).
          pose proof (dict_get_nodup _ _ _ (wf_keys _ W) Io) as Gd. eapply field_legible; try eassumption. apply B.
          assert (P : parse E skip n (c_module cl) (fp_type fp) y = Ok w').
          { unfold parse_field in Pf. rewrite Gd in Pf. destruct (fp_mode fp); destruct y; try exact Pf; destruct (NN eq_refl). }
          eapply IH; [eapply wf_member; eassumption | exact P]. }
      destruct (c_kind cl) as [ms|hs|xs|fr fs|hs] eqn:K; destruct (c_from_json cl) as [h|] eqn:F.
      1,2: unfold parse_enum in H; destruct (enum_find ms j) as [y|] eqn:Y; [|discriminate];
        apply enum_find_in in Y; destruct Y as (w & I & S); apply scalar_eqb_spec in S; eapply lg_enum; eassumption.
      all: try (apply X; [exact H | unfold fieldwise; rewrite K; first [exact Logic.I | exact F]]).
      all: eapply lg_hook; [exact G | intros ms; rewrite K; discriminate | unfold fieldwise; rewrite K; congruence].
    - destruct (lookup E m s) as [[a u]|] eqn:L; [|discriminate]. eapply lg_ref; [exact L|].
      assert (D : legible m (deref u) j) by (destruct (deref u) eqn:DU; try discriminate; eapply IH; eassumption).
      destruct u; try exact D. constructor. exact D.
    - discriminate.
  Qed.
End Readings.

(** ** What is legible and exact satisfies the schema *)

Section Exact.
  Variables (asserts : pystr -> pystr -> json -> bool) (E : env) (S : senv) (doc : json) (skip : bool).
  Hypothesis CE : canonical_env E.
  Hypothesis CO : coherent E S.
  Hypothesis LK : linked E S doc.
  Hypothesis OK : env_ok E.
  Hypothesis TR : trusting asserts.
  Notation accepts := (accepts asserts doc).
  Notation held := (held doc).
  Notation legible := (legible E skip).
  Notation exact := (exact E skip).
  Notation welcomed := (welcomed asserts E S doc).
  Notation holding := (holding asserts doc).

  Ltac forms := let w := fresh in let md := fresh in intros w; try intros md; discriminate.

  Lemma read_natural : forall k j v, addressed k = false -> (k = KInt \/ k = KFloat -> forall b, j <> JBool b) -> parse_scalar k j = Ok v -> natural k j.
  Proof.
    intros k j v A B H. destruct k, j; try discriminate A; try discriminate H; cbn [natural]; try exact Logic.I.
    all: exfalso; eapply B; [|reflexivity]; auto.
  Qed.

  Lemma read_holding : forall k j v d, addressed k = false -> (k = KInt \/ k = KFloat -> forall b, j <> JBool b) -> parse_scalar k j = Ok v ->
    simple_type_to_schema (TScalar k) = Some d -> Forall (holding j) d.
  Proof.
    intros k j v d A B P H. pose proof (read_natural k j v A B P) as N.
    assert (F : forall kw f, text_format k = Some (kw, f) -> asserts kw f j = true) by (intros kw f Q; eapply (tr_text _ TR); eassumption).
    destruct k, j; try contradiction; try discriminate A; try discriminate P; injection H as <-;
      repeat (apply Forall_cons; [intros kws; cbn [fst snd];
        first [apply holds_type; reflexivity | apply holds_format, F; reflexivity | apply holds_encoding, F; reflexivity] |]); apply Forall_nil.
  Qed.

  Lemma read_format : forall k md f j v, get_auxiliary_format (TAnnot (TScalar k) md) = Some f -> addressed k = false ->
    (k = KInt \/ k = KFloat -> forall b, j <> JBool b) -> parse_scalar k j = Ok v ->
    (forall a, In a md -> obeys a j) -> asserts (str "format") f j = true.
  Proof.
    intros k md f j v A AD B P O. apply auxiliary_format in A. unfold auxiliary_types in A. cbn [In] in A.
    pose proof (read_natural k j v AD B P) as N.
    assert (X : forall s b w lo hi, md = [ASigned b; AStorage w; AIntegerRange lo hi] -> k = KInt -> In (s, (lo, hi)) integer_formats -> asserts (str "format") s j = true).
    { intros s b w lo hi -> -> Is. destruct j; try contradiction; try discriminate P. eapply (tr_integer _ TR); [exact Is|].
      apply (O (AIntegerRange lo hi)). right. right. left. reflexivity. }
    assert (Y : forall s, k = KFloat -> s = str "float32" \/ s = str "float64" -> asserts (str "format") s j = true).
    { intros s -> Is. apply (tr_float _ TR); [exact Is | exact N]. }
    repeat (destruct A as [A|A]; [injection A as <- <- <-;
      first [eapply X; [reflexivity | reflexivity | unfold integer_formats; cbn [In]; tauto] | apply Y; [reflexivity | auto]] |]). destruct A.
  Qed.

  (** A number equal to a whole number is whole. *)
  Lemma same_integer : forall j z, same j (JInt z) = true -> is_type (str "integer") j = Some true.
  Proof.
    intros j z H. destruct j; try discriminate H; [reflexivity|]. destruct f as [|?|neg n e]; try discriminate H.
    change (Some (whole (FFin neg n e)) = Some true). f_equal. cbn [same num_of] in H. unfold num_eqb, num_cmp in H.
    destruct (Z.compare_spec ((if neg then - Z.of_N n else Z.of_N n) * 2 ^ (e - Z.min e 0)) (z * 2 ^ (0 - Z.min e 0)))%Z as [Q| |]; try discriminate H.
    cbn [whole]. apply orb_true_iff. destruct (Z.leb_spec 0 e) as [L|L]; [left; reflexivity | right].
    replace (Z.min e 0)%Z with e in Q by lia. replace (e - e)%Z with 0%Z in Q by lia. replace (0 - e)%Z with (- e)%Z in Q by lia.
    apply N.eqb_eq. assert (P : (2 ^ Z.to_N (- e) <> 0)%N) by (apply N.pow_nonzero; discriminate). apply N.mod_divide; [exact P|].
    exists (Z.abs_N z). apply N2Z.inj. rewrite N2Z.inj_mul, N2Z.inj_pow, N2Z.inj_abs_N, Z2N.id by lia. change (Z.of_N 2) with 2%Z.
    change (2 ^ 0)%Z with 1%Z in Q. assert (P2 : (0 <= 2 ^ (- e))%Z) by (apply Z.pow_nonneg; lia). destruct neg; nia.
  Qed.

  Lemma wf_item : forall js j, json_wf (JArr js) -> In j js -> json_wf j.
  Proof. intros js j W I. inversion W as [| | | | |? F|]; subst. rewrite Forall_forall in F. auto. Qed.

  Lemma wf_prop : forall o p j, json_wf (JObj o) -> In (p, j) o -> json_wf j.
  Proof. intros o p j W I. inversion W as [| | | | | |? _ F]; subst. rewrite Forall_forall in F. exact (F _ I). Qed.

  Lemma json_name_fun : forall cl x u p q, json_name cl x u p -> json_name cl x u q -> p = q.
  Proof. intros cl x u p q P Q. unfold json_name in *. destruct (c_kind cl); try congruence; eapply prop_name_fun; eassumption. Qed.

  Theorem exact_accepted : forall m t j, exact m t j -> legible m t j -> json_wf j -> welcomed t j.
  Proof.
    intros m t j H. induction H as [m k j A B|m t j _ IH|m t j D _ IH|m k t j KT _ IH|m ts j _ IH|m op ts j _ IH AL|m l c j LJ B
      |m t md j FT IH O|m s j _ IH|m c cl ms j G K SE|m c cl ps j G FW P D NM NN KN DF _ IH]; intros LG W.
    - inversion LG as [? ? ? v PS| | | | | | | | | | |]; subst. apply (accept_by_expansion asserts E S doc CO LK); [forms | forms | |].
      + destruct (addressed_simple k A) as (d & B0). intros force d' _ B'. congruence.
      + intros d B0. apply accepts_holding. eapply read_holding; eassumption.
    - inversion LG as [|? ? js F| | | | | | | | | |]; subst. apply (accept_by_expansion asserts E S doc CO LK); [forms | forms | | discriminate].
      intros force d Hd _ Ex. apply exp_list in Ex. destruct Ex as (dw & Sw & ->). apply accepts_intro.
      constructor; [apply holds_type; reflexivity | constructor; [|constructor]]. cbn [fst snd]. apply holds_items; [reflexivity|].
      intros x I. eapply (proj1 (IH js x eq_refl I (F x I) (wf_item _ _ W I))); [|exact Sw].
      eapply held_one; [exact Hd | left; reflexivity | right; left; reflexivity | reflexivity].
    - inversion LG as [| |? ? js F| | | | | | | | |]; subst. apply (accept_by_expansion asserts E S doc CO LK); [forms | forms | | discriminate].
      intros force d Hd _ Ex. apply exp_set in Ex. destruct Ex as (dw & Sw & ->). apply accepts_intro.
      constructor; [apply holds_type; reflexivity | constructor; [|constructor; [|constructor]]]; cbn [fst snd].
      + apply holds_items; [reflexivity|].
        intros x I. eapply (proj1 (IH js x eq_refl I (F x I) (wf_item _ _ W I))); [|exact Sw].
        eapply held_one; [exact Hd | left; reflexivity | right; left; reflexivity | reflexivity].
      + apply holds_unique, D. reflexivity.
    - inversion LG as [| | |? ? ? o Fk F| | | | | | | |]; subst. apply (accept_by_expansion asserts E S doc CO LK); [forms | forms | | discriminate].
      intros force d Hd _ Ex. apply exp_dict in Ex. destruct Ex as (dw & dk & Sw & Dk & ->). apply dict_forms in Dk.
      assert (V : forall p x, In (p, x) o -> held dw -> accepts (JObj dw) x).
      { intros p x I Hw. eapply (proj1 (IH o p x eq_refl I (F p x I) (wf_prop _ _ _ W I))); [exact Hw | exact Sw]. }
      destruct Dk as [->|(c & cl & ms & vs & -> & G & K & Vt & [(Ln & ->)|(Ln & ->)])]; apply accepts_intro; constructor; try (apply holds_type; reflexivity).
      + constructor; [|constructor]. cbn [fst snd]. apply holds_additional. intros p x I _. apply (V p x I).
        eapply held_one; [exact Hd | right; left; reflexivity | right; left; reflexivity | reflexivity].
      + assert (Hw : held dw) by (eapply held_one; [exact Hd | right; left; reflexivity | right; right; left; reflexivity | reflexivity]).
        constructor; [|constructor; [|constructor]]; cbn [fst snd].
        * apply holds_names. intros p x I. destruct (Fk p x I) as (v & Kt).
          apply accepts_intro. constructor; [|constructor]. cbn [fst snd]. apply holds_pattern. apply matches_join.
          -- destruct KT as [Q|[Q|(c' & cl' & ms' & Q & G' & K' & Lt)]]; try discriminate Q. injection Q as <-.
             assert (Qm : ms' = ms) by congruence. subst ms'. apply Forall_forall. intros s Is. pose proof (proj1 (mapM_ok _ _ _ _ _) Vt) as Fv.
             destruct (Forall2_in_r _ _ _ _ _ _ Fv Is) as ([y jv] & Iy & Q). cbn [snd] in Q.
             assert (Ll : 4 < length ms) by (rewrite (Forall2_length_eq _ _ _ _ _ Fv); exact Ln).
             destruct (Lt Ll y jv Iy) as (s' & -> & Ls). cbn [value_text] in Q. injection Q as ->. exact Ls.
          -- inversion Kt as [|? cl' ms' y ? G' K' Iy]; subst. assert (Qm : ms' = ms) by congruence. subst ms'. eapply texts_in; eassumption.
        * apply holds_additional. intros p x I _. apply (V p x I Hw).
      + constructor; [|constructor; [|constructor]]; cbn [fst snd].
        * apply holds_properties. intros p x s I Gs.
          assert (Is : In p vs) by (apply (dict_of_keys asserts doc vs (JObj dw)); apply in_map_iff; exists (p, s); split; [reflexivity | apply dict_get_in; exact Gs]).
          assert (Qs : s = JObj dw) by (pose proof (dict_of_same vs (JObj dw) p Is); congruence). subst s. apply (V p x I).
          eapply held_named; [exact Hd | left; reflexivity | right; left; reflexivity | apply dict_get_in; exact Gs].
        * apply holds_additional. intros p x I Nk. exfalso. apply Nk. unfold known_properties. cbn [typed app dict_get].
          change (pystr_eqb (str "type") (str "properties")) with false. change (pystr_eqb (str "properties") (str "properties")) with true. cbv iota.
          assert (Kt : exists v, key_of E (TClass c) p v) by exact (Fk p x I). destruct Kt as (v & Kt). apply (dict_of_keys asserts doc).
          inversion Kt as [|? cl' ms' y ? G' K' Iy]; subst. assert (Qm : ms' = ms) by congruence. subst ms'. eapply texts_in; eassumption.
    - inversion LG as [| | | |? ? js L F| | | | | | |]; subst. apply (accept_by_expansion asserts E S doc CO LK); [forms | forms | | discriminate].
      intros force d Hd _ Ex. apply exp_tuple in Ex. destruct Ex as (ds & Fd & ->). apply accepts_intro.
      constructor; [apply holds_type; reflexivity | constructor; [|constructor; [|constructor; [|constructor]]]]; cbn [fst snd].
      + apply holds_min_items. lia.
      + apply holds_max_items. lia.
      + apply holds_prefix. intros s x I.
        assert (X : exists t dw, In (t, x) (combine ts js) /\ schema_of E S false t dw /\ s = JObj dw /\ In dw ds).
        { clear - Fd L I. revert js L I. induction Fd as [|t dw ts ds A Fd IH]; intros js L I; [destruct I|].
          destruct js as [|j js]; [discriminate L|]. cbn [combine map In length] in *.
          destruct I as [Q|I]; [injection Q as <- <-; exists t, dw; auto 6|]. injection L as L. destruct (IH _ L I) as (t' & dw' & X1 & X3 & X4 & X5).
          exists t', dw'. auto 6. }
        destruct X as (t & dw & X1 & X3 & -> & X5).
        eapply (proj1 (IH js t x eq_refl X1 (F t x X1) (wf_item _ _ W (in_combine_r _ _ _ _ X1)))); [|exact X3].
        eapply held_list; [exact Hd | right; left; reflexivity | right; right; right; left; reflexivity | apply in_map; exact X5].
    - inversion LG as [| | | | |? ? ? t ? It Lt| | | | | |]; subst. pose proof (IH t It Lt Lt W) as (IHt & _).
      apply in_split in It. destruct It as (ts1 & ts2 & ->). pose proof (fun u => AL ts1 t ts2 u eq_refl Lt) as ALt.
      apply (accept_by_expansion asserts E S doc CO LK); [forms | forms | | discriminate].
      intros force d Hd _ Ex. apply exp_union in Ex. destruct Ex as (ds & Fd & ->).
      apply Forall2_app_inv_l in Fd. destruct Fd as (d1 & d2 & F1 & F2 & ->). inversion F2 as [|? dw ? d2' Sw F3]; subst.
      assert (Hm : forall dx, In dx (d1 ++ dw :: d2') -> held dx).
      { intros dx Ix. eapply held_list; [exact Hd | left; reflexivity | left; reflexivity | apply in_map; exact Ix]. }
      apply accepts_intro. constructor; [|constructor]. cbn [fst snd]. rewrite map_app. cbn [map]. apply holds_one.
      + eapply IHt; [apply Hm, in_app_iff; right; left; reflexivity | exact Sw].
      + intros x Ix. assert (X : exists u dx, (In u ts1 \/ In u ts2) /\ schema_of E S false u dx /\ x = JObj dx /\ In dx (d1 ++ dw :: d2')).
        { destruct Ix as [Ix|Ix]; apply in_map_iff in Ix; destruct Ix as (dx & <- & Ix).
          - destruct (Forall2_in_r _ _ _ _ _ _ F1 Ix) as (u & Iu & Su). exists u, dx. split; [left; exact Iu | split; [exact Su | split; [reflexivity|]]].
            apply in_app_iff. left. exact Ix.
          - destruct (Forall2_in_r _ _ _ _ _ _ F3 Ix) as (u & Iu & Su). exists u, dx. split; [right; exact Iu | split; [exact Su | split; [reflexivity|]]].
            apply in_app_iff. right. right. exact Ix. }
        destruct X as (u & dx & Iu & Su & -> & Id).
        eapply (proj1 (alien_rejected asserts E S doc CE CO LK OK m u j (ALt u Iu))); [apply Hm; exact Id | exact Su].
    - inversion LG as [| | | | | |? ? l' ? Il Lt JE| | | | |]; subst. destruct Il as [<-|[]]. specialize (JE c LJ).
      assert (Ij : j = c).
      { destruct l; try discriminate LJ; injection LJ as <-; cbn [lit_type] in Lt; inversion Lt as [? ? ? v PS| | | | | | | | | | |]; subst; clear - JE B PS;
          destruct j; try discriminate PS; try reflexivity; try (destruct (B _ _ eq_refl eq_refl));
          inversion JE as [|s'|a' b' q q' Na Nb Q|]; subst; try reflexivity; inversion Na; inversion Nb; subst; f_equal.
        - destruct b, b0; try reflexivity; discriminate Q.
        - symmetry. apply (proj1 (QArith_base.inject_Z_injective _ _)). exact Q. }
      subst j. apply (accept_by_expansion asserts E S doc CO LK); [forms | forms | | discriminate].
      intros force d Hd _ Ex. apply exp_literal in Ex. destruct Ex as (l' & c' & dw & Q & LJ' & Sw & ->). injection Q as <-. rewrite LJ in LJ'. injection LJ' as <-.
      apply accepts_holding. apply schema_of_inv in Sw.
      destruct Sw as [Sw|[(Sw & _)|[(w & md & d0 & Q & _)|[(w & md & Q & _)|(_ & Sw & _)]]]]; destruct l; try discriminate LJ; try discriminate Sw; try discriminate Q;
        injection LJ as <-; injection Sw as <-; (apply holding_set; [constructor; [intros kws; apply holds_type; reflexivity | constructor]|]);
        intros kws; apply holds_const; cbn [fst snd same num_of]; try reflexivity.
      + apply eqb_reflx.
      + unfold num_eqb. rewrite num_cmp_int, Z.compare_refl. reflexivity.
      + apply pystr_eqb_refl.
    - apply legible_annot in LG. destruct (IH LG W) as (_ & IH2). split; [|intros force d _ _ (n & u & u' & Q); discriminate Q].
      apply (lift_annot E S doc CO LK (fun d => accepts (JObj d) j)).
      + intros d d' C. apply accepts_core, C.
      + intros r d P. apply accepts_by_ref, P.
      + exact IH2.
      + intros d0 d B Rk. destruct t as [k| | | | | | | | | | |]; try discriminate B. inversion FT as [? ? ? A NB| | | | | | | | | |]; subst.
        inversion LG as [? ? ? v PS| | | | | | | | | | |]; subst. pose proof (read_holding _ _ _ _ A NB PS B) as F0.
        assert (O' : forall a, In a md -> obeys a j) by (intros a Ia; eapply O; [reflexivity | exact Ia]).
        apply accepts_holding. destruct Rk as [f Af|].
        * apply holding_upd; [exact F0|]. constructor; [|constructor]. intros kws. apply holds_format. eapply read_format; eassumption.
        * apply with_metadata_holding; assumption.
    - inversion LG as [| | | | | | | |? ? a t ? L Lt| | |]; subst.
      destruct (lift_ref E S doc CO LK (fun d => accepts (JObj d) j)) with (m := m) (s := s) (a := a) (t := t) as (A & B).
      + intros d d' C. apply accepts_core, C.
      + intros r d P. apply accepts_by_ref, P.
      + exact L.
      + exact (proj1 (IH a t L Lt W)).
      + split; [exact A | intros force d Hd _; apply B; exact Hd].
    - inversion LG as [| | | | | | | | |? ? cl' ms' x w ? G' K' Im JE|? ? cl' ? G' NE' _|? ? cl' ? ? ? G' FW']; subst.
      2: { exfalso. assert (cl' = cl) by congruence. subst cl'. exact (NE' _ K). }
      2: { exfalso. assert (cl' = cl) by congruence. subst cl'. unfold fieldwise in FW'. rewrite K in FW'. exact FW'. }
      assert (cl' = cl) by congruence. subst cl'. assert (ms' = ms) by congruence. subst ms'. pose proof (SE x w Im JE) as SM.
      apply (accept_by_expansion asserts E S doc CO LK); [forms | forms | | discriminate].
      intros force d _ _ Ex. eapply exp_enum in Ex; [|exact G | exact K].
      assert (X : existsb (same j) (map snd ms) = true).
      { apply existsb_exists. exists w. split; [apply in_map_iff; exists (x, w); auto | exact SM]. }
      unfold enum_to_schema in Ex. apply bind_ok in Ex. destruct Ex as (ks & Ks & Ex).
      destruct ks as [|k [|? ?]]; try discriminate Ex. apply enum_types in Ks. destruct Ks as (Ka & _). pose proof (Ka x w Im) as Jk.
      assert (Y : forall s, is_type s j = Some true -> Ok (describe S (TClass c) [(str "type", JStr s); (str "enum", JArr (map snd ms))]) = Ok d -> accepts (JObj d) j).
      { intros s Ty Q. injection Q as <-. eapply accepts_core; [symmetry; unfold core; apply (describe_filter (fun k => negb (note k))); reflexivity|].
        apply accepts_intro. constructor; [apply holds_type; exact Ty | constructor; [apply holds_enum; exact X | constructor]]. }
      destruct w; try discriminate Jk; injection Jk as <-; cbn [simple_type_to_schema] in Ex.
      + destruct j; try discriminate SM. injection Ex as <-.
        eapply accepts_core; [symmetry; unfold core; apply (describe_filter (fun k => negb (note k))); reflexivity|].
        apply accepts_intro. constructor; [apply holds_type; reflexivity | constructor].
      + eapply Y; [|exact Ex]. destruct j; try discriminate SM; reflexivity.
      + eapply Y; [|exact Ex]. eapply same_integer; exact SM.
      + eapply Y; [|exact Ex]. destruct j; try discriminate SM; reflexivity.
      + eapply Y; [|exact Ex]. destruct j; try discriminate SM; reflexivity.
    - inversion LG as [| | | | | | | | |? ? cl' ms' x w ? G' K' Im JE|? ? cl' ? G' NE' NF'|? ? cl' ps' L o G' FW' P' LY Kn Ab Fl]; subst.
      1: { exfalso. assert (cl' = cl) by congruence. subst cl'. unfold fieldwise in FW. rewrite K' in FW. exact FW. }
      1: { exfalso. assert (cl' = cl) by congruence. subst cl'. exact (NF' FW). }
      assert (cl' = cl) by congruence. subst cl'. assert (ps' = ps) by congruence. subst ps'. clear G' P' FW'.
      apply (accept_by_expansion asserts E S doc CO LK); [forms | forms | | discriminate].
      assert (NE : not_enum cl) by (intros ms Km; unfold fieldwise in FW; rewrite Km in FW; exact FW).
      assert (LP : forall x u d, In (x, u, d) L -> exists t, In (x, t) ps).
      { intros x u d I. apply (in_map (fun f => fst (fst f))) in I. rewrite (layout_names _ _ _ LY) in I. rewrite <- (properties_names_raw _ _ _ P) in I.
        apply in_map_iff in I. destruct I as ([y t] & Q & I). cbn [fst] in Q. subst y. eauto. }
      assert (PL : forall x t, In (x, t) ps -> exists u d, In (x, u, d) L).
      { intros x t I. apply (in_map fst) in I. rewrite (properties_names_raw _ _ _ P) in I. rewrite <- (layout_names _ _ _ LY) in I.
        apply in_map_iff in I. destruct I as ([[y u] d] & Q & I). cbn [fst] in Q. subst y. eauto. }
      assert (NA : forall x t u d, In (x, t) ps -> In (x, u, d) L -> json_name cl x u (out_name x t)).
      { intros x t u d I J. eapply NM; [|apply out_name_spec; reflexivity]. exists ps, L. exact (conj P (conj LY (conj I J))). }
      assert (Fields : forall p, In p (map fst o) -> exists y t, In (y, t) ps /\ p = out_name y t).
      { intros p I. destruct Kn as [Q|Kn].
        - destruct (KN o p eq_refl Q I) as (x & t & Ix & Sn). apply out_name_spec in Sn. eauto.
        - destruct (Kn p I) as (x & u & d & Ix & Jn). destruct (LP x u d Ix) as (t & It). exists x, t. split; [exact It|].
          eapply json_name_fun; [exact Jn | eapply NA; eassumption]. }
      assert (Values : forall y t x w, In (y, t) ps -> In (out_name y t, x) o -> (if is_type_optional t then unwrap_optional t = Ok w else w = t) -> welcomed w x).
      { intros y t x w Iy I Wr. destruct (PL y t Iy) as (u & d & Iu).
        assert (Nx : x <> JNull) by (intros ->; exact (NN o _ eq_refl I)).
        pose proof (Fl y t u d _ x Iy Iu (NA _ _ _ _ Iy Iu) I Nx) as Lx.
        eapply IH; [reflexivity | exact Iy | apply out_name_spec; reflexivity | exact I | apply read_by; [eapply properties_canonical; eassumption | exact Wr] | | eapply wf_prop; eassumption].
        destruct (is_type_optional t); [|subst w; exact Lx]. eapply unwrap_optional_legible; eassumption. }
      intros force d Hd _ Ex. pose proof (exp_object _ _ _ _ _ _ _ G NE P Ex) as [CS (props & req & C & Rf & K1 & K2 & M)].
      apply (accepts_core asserts doc (object_schema props req)); [rewrite C; unfold object_schema; destruct props, req; reflexivity|].
      pose proof (M (distinct_out _ (field_names E OK _ _ _ G P) D)) as MS.
      apply accepts_intro. unfold object_schema at 2. apply Forall_app. split; [constructor; [apply holds_type; reflexivity | constructor]|].
      apply Forall_app. split.
      + destruct props as [|p0 props0] eqn:Qp; [constructor|]. rewrite <- Qp in *.
        assert (Ip : In (str "properties", JObj props) (object_schema props req)) by (unfold object_schema; rewrite Qp; right; left; reflexivity).
        constructor; [|constructor; [|constructor]]; cbn [fst snd].
        * apply holds_properties. intros p x s I Gs. destruct (Fields p (in_map fst _ _ I)) as (y & t & Iy & ->).
          destruct (MS y t Iy) as (w & d0 & dx & Wr & Sw & Cx & Rx & Gx). assert (Qs : s = JObj dx) by congruence. subst s.
          eapply accepts_core; [symmetry; exact Cx|]. eapply (proj1 (Values y t x w Iy I Wr)); [|exact Sw].
          intros r R. apply Hd, Rf. eapply rf_named; [left; reflexivity | exact Ip | apply dict_get_in; exact Gx | apply Rx; exact R].
        * apply holds_additional. intros p x I Nk. exfalso. apply Nk. destruct (Fields p (in_map fst _ _ I)) as (y & t & Iy & ->).
          unfold known_properties, object_schema. rewrite Qp.
          change (In (out_name y t) (map fst (p0 :: props0))). rewrite <- Qp. apply K1. eauto.
      + destruct req as [|r0 req0] eqn:Qr; [constructor|]. rewrite <- Qr in *. constructor; [|constructor]. cbn [fst snd].
        apply holds_required. intros p I. apply K2 in I. destruct I as (x & t & Ix & -> & Op).
        destruct (PL x t Ix) as (u & d0 & Iu). destruct (in_dec pystr_eq_dec (out_name x t) (map fst o)) as [Y|N]; [exact Y|]. exfalso. apply N.
        apply (DF o x t u d0 (out_name x t) eq_refl); [exists ps, L; exact (conj P (conj LY (conj Ix Iu))) | | | apply out_name_spec; reflexivity].
        * intros X. apply is_type_optional_spec in X. congruence.
        * destruct (Ab x u d0 _ Iu (NA _ _ _ _ Ix Iu) N); auto.
  Qed.
End Exact.

(** ** Documents *)

Theorem exact_document : forall asserts E S skip n k m t doc v j, env_ok E -> canonical_env E -> trusting asserts -> coherent E S ->
  s_path S = str "#/definitions/" -> classdef_to_schema E S n k t = Ok doc ->
  (forall s, lost E S t s -> exists sch, defined doc s sch) -> json_wf j ->
  json_to_object E skip m t j = Ok v -> exact E skip m t j -> satisfies asserts doc j.
Proof.
  intros asserts E S skip n k m t doc v j OK CE TR CO P H L WF R EX.
  pose proof (document_linked E S CO n k t doc P H L) as LK.
  assert (LG : legible E skip m t j) by (unfold json_to_object in R; apply bind_ok in R; destruct R as (? & _ & R); eapply read_legible; [exact OK | exact CE | exact WF | exact R]).
  pose proof (exact_accepted asserts E S doc skip CE CO LK OK TR m t j EX LG WF) as (W & _).
  apply document_shape in H. destruct H as (d & u & defs & A & _ & _ & Q).
  unfold satisfies. rewrite Q at 2. eapply accepts_core with (kws := d).
  - unfold core, definitions_of. destruct (sort_attrs defs); reflexivity.
  - eapply W; [|exists n, [], u; exact A]. intros r Rf. rewrite Q. apply (proj2 (refers_one_member _ _)).
    apply (proj1 (refers_one_member _ _)) in Rf. destruct Rf as (k' & x & I & B & Rf). exists k', x. split; [|auto].
    right. apply in_app_iff. right. exact I.
Qed.
