(** Proofs about the validity of generated schemas. *)
From Coq Require Import String List NArith ZArith Bool Lia Arith.
From Verif Require Import Base Json Lists Digits PyTypes TypeAlgebra Deser Ser SerFacts Catalog Schema SpecSchema SpecGenerate SchemaProofs SpecMeta.
Import ListNotations.
Open Scope list_scope.
Open Scope nat_scope.

Section Keywords.
  Variable regex : pystr -> Prop.
  Notation kw := (keyword regex).
  Definition entries (d : list (pystr * json)) : Prop := forall k j, In (k, j) d -> kw k j.

  Lemma entries_nil : entries [].
  Proof. intros k j []. Qed.

  Lemma entries_cons : forall k j d, kw k j -> entries d -> entries ((k, j) :: d).
  Proof. intros k j d K D k' j' [Q|I]; [injection Q as <- <-; exact K | exact (D k' j' I)]. Qed.

  Lemma entries_app : forall d e, entries d -> entries e -> entries (d ++ e).
  Proof. intros d e D X k j I. apply in_app_or in I. destruct I; auto. Qed.

  Lemma entries_set : forall d k j, entries d -> kw k j -> entries (dict_set d k j).
  Proof. intros d k j D K k' j' I. apply dict_set_in in I. destruct I as [[-> ->]|I]; auto. Qed.

  Lemma entries_upd : forall e d, entries d -> entries e -> entries (upd d e).
  Proof.
    unfold upd. induction e as [|[k j] e IH]; intros d D X; cbn [fold_left]; [exact D|].
    apply IH; [apply entries_set; [exact D | apply X; left; reflexivity] | intros k' j' I; apply X; right; exact I].
  Qed.

  Lemma entries_filter : forall f d, entries d -> entries (filter f d).
  Proof. intros f d D k j I. apply filter_In in I. apply D. tauto. Qed.

  Lemma entries_schema : forall d, entries d -> schema regex (JObj d).
  Proof. intros d D. apply sc_object. exact D. Qed.

  Ltac listed := repeat (first [left; reflexivity | right]).
  Ltac texts := first [apply kw_text; listed | apply kw_type; listed].

  Lemma entries_docs : forall S t, entries (docstring_to_schema S t).
  Proof.
    intros S t. unfold docstring_to_schema. apply entries_app.
    - destruct (text_or_none (s_short S t)); [apply entries_cons; [apply kw_text; listed | apply entries_nil] | apply entries_nil].
    - destruct (text_or_none (s_long S t)); [apply entries_cons; [apply kw_text; listed | apply entries_nil] | apply entries_nil].
  Qed.

  Lemma entries_describe : forall S t d, entries d -> entries (describe S t d).
  Proof. intros S t d D. unfold describe. destruct (s_describe S); [apply entries_upd; [exact D | apply entries_docs] | exact D]. Qed.

  Lemma entries_typed : forall s, In s simple_types -> entries (typed s).
  Proof. intros s I. apply entries_cons; [apply kw_type; exact I | apply entries_nil]. Qed.

  Lemma entries_simple : forall t d, simple_type_to_schema t = Some d -> entries d.
  Proof.
    intros t d H. destruct t as [k| | | | | | | | | | |]; try discriminate H.
    destruct k; cbn in H; try discriminate H; injection H as <-;
      repeat (apply entries_cons; [first [apply kw_type; unfold simple_types; listed; fail | apply kw_text; listed]|]); apply entries_nil.
  Qed.

  Lemma positive_number : forall j, positive j -> number j.
  Proof. destruct j; cbn; auto. Qed.

  Lemma pow10_number : forall S z, number (pow10 S z).
  Proof. intros S z. unfold pow10. destruct (0 <=? z)%Z; exact Logic.I. Qed.

  Lemma jneg_number : forall j, number j -> number (jneg j).
  Proof. intros j H. destruct j as [| | |[| |]| | |]; try contradiction; exact Logic.I. Qed.

  Lemma entries_metadata : forall S md d, entries d ->
    (forall sig dec, In (APrecision sig dec) md -> (0 < dec)%N -> positive (JFloat (s_tenth S dec))) -> entries (with_metadata S d md).
  Proof.
    intros S. unfold with_metadata. induction md as [|a md IH]; intros d D P; cbn [fold_left]; [exact D|].
    apply IH; [|intros sig dec I; apply (P sig dec); right; exact I].
    apply entries_upd; [exact D|]. destruct a; cbn [metadata_to_schema]; try apply entries_nil.
    all: try (apply entries_cons; [apply kw_size; [listed | lia] | apply entries_nil]).
    - apply entries_cons; [apply kw_number; [listed | exact Logic.I]|].
      apply entries_cons; [apply kw_number; [listed | exact Logic.I]|]. apply entries_nil.
    - apply entries_cons.
      { apply kw_multiple. unfold pow10.
        destruct (0 <=? - Z.of_N _)%Z eqn:Q.
        - apply Z.leb_le in Q. cbn [positive]. apply Z.pow_pos_nonneg; lia.
        - apply Z.leb_gt in Q. rewrite Z.opp_involutive, N2Z.id. eapply P; [left; reflexivity | lia]. }
      apply entries_cons; [apply kw_number; [listed | apply jneg_number, pow10_number]|].
      apply entries_cons; [apply kw_number; [listed | apply pow10_number]|]. apply entries_nil.
  Qed.

  Lemma value_spelled : forall j s, value_text j = Ok s -> spelled j s.
  Proof. intros j s H. destruct j as [|[]| | | | |]; try discriminate H; injection H as <-; constructor. Qed.

  Lemma join_pattern : forall vs, str "^(" ++ join (str "|") vs ++ str ")$" = one_of_pattern vs.
  Proof.
    intros [|x r]; [reflexivity|]. unfold one_of_pattern. f_equal. revert x.
    induction r as [|y r IH]; intros x; [reflexivity|].
    change (join (str "|") (x :: y :: r)) with (x ++ str "|" ++ join (str "|") (y :: r)).
    cbn [flat_map]. rewrite <- !app_assoc. do 2 f_equal. apply IH.
  Qed.

  Lemma entries_dict : forall E k v d, schema regex (JObj v) ->
    (forall c cl ms vs, k = TClass c -> get_class E c = Some cl -> c_kind cl = CEnum ms -> 4 < length ms ->
      Forall2 spelled (map snd ms) vs -> regex (one_of_pattern vs)) ->
    dict_to_schema E k v = Ok d -> entries d.
  Proof.
    intros E k v d V P H.
    assert (A : entries [(str "additionalProperties", JObj v)])
      by (apply entries_cons; [apply kw_schema; [listed | exact V] | apply entries_nil]).
    destruct k as [k| | | | | | | |w md|c| |]; cbn [dict_to_schema] in H; try discriminate H.
    - destruct k; try discriminate H; injection H as <-; exact A.
    - destruct w; discriminate H.
    - destruct (get_class E c) as [cl|] eqn:G; [|discriminate H]. destruct (c_kind cl) as [ms| | | |] eqn:K; try discriminate H.
      apply bind_ok in H. destruct H as (vs & M & H). apply mapM_ok in M.
      destruct (4 <? length vs) eqn:L.
      + assert (Q : d = [(str "propertyNames", JObj [(str "pattern", JStr (str "^(" ++ join (str "|") vs ++ str ")$"))]);
                         (str "additionalProperties", JObj v)]) by congruence.
        rewrite join_pattern in Q. rewrite Q. apply entries_cons; [|exact A]. apply kw_schema; [listed|]. apply entries_schema. apply entries_cons; [|apply entries_nil].
        apply kw_pattern. apply Nat.ltb_lt in L.
        eapply P; [reflexivity | exact G | exact K | | ].
        * rewrite (Forall2_length_eq _ _ _ _ _ M). exact L.
        * clear -M. induction M as [|m v0 ms vs H M IH]; [constructor|]. constructor; [apply value_spelled; exact H | exact IH].
      + injection H as <-. apply entries_cons.
        * apply kw_table; [listed|]. intros x j I.
          assert (X : forall (l : list (pystr * json)) acc, (forall x j, In (x, j) acc -> j = JObj v) -> (forall x j, In (x, j) l -> j = JObj v) ->
                      forall x j, In (x, j) (fold_left (fun d kv => dict_set d (fst kv) (snd kv)) l acc) -> j = JObj v).
          { clear. induction l as [|[y i] l IH]; intros acc A L x j I; cbn [fold_left] in I; [exact (A _ _ I)|].
            eapply IH; [|intros x' j' I'; eapply L; right; exact I' | exact I].
            intros x' j' I'. apply dict_set_in in I'. destruct I' as [[-> ->]|I']; [eapply L; left; reflexivity | exact (A _ _ I')]. }
          rewrite (X (map (fun s => (s, JObj v)) vs) [] (fun _ _ F => match F with end)) with (x := x) (j := j); [exact V | | exact I].
          intros x' j' I'. apply in_map_iff in I'. destruct I' as (s & Q & _). injection Q as _ <-. reflexivity.
        * apply entries_cons; [apply kw_schema; [listed | apply sc_bool] | apply entries_nil].
  Qed.

  Lemma entries_enum : forall S t ms d, enum_to_schema S t ms = Ok d -> entries d.
  Proof.
    intros S t ms d H. unfold enum_to_schema in H. apply bind_ok in H. destruct H as (ks & _ & H).
    destruct ks as [|k [|]]; try discriminate H.
    assert (X : forall s, In s simple_types -> entries [(str "type", JStr s); (str "enum", JArr (map snd ms))]).
    { intros s I. apply entries_cons; [apply kw_type; exact I|]. apply entries_cons; [apply kw_array; listed | apply entries_nil]. }
    assert (Y : match simple_type_to_schema (TScalar k) with Some d => Ok (describe S t d) | None => Err EUnmodelled end = Ok d -> entries d).
    { intros Q. destruct (simple_type_to_schema (TScalar k)) as [d0|] eqn:B; [|discriminate Q]. injection Q as <-.
      apply entries_describe. eapply entries_simple. exact B. }
    cbv zeta in H. destruct k; try exact (Y H); injection H as <-; apply entries_describe, X; unfold simple_types; listed.
  Qed.

  Lemma entries_finish : forall E S c x d d', entries d -> finish_property E S c x d = Ok d' -> entries d'.
  Proof.
    intros E S c x d d' D H. unfold finish_property in H. apply bind_ok in H. destruct H as (df & A & H). cbv zeta in H.
    assert (X : entries df).
    { unfold default_schema in A. destruct (dict_get (s_attrs S c) x) as [v|]; [|injection A as <-; apply entries_nil].
      destruct v; try (injection A as <-; apply entries_nil); apply bind_ok in A; destruct A as (j & _ & A); injection A as <-;
        (apply entries_cons; [apply kw_any; listed | apply entries_nil]). }
    destruct (text_or_none (dict_get (s_props S c) x)) as [s|]; injection H as <-.
    - apply entries_set; [apply entries_filter, entries_upd; assumption | apply kw_text; listed].
    - apply entries_upd; assumption.
  Qed.

  Section Steps.
    Variables (E : env) (S : senv) (t0 : typ).
    Hypothesis P : presentable regex E S t0.
    Variable rec : bool -> typ -> list (pystr * typ) -> res (list (pystr * json) * list (pystr * typ)).
    Hypothesis Hrec : forall force t u d u', met E S t0 t -> rec force t u = Ok (d, u') -> entries d.

    Lemma seq_entries : forall force ts u js u', (forall t, In t ts -> met E S t0 t) -> seq_schema (rec force) ts u = Ok (js, u') ->
      length js = length ts /\ forall j, In j js -> schema regex j.
    Proof.
      intros force ts. induction ts as [|t ts IH]; intros u js u' M H; cbn [seq_schema] in H.
      - injection H as <- <-. split; [reflexivity | intros j []].
      - apply bind_ok in H. destruct H as ([d u1] & A & H). apply bind_ok in H. destruct H as ([js' u2] & B & H).
        cbn [fst snd] in *. injection H as <- <-.
        apply IH in B; [|intros t' I; apply M; right; exact I]. destruct B as (B1 & B2). split; [cbn [length]; congruence|].
        intros j [<-|I]; [apply entries_schema; eapply Hrec; [apply M; left; reflexivity | exact A] | exact (B2 j I)].
    Qed.

    Lemma properties_entries : forall c ps props required u props' required' u',
      (forall x t, In (x, t) ps -> met E S t0 t /\ forall w, unwrap_optional t = Ok w -> met E S t0 w) ->
      (forall x j, In (x, j) props -> schema regex j) ->
      properties_schema (rec false) E S c ps props required u = Ok (props', required', u') ->
      (forall x j, In (x, j) props' -> schema regex j) /\ required' = required ++ required_names ps.
    Proof.
      intros c ps. induction ps as [|[x t] ps IH]; intros props required u props' required' u' M D H; cbn [properties_schema] in H.
      - injection H as <- <- <-. split; [exact D | symmetry; apply app_nil_r].
      - apply bind_ok in H. destruct H as (w & A & H). apply bind_ok in H. destruct H as ([d u1] & B & H).
        apply bind_ok in H. destruct H as (d' & C & H). cbn [fst snd] in *.
        destruct (M x t (or_introl eq_refl)) as (M1 & M2).
        assert (Mw : met E S t0 w).
        { destruct (is_type_optional t); [exact (M2 w A) | injection A as <-; exact M1]. }
        apply IH in H; [| intros x' t' I; apply (M x' t'); right; exact I |].
        + destruct H as (H1 & H2). split; [exact H1|]. rewrite H2. cbn [required_names].
          destruct (is_type_optional t); [reflexivity|]. rewrite <- app_assoc. reflexivity.
        + intros y j I. apply dict_set_in in I. destruct I as [[-> ->]|I]; [|exact (D _ _ I)].
          apply entries_schema. eapply entries_finish; [|exact C]. eapply Hrec; eassumption.
    Qed.

    Lemma expand_entries : forall force t u d u', met E S t0 t -> expand E S rec force t u = Ok (d, u') -> entries d.
    Proof.
      intros force t u d u' M H.
      destruct t as [k|b|w|w|k w|ts|op ts|ls|w md|c|s|]; cbn [expand] in H; try discriminate H.
      - injection H as <- <-. apply entries_describe, entries_typed. unfold simple_types. listed.
      - injection H as <- <-. apply entries_describe, entries_typed. unfold simple_types. listed.
      - apply bind_ok in H. destruct H as ([x u1] & A & H). injection H as <- <-. cbn [fst snd].
        apply entries_cons; [apply kw_type; unfold simple_types; listed|]. apply entries_cons; [|apply entries_nil].
        apply kw_schema; [listed|]. apply entries_schema. eapply Hrec; [|exact A]. eapply met_trans; [exact M | apply mt_list, mt_refl].
      - apply bind_ok in H. destruct H as ([x u1] & A & H). injection H as <- <-. cbn [fst snd].
        apply entries_cons; [apply kw_type; unfold simple_types; listed|].
        apply entries_cons; [|apply entries_cons; [apply kw_flag | apply entries_nil]].
        apply kw_schema; [listed|]. apply entries_schema. eapply Hrec; [|exact A]. eapply met_trans; [exact M | apply mt_set, mt_refl].
      - apply bind_ok in H. destruct H as ([] & _ & H). apply bind_ok in H. destruct H as ([x u1] & A & H).
        apply bind_ok in H. destruct H as (d1 & B & H). injection H as <- <-. cbn [fst snd] in *.
        apply entries_cons; [apply kw_type; unfold simple_types; listed|].
        eapply entries_dict; [| |exact B].
        + apply entries_schema. eapply Hrec; [|exact A]. eapply met_trans; [exact M | apply mt_dict, mt_refl].
        + intros c cl ms vs -> G K L F. eapply (pr_pattern _ _ _ _ P); eassumption.
      - apply bind_ok in H. destruct H as ([x u1] & A & H). injection H as <- <-. cbn [fst snd] in *.
        apply seq_entries in A; [|intros t I; eapply met_trans; [exact M | eapply mt_tuple; [exact I | apply mt_refl]]].
        destruct A as (A1 & A2). apply entries_cons; [apply kw_type; unfold simple_types; listed|].
        apply entries_cons; [apply kw_size; [listed | lia]|]. apply entries_cons; [apply kw_size; [listed | lia]|].
        apply entries_cons; [|apply entries_nil]. apply kw_schemas; [listed | | exact A2].
        intros ->. destruct ts; [|discriminate A1]. exact (pr_tuple _ _ _ _ P M).
      - destruct (is_type_union (TUnion op ts)); [|discriminate H].
        apply bind_ok in H. destruct H as ([x u1] & A & H). injection H as <- <-. cbn [fst snd] in *.
        apply seq_entries in A; [|intros t I; eapply met_trans; [exact M | eapply mt_union; [exact I | apply mt_refl]]].
        destruct A as (A1 & A2). apply entries_cons; [|apply entries_nil]. apply kw_schemas; [listed | | exact A2].
        intros ->. destruct ts; [|discriminate A1]. exact (pr_union _ _ _ _ P op M).
      - destruct ls as [|l [|? ?]]; try discriminate H.
        apply bind_ok in H. destruct H as (j & _ & H). apply bind_ok in H. destruct H as ([x u1] & A & H). injection H as <- <-. cbn [fst snd] in *.
        apply entries_set; [|apply kw_any; listed].
        eapply Hrec; [|exact A]. eapply met_trans; [exact M | eapply mt_literal; [left; reflexivity | apply mt_refl]].
      - destruct (get_class E c) as [cl|] eqn:G; [|discriminate H].
        assert (X : (do ps <- class_properties E cl;
                     do x <- properties_schema (rec false) E S c ps [] [] u;
                     Ok (describe S (TClass c) (object_schema (fst (fst x)) (snd (fst x))), snd x)) = Ok (d, u') ->
                    entries d).
        { clear H. intros H. apply bind_ok in H. destruct H as (ps & A & H). apply bind_ok in H. destruct H as ([[props required] u1] & B & H).
          cbn [fst snd] in H. injection H as <- <-. apply entries_describe.
          apply properties_entries in B; [destruct B as (B1 & B2) | | intros y j []].
          2: { intros x t I. split.
               - eapply met_trans; [exact M | eapply mt_field; [exact G | exact A | exact I | apply mt_refl]].
               - intros w W. eapply met_trans; [exact M | eapply mt_optional; [exact G | exact A | exact I | exact W | apply mt_refl]]. }
          cbn [app] in B2. subst required. pose proof (pr_required _ _ _ _ P c cl ps M G A) as ND.
          unfold object_schema. apply entries_app; [apply entries_typed; unfold simple_types; listed|]. apply entries_app.
          - destruct props as [|p props]; [apply entries_nil|].
            apply entries_cons; [apply kw_table; [listed | exact B1]|].
            apply entries_cons; [apply kw_schema; [listed | apply sc_bool] | apply entries_nil].
          - destruct (required_names ps) as [|r rs] eqn:R; [apply entries_nil|].
            apply entries_cons; [|apply entries_nil]. apply (kw_required regex (r :: rs)). exact ND. }
        destruct (c_kind cl) as [ms| | | |]; try exact (X H).
        apply bind_ok in H. destruct H as (d1 & A & H). injection H as <- <-. eapply entries_enum. exact A.
      - destruct force.
        + destruct (s_eval S s) as [w|] eqn:V; [|discriminate H]. eapply Hrec; [|exact H].
          eapply met_trans; [exact M | eapply mt_text; [exact V | apply mt_refl]].
        + destruct (s_eval S s) as [w|] eqn:V; injection H as <- <-;
            (apply entries_cons; [apply kw_text; listed | apply entries_nil]).
    Qed.
  End Steps.

  Theorem type_to_schema_entries : forall E S t0 n force t u d u', presentable regex E S t0 -> met E S t0 t ->
    type_to_schema E S n force t u = Ok (d, u') -> entries d.
  Proof.
    intros E S t0 n force t u d u' P. revert force t u d u'.
    induction n as [|n IH]; intros force t u d u' M H; [discriminate H|]. cbn [type_to_schema] in H.
    destruct (simple_type_to_schema t) as [d0|] eqn:B.
    { injection H as <- <-. eapply entries_simple. exact B. }
    destruct (negb force && in_catalog S t) eqn:C.
    { apply bind_ok in H. destruct H as (e & G & H). cbv zeta in H. injection H as <- <-.
      apply entries_cons; [apply kw_text; listed | apply entries_nil]. }
    pose proof (expand_entries E S t0 P (type_to_schema E S n) (fun f t u d u' => IH f t u d u')) as X.
    destruct t as [k|b|w|w|k w|ts|op ts|ls|w md|c|s|]; try (exact (X _ _ _ _ _ M H)).
    destruct (simple_type_to_schema w) as [d0|] eqn:B0.
    - destruct (get_auxiliary_format (TAnnot w md)) as [f|]; injection H as <- <-.
      + apply entries_set; [eapply entries_simple; exact B0|]. apply kw_text; listed.
      + apply entries_metadata; [eapply entries_simple; exact B0|]. intros sig dec I Q. eapply (pr_precision _ _ _ _ P); eassumption.
    - eapply X; [|exact H]. eapply met_trans; [exact M | apply mt_annot, mt_refl].
  Qed.

  Lemma lookup_entries : forall E S t0 n t u d u', presentable regex E S t0 -> met E S t0 t ->
    type_to_schema_with_lookup E S n t u = Ok (d, u') ->
    entries d /\ forall s w, In (s, w) u' -> In (s, w) u \/ met E S t0 w.
  Proof.
    intros E S t0 n t u d u' P M H. unfold type_to_schema_with_lookup in H. apply bind_ok in H. destruct H as (e & G & H).
    assert (G' : get (s_catalog S) t = Ok e).
    { destruct t; try exact G. destruct (s_forward S s); [exact G | discriminate G]. }
    apply bind_ok in H. destruct H as ([x u1] & A & H). cbn [fst snd] in H. cbv zeta in H. injection H as <- <-.
    assert (Q : entries x /\ forall s w, In (s, w) u1 -> In (s, w) u \/ met E S t0 w).
    { destruct (en_schema e) as [j|] eqn:Sc.
      - destruct j; try discriminate A. injection A as <- <-. split; [|auto].
        pose proof (pr_schema _ _ _ _ P _ _ _ G' Sc) as V. inversion V; subst. assumption.
      - split; [eapply type_to_schema_entries; eassumption|].
        exact (sp_met _ _ _ _ _ _ (type_to_schema_stepped _ _ _ _ _ _ _ _ _ M A)). }
    destruct Q as (Q1 & Q2). split; [|exact Q2].
    assert (D : entries (if s_describe S && is_python_class t then upd x (docstring_to_schema S t) else x)).
    { destruct (s_describe S && is_python_class t); [apply entries_upd; [exact Q1 | apply entries_docs] | exact Q1]. }
    destruct (en_examples e) as [j|] eqn:Ex; [|exact D]. destruct (s_exemplify S && truthy j) eqn:T; [|exact D].
    apply andb_true_iff in T. destruct (pr_examples _ _ _ _ P _ _ _ G' Ex (proj2 T)) as (l & ->).
    apply entries_set; [exact D | apply kw_array; listed].
  Qed.

  Lemma define_all_entries : forall E S t0 n todo def u def' u', presentable regex E S t0 ->
    (forall s t, In (s, t) todo -> met E S t0 t) -> (forall s t, In (s, t) u -> met E S t0 t) ->
    (forall s j, In (s, j) def -> schema regex j) ->
    define_all E S n todo def u = Ok (def', u') ->
    (forall s j, In (s, j) def' -> schema regex j) /\ forall s t, In (s, t) u' -> met E S t0 t.
  Proof.
    intros E S t0 n todo. induction todo as [|[s t] todo IH]; intros def u def' u' P T U D H; cbn [define_all] in H.
    - injection H as <- <-. auto.
    - apply bind_ok in H. destruct H as ([d u1] & A & H). cbn [fst snd] in H.
      eapply lookup_entries in A; [|exact P | eapply T; left; reflexivity]. destruct A as (A1 & A2).
      eapply IH in H; [exact H | exact P | intros s' t' I; eapply T; right; exact I | |].
      + intros s' t' I. destruct (A2 _ _ I) as [I'|I']; [exact (U _ _ I') | exact I'].
      + intros s' j I. apply dict_set_in in I. destruct I as [[-> ->]|I]; [apply entries_schema; exact A1 | exact (D _ _ I)].
  Qed.

  Lemma define_loop_entries : forall E S t0 n k def u defs, presentable regex E S t0 ->
    (forall s t, In (s, t) u -> met E S t0 t) -> (forall s j, In (s, j) def -> schema regex j) ->
    define_loop E S n k def u = Ok defs -> forall s j, In (s, j) defs -> schema regex j.
  Proof.
    intros E S t0 n k. induction k as [|k IH]; intros def u defs P U D H; cbn [define_loop] in H; destruct (length def <? length u).
    - discriminate H.
    - injection H as <-. exact D.
    - apply bind_ok in H. destruct H as ([def' u'] & A & H). cbn [fst snd] in H.
      eapply define_all_entries in A; [|exact P | | exact U | exact D].
      + destruct A as (A1 & A2). eapply IH; eassumption.
      + intros s t I. apply filter_In in I. exact (U _ _ (proj1 I)).
    - injection H as <-. exact D.
  Qed.

  Theorem document_schema : forall E S n k t doc, presentable regex E S t -> classdef_to_schema E S n k t = Ok doc -> schema regex doc.
  Proof.
    intros E S n k t doc P H. unfold classdef_to_schema in H. apply bind_ok in H. destruct H as ([d defs] & A & H). cbn [fst snd] in H.
    injection H as <-.
    assert (G : (do x <- type_to_schema E S n false t []; do defs <- define_loop E S n k [] (snd x); Ok (fst x, sort_attrs defs)) = Ok (d, defs)).
    { unfold generate in A. destruct t; try exact A. discriminate A. }
    clear A. apply bind_ok in G. destruct G as ([d1 u1] & A & G). apply bind_ok in G. destruct G as (defs1 & B & G).
    cbn [fst snd] in *. injection G as <- <-.
    pose proof (type_to_schema_entries _ _ _ _ _ _ _ _ _ P (mt_refl _ _ _) A) as X.
    pose proof (sp_met _ _ _ _ _ _ (type_to_schema_stepped _ _ _ _ _ _ _ _ _ (mt_refl _ _ _) A)) as U.
    assert (Y : forall s j, In (s, j) defs1 -> schema regex j).
    { eapply define_loop_entries; [exact P | | | exact B]; [|intros s j []]. intros s w I. destruct (U s w I) as [[]|I']. exact I'. }
    apply entries_schema, entries_upd; [apply entries_cons; [apply kw_text; listed | apply entries_nil]|].
    apply entries_upd; [|exact X].
    destruct (sort_attrs defs1) as [|p defs] eqn:Q; [apply entries_nil|].
    apply entries_cons; [|apply entries_nil]. apply kw_table; [listed|]. intros s j I. eapply Y. rewrite <- Q in I.
    eapply Permutation.Permutation_in; [apply Permutation.Permutation_sym, sort_perm | exact I].
  Qed.
End Keywords.
