(** Documents that a generated schema accepts can be deserialized. *)
From Coq Require Import String List NArith ZArith Bool Lia Permutation.
From Verif Require Import Base Json PyTypes TypeAlgebra TypeAlgebraProofs Lists Mapping Deser DeserFuel DeserBuild DeserUnfold DeserFacts DeserSound
  TypingFacts FieldProofs TaggedProofs Catalog CatalogProofs Schema SpecTyping SpecTypes SpecFields SpecNumbers NumbersProofs SpecRecursion SpecDeser SpecSer SpecTagged SpecRoundTrip
  SpecSchema SchemaSem SpecGenerate SchemaProofs SchemaClass SpecValid SchemaForm SchemaValid RoundTrip SpecReadable.
Import ListNotations.
Open Scope list_scope.
Open Scope nat_scope.

(** What a schema of [t] says about the documents it accepts. *)

Definition keyed (E : env) (k : typ) (p : pystr) : Prop :=
  match k with
  | TScalar _ => True
  | TClass c => forall cl ms, get_class E c = Some cl -> c_kind cl = CEnum ms -> (forall x j, In (x, j) ms -> exists s, j = JStr s) ->
      (4 < length ms -> forall x s, In (x, JStr s) ms -> forallb literal_char s = true) -> exists x, In (x, JStr p) ms
  | _ => False
  end.

Inductive shaped (asserts : pystr -> pystr -> json -> bool) (E : env) : nat -> typ -> json -> Prop :=
| sh_scalar : forall m k j, (addressed k = false -> natural k j) -> plain_number k j ->
    (forall kw f, text_format k = Some (kw, f) -> asserts kw f j = true) -> shaped asserts E m (TScalar k) j
| sh_bare : forall m b j, shaped asserts E m (TBare b) j
| sh_list : forall m t js, (forall j, In j js -> shaped asserts E m t j) -> shaped asserts E m (TList t) (JArr js)
| sh_set : forall m t js, (forall j, In j js -> shaped asserts E m t j) -> shaped asserts E m (TSet t) (JArr js)
| sh_dict : forall m k t o, (forall p j, In (p, j) o -> keyed E k p) -> (forall p j, In (p, j) o -> shaped asserts E m t j) ->
    shaped asserts E m (TDict k t) (JObj o)
| sh_tuple : forall m ts js, length js = length ts -> (forall t j, In (t, j) (combine ts js) -> shaped asserts E m t j) ->
    shaped asserts E m (TTuple ts) (JArr js)
| sh_union : forall m op ts t j, In t ts -> shaped asserts E m t j -> shaped asserts E m (TUnion op ts) j
| sh_literal : forall m ls l c j, In l ls -> lit_json l = Some c -> same j c = true -> shaped asserts E m (lit_type l) j ->
    shaped asserts E m (TLiteral ls) j
| sh_annot : forall m t md j, shaped asserts E m t j -> shaped asserts E m (TAnnot t md) j
| sh_ref : forall m s j, (forall a t, lookup E m s = Some (a, t) -> shaped asserts E m t j) -> shaped asserts E m (TRef s) j
| sh_enum : forall m c cl ms x v j, get_class E c = Some cl -> c_kind cl = CEnum ms -> In (x, v) ms -> same j v = true ->
    shaped asserts E m (TClass c) j
| sh_class : forall m c cl ps o, get_class E c = Some cl -> not_enum cl -> class_properties E cl = Ok ps ->
    (forall x t p, In (x, t) ps -> ~ optional t -> schema_name x t p -> In p (map fst o)) ->
    (ps <> [] -> forall p, In p (map fst o) -> exists x t, In (x, t) ps /\ schema_name x t p) ->
    (distinct_names ps -> forall x t p j, In (x, t) ps -> schema_name x t p -> In (p, j) o ->
       exists r, read_type t r /\ (if is_type_optional t then unwrap_optional t = Ok r else r = t) /\ shaped asserts E (c_module cl) r j) ->
    shaped asserts E m (TClass c) (JObj o).

Section Shape.
  Variables (asserts : pystr -> pystr -> json -> bool) (E : env) (S : senv) (doc : json).
  Hypothesis GE : guarded_env E.
  Hypothesis CE : canonical_env E.
  Hypothesis CO : coherent E S.
  Hypothesis LK : linked E S doc.
  Hypothesis OK : env_ok E.
  Notation accepts := (accepts asserts doc).
  Notation held := (held doc).
  Notation shaped := (shaped asserts E).

  Definition drawn (m : nat) (t : typ) (j : json) : Prop :=
    (forall force d, held d -> schema_of E S force t d -> accepts (JObj d) j -> shaped m t j) /\
    (forall force d, held d -> simple_type_to_schema t = None -> expansion E S force t d -> accepts (JObj d) j -> shaped m t j).

  Lemma ref_accepts : forall (P : Prop) j r d, points_to doc r = Some (JObj d) -> (accepts (JObj d) j -> P) ->
    accepts (JObj [(str "$ref", JStr r)]) j -> P.
  Proof.
    intros P j r d Q H A. eapply accepts_elim in A; [|left; reflexivity]. apply ref_holds in A. destruct A as (s & Q' & A).
    apply H. congruence.
  Qed.

  Lemma draw_expansion : forall m t j, not_annot t -> not_ref t ->
    (forall force d, held d -> simple_type_to_schema t = None -> expansion E S force t d -> accepts (JObj d) j -> shaped m t j) ->
    (forall d, simple_type_to_schema t = Some d -> accepts (JObj d) j -> shaped m t j) -> drawn m t j.
  Proof.
    intros m t j NA NR X Y. split; [|exact X].
    apply (lift E S doc CO LK (fun d => accepts (JObj d) j -> shaped m t j)); try assumption.
    - intros d d' C H A. apply H. eapply accepts_core; [symmetry; exact C | exact A].
    - intros r d P H A. eapply ref_accepts; eassumption.
  Qed.

  Ltac forms := let w := fresh in let md := fresh in intros w; try intros md; discriminate.

  Lemma typed_accepts : forall s d j, In (str "type", JStr s) d -> accepts (JObj d) j -> is_type s j = Some true.
  Proof. intros s d j I A. eapply type_holds. eapply accepts_elim; eassumption. Qed.

  Lemma array_of : forall j, is_type (str "array") j = Some true -> exists js, j = JArr js.
  Proof. intros j H. destruct j; try discriminate H. eauto. Qed.

  Lemma object_of : forall j, is_type (str "object") j = Some true -> exists o, j = JObj o.
  Proof. intros j H. destruct j; try discriminate H. eauto. Qed.

  Lemma format_holds : forall kws j kw f, kw = str "format" \/ kw = str "contentEncoding" -> holds asserts doc kws j kw (JStr f) -> asserts kw f j = true.
  Proof. intros kws j kw f [->| ->] (n & H); injection H as H; exact H. Qed.

  Lemma natural_dec : forall k j, natural k j \/ ~ natural k j.
  Proof. intros k j. destruct k, j; cbn [natural]; auto. destruct (whole f); auto. Qed.

  (** Scalars: type and format stay, whatever is said beside them. *)
  Lemma scalar_shaped : forall m k d0 d j, simple_type_to_schema (TScalar k) = Some d0 -> (forall kw x, text_format k <> None \/ kw = str "type" ->
      In (kw, x) d0 -> In (kw, x) d) -> plain_number k j -> accepts (JObj d) j -> shaped m (TScalar k) j.
  Proof.
    intros m k d0 d j B I N A. constructor; [|exact N|].
    - intros _. destruct (simple_typed k d0 B) as (s & Is & T). pose proof (typed_accepts s d j (I _ _ (or_intror eq_refl) Is) A) as Ty.
      destruct (natural_dec k j) as [X|X]; [exact X|]. rewrite (proj2 (T j) X) in Ty. discriminate Ty.
    - intros kw f F. eapply (format_holds d); [destruct k; try discriminate F; injection F as <- <-; auto|].
      eapply accepts_elim; [exact A|]. apply I; [left; rewrite F; discriminate|].
      destruct k; try discriminate F; injection F as <- <-; injection B as <-; first [right; left; reflexivity | right; right; left; reflexivity].
  Qed.

  Lemma remarks_keep : forall k md d0 d kw x, remarks S (TAnnot (TScalar k) md) md d0 d -> text_format k <> None \/ kw = str "type" ->
    simple_type_to_schema (TScalar k) = Some d0 -> In (kw, x) d0 -> In (kw, x) d.
  Proof.
    intros k md d0 d kw x R T B I. destruct T as [T| ->].
    - assert (Kw : In kw [str "type"; str "format"; str "contentEncoding"]).
      { destruct k; try discriminate B; injection B as <-; cbn [In] in I; repeat (destruct I as [I|I]; [injection I as <- <-; cbn [In]; auto|]); destruct I. }
      destruct R as [f A|].
      + apply auxiliary_format in A. unfold auxiliary_types in A. cbn [In] in A. exfalso.
        repeat (destruct A as [A|A]; [injection A as <- _; apply T; reflexivity|]). destruct A.
      + pose proof (with_metadata_filter (fun k => mem_str k [str "type"; str "format"; str "contentEncoding"]) S) as W.
        assert (J : In (kw, x) (filter (fun kv => mem_str (fst kv) [str "type"; str "format"; str "contentEncoding"]) (with_metadata S d0 md))).
        { rewrite W by (repeat constructor). apply filter_In. split; [exact I | apply mem_str_in; exact Kw]. }
        apply filter_In in J. tauto.
    - assert (X : filter (fun kv => pystr_eqb (str "type") (fst kv)) d = filter (fun kv => pystr_eqb (str "type") (fst kv)) d0).
      { destruct R as [f A|].
        - apply (upd_filter (fun k => pystr_eqb (str "type") k)). repeat constructor.
        - apply (with_metadata_filter (fun k => pystr_eqb (str "type") k)). repeat constructor. }
      assert (J : In (str "type", x) (filter (fun kv => pystr_eqb (str "type") (fst kv)) d0)) by (apply filter_In; split; [exact I | reflexivity]).
      rewrite <- X in J. apply filter_In in J. tauto.
  Qed.

  Lemma pattern_join : forall vs s, vs <> [] -> Forall (fun s => forallb literal_char s = true) vs ->
    matches (str "^(" ++ join (str "|") vs ++ str ")$") s = Some true -> In s vs.
  Proof.
    intros vs s N F. set (q := join (str "|") vs). change (str "^(" ++ q ++ str ")$") with (94%N :: 40%N :: (q ++ [41%N; 36%N])).
    unfold matches. rewrite rev_app_distr. cbn [rev app]. rewrite rev_involutive. unfold q.
    rewrite alternatives_join; [|exact N | exact F]. destruct (forallb _ vs); [|discriminate]. intros H. injection H as H.
    apply existsb_exists in H. destruct H as (s' & I & Q). apply pystr_eqb_eq in Q. subst s'. exact I.
  Qed.

  Lemma texts_of : forall (ms : list (pystr * json)) vs s, mapM (fun m => value_text (snd m)) ms = Ok vs -> (forall x j, In (x, j) ms -> exists s, j = JStr s) ->
    In s vs -> exists x, In (x, JStr s) ms.
  Proof.
    intros ms vs s H A I. apply mapM_ok in H. destruct (Forall2_in_r _ _ _ _ _ _ H I) as ([x j] & J & Q). cbn [snd] in Q.
    destruct (A x j J) as (s' & ->). cbn [value_text] in Q. injection Q as ->. eauto.
  Qed.

  Lemma keyed_scalar : forall k v dk p, dict_to_schema E k v = Ok dk -> (forall c, k <> TClass c) -> keyed E k p.
  Proof.
    intros k v dk p H N. destruct k as [k| | | | | |op us|ls|w md|c| |]; try discriminate H; [exact Logic.I | destruct w; discriminate H | destruct (N c eq_refl)].
  Qed.

  Lemma plain_part : forall m t j m' t' j', plain_numbers E m t j -> (forall k x, leaf_of E m' t' j' k x -> leaf_of E m t j k x) -> plain_numbers E m' t' j'.
  Proof. intros m t j m' t' j' H X k x L. apply H, X, L. Qed.

  Lemma hints_raw : forall cl hs x t, hints E cl = Ok hs -> In (x, t) hs ->
    exists t0, In (x, t0) (raw_fields (c_kind cl)) /\ exists n g, resolve E (c_module cl) n g t0 = Ok t.
  Proof.
    intros cl hs x t H I. unfold hints in H. apply mapM_ok in H. destruct (Forall2_in_r _ _ _ _ _ _ H I) as ([y t0] & J & Q).
    apply bind_ok in Q. destruct Q as (w & R & B). injection B as <- <-. exists t0. split; [exact J|]. eexists. eexists. exact R.
  Qed.

  Lemma dict_set_keeps : forall (d : list (pystr * json)) k v k' x, In (k', x) d -> k' <> k -> In (k', x) (dict_set d k v).
  Proof.
    intros d k v k' x. induction d as [|[k1 x1] d IH]; intros I N; [destruct I|]. cbn [dict_set].
    destruct (pystr_eqb k1 k) eqn:Q.
    - destruct I as [I|I]; [|right; exact I]. apply pystr_eqb_eq in Q. congruence.
    - destruct I as [I|I]; [left; exact I | right; apply IH; assumption].
  Qed.

  Lemma enum_or_not : forall cl, (exists ms, c_kind cl = CEnum ms) \/ not_enum cl.
  Proof. intros cl. unfold not_enum. destruct (c_kind cl); [left; eauto | right; intros ms; discriminate ..]. Qed.

  Lemma properties_parts : forall c cl ps x t, get_class E c = Some cl -> class_properties E cl = Ok ps -> In (x, t) ps ->
    every_part (guarded E (c_module cl)) t.
  Proof.
    intros c cl ps x t G P I. unfold class_properties in P.
    assert (X : forall hs, hints E cl = Ok hs -> In (x, t) hs -> every_part (guarded E (c_module cl)) t).
    { intros hs H J. destruct (hints_raw _ _ _ _ H J) as (t0 & J0 & n & g & R). eapply resolve_parts; [exact GE | | exact R]. eapply (ge_fields _ GE); eassumption. }
    destruct (c_kind cl) eqn:K; try (eapply X; eassumption).
    assert (Q : ps = raw_fields (c_kind cl)) by (rewrite K; congruence). subst ps. eapply (ge_fields _ GE); eassumption.
  Qed.

  Lemma depth_arr : forall js j, In j js -> jdepth j < jdepth (JArr js).
  Proof. intros js j I. exact (jdepth_arr E _ (le_n _) js j I). Qed.

  Lemma depth_obj : forall o p j, In (p, j) o -> jdepth j < jdepth (JObj o).
  Proof. intros o p j I. exact (jdepth_obj E _ (le_n _) o p j I). Qed.

  Theorem shape : forall d k m t j, jdepth j < d -> level E k m t -> every_part (guarded E m) t -> plain_numbers E m t j -> drawn m t j.
  Proof.
    induction d as [|d IHd]; [lia|]. induction k as [|k IHk]; intros m t j D L G P; [destruct L|].
    assert (PART : forall m' u j', jdepth j' < jdepth j -> every_part (guarded E m') u -> (forall k x, leaf_of E m' u j' k x -> leaf_of E m t j k x) ->
      forall force d, held d -> schema_of E S force u d -> accepts (JObj d) j' -> shaped m' u j').
    { intros m' u j' D' G' X. destruct (guarded_level E m' u (every_part_top _ _ G')) as (k' & L').
      apply (IHd k' m' u j'); [lia | exact L' | exact G' | eapply plain_part; [exact P | exact X]]. }
    destruct t as [q|b|w|w|q w|ts|op ts|ls|w md|c|s|].
    - apply draw_expansion; [forms | forms | |].
      + intros force d' _ B H A. constructor; [|apply P; constructor|]; destruct q; discriminate.
      + intros d0 B A. eapply scalar_shaped; [exact B | | | exact A]; [auto | apply P; constructor].
    - apply draw_expansion; [forms | forms | |]; intros; constructor.
    - apply draw_expansion; [forms | forms | | discriminate].
      intros force dd Hd _ H A. apply exp_list in H. destruct H as (dw & Sw & ->).
      destruct (array_of j) as (js & ->); [eapply typed_accepts; [|exact A]; left; reflexivity|]. constructor. intros x I.
      eapply PART; [apply depth_arr; exact I | exact (proj2 G) | intros; eapply lf_list; eassumption | | exact Sw |].
      + eapply held_one; [exact Hd | left; reflexivity | right; left; reflexivity | reflexivity].
      + eapply items_holds; [|eapply accepts_elim; [exact A | right; left; reflexivity] | exact I]. reflexivity.
    - apply draw_expansion; [forms | forms | | discriminate].
      intros force dd Hd _ H A. apply exp_set in H. destruct H as (dw & Sw & ->).
      destruct (array_of j) as (js & ->); [eapply typed_accepts; [|exact A]; left; reflexivity|]. constructor. intros x I.
      eapply PART; [apply depth_arr; exact I | exact (proj2 G) | intros; eapply lf_set; eassumption | | exact Sw |].
      + eapply held_one; [exact Hd | left; reflexivity | right; left; reflexivity | reflexivity].
      + eapply items_holds; [|eapply accepts_elim; [exact A | right; left; reflexivity] | exact I]. reflexivity.
    - apply draw_expansion; [forms | forms | | discriminate].
      intros force dd Hd _ H A. apply exp_dict in H. destruct H as (dw & dk & Sw & Dk & ->).
      destruct (object_of j) as (o & ->); [eapply typed_accepts; [|exact A]; left; reflexivity|].
      assert (V : forall p x, In (p, x) o -> held dw -> accepts (JObj dw) x -> shaped m w x).
      { intros p x I Hw Ax. eapply PART; [eapply depth_obj; exact I | exact (proj2 (proj2 G)) | intros; eapply lf_dict; eassumption | exact Hw | exact Sw | exact Ax]. }
      pose proof Dk as Dk0. apply dict_forms in Dk. destruct Dk as [->|(c & cl & ms & vs & -> & Gc & K & Vs & [(Lv & ->)|(Lv & ->)])].
      + constructor.
        * intros p x I. eapply keyed_scalar; [exact Dk0|]. intros c ->. cbn [dict_to_schema] in Dk0.
          destruct (get_class E c) as [cl|]; [|discriminate Dk0]. destruct (c_kind cl); try discriminate Dk0.
          apply bind_ok in Dk0. destruct Dk0 as (? & _ & Dk0). destruct (4 <? _); discriminate Dk0.
        * intros p x I. eapply V; [exact I | eapply held_one; [exact Hd | right; left; reflexivity | right; left; reflexivity | reflexivity]|].
          eapply additional_holds; [eapply accepts_elim; [exact A | right; left; reflexivity] | exact I | intros []].
      + constructor.
        * intros p x I cl' ms' Gc' K' St Li. assert (cl' = cl) by congruence. subst cl'. assert (ms' = ms) by congruence. subst ms'.
          assert (Ln : length vs = length ms) by (apply mapM_ok in Vs; symmetry; exact (Forall2_length_eq _ _ _ _ _ Vs)).
          eapply texts_of; [exact Vs | exact St|]. apply pattern_join.
          -- intros ->. cbn in Lv. lia.
          -- apply Forall_forall. intros t It. destruct (texts_of _ _ _ Vs St It) as (y & Iy). eapply Li; [lia | exact Iy].
          -- eapply pattern_holds. eapply (accepts_elim _ _ [(str "pattern", JStr (str "^(" ++ join (str "|") vs ++ str ")$"))]); [|left; reflexivity]. eapply names_hold; [|exact I].
             eapply accepts_elim; [exact A | right; left; reflexivity].
        * intros p x I. eapply V; [exact I | eapply held_one; [exact Hd | right; left; reflexivity | right; right; left; reflexivity | reflexivity]|].
          eapply additional_holds; [eapply accepts_elim; [exact A | right; right; left; reflexivity] | exact I | intros []].
      + assert (Kn : forall p x, In (p, x) o -> In p vs).
        { intros p x I. destruct (in_dec (list_eq_dec N.eq_dec) p vs) as [Y|Y]; [exact Y|]. exfalso.
          eapply accepts_rejects; [eapply additional_holds; [eapply accepts_elim; [exact A | right; right; left; reflexivity] | exact I |] | apply rejects_false].
          unfold known_properties. cbn [typed app dict_get]. change (pystr_eqb (str "type") (str "properties")) with false.
          change (pystr_eqb (str "properties") (str "properties")) with true. cbv iota. rewrite (dict_of_keys asserts doc). exact Y. }
        constructor.
        * intros p x I cl' ms' Gc' K' St Li. assert (cl' = cl) by congruence. subst cl'. assert (ms' = ms) by congruence. subst ms'.
          eapply texts_of; [exact Vs | exact St | eapply Kn; exact I].
        * intros p x I. eapply V; [exact I | |].
          -- eapply held_named; [exact Hd | left; reflexivity | right; left; reflexivity | apply dict_get_in, (dict_of_same vs _ p (Kn p x I))].
          -- eapply properties_holds; [eapply accepts_elim; [exact A | right; left; reflexivity] | exact I | apply dict_of_same, (Kn p x I)].
    - apply draw_expansion; [forms | forms | | discriminate].
      intros force dd Hd _ H A. apply exp_tuple in H. destruct H as (ds & F & ->).
      destruct (array_of j) as (js & ->); [eapply typed_accepts; [|exact A]; left; reflexivity|]. constructor.
      + assert (A1 := accepts_elim _ _ _ _ _ _ A (or_intror (or_introl eq_refl))). apply min_items_holds in A1.
        assert (A2 := accepts_elim _ _ _ _ _ _ A (or_intror (or_intror (or_introl eq_refl)))). apply max_items_holds in A2. lia.
      + intros t x I.
        assert (X : exists dw, In (JObj dw, x) (combine (map JObj ds) js) /\ schema_of E S false t dw /\ In dw ds).
        { clear - F I. revert js I. induction F as [|t' d' ts ds A F IH]; intros [|j' js] I; try contradiction. cbn [combine map In] in *.
          destruct I as [Q|I]; [injection Q as -> ->; exists d'; auto|]. destruct (IH _ I) as (dw & A1 & A2 & A3). exists dw. auto. }
        destruct X as (dw & X1 & X2 & X3).
        eapply PART; [apply depth_arr; eapply in_combine_r; exact I | | intros; eapply lf_tuple; eassumption | | exact X2 |].
        * pose proof (proj1 (every_part_list _ _) (proj2 G)) as G'. rewrite Forall_forall in G'. apply G'. eapply in_combine_l; exact I.
        * eapply held_list; [exact Hd | right; left; reflexivity | right; right; right; left; reflexivity | apply in_map; exact X3].
        * eapply prefix_holds; [eapply accepts_elim; [exact A | right; right; right; left; reflexivity] | exact X1].
    - apply draw_expansion; [forms | forms | | discriminate].
      intros force dd Hd _ H A. apply exp_union in H. destruct H as (ds & F & ->).
      pose proof (accepts_elim _ _ _ _ _ _ A (or_introl eq_refl)) as O. apply one_holds in O. destruct O as (x & I & O).
      apply in_map_iff in I. destruct I as (dw & <- & I). destruct (Forall2_in_r _ _ _ _ _ _ F I) as (t & It & Sw).
      cbn [level] in L. rewrite Forall_forall in L. pose proof (every_part_union _ _ _ G) as G'. rewrite Forall_forall in G'.
      apply (sh_union asserts E m op ts t j It).
      eapply (proj1 (IHk m t j D (L t It) (G' t It) (plain_part _ _ _ _ _ _ P (fun q x Lf => lf_union E m op ts t j q x It Lf))));
        [|exact Sw | exact O]. eapply held_list; [exact Hd | left; reflexivity | left; reflexivity | apply in_map; exact I].
    - apply draw_expansion; [forms | forms | | discriminate].
      intros force dd Hd _ H A. apply exp_literal in H. destruct H as (l & c & dw & -> & Lc & Sw & ->).
      assert (C : same j c = true).
      { eapply const_holds. eapply accepts_elim; [exact A|]. apply dict_get_in. rewrite set_lookup. reflexivity. }
      eapply sh_literal; [left; reflexivity | exact Lc | exact C|].
      assert (Q : exists k, lit_type l = TScalar k /\ text_format k = None) by (destruct l; try discriminate Lc; eexists; split; reflexivity).
      destruct Q as (q & Ql & Qt). apply schema_of_inv in Sw. rewrite Ql in *.
      destruct (addressed_simple q) as (d0 & B); [destruct l; try discriminate Lc; injection Ql as <-; reflexivity|].
      assert (dw = d0).
      { destruct Sw as [Sw|[(Sw & _)|[(w' & md' & d1 & Sw & _)|[(w' & md' & Sw & _)|(_ & Sw & _)]]]]; congruence. }
      subst dw. eapply scalar_shaped; [exact B | | | exact A].
      + intros kw x [X|X] I; [contradiction|]. subst kw. 
        apply dict_set_keeps; [exact I | discriminate].
      + apply P. eapply lf_literal; [left; reflexivity|]. rewrite Ql. constructor.
    - cbn [level] in L. split; [|intros force d' _ _ (n & u & u' & Q); discriminate Q].
      apply (lift_annot E S doc CO LK (fun d => accepts (JObj d) j -> shaped m (TAnnot w md) j)).
      + intros d1 d2 C H A. apply H. eapply accepts_core; [symmetry; exact C | exact A].
      + intros r d1 R H A. eapply ref_accepts; eassumption.
      + intros force d1 Hd N Ex A. constructor.
        eapply (proj2 (IHk m w j D L (proj2 G) (plain_part _ _ _ _ _ _ P (fun q x Lf => lf_annot E m w md j q x Lf)))); eassumption.
      + intros d0 d1 B R A. constructor. destruct w as [q| | | | | | | | | | |]; try discriminate B.
        eapply scalar_shaped; [exact B | | | exact A].
        * intros kw x T I. eapply remarks_keep; eassumption.
        * apply P. constructor. constructor.
    - apply draw_expansion; [forms | forms | | discriminate].
      intros force dd Hd _ H A. pose proof H as (n & u & u' & H0). cbn [expand] in H0.
      destruct (get_class E c) as [cl|] eqn:Gc; [|discriminate H0].
      destruct (enum_or_not cl) as [(ms & K)|NE].
      + clear H0. eapply exp_enum in H; [|exact Gc | exact K].
        assert (X : existsb (same j) (map snd ms) = true -> shaped m (TClass c) j).
        { intros X. apply existsb_exists in X. destruct X as (v & I & Q). apply in_map_iff in I.
          destruct I as ([x v'] & Q' & I). cbn [snd] in Q'. subst v'. eapply sh_enum; eassumption. }
        unfold enum_to_schema in H. apply bind_ok in H. destruct H as (ks & Ks & H).
        destruct ks as [|q [|? ?]]; try discriminate H.
        assert (Y : forall s, Ok (describe S (TClass c) [(str "type", JStr s); (str "enum", JArr (map snd ms))]) = Ok dd -> shaped m (TClass c) j).
        { intros s Q. apply X. injection Q as <-. eapply accepts_core in A; [|unfold core; apply (describe_filter (fun k => negb (note k))); reflexivity].
          eapply enum_holds. eapply accepts_elim; [exact A | right; left; reflexivity]. }
        destruct q; cbn [simple_type_to_schema] in H; try discriminate H; try (exact (Y _ H)).
        all: apply enum_types in Ks; destruct Ks as (Ka & x & v & Im); pose proof (Ka x v Im) as Jv; destruct v; try discriminate Jv.
        injection H as <-. eapply accepts_core in A; [|unfold core; apply (describe_filter (fun k => negb (note k))); reflexivity].
        pose proof (typed_accepts (str "null") (typed (str "null")) j (or_introl eq_refl) A) as T. destruct j; try discriminate T. eapply sh_enum; [exact Gc | exact K | exact Im | reflexivity].
      + assert (X : exists ps, class_properties E cl = Ok ps).
        { destruct (c_kind cl) eqn:K; [destruct (NE _ K)|..]; apply bind_ok in H0; destruct H0 as (ps & Pr & _); eauto. }
        destruct X as (ps & Pr). pose proof (exp_object _ _ _ _ _ _ _ Gc NE Pr H) as [CS (props & req & C & Rf & K1 & K2 & M)].
        assert (Ob : exists o, j = JObj o).
        { destruct j as [| | | | | |o]; [exfalso; eapply accepts_rejects; [exact A | eapply class_rejects_others; [exact CS | discriminate]] ..|]. eauto. }
        destruct Ob as (o & ->). eapply sh_class; [exact Gc | exact NE | exact Pr | | |].
        * intros x t p I O Sn. destruct (in_dec (list_eq_dec N.eq_dec) p (map fst o)) as [Y|Y]; [exact Y|]. exfalso.
          eapply accepts_rejects; [exact A | eapply class_rejects_missing; eassumption].
        * intros Np p I.
          destruct (in_dec (list_eq_dec N.eq_dec) p (map (fun f => out_name (fst f) (snd f)) ps)) as [Y|Y].
          -- apply in_map_iff in Y. destruct Y as ([x t] & Q & J). exists x, t. split; [exact J|]. apply out_name_spec. symmetry. exact Q.
          -- exfalso. eapply accepts_rejects; [exact A | eapply class_rejects_extra; [exact CS | exact Np | exact I |]].
             intros x t J Sn. apply Y. apply in_map_iff. exists (x, t). split; [|exact J]. symmetry. apply (proj1 (out_name_spec x t p)). exact Sn.
        * intros Dn x t p x' I Sn J.
          pose proof (distinct_out _ (field_names E OK c cl ps Gc Pr) Dn) as ND. destruct (M ND x t I) as (w & d0 & dx & W & Sw & Cx & Rx & Gx).
          pose proof (properties_canonical _ _ _ _ _ _ CE Gc Pr I) as Cn.
          pose proof Sn as Sn'. apply (proj1 (out_name_spec x t p)) in Sn'. subst p.
          assert (A' : accepts (JObj (object_schema props req)) (JObj o)).
          { eapply accepts_core; [|exact A]. rewrite C. unfold object_schema. destruct props, req; reflexivity. }
          assert (Ip : In (str "properties", JObj props) (object_schema props req)).
          { unfold object_schema. destruct props; [discriminate Gx | right; left; reflexivity]. }
          pose proof (read_by _ _ Cn W) as R. rename w into r. exists r. split; [exact R|]. split; [exact W|].
          eapply PART; [eapply depth_obj; exact J | | intros; eapply lf_class; eassumption | | exact Sw |].
          -- pose proof (properties_parts _ _ _ _ _ Gc Pr I) as Gt. destruct (is_type_optional t).
             ++ eapply unwrap_optional_parts; eassumption.
             ++ subst r. exact Gt.
          -- intros r' R'. apply Hd, Rf. eapply rf_named; [left; reflexivity | exact Ip | apply dict_get_in; exact Gx | apply Rx; exact R'].
          -- eapply accepts_core; [exact Cx|]. eapply properties_holds; [eapply accepts_elim; [exact A' | exact Ip] | exact J | exact Gx].
    - assert (Lw : forall a t, lookup E m s = Some (a, t) -> forall force d, held d -> schema_of E S force t d -> accepts (JObj d) j -> shaped m t j).
      { intros a t F. cbn [level] in L. rewrite F in L.
        apply (IHk m t j D L (ge_refs _ GE _ _ _ _ F) (plain_part _ _ _ _ _ _ P (fun q x Lf => lf_ref E m s a t j q x F Lf))). }
      destruct (lookup E m s) as [[a t]|] eqn:F.
      + assert (Y : forall t', shaped m t j -> forall a', Some (a, t) = Some (a', t') -> shaped m t' j) by congruence.
        destruct (lift_ref E S doc CO LK (fun d => accepts (JObj d) j -> shaped m (TRef s) j)) with (m := m) (s := s) (a := a) (t := t) as (A & B).
        * intros d1 d2 C H A. apply H. eapply accepts_core; [symmetry; exact C | exact A].
        * intros r d1 R H A. eapply ref_accepts; eassumption.
        * exact F.
        * intros force d1 Hd Sw A. constructor. intros a' t' F'. rewrite F in F'. injection F' as <- <-. eapply Lw; [reflexivity | exact Hd | exact Sw | exact A].
        * split; [exact A | intros force d1 Hd _; apply B; exact Hd].
      + split; intros; constructor; intros a' t' F'; congruence.
    - apply draw_expansion; [forms | forms | | discriminate]. intros force dd _ _ (n & u & u' & H). discriminate H.
  Qed.
End Shape.

(** * Reading *)

From Coq Require Import QArith Qpower.
Open Scope nat_scope.

Lemma num_equal : forall x e y f, num_eqb (x, e) (y, f) = true -> (inject_Z x * Qpower 2 e == inject_Z y * Qpower 2 f)%Q.
Proof.
  intros x e y f H. unfold num_eqb, num_cmp in H. set (g := Z.min e f) in *.
  destruct (Z.compare (x * 2 ^ (e - g)) (y * 2 ^ (f - g))) eqn:C; try discriminate H. apply Z.compare_eq in C.
  assert (P : forall n, (g <= n)%Z -> (Qpower 2 n == inject_Z (2 ^ (n - g)) * Qpower 2 g)%Q).
  { intros n L. rewrite Zpower_Qpower by lia. change (inject_Z 2) with 2%Q. rewrite <- Qpower_plus by discriminate.
    replace (n - g + g)%Z with n by lia. reflexivity. }
  rewrite (P e) by lia. rewrite (P f) by lia. rewrite !Qmult_assoc, <- !inject_Z_mult, C. reflexivity.
Qed.

Lemma number_q : forall j x e, num_of j = Some (x, e) -> exists q, numeric j q /\ (q == inject_Z x * Qpower 2 e)%Q.
Proof.
  intros j x e H. destruct j as [| |z|[| |neg n k]| | |]; try discriminate H; injection H as <- <-.
  - exists (inject_Z z). split; [constructor|]. cbn [Qpower]. rewrite Qmult_1_r. reflexivity.
  - eexists. split; [constructor; reflexivity | reflexivity].
Qed.

Lemma same_equal : forall a b, is_scalar b -> same a b = true -> json_equal b a.
Proof.
  intros a b Sc H.
  assert (X : forall x y, num_of a = Some x -> num_of b = Some y -> num_eqb x y = true -> json_equal b a).
  { intros [x e] [y f] A B Q. destruct (number_q _ _ _ A) as (qa & Na & Qa). destruct (number_q _ _ _ B) as (qb & Nb & Qb).
    eapply je_num; [exact Nb | exact Na|]. rewrite Qa, Qb. symmetry. apply num_equal. exact Q. }
  destruct a, b; try discriminate H; try contradiction; cbn [same] in H.
  - constructor.
  - apply eqb_prop in H. subst. eapply je_num; [constructor | constructor | reflexivity].
  - eapply X; [reflexivity | reflexivity | exact H].
  - destruct (num_of (JInt z)) as [x|] eqn:A; [|discriminate H]. destruct (num_of (JFloat f)) as [y|] eqn:B; [|discriminate H]. eapply X; [reflexivity | reflexivity | exact H].
  - destruct (num_of (JFloat f)) as [x|] eqn:A; [|discriminate H]. destruct (num_of (JInt z)) as [y|] eqn:B; [|discriminate H]. eapply X; [reflexivity | reflexivity | exact H].
  - destruct (num_of (JFloat f)) as [x|] eqn:A; [|discriminate H]. destruct (num_of (JFloat f0)) as [y|] eqn:B; [|discriminate H]. eapply X; [reflexivity | reflexivity | exact H].
  - apply pystr_eqb_eq in H. subst. constructor.
Qed.

Section Shapes.
  Variables (asserts : pystr -> pystr -> json -> bool) (E : env).
  Notation shaped := (shaped asserts E).

  Lemma shaped_union : forall m op ts j, shaped m (TUnion op ts) j <-> exists t, In t ts /\ shaped m t j.
  Proof. intros m op ts j. split; [intros H; inversion H; subst; eauto | intros (t & I & H); eapply sh_union; eassumption]. Qed.

  Lemma shaped_annot : forall m t md j, shaped m (TAnnot t md) j <-> shaped m t j.
  Proof. intros m t md j. split; [intros H; inversion H; subst; assumption | apply sh_annot]. Qed.

  Lemma flatten_union_shaped : forall m ts j,
    (exists t, In t (flatten_union ts) /\ shaped m t j) <-> (exists t, In t ts /\ shaped m t j).
  Proof.
    intros m ts v. unfold flatten_union. split.
    - intros (t & I & H). apply in_flat_map in I. destruct I as (u & Iu & I).
      exists u. split; [exact Iu|].
      destruct u; try (destruct I as [<-|[]]; exact H).
      apply shaped_union. exists t. auto.
    - intros (t & I & H).
      assert (D : (exists op us, t = TUnion op us) \/ In t (match t with TUnion _ us => us | _ => [t] end)).
      { destruct t; try (right; left; reflexivity). left. eauto. }
      destruct D as [(op & us & ->)|D].
      + apply shaped_union in H. destruct H as (u & Iu & H). exists u. split; [|exact H].
        apply in_flat_map. exists (TUnion op us). auto.
      + exists t. split; [|exact H]. apply in_flat_map. exists t. auto.
  Qed.

  Lemma mk_union_shaped : forall m op ts t j, mk_union op ts = Ok t -> (shaped m t j <-> exists u, In u ts /\ shaped m u j).
  Proof.
    intros m op ts t v H. rewrite <- flatten_union_shaped. unfold mk_union in H.
    assert (D : (exists u, In u (dedup [] (flatten_union ts)) /\ shaped m u v) <->
                (exists u, In u (flatten_union ts) /\ shaped m u v)).
    { split; intros (u & I & Hu); exists u; (split; [|exact Hu]).
      - eapply dedup_in. exact I.
      - destruct (in_dedup (flatten_union ts) [] u I) as [[]|J]. exact J. }
    rewrite <- D. destruct (dedup [] (flatten_union ts)) as [|u [|u' us]].
    - discriminate.
    - injection H as <-. split.
      + intros Hu. exists u. split; [left; reflexivity | exact Hu].
      + intros (w & [<-|[]] & Hw). exact Hw.
    - injection H as <-. apply shaped_union.
  Qed.

  Lemma mk_annot_shaped : forall m t md j, shaped m (mk_annot t md) j <-> shaped m t j.
  Proof. intros m t md v. destruct t; cbn [mk_annot]; rewrite ?shaped_annot; tauto. Qed.

  Lemma unwrap_inner_shaped : forall m t u j, unwrap_optional_inner t = Ok u ->
    (shaped m u j -> shaped m t j) /\ (j <> JNull -> shaped m t j -> shaped m u j).
  Proof.
    intros m t u v H. destruct t; try discriminate. cbn [unwrap_optional_inner] in H.
    rewrite (mk_union_shaped _ _ _ _ _ H), shaped_union. split.
    - intros (w & I & Hw). apply filter_In in I. exists w. tauto.
    - intros Nv (w & I & Hw). exists w. split; [|exact Hw]. apply filter_In. split; [exact I|].
      destruct (typ_eqb (TScalar KNone) w) eqn:X; [|reflexivity].
      apply typ_eqb_eq in X. subst. inversion Hw as [? ? ? Nt| | | | | | | | | | |]; subst. specialize (Nt eq_refl). destruct v; contradiction.
  Qed.

  Lemma unwrap_optional_shaped : forall m t u j, unwrap_optional t = Ok u ->
    (shaped m u j -> shaped m t j) /\ (j <> JNull -> shaped m t j -> shaped m u j).
  Proof.
    intros m t u v H. destruct t; try (apply unwrap_inner_shaped; exact H).
    cbn [unwrap_optional] in H. apply bind_ok in H. destruct H as (w & H & Q). injection Q as <-.
    rewrite mk_annot_shaped, shaped_annot. apply unwrap_inner_shaped. exact H.
  Qed.

  Lemma resolve_shaped : forall m n g t t', resolve E m n g t = Ok t' -> forall j, shaped m t j -> shaped m t' j.
  Proof.
    intros m. induction n as [|n IHn]; intros g t.
    all: induction t using typ_induct; intros t' R j Sh; rewrite resolve_eq in R.
    all: try (injection R as <-; exact Sh).
    all: try (apply bind_ok in R; destruct R as (u' & R1 & R2)).
    all: try (injection R2 as <-).
    all: try (apply bind_ok in R2; destruct R2 as (w' & R2 & R3); injection R3 as <-).
    all: try (match goal with
      | |- shaped _ (TList _) _ => inversion Sh; subst; constructor; intros; eapply IHt; eauto
      | |- shaped _ (TSet _) _ => inversion Sh; subst; constructor; intros; eapply IHt; eauto
      | |- shaped _ (mk_annot _ _) _ => apply mk_annot_shaped; apply (proj1 (shaped_annot _ _ _ _)) in Sh; eapply IHt; eauto
      end).
    all: try (match type of R1 with mapM _ _ = Ok _ => apply mapM_ok in R1 end).
    all: try (rewrite Forall_forall in H).
    all: try (match goal with
      | |- shaped _ (TDict _ _) _ =>
          inversion Sh as [| | | |? ? ? o Kd Vs| | | | | | |]; subst; constructor;
          [ intros p x I; specialize (Kd p x I); destruct t1; try contradiction; rewrite resolve_eq in R1; injection R1 as <-; exact Kd
          | intros p x I; eapply IHt2; eauto ]
      | |- shaped _ (TTuple _) _ =>
          inversion Sh as [| | | | |? ? js Ln Pt| | | | | |]; subst; constructor;
          [ rewrite Ln; exact (Forall2_length_eq _ _ _ _ _ R1)
          | clear Sh Ln; revert js Pt; clear - H R1; induction R1 as [|a b l r Hab _ IH]; intros [|x js] Pt t y I; try contradiction;
            cbn [combine In] in *; destruct I as [Q|I];
            [ injection Q as <- <-; apply (H a (or_introl eq_refl) _ Hab); apply Pt; left; reflexivity
            | eapply IH; [intros z Iz; apply H; right; exact Iz | intros z w Iz; apply Pt; right; exact Iz | exact I]] ]
      | R2 : mk_union _ _ = Ok _ |- _ =>
          apply (proj1 (shaped_union _ _ _ _)) in Sh; destruct Sh as (u & I & Hu);
          rewrite (mk_union_shaped _ _ _ _ _ R2); destruct (Forall2_in_l _ _ _ _ _ _ R1 I) as (x & J & Hx);
          exists x; split; [exact J | apply (H u I _ Hx); exact Hu]
      end).
    all: destruct (mem_str s g); [injection R as <-; exact Sh|].
    all: destruct (lookup E m s) as [[a u]|] eqn:L; [|discriminate]; try discriminate.
    eapply IHn; [exact R|]. inversion Sh as [| | | | | | | | |? ? ? X| |]; subst. eapply X. exact L.
  Qed.
End Shapes.

Section Read.
  Variables (asserts : pystr -> pystr -> json -> bool) (E : env).
  Hypothesis OK : env_ok E.
  Hypothesis CE : canonical_env E.
  Hypothesis GE : guarded_env E.
  Hypothesis CALM : calm E.
  Hypothesis ORD : shuffles (e_order E).
  Variable skip : bool.
  Notation jto := (json_to_object E skip).
  Notation shaped := (shaped asserts E).
  Notation readable := (readable asserts E skip).

  Lemma readable_reach : forall m t m' u, reach E m t m' u -> readable m t -> readable m' u.
  Proof.
    intros m t m' u R [A B C D F G H]. split; intros.
    - eapply A. eapply reach_trans; eassumption.
    - eapply B; [eapply reach_trans; eassumption | eassumption].
    - eapply C; try eassumption. eapply reach_trans; eassumption.
    - eapply D; [eapply reach_trans; eassumption | assumption].
    - eapply F; [eapply reach_trans; eassumption | eassumption].
    - eapply G; try eassumption. eapply reach_trans; eassumption.
    - eapply H; try eassumption. eapply reach_trans; eassumption.
  Qed.

  Lemma json_null_dec : forall j, j = JNull \/ j <> JNull.
  Proof. intros []; [left; reflexivity | right; discriminate ..]. Qed.

  Lemma Forall2_choice : forall A B (R : A -> B -> Prop) l, (forall x, In x l -> exists y, R x y) -> exists r, Forall2 R l r.
  Proof.
    intros A B R l H. induction l as [|x l IH]; [exists []; constructor|]. destruct (H x (or_introl eq_refl)) as (y & Y).
    destruct IH as (r & F); [intros z I; apply H; right; exact I|]. exists (y :: r). constructor; assumption.
  Qed.

  Lemma wf_item : forall js j, json_wf (JArr js) -> In j js -> json_wf j.
  Proof. intros js j W I. inversion W as [| | | | |? F|]; subst. rewrite Forall_forall in F. apply F, I. Qed.

  Lemma wf_member : forall o p j, json_wf (JObj o) -> In (p, j) o -> json_wf j.
  Proof. intros o p j W I. inversion W as [| | | | | |? _ F]; subst. rewrite Forall_forall in F. exact (F _ I). Qed.

  Lemma wf_keys : forall o, json_wf (JObj o) -> NoDup (map fst o).
  Proof. intros o W. inversion W; subst. assumption. Qed.

  Lemma read_scalar : forall m k j, exacting asserts k -> shaped m (TScalar k) j -> exists v, parse_scalar k j = Ok v.
  Proof.
    intros m k j [A X] Sh. inversion Sh as [? ? ? N P F| | | | | | | | | | |]; subst. specialize (N A).
    destruct k; try discriminate A; destruct j; try contradiction; try (eexists; reflexivity);
      try (eapply X; [reflexivity | apply F; reflexivity]).
    - cbn [natural plain_number] in N, P. congruence.
    - destruct (parse_scalar KFloat (JInt z)) as [v|e] eqn:Q; [eauto|]. exfalso.
      assert (Q' : json_to_object E skip m (TScalar KFloat) (JInt z) = Err e) by (rewrite jto_scalar; exact Q).
      apply (proj1 (jto_float_overflow E skip m z e)) in Q'. destruct Q' as [_ Q']. exact (proj1 (Z.lt_nge _ _) P Q').
  Qed.

  Lemma read_literal : forall m l c j, lit_json l = Some c -> same j c = true -> shaped m (lit_type l) j -> jto m (lit_type l) j = Ok (lit_value l).
  Proof.
    intros m l c j L Q Sh. destruct l; try discriminate L; injection L as <-; cbn [lit_type] in *; rewrite jto_scalar;
      inversion Sh as [? ? ? N P F| | | | | | | | | | |]; subst; specialize (N eq_refl); destruct j; try contradiction; cbn [natural plain_number] in *; try congruence;
      cbn [same] in Q; cbn [parse_scalar lit_value].
    - reflexivity.
    - apply eqb_prop in Q. subst. reflexivity.
    - cbn [num_of] in Q. unfold num_eqb, num_cmp in Q. cbn [Z.min Z.compare] in Q. rewrite !Z.mul_1_r in Q.
      destruct (z0 ?= z)%Z eqn:C; try discriminate Q. apply Z.compare_eq in C. subst. reflexivity.
    - apply pystr_eqb_eq in Q. subst. reflexivity.
  Qed.

  Lemma keys_read : forall k p, check_key_type E k = Ok tt -> keyed E k p ->
    (forall c cl ms, k = TClass c -> get_class E c = Some cl -> c_kind cl = CEnum ms -> 4 < length ms ->
       forall x s, In (x, JStr s) ms -> forallb literal_char s = true) -> exists v, key_of E k p v.
  Proof.
    intros k p C K L. destruct k as [k| | | | | | | | |c| |]; try discriminate C; try contradiction.
    - destruct k; try discriminate C. eexists. constructor.
    - cbn [check_key_type] in C. destruct (get_class E c) as [cl|] eqn:G; [|discriminate C]. destruct (c_kind cl) as [ms| | | |] eqn:Kc; try discriminate C.
      cbn [keyed] in K. destruct (K cl ms G Kc) as (x & I).
      + intros x j I. destruct (forallb _ ms) eqn:F; [|discriminate C]. rewrite forallb_forall in F. specialize (F _ I). cbn [snd] in F.
        destruct j; try discriminate F. eauto.
      + intros Ln x s I. eapply L; eauto.
      + exists (VEnum c x). eapply ko_enum; eassumption.
  Qed.

  Definition reading d := forall m t j, jdepth j < d -> ready E m t -> readable m t -> json_wf j -> shaped m t j -> exists v, jto m t j = Ok v.

  Lemma unique_type : forall (l : list (pystr * typ)) x t u, NoDup (map fst l) -> In (x, t) l -> In (x, u) l -> t = u.
  Proof. intros l x t u N I J. apply (dict_get_nodup _ _ _ N) in I, J. congruence. Qed.

  Lemma field_kind : forall c cl x t u d, get_class E c = Some cl -> field_of E cl x t u d ->
    forall j, shaped (c_module cl) t j -> shaped (c_module cl) u j.
  Proof.
    intros c cl x t u d G (fs & L & CP & (H & D) & I & J) j Sh.
    assert (X : In (x, u) (map fst L)) by (apply in_map_iff; exists (x, u, d); split; [reflexivity | exact J]).
    pose proof (ok_names _ _ _ (OK _ _ G)) as ND. unfold class_properties in CP.
    assert (Y : hints E cl = Ok fs -> t = u).
    { intros Q. rewrite H in Q. injection Q as <-. eapply unique_type; [|exact I | exact X]. rewrite (hints_names E cl _ H). exact ND. }
    destruct (c_kind cl) eqn:K; try (rewrite <- (Y CP); exact Sh).
    destruct (hints_raw E _ _ _ _ H X) as (t0 & J0 & n & g & R). eapply resolve_shaped; [exact R|].
    assert (Q : fs = raw_fields (c_kind cl)) by (rewrite K; congruence). subst fs. rewrite <- K in ND.
    rewrite (unique_type _ _ _ _ ND J0 I). exact Sh.
  Qed.

  (** How a field is read. *)
  Lemma field_type : forall m c cl L x u d, ready E m (TClass c) -> get_class E c = Some cl -> fieldwise cl ->
    (match c_kind cl with CRawTuple _ => False | _ => True end) -> layout E cl L -> In (x, u, d) L ->
    exists r, reads cl u r /\ reach E m (TClass c) (c_module cl) r /\ (~ optional u -> r = u) /\
      forall j, j <> JNull -> shaped (c_module cl) u j -> shaped (c_module cl) r j.
  Proof.
    intros m c cl L x u d R G FW NR LAY I. pose proof LAY as [H _].
    assert (X : exists r, reads cl u r /\ (~ optional u -> r = u) /\ forall j, j <> JNull -> shaped (c_module cl) u j -> shaped (c_module cl) r j).
    { assert (O : (exists ts, c_kind cl = CTuple ts) \/ ordinary cl).
      { unfold ordinary, fieldwise in *. destruct (c_kind cl) as [ms|ts|xs|fr fds|fds]; try contradiction; eauto. }
      destruct O as [(ts & K)|O].
      - exists u. unfold reads. rewrite K. auto.
      - destruct (ready_class E GE m c R) as (cl' & G' & X). rewrite G in G'. injection G' as <-.
        destruct (X (proj1 (fieldwise_by_fields cl) FW)) as (fps & FP & _).
        rewrite (layout_parsers E c cl L G O LAY) in FP. apply mapM_ok in FP.
        destruct (Forall2_in_l _ _ _ _ _ _ FP I) as (fp & _ & Q). cbn beta iota in Q.
        assert (CN : canonical u).
        { eapply (hints_canonical E CE); [exact G | exact H|]. apply in_map_iff. exists (x, u, d). split; [reflexivity | exact I]. }
        destruct (field_parser_spec x u d fp CN Q) as (_ & _ & RT & _). exists (fp_type fp).
        split; [unfold reads, ordinary in *; destruct (c_kind cl); try contradiction; exact RT|].
        unfold field_parser in Q. apply bind_ok in Q. destruct Q as (r & U & Q). injection Q as <-. cbn [fp_type] in *.
        split; [intros NO; destruct RT as [[O' _]|[_ RT]]; [contradiction | exact RT]|].
        intros j Nj Sh. destruct (is_type_optional u); [|injection U as <-; exact Sh].
        eapply unwrap_optional_shaped; eassumption. }
    destruct X as (r & RD & NO & Sh). exists r. split; [exact RD|]. split; [|split; assumption].
    eapply re_class; try eassumption; [|apply re_refl].
    apply in_map_iff. exists (x, u, d). split; [reflexivity | exact I].
  Qed.

  Lemma optional_dec : forall t, optional t \/ ~ optional t.
  Proof.
    intros t. destruct (is_type_optional t) eqn:Q; [left; apply is_type_optional_spec; exact Q | right; intros O; apply is_type_optional_spec in O; congruence].
  Qed.

  Lemma optional_null : forall m u, optional u -> admits E m u NullKind.
  Proof.
    intros m u (op & ts & I & [->|(md & ->)]); [|apply ad_annot]; (eapply ad_union; [exact I|]); apply ad_scalar; reflexivity.
  Qed.

  Lemma read_class : forall m c cl o, reading (jdepth (JObj o)) -> ready E m (TClass c) -> readable m (TClass c) -> get_class E c = Some cl -> not_enum cl ->
    json_wf (JObj o) -> shaped m (TClass c) (JObj o) -> exists v, jto m (TClass c) (JObj o) = Ok v.
  Proof.
    intros m c cl o IH R Rd G NE W Sh.
    destruct (rd_class _ _ _ _ _ Rd _ _ _ (re_refl _ _ _) G NE) as [FW NR Some_ Dn Nm Nn].
    inversion Sh as [| | | | | | | | | |? ? cl' ms ? ? ? G' K|? ? cl' fs ? G' _ CP Rq Ex Fd]; subst; rewrite G in G'; injection G' as <-;
      [destruct (NE _ K)|]. specialize (Fd (Dn _ CP)).
    destruct (class_layout E GE m c cl R G FW) as (L & LAY). pose proof (wf_keys _ W) as ND.
    pose proof (ok_names _ _ _ (OK _ _ G)) as NN.
    assert (BOTH : forall x u d, In (x, u, d) L -> exists t, In (x, t) fs /\ field_of E cl x t u d).
    { intros x u d I.
      assert (J : In x (map fst fs)).
      { rewrite (properties_names_raw E _ _ CP), <- (layout_names E _ _ LAY). apply in_map_iff. exists (x, u, d). auto. }
      apply in_map_iff in J. destruct J as ([y t] & Q & J). cbn [fst] in Q. subst y. exists t. split; [exact J|]. exists fs, L. auto. }
    (* what each field receives *)
    assert (VAL : forall x u d, In (x, u, d) L -> exists t p, In (x, t) fs /\ json_name cl x u p /\
      ((exists j r v, In (p, j) o /\ j <> JNull /\ reads cl u r /\ jto (c_module cl) r j = Ok v) \/
       ((absent o p \/ In (p, JNull) o) /\ (optional t \/ admits E (c_module cl) u NullKind)))).
    { intros x u d I. destruct (BOTH x u d I) as (t & It & FO). destruct (field_type m c cl L x u d R G FW NR LAY I) as (r & RD & RE & NO & SR).
      assert (Sn : schema_name x t (out_name x t)) by (apply out_name_spec; reflexivity).
      exists t, (out_name x t). split; [exact It|]. split; [eapply Nm; eassumption|].
      assert (PART : forall j, In (out_name x t, j) o -> shaped (c_module cl) u j).
      { intros j J. eapply field_kind; [exact G | exact FO|]. destruct (Fd x t _ j It Sn J) as (r0 & _ & U & S0).
        destruct (is_type_optional t); [|subst r0; exact S0]. apply (proj1 (unwrap_optional_shaped asserts E (c_module cl) t r0 j U)). exact S0. }
      assert (GO : forall j, In (out_name x t, j) o -> shaped (c_module cl) r j -> exists v, jto (c_module cl) r j = Ok v).
      { intros j J S0. apply IH; [eapply depth_obj; [exact E | exact J] | eapply (ready_of_reach E CE GE); eassumption | eapply readable_reach; eassumption | eapply wf_member; eassumption | exact S0]. }
      destruct (dict_get o (out_name x t)) as [j|] eqn:Q.
      - apply dict_get_in in Q. destruct (json_null_dec j) as [->|Nj].
        + right. split; [right; exact Q|]. right. destruct (optional_dec u) as [O|O]; [apply optional_null; exact O|].
          specialize (NO O). subst r. destruct (GO JNull Q (PART _ Q)) as (v & V). apply jto_admits in V. exact V.
        + left. destruct (GO j Q (SR j Nj (PART _ Q))) as (v & V). exists j, r, v. auto.
      - right. apply dict_get_none in Q. split; [left; exact Q|]. left.
        destruct (optional_dec t) as [O|O]; [exact O|]. destruct Q. eapply Rq; eassumption. }
    assert (KN : skip = true \/ forall p, In p (map fst o) -> exists x u d, In (x, u, d) L /\ json_name cl x u p).
    { destruct Some_ as [Sk|Ne]; [left; exact Sk | right]. intros p I.
      assert (Nf : fs <> []) by (intros ->; apply properties_names_raw in CP; destruct (raw_fields (c_kind cl)); [apply Ne; reflexivity | discriminate CP]).
      destruct (Ex Nf p I) as (x & t & It & Sn).
      assert (J : In x (map (fun f => fst (fst f)) L)).
      { rewrite (layout_names E _ _ LAY), <- (properties_names_raw E _ _ CP). apply in_map_iff. exists (x, t). auto. }
      apply in_map_iff in J. destruct J as ([[y u] d] & Q & J). cbn [fst] in Q. subst y.
      exists x, u, d. split; [exact J|]. apply (Nm x t u d p); [exists fs, L; auto | exact Sn]. }
    assert (O : (exists ts, c_kind cl = CTuple ts) \/ ordinary cl).
    { unfold ordinary, fieldwise in *. destruct (c_kind cl) as [ms|ts|xs|fr fds|fds]; try contradiction; eauto. }
    destruct O as [(ts & K)|O].
    - pose proof LAY as [H _].
      assert (X : exists vs, Forall2 (fun h v => exists j, In (fst h, j) o /\ j <> JNull /\ jto (c_module cl) (snd h) j = Ok v) (map fst L) vs).
      { apply Forall2_choice. intros [x u] I. apply in_map_iff in I. destruct I as ([[y w] d] & Q & I). cbn [fst] in Q. injection Q as -> ->.
        destruct (VAL x u d I) as (t & p & It & JN & [(j & r & v & J & Nj & RD & V)|(_ & Z)]).
        - unfold json_name, reads in *. rewrite K in *. subst p r. exists v, j. auto.
        - exfalso. assert (FO : field_of E cl x t u d) by (exists fs, L; auto). pose proof (Nn x t u d FO Z) as F. rewrite K in F. exact F. }
      destruct X as (vs & F). eexists. apply (tuple_ok_spec E GE CALM skip m c cl ts (map fst L) o R G K H ND). exists vs. split; [reflexivity|].
      split; [exact F|]. destruct KN as [Sk|KN]; [left; exact Sk | right]. intros p I. destruct (KN p I) as (x & u & d & J & JN).
      unfold json_name in JN. rewrite K in JN. subst p. rewrite map_map. apply in_map_iff. exists (x, u, d). auto.
    - assert (JN' : forall x u p, json_name cl x u p -> prop_name x u p).
      { unfold json_name, ordinary in *. destruct (c_kind cl); try contradiction; auto. }
      assert (RD' : forall u r, reads cl u r -> read_type u r).
      { unfold reads, ordinary in *. destruct (c_kind cl); try contradiction; auto. }
      assert (X : exists vs, Forall2 (fun f v => received E skip (c_module cl) o f (Ok v)) L vs).
      { apply Forall2_choice. intros [[x u] d] I.
        destruct (VAL x u d I) as (t & p & It & JN & [(j & r & v & J & Nj & RD & V)|(Z & Z')]); apply JN' in JN.
        - exists v. rewrite <- V. eapply rc_present; [exact JN | exact J | exact Nj | apply RD'; exact RD].
        - assert (FO : field_of E cl x t u d) by (exists fs, L; auto). pose proof (Nn x t u d FO Z') as F.
          assert (F' : match d with Some r => exists v, r = Ok v | None => optional u end) by (unfold ordinary in O; destruct (c_kind cl); try contradiction; exact F).
          destruct d as [r|].
          + destruct F' as (v & ->). exists v. eapply rc_default; eassumption.
          + exists VNone. eapply rc_none; eassumption. }
      destruct X as (vs & F). eexists. apply (class_ok_spec E CE GE CALM skip m c cl L o R G O LAY ND). exists vs. split; [reflexivity|].
      split; [exact F|]. destruct KN as [Sk|KN]; [left; exact Sk | right]. intros p I. destruct (KN p I) as (x & u & d & J & JN).
      exists (map fst L), x, u. split; [exact (proj1 LAY)|]. split; [apply in_map_iff; exists (x, u, d); auto | exact JN].
  Qed.

  (** What a literal-typed property of an accepted object says. *)
  Lemma tag_stands : forall m c cl fs t ls q o L, readable m (TClass c) -> get_class E c = Some cl -> fieldwise cl -> class_properties E cl = Ok fs -> layout E cl L ->
    In (q, t) fs -> literal_values t = Some ls -> json_name cl q t q -> ~ In LNone ls -> shaped m (TClass c) (JObj o) ->
    exists i l, In (q, i) o /\ i <> JNull /\ In l ls /\ says l i.
  Proof.
    intros m c cl fs t ls q o L Rd G FW CP LAY I LV JN NL Sh.
    assert (NE : not_enum cl) by (intros ms K; unfold fieldwise in FW; rewrite K in FW; exact FW).
    destruct (rd_class _ _ _ _ _ Rd _ _ _ (re_refl _ _ _) G NE) as [_ NR Some_ Dn Nm Nn].
    inversion Sh as [| | | | | | | | | |? ? cl' ms ? ? ? G' K|? ? cl' fs' ? G' _ CP' Rq Ex Fd]; subst; rewrite G in G'; injection G' as <-; [destruct (NE _ K)|].
    rewrite CP in CP'. injection CP' as <-. specialize (Fd (Dn _ CP)).
    assert (NO : ~ optional t).
    { intros (op & ts & _ & [->|(md & ->)]); discriminate LV. }
    assert (Sn : schema_name q t q).
    { assert (Sn : schema_name q t (out_name q t)) by (apply out_name_spec; reflexivity).
      assert (Q : out_name q t = q); [|rewrite Q in Sn; exact Sn].
      assert (J : In q (map (fun f => fst (fst f)) L)).
      { rewrite (layout_names E _ _ LAY), <- (properties_names_raw E _ _ CP). apply in_map_iff. exists (q, t). auto. }
      apply in_map_iff in J. destruct J as ([[y u] d] & Q & J). cbn [fst] in Q. subst y.
      assert (JN' : json_name cl q u (out_name q t)) by (apply (Nm q t u d); [exists fs, L; auto | exact Sn]).
      assert (X : (forall x t p, json_name cl x t p <-> p = x) \/ (forall x t p, json_name cl x t p <-> prop_name x t p)).
      { unfold json_name. destruct (c_kind cl); [right | left | right ..]; tauto. }
      destruct X as [X|X]; [apply X in JN'; exact JN'|]. apply X in JN. destruct Sn as [a A|NA]; [|reflexivity].
      destruct JN as [b B|k N _ _|N _]; [|destruct (N a A)..].
      destruct A as (w & m1 & m2 & A & A'). destruct B as (w' & m1' & m2' & B & B'). rewrite A in B. injection B as <- B.
      clear - B A' B'. revert m1' B B'. induction m1 as [|a1 m1 IH]; intros [|b1 m1'] B B'; cbn [app] in B.
      - injection B as -> _. reflexivity.
      - injection B as <- _. destruct (B' a). left. reflexivity.
      - injection B as -> _. destruct (A' b). left. reflexivity.
      - injection B as <- B. apply (IH (fun z Z => A' z (or_intror Z)) m1' B (fun z Z => B' z (or_intror Z))). }
    pose proof (Rq q t q I NO Sn) as Iq. apply in_map_iff in Iq. destruct Iq as ([q' i] & Q & Iq). cbn [fst] in Q. subst q'.
    destruct (Fd q t q i I Sn Iq) as (r & [[O _]|[_ ->]] & _ & S0); [contradiction|].
    assert (S1 : shaped (c_module cl) (TLiteral ls) i).
    { unfold literal_values in LV. destruct t; cbn [unwrap_annotated] in LV; try discriminate LV.
      - injection LV as <-. exact S0.
      - destruct t; try discriminate LV. injection LV as <-. apply (proj1 (shaped_annot _ _ _ _ _ _)) in S0. exact S0. }
    inversion S1 as [| | | | | | |? ? l w ? Il Lj Sm _| | | |]; subst. exists i, l. split; [exact Iq|].
    split; [|split; [exact Il|]].
    - intros ->. destruct w; try discriminate Sm. destruct l; try discriminate Lj. contradiction.
    - exists w. split; [exact Lj|]. apply same_equal; [|exact Sm]. destruct l; try discriminate Lj; injection Lj as <-; exact Logic.I.
  Qed.

  Theorem read_shaped : forall d k m t j, jdepth j < d -> level E k m t -> ready E m t -> readable m t -> json_wf j -> shaped m t j ->
    exists v, jto m t j = Ok v.
  Proof.
    induction d as [|d IHd]; [intros; lia|].
    assert (BELOW : forall j, jdepth j < S d -> reading (jdepth j)).
    { intros j LT m t x LT' R F W Sh. destruct (guarded_level E m t (every_part_top _ _ (proj1 R))) as (k & L).
      eapply IHd; try eassumption. lia. }
    induction k as [|k IHk]; intros m t j LT L R F W Sh; [destruct L|].
    pose proof (BELOW j LT) as IH. clear IHd BELOW.
    destruct t as [q|b|w|w|q w|ts|op ts|ls|w md|c|s|].
    - rewrite jto_scalar. eapply read_scalar; [|exact Sh]. eapply (rd_scalar _ _ _ _ _ F). apply re_refl.
    - destruct (ready_static E m _ R) as (vis & CL & SO). inversion SO.
    - inversion Sh as [| |? ? js A| | | | | | | | |]; subst.
      assert (RE : reach E m (TList w) m w) by (apply re_list; apply re_refl).
      assert (X : exists vs, Forall2 (fun j v => jto m w j = Ok v) js vs).
      { apply Forall2_choice. intros x I. apply IH; [apply (depth_arr E); exact I | eapply (ready_of_reach E CE GE); eassumption | eapply readable_reach; eassumption | eapply wf_item; eassumption | apply A; exact I]. }
      destruct X as (vs & X). eexists. apply (jto_list_spec E GE CALM skip m w js _ R). exists vs. split; [reflexivity | exact X].
    - inversion Sh as [| | |? ? js A| | | | | | | |]; subst.
      assert (RE : reach E m (TSet w) m w) by (apply re_set; apply re_refl).
      assert (X : exists vs, Forall2 (fun j v => jto m w j = Ok v) js vs).
      { apply Forall2_choice. intros x I. apply IH; [apply (depth_arr E); exact I | eapply (ready_of_reach E CE GE); eassumption | eapply readable_reach; eassumption | eapply wf_item; eassumption | apply A; exact I]. }
      destruct X as (vs & X). destruct (jto_set_accepts E GE CALM skip m w js vs R X) as (us & Q); [|eauto].
      apply Forall_forall. intros v I. destruct (Forall2_in_r _ _ _ _ _ _ X I) as (x & J & V).
      eapply (rd_set _ _ _ _ _ F); [apply re_refl|]. eapply (json_to_object_sound E skip OK); [|exact V]. eapply wf_item; eassumption.
    - inversion Sh as [| | | |? ? ? o Kd A| | | | | | |]; subst.
      assert (RE : reach E m (TDict q w) m w) by (apply re_dict; apply re_refl).
      destruct (ready_dict E GE m q w R) as [_ CK].
      assert (X : exists kvs, Forall2 (fun sx kv => key_of E q (fst sx) (fst kv) /\ jto m w (snd sx) = Ok (snd kv)) o kvs).
      { apply Forall2_choice. intros [p x] I. cbn [fst snd]. destruct (keys_read q p CK (Kd p x I)) as (kv & Kv).
        - intros c cl ms -> G K Ln. eapply (rd_key _ _ _ _ _ F); [apply re_refl | exact G | exact K | exact Ln].
        - destruct (IH m w x) as (v & V); [eapply (depth_obj E); exact I | eapply (ready_of_reach E CE GE); eassumption | eapply readable_reach; eassumption | eapply wf_member; eassumption | eapply A; exact I|].
          exists (kv, v). auto. }
      destruct X as (kvs & X). eexists. apply (jto_dict_spec E GE CALM skip m q w o _ OK R). exists kvs. split; [reflexivity | exact X].
    - inversion Sh as [| | | | |? ? js Ln A| | | | | |]; subst.
      assert (X : exists vs, Forall2 (fun tj v => jto m (fst tj) (snd tj) = Ok v) (combine ts js) vs).
      { apply Forall2_choice. intros [t x] I. cbn [fst snd].
        assert (RE : reach E m (TTuple ts) m t) by (eapply re_tuple; [eapply in_combine_l; exact I | apply re_refl]).
        apply IH; [apply (depth_arr E); eapply in_combine_r; exact I | eapply (ready_of_reach E CE GE); eassumption | eapply readable_reach; eassumption | eapply wf_item; [exact W | eapply in_combine_r; exact I] | apply A; exact I]. }
      destruct X as (vs & X). eexists. apply (jto_tuple_spec E GE CALM skip m ts js _ R). exists vs. split; [reflexivity|].
      split; [exact Ln|]. apply (Forall2_zip _ _ _ (fun t j v => jto m t j = Ok v) ts js vs Ln). exact X.
    - apply (proj1 (shaped_union _ _ _ _ _ _)) in Sh. destruct Sh as (u & I & Sh). cbn [level] in L. rewrite Forall_forall in L.
      assert (RE : reach E m (TUnion op ts) m u) by (eapply re_union; [exact I | apply re_refl]).
      pose proof (ready_of_reach E CE GE _ _ _ _ RE R) as Ru. pose proof (readable_reach _ _ _ _ RE F) as Fu.
      destruct (IHk m u j LT (L u I) Ru Fu W Sh) as (v & V).
      destruct (tagged_dec E m op ts R) as [(p & TG)|U].
      + pose proof (rd_tags _ _ _ _ _ F _ _ _ _ (re_refl _ _ _) TG) as PT.
        pose proof TG as [_ FT]. rewrite Forall_forall in FT. destruct (FT u I) as (c & ls0 & -> & LP0).
        assert (X : exists o, j = JObj o /\ forall q, tag E ts q -> exists i, In (q, i) o /\ i <> JNull /\ claims E c q i).
        { destruct LP0 as (cl & t0 & fs0 & G & CP0 & I0 & LV0).
          destruct (PT p c cl fs0 t0 ls0 TG I G CP0 I0 LV0) as (FW & _).
          destruct (class_layout E GE m c cl Ru G FW) as (Ly & LAY).
          assert (Ob : exists o, j = JObj o).
          { inversion Sh as [| | | | | | | | | |? ? cl' ms ? ? ? G' K|? ? cl' fs' o]; subst; [|eauto]. rewrite G in G'. injection G' as <-.
            unfold fieldwise in FW. rewrite K in FW. contradiction. }
          destruct Ob as (o & ->). exists o. split; [reflexivity|]. intros q TQ.
          pose proof TQ as [_ FQ]. rewrite Forall_forall in FQ. destruct (FQ _ I) as (c' & ls & Q & LP). injection Q as <-.
          pose proof LP as (cl' & tq & fs' & G' & CP' & Iq & LV). rewrite G in G'. injection G' as <-.
          rewrite CP0 in CP'. injection CP' as <-.
          destruct (PT q c cl fs0 tq ls TQ I G CP0 Iq LV) as (_ & JN & PL).
          destruct (tag_stands m c cl fs0 tq ls q o Ly Fu G FW CP0 LAY Iq LV JN) as (i & l & Ii & NZ & Il & Sy).
          - eapply (rd_null _ _ _ _ _ F); [apply re_refl | exact TQ | exact I | exact LP].
          - exact Sh.
          - exists i. split; [exact Ii|]. split; [exact NZ|]. exists ls, l. auto. }
        destruct X as (o & -> & X). pose proof (wf_keys _ W) as ND. exists v.
        rewrite (tagged_selects E OK GE CALM ORD skip m op ts R o c ND I).
        * exact V.
        * destruct (X p TG) as (i & Ii & NZ & _). exists p, i. split; [exact TG | split; assumption].
        * intros q x TQ [Ix Nx]. destruct (X q TQ) as (i & Ii & _ & CL).
          assert (x = i); [|subst; exact CL]. apply (dict_get_present _ _ _ ND) in Ix, Ii. congruence.
      + rewrite (jto_untagged E GE CALM skip m op ts j R U).
        pose proof (rd_union _ _ _ _ _ F _ _ _ (re_refl _ _ _) U) as Y. apply in_split in I. destruct I as (ts1 & ts2 & ->).
        assert (Z : forall w, In w ts1 -> (exists v', jto m w j = Ok v') \/ exists e, soft e /\ jto m w j = Err e).
        { intros w J. apply in_split in J. destruct J as (a & b & ->). apply (Y a w (b ++ u :: ts2) u j v); [rewrite <- app_assoc; reflexivity | | exact V].
          apply in_or_app. right. left. reflexivity. }
        clear - Z V. induction ts1 as [|w ts1 IH]; cbn [app union_try].
        * rewrite V. eauto.
        * destruct (Z w (or_introl eq_refl)) as [(v' & Q)|(e & SE & Q)]; rewrite Q; [eauto|].
          destruct IH as (v' & IH); [intros x J; apply Z; right; exact J|]. exists v'. destruct SE as [->| ->]; exact IH.
    - inversion Sh as [| | | | | | |? ? l c ? I Lj Sm Sl| | | |]; subst. exists (lit_value l).
      apply (jto_literal_spec E GE CALM skip m ls j _ OK W R). exists l. split; [exact I|]. split; [reflexivity|]. eapply read_literal; eassumption.
    - rewrite (jto_annot E GE CALM skip m w md j R). apply (proj1 (shaped_annot _ _ _ _ _ _)) in Sh.
      assert (RE : reach E m (TAnnot w md) m w) by (apply re_annot; apply re_refl).
      apply IHk; auto; [eapply (ready_of_reach E CE GE); eassumption | eapply readable_reach; eassumption].
    - inversion Sh as [| | | | | | | | | |? ? cl ms x w ? G K I Sm|? ? cl fs o G NE]; subst.
      + exists (VEnum c x). apply (jto_enum_spec E skip m c cl ms j _ OK G K). exists x, w. split; [reflexivity|]. split; [exact I|].
        apply same_equal; [|exact Sm]. destruct (ok_members _ _ _ (OK _ _ G) _ K) as (_ & Sc & _). rewrite Forall_forall in Sc. exact (Sc _ I).
      + eapply read_class; eassumption.
    - destruct (ready_ref E GE m s R) as (a & t & Q & _ & Rt). cbn [level] in L. rewrite Q in L.
      inversion Sh as [| | | | | | | | |? ? ? X| |]; subst. specialize (X a t Q).
      rewrite (jto_ref E GE CALM skip m s a t j R Q).
      assert (RE : reach E m (TRef s) m (unwrap_annotated t)) by (eapply re_ref; [exact Q | apply re_refl]).
      apply IHk; auto; [apply level_deref; exact L | eapply readable_reach; eassumption |].
      destruct t; try exact X. cbn [unwrap_annotated]. apply (proj1 (shaped_annot _ _ _ _ _ _)) in X. exact X.
    - destruct (ready_static E m _ R) as (vis & CL & SO). inversion SO.
  Qed.

  Theorem kinds_yielding : forall m op ts, ready E m (TUnion op ts) -> kinds_disjoint E m ts -> yielding E skip m ts.
  Proof.
    intros m op ts R K ts1 w ts2 u j v Q I V. right. apply (refuses_soft E GE CALM ORD skip m w (kind_of j)); [|subst ts|reflexivity].
    - eapply K; [exact Q | exact I | eapply jto_admits; exact V].
    - pose proof (ready_union E GE m op _ R) as RU. rewrite Forall_forall in RU. apply RU. apply in_or_app. right. left. reflexivity.
  Qed.
End Read.

Theorem read_document : forall asserts E S skip n k m t doc j, env_ok E -> canonical_env E -> guarded_env E -> calm E -> shuffles (e_order E) -> coherent E S ->
  s_path S = str "#/definitions/" -> classdef_to_schema E S n k t = Ok doc ->
  (forall s, lost E S t s -> exists sch, defined doc s sch) ->
  ready E m t -> readable asserts E skip m t -> plain_numbers E m t j -> json_wf j -> satisfies asserts doc j ->
  exists v, json_to_object E skip m t j = Ok v.
Proof.
  intros asserts E S skip n k m t doc j OK CE GE CALM ORD CO P H L R F PN W A.
  pose proof (document_linked E S CO n k t doc P H L) as LK.
  destruct (guarded_level E m t (every_part_top _ _ (proj1 R))) as (l & Lv).
  destruct (shape asserts E S doc GE CE CO LK OK _ l m t j (le_n _) Lv (proj1 R) PN) as (Dr & _).
  apply document_shape in H. destruct H as (d & u & defs & B & _ & _ & Q).
  eapply (read_shaped asserts E OK CE GE CALM ORD skip _ l); try eassumption; [apply le_n|].
  eapply (Dr false d).
  - intros r Rf. rewrite Q. apply (proj2 (refers_one_member _ _)).
    apply (proj1 (refers_one_member _ _)) in Rf. destruct Rf as (k' & x & I & B' & Rf). exists k', x. split; [|auto].
    right. apply in_app_iff. right. exact I.
  - exists n, [], u. exact B.
  - unfold satisfies in A. rewrite Q in A at 2. eapply accepts_core; [|exact A].
    unfold core, definitions_of. match goal with |- context [match ?d with [] => _ | _ :: _ => _ end] => destruct d end; reflexivity.
Qed.

Lemma plain_json_numbers : forall E m t j, plain_json j = true -> plain_numbers E m t j.
Proof.
  intros E m t j H k x L. assert (X : plain_json x = true).
  { induction L; auto; apply IHL; cbn [plain_json] in H; rewrite forallb_forall in H.
    - apply H. assumption.
    - apply H. assumption.
    - apply (H (p, j)). assumption.
    - apply H. eapply in_combine_r. eassumption.
    - apply (H (p, j)). assumption. }
  clear H L. unfold plain_number. destruct k, x; try exact Logic.I; cbn [plain_json] in X.
  - apply negb_true_iff in X. exact X.
  - apply Z.ltb_lt in X. assert (B : (2 ^ 63 <? 2 ^ 1024 - 2 ^ 970)%Z = true) by reflexivity. apply Z.ltb_lt in B. eapply Z.lt_trans; eassumption.
Qed.
