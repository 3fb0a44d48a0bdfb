(** Serialized values satisfy the generated schema. *)
From Coq Require Import String List NArith ZArith Bool Lia Permutation.
From Verif Require Import Base Json PyTypes TypeAlgebra TypeAlgebraProofs Lists Deser Ser SerFacts TypingFacts FieldProofs Catalog CatalogProofs Schema
  SpecTyping SpecTypes SpecFields SpecSer SpecTagged SpecSchema SchemaSem SpecGenerate SchemaProofs SchemaClass SpecValid SchemaForm RoundTrip.
Import ListNotations.
Open Scope list_scope.
Open Scope nat_scope.

Lemma properties_canonical : forall E c cl ps x t, canonical_env E -> get_class E c = Some cl -> class_properties E cl = Ok ps -> In (x, t) ps -> canonical t.
Proof.
  intros E c cl ps x t CE G P I. unfold class_properties in P.
  destruct (c_kind cl) eqn:K; try (eapply hints_canonical; eassumption).
  assert (Q : ps = raw_fields (c_kind cl)) by (rewrite K; congruence). subst ps. eapply ce_fields; eassumption.
Qed.

(** Between the schema of a type and its expansion. *)
Section Lift.
  Variables (E : env) (S : senv) (doc : json).
  Hypothesis CO : coherent E S.
  Hypothesis LK : linked E S doc.

  Definition held (d : list (pystr * json)) : Prop := forall r, refers (JObj d) r -> refers doc r.

  Variable Q : list (pystr * json) -> Prop.
  Hypothesis Q_core : forall d d', core d = core d' -> Q d -> Q d'.
  Hypothesis Q_ref : forall r d, points_to doc r = Some (JObj d) -> Q d -> Q [(str "$ref", JStr r)].

  Lemma lift_name : forall s w0, (forall w, stands_for S s w -> w = w0) -> (forall d, held d -> schema_of E S true w0 d -> Q d) ->
    held (ref_to S s) -> Q (ref_to S s).
  Proof.
    intros s w0 U H Hd. destruct (LK (s_path S ++ s)) as (s' & w & d' & d'' & Qs & St & P & C & Sw & R).
    { apply Hd. unfold ref_to. apply rf_here. left. reflexivity. }
    apply app_inv_head in Qs. subst s'. rewrite (U w St) in Sw. unfold ref_to. eapply Q_ref; [exact P|].
    eapply Q_core; [symmetry; exact C|]. apply H; [exact R | exact Sw].
  Qed.

  Lemma lift : forall t, not_annot t -> not_ref t ->
    (forall force d, held d -> simple_type_to_schema t = None -> expansion E S force t d -> Q d) ->
    (forall d, simple_type_to_schema t = Some d -> Q d) ->
    forall force d, held d -> schema_of E S force t d -> Q d.
  Proof.
    intros t NA NR X Y.
    assert (T : forall d, held d -> schema_of E S true t d -> Q d).
    { intros d Hd H. apply schema_of_inv in H.
      destruct H as [H|[(_ & H & _)|[(w & md & d0 & H & _)|[(w & md & H & _)|(_ & N & H)]]]]; [apply Y; exact H | discriminate H | destruct (NA _ _ H) ..|].
      eapply X; eassumption. }
    intros [|] d Hd H; [apply T; assumption|]. apply schema_of_inv in H.
    destruct H as [H|[(_ & _ & e & G & ->)|[(w & md & d0 & H & _)|[(w & md & H & _)|(_ & N & H)]]]]; [apply Y; exact H | | destruct (NA _ _ H) ..|].
    - apply (lift_name (en_identifier e) t); [|exact T | exact Hd].
      intros w St. eapply (co_unique _ _ CO); [exact St|]. eapply sf_registered; [exact NR | exact G | reflexivity].
    - eapply X; eassumption.
  Qed.

  Lemma lift_annot : forall w md,
    (forall force d, held d -> simple_type_to_schema w = None -> expansion E S force w d -> Q d) ->
    (forall d0 d, simple_type_to_schema w = Some d0 -> remarks S (TAnnot w md) md d0 d -> Q d) ->
    forall force d, held d -> schema_of E S force (TAnnot w md) d -> Q d.
  Proof.
    intros w md X Y.
    assert (T : forall d, held d -> schema_of E S true (TAnnot w md) d -> Q d).
    { intros d Hd H. apply schema_of_inv in H.
      destruct H as [H|[(_ & H & _)|[(w' & md' & d0 & H & Sw & Rk)|[(w' & md' & H & Sw & Ex)|(N & _)]]]]; [discriminate H | discriminate H | | |destruct (N w md eq_refl)];
        injection H as <- <-; eauto. }
    intros [|] d Hd H; [apply T; assumption|]. apply schema_of_inv in H.
    destruct H as [H|[(_ & _ & e & G & ->)|[(w' & md' & d0 & H & Sw & Rk)|[(w' & md' & H & Sw & Ex)|(N & _)]]]];
      [discriminate H | | injection H as <- <-; eauto | injection H as <- <-; eauto | destruct (N w md eq_refl)].
    apply (lift_name (en_identifier e) (TAnnot w md)); [|exact T | exact Hd].
    intros w' St. eapply (co_unique _ _ CO); [exact St|]. eapply sf_registered; [intros s'; discriminate | exact G | reflexivity].
  Qed.

  Lemma lift_ref : forall m s a t, lookup E m s = Some (a, t) -> (forall force d, held d -> schema_of E S force t d -> Q d) ->
    (forall force d, held d -> schema_of E S force (TRef s) d -> Q d) /\
    (forall force d, held d -> expansion E S force (TRef s) d -> Q d).
  Proof.
    intros m s a t L H.
    assert (U : forall w, stands_for S s w -> w = t) by (intros w St; symmetry; eapply (co_lookup _ _ CO); eassumption).
    assert (X : forall force d, held d -> expansion E S force (TRef s) d -> Q d).
    { intros force d Hd Ex. apply exp_ref in Ex. destruct Ex as [(_ & w & V & Sw)|(_ & ->)].
      - rewrite (U w) in Sw by (apply sf_evaluated; exact V). eapply H; eassumption.
      - apply (lift_name s t); [exact U | intros d Hd'; apply H; exact Hd' | exact Hd]. }
    split; [|exact X]. intros force d Hd Sw. apply schema_of_inv in Sw.
    destruct Sw as [Sw|[(_ & _ & e & G & ->)|[(w' & md' & d0 & Sw & _)|[(w' & md' & Sw & _)|(_ & _ & Ex)]]]]; try discriminate Sw; [|eapply X; eassumption].
    cbn [get] in G. destruct (dict_get (by_name (s_catalog S)) s) as [e'|] eqn:G'; [|discriminate G]. injection G as ->.
    rewrite (co_named _ _ CO _ _ G') in *. apply (lift_name s t); [exact U | intros d Hd'; apply H; exact Hd' | exact Hd].
  Qed.
End Lift.

(** Parts of a schema that belongs to the document. *)
Section Held.
  Variable doc : json.
  Notation held := (held doc).

  Lemma held_one : forall k x dw d, held d -> In k [str "items"; str "additionalProperties"; str "propertyNames"] -> In (k, x) d -> x = JObj dw -> held dw.
  Proof. intros k x dw d H K I -> r R. apply H. eapply rf_one; eassumption. Qed.

  Lemma held_list : forall k l dw d, held d -> In k [str "oneOf"; str "prefixItems"] -> In (k, JArr l) d -> In (JObj dw) l -> held dw.
  Proof. intros k l dw d H K I J r R. apply H. eapply rf_list; eassumption. Qed.

  Lemma held_named : forall k ps y dw d, held d -> In k [str "properties"; str "definitions"] -> In (k, JObj ps) d -> In (y, JObj dw) ps -> held dw.
  Proof. intros k l y dw d H K I J r R. apply H. eapply rf_named; eassumption. Qed.
End Held.

(** The type of a field without None. *)
Lemma read_by : forall t w, canonical t -> (if is_type_optional t then unwrap_optional t = Ok w else w = t) -> read_type t w.
Proof.
  intros t w C H. unfold read_type. destruct (is_type_optional t) eqn:O.
  - left. split; [apply is_type_optional_spec; exact O | apply unwrap_optional_spec; assumption].
  - right. split; [|exact H]. intros X. apply is_type_optional_spec in X. congruence.
Qed.

Lemma read_unique : forall t r w, canonical t -> read_type t r -> (if is_type_optional t then unwrap_optional t = Ok w else w = t) -> r = w.
Proof.
  intros t r w C [(O & D)|(O & D)] H.
  - rewrite (proj2 (is_type_optional_spec t) O) in H. apply (proj2 (unwrap_optional_spec _ _ C)) in D. congruence.
  - destruct (is_type_optional t) eqn:B; [|congruence]. apply is_type_optional_spec in B. contradiction.
Qed.

(** Metadata of scalars adds keywords of its own. *)
Lemma remarks_type : forall S t md d0 d s, remarks S t md d0 d -> In (str "type", JStr s) d0 -> In (str "type", JStr s) d.
Proof.
  intros S t md d0 d s H I.
  assert (X : filter (fun kv => pystr_eqb (str "type") (fst kv)) d = filter (fun kv => pystr_eqb (str "type") (fst kv)) d0).
  { destruct H as [f A|].
    - apply (upd_filter (fun k => pystr_eqb (str "type") k)). repeat constructor.
    - apply (with_metadata_filter (fun k => pystr_eqb (str "type") k)). repeat constructor. }
  assert (J : In (str "type", JStr s) (filter (fun kv => pystr_eqb (str "type") (fst kv)) d0)) by (apply filter_In; split; [exact I | reflexivity]).
  rewrite <- X in J. apply filter_In in J. tauto.
Qed.

(** The type that stands in the schema of a scalar. *)
Lemma simple_typed : forall k d, simple_type_to_schema (TScalar k) = Some d -> exists s, In (str "type", JStr s) d /\
  forall j, (natural k j -> is_type s j = Some true) /\ (~ natural k j -> is_type s j = Some false).
Proof.
  intros k d H. destruct k; try discriminate H; injection H as <-; eexists; (split; [left; reflexivity|]);
    intros j; destruct j; (split; intros N; [try contradiction; try reflexivity | try reflexivity; try (destruct N; exact Logic.I)]).
  - transitivity (Some (whole f)); [reflexivity | f_equal; exact N].
  - transitivity (Some (whole f)); [reflexivity | f_equal; apply not_true_is_false; exact N].
Qed.

Lemma addressed_simple : forall k, addressed k = false -> exists d, simple_type_to_schema (TScalar k) = Some d.
Proof. intros k H. destruct k; try discriminate H; eexists; reflexivity. Qed.

Lemma merged_in : forall ps o k j, merged ps o -> In (k, j) o -> In (k, j) ps.
Proof.
  intros ps o k j M. induction M as [|ps o k' j' M IH Nk|ps o1 k' i o2 j' M IH Nk]; intros J.
  - destruct J.
  - apply in_app_iff. apply in_app_iff in J. destruct J as [J|J]; [left; auto | right; exact J].
  - apply in_app_iff. apply in_app_iff in J. destruct J as [J|[J|J]];
      [left; apply IH, in_app_iff; left; exact J | right; left; exact J | left; apply IH, in_app_iff; right; right; exact J].
Qed.

(** Regular expressions for sets of literal texts. *)
Lemma alternatives_app : forall s acc r, ~ In 124%N s -> alternatives acc (s ++ 124%N :: r) = (rev acc ++ s) :: alternatives [] r.
Proof.
  induction s as [|c s IH]; intros acc r N; cbn [app alternatives].
  - rewrite N.eqb_refl, app_nil_r. reflexivity.
  - destruct (N.eqb_spec c 124) as [->|_]; [destruct N; left; reflexivity|]. rewrite IH by (intros I; apply N; right; exact I).
    cbn [rev]. rewrite <- app_assoc. reflexivity.
Qed.

Lemma alternatives_end : forall s acc, ~ In 124%N s -> alternatives acc s = [rev acc ++ s].
Proof.
  induction s as [|c s IH]; intros acc N; cbn [alternatives]; [rewrite app_nil_r; reflexivity|].
  destruct (N.eqb_spec c 124) as [->|_]; [destruct N; left; reflexivity|]. rewrite IH by (intros I; apply N; right; exact I).
  cbn [rev]. rewrite <- app_assoc. reflexivity.
Qed.

Lemma literal_bar : forall s, forallb literal_char s = true -> ~ In 124%N s.
Proof. intros s H I. rewrite forallb_forall in H. specialize (H _ I). discriminate H. Qed.

Lemma alternatives_join : forall vs, vs <> [] -> Forall (fun s => forallb literal_char s = true) vs -> alternatives [] (join (str "|") vs) = vs.
Proof.
  induction vs as [|s vs IH]; intros N F; [destruct (N eq_refl)|]. inversion F as [|? ? F1 F2]; subst. apply literal_bar in F1.
  destruct vs as [|s' vs]; [exact (alternatives_end s [] F1)|].
  change (join (str "|") (s :: s' :: vs)) with (s ++ 124%N :: join (str "|") (s' :: vs)).
  rewrite alternatives_app by exact F1. cbn [rev app]. f_equal. apply IH; [discriminate | exact F2].
Qed.

Lemma matches_join : forall vs s, Forall (fun s => forallb literal_char s = true) vs -> In s vs ->
  matches (str "^(" ++ join (str "|") vs ++ str ")$") s = Some true.
Proof.
  intros vs s F I. set (q := join (str "|") vs). change (str "^(" ++ q ++ str ")$") with (94%N :: 40%N :: (q ++ [41%N; 36%N])).
  unfold matches. rewrite rev_app_distr. cbn [rev app]. rewrite rev_involutive. unfold q.
  rewrite alternatives_join; [|intros ->; destruct I | exact F].
  assert (A : forallb (forallb literal_char) vs = true) by (apply forallb_forall; rewrite Forall_forall in F; exact F).
  rewrite A. f_equal. apply existsb_exists. exists s. split; [exact I | apply pystr_eqb_refl].
Qed.

(** The values of an enumeration are of one type. *)
Lemma enum_types : forall ms k, enum_value_types ms = Ok [k] ->
  (forall x v, In (x, v) ms -> json_scalar v = Ok k) /\ exists x v, In (x, v) ms.
Proof.
  intros ms k H. unfold enum_value_types in H. apply bind_ok in H. destruct H as (ks & F & H). injection H as H. apply mapM_ok in F.
  match type of H with nodup ?dec _ = _ => assert (Z : forall k', In k' ks <-> k' = k) by
    (intros k'; rewrite <- (nodup_In dec ks k'), H; cbn [In]; split; [intros [Q|[]]; congruence | intros ->; left; reflexivity]) end.
  split.
  - intros x v I. destruct (Forall2_in_l _ _ _ _ _ _ F I) as (k' & I' & Q). cbn [snd] in Q. apply Z in I'. subst k'. exact Q.
  - pose proof (proj2 (Z k) eq_refl) as I. destruct (Forall2_in_r _ _ _ _ _ _ F I) as ([x v] & Im & _). eauto.
Qed.

Section Valid.
  Variables (asserts : pystr -> pystr -> json -> bool) (E : env) (S : senv) (doc : json).
  Hypothesis CE : canonical_env E.
  Hypothesis CO : coherent E S.
  Hypothesis LK : linked E S doc.
  Hypothesis OK : env_ok E.
  Notation accepts := (accepts asserts doc).
  Notation rejects := (rejects asserts doc).
  Notation held := (held doc).

  Lemma rejects_by_ref : forall j r d, points_to doc r = Some (JObj d) -> rejects (JObj d) j -> rejects (JObj [(str "$ref", JStr r)]) j.
  Proof. intros j r d P H. eapply rejects_intro; [left; reflexivity|]. eapply fails_ref; eassumption. Qed.

  Lemma accepts_by_ref : forall j r d, points_to doc r = Some (JObj d) -> accepts (JObj d) j -> accepts (JObj [(str "$ref", JStr r)]) j.
  Proof. intros j r d P H. apply accepts_intro. constructor; [|constructor]. eapply holds_ref; eassumption. Qed.

  (** *** Rejection *)

  Definition turned_down (t : typ) (j : json) : Prop :=
    (forall force d, held d -> schema_of E S force t d -> rejects (JObj d) j) /\
    (forall force d, held d -> simple_type_to_schema t = None -> expansion E S force t d -> rejects (JObj d) j).

  Lemma reject_by_expansion : forall t j, not_annot t -> not_ref t ->
    (forall force d, held d -> simple_type_to_schema t = None -> expansion E S force t d -> rejects (JObj d) j) ->
    (forall d, simple_type_to_schema t = Some d -> rejects (JObj d) j) -> turned_down t j.
  Proof.
    intros t j NA NR X Y. split; [|exact X].
    apply (lift E S doc CO LK (fun d => rejects (JObj d) j)); try assumption.
    - intros d d' C. apply rejects_core, C.
    - intros r d P. apply rejects_by_ref, P.
  Qed.

  Ltac forms := let w := fresh in let md := fresh in intros w; try intros md; discriminate.

  Lemma reject_typed : forall s j d, In (str "type", JStr s) d -> is_type s j = Some false -> rejects (JObj d) j.
  Proof. intros s j d I H. eapply rejects_intro; [exact I | apply fails_type; exact H]. Qed.

  Lemma fails_items : forall kws ds x d, dict_get kws (str "prefixItems") = None -> In d ds -> rejects x d ->
    fails asserts doc kws (JArr ds) (str "items") x.
  Proof.
    intros kws ds x d P I (n & R). exists n.
    transitivity (all_of (map (check asserts doc n x) (skipn (match dict_get kws (str "prefixItems") with Some (JArr l) => length l | _ => 0 end) ds))); [reflexivity|].
    rewrite P. cbn [skipn]. apply all_of_false. apply in_map_iff. exists d. auto.
  Qed.

  Lemma fails_prefix : forall kws ss ds s d, In (s, d) (combine ss ds) -> rejects s d ->
    fails asserts doc kws (JArr ds) (str "prefixItems") (JArr ss).
  Proof.
    intros kws ss ds s d I (n & R). exists n. transitivity (all_of (each (check asserts doc n) ss ds)); [reflexivity|].
    apply all_of_false. revert ds I. induction ss as [|s' ss IH]; intros [|d' ds] I; try contradiction. cbn [each combine In] in *.
    destruct I as [Q|I]; [injection Q as -> ->; left; exact R | right; apply IH; exact I].
  Qed.

  Lemma fails_min_items : forall kws ds z, (Z.of_nat (length ds) < z)%Z -> fails asserts doc kws (JArr ds) (str "minItems") (JInt z).
  Proof. intros kws ds z L. exists 0. transitivity (Some (z <=? Z.of_nat (length ds))%Z); [reflexivity|]. f_equal. apply Z.leb_gt. exact L. Qed.

  Lemma fails_max_items : forall kws ds z, (z < Z.of_nat (length ds))%Z -> fails asserts doc kws (JArr ds) (str "maxItems") (JInt z).
  Proof. intros kws ds z L. exists 0. transitivity (Some (Z.of_nat (length ds) <=? z)%Z); [reflexivity|]. f_equal. apply Z.leb_gt. exact L. Qed.

  Lemma fails_enum : forall kws d l, existsb (same d) l = false -> fails asserts doc kws d (str "enum") (JArr l).
  Proof. intros kws d l H. exists 0. transitivity (Some (existsb (same d) l)); [reflexivity | rewrite H; reflexivity]. Qed.

  Lemma not_array : forall j, ~ is_array j -> is_type (str "array") j = Some false.
  Proof. intros j H. destruct j; try reflexivity. destruct H. eexists. reflexivity. Qed.

  Lemma not_object : forall j, ~ is_object j -> is_type (str "object") j = Some false.
  Proof. intros j H. destruct j; try reflexivity. destruct H. eexists. reflexivity. Qed.

  (** The shape of what is said about a dictionary. *)
  Lemma dict_forms : forall k v dk, dict_to_schema E k v = Ok dk ->
    dk = [(str "additionalProperties", JObj v)] \/
    (exists c cl ms vs, k = TClass c /\ get_class E c = Some cl /\ c_kind cl = CEnum ms /\ mapM (fun m => value_text (snd m)) ms = Ok vs /\
      ((4 < length vs /\ dk = [(str "propertyNames", JObj [(str "pattern", JStr (str "^(" ++ join (str "|") vs ++ str ")$"))]);
                              (str "additionalProperties", JObj v)]) \/
       (length vs <= 4 /\ dk = [(str "properties", JObj (dict_of (map (fun s => (s, JObj v)) vs))); (str "additionalProperties", JBool false)]))).
  Proof.
    intros k v dk H. destruct k as [k| | | | | |op us|ls|w md|c| |]; try discriminate H.
    - left. destruct k; try discriminate H; injection H as <-; reflexivity.
    - destruct w; discriminate H.
    - right. cbn [dict_to_schema] in H. destruct (get_class E c) as [cl|] eqn:G; [|discriminate H]. destruct (c_kind cl) as [ms| | | |] eqn:K; try discriminate H.
      apply bind_ok in H. destruct H as (vs & V & H). exists c, cl, ms, vs. split; [reflexivity|]. split; [exact G|]. split; [exact K|]. split; [exact V|].
      destruct (4 <? length vs) eqn:L; injection H as <-; [left; split; [apply Nat.ltb_lt; exact L | reflexivity] | right; split; [apply Nat.ltb_ge; exact L | reflexivity]].
  Qed.

  Lemma dict_of_same : forall vs (v : json) s, In s vs -> dict_get (dict_of (map (fun s => (s, v)) vs)) s = Some v.
  Proof.
    intros vs v s I. pose proof (merged_dict_of (map (fun s => (s, v)) vs)) as M. destruct (merged_keys _ _ M) as (N & K).
    assert (J : In s (map fst (dict_of (map (fun s => (s, v)) vs)))).
    { apply K. rewrite map_map. cbn [fst]. rewrite map_id. exact I. }
    apply in_map_iff in J. destruct J as ([s' x] & Q & J). cbn [fst] in Q. subst s'.
    assert (X : x = v).
    { assert (Z : In (s, x) (map (fun s => (s, v)) vs)).
      { clear - M J. revert J. induction M as [|ps o k j M IH Nk|ps o1 k i o2 j M IH Nk]; intros J.
        - destruct J.
        - apply in_app_iff. apply in_app_iff in J. destruct J as [J|J]; [left; auto | right; exact J].
        - apply in_app_iff. apply in_app_iff in J. destruct J as [J|[J|J]];
            [left; apply IH, in_app_iff; left; exact J | right; left; exact J | left; apply IH, in_app_iff; right; right; exact J]. }
      apply in_map_iff in Z. destruct Z as (s' & Q & _). congruence. }
    subst x. apply dict_get_nodup; assumption.
  Qed.

  Lemma dict_of_keys : forall vs (v : json) s, In s (map fst (dict_of (map (fun s => (s, v)) vs))) <-> In s vs.
  Proof.
    intros vs v s. destruct (merged_keys _ _ (merged_dict_of (map (fun s => (s, v)) vs))) as (_ & K).
    rewrite K, map_map. cbn [fst]. rewrite map_id. tauto.
  Qed.

  Lemma field_names : forall c cl ps, get_class E c = Some cl -> class_properties E cl = Ok ps -> NoDup (map fst ps).
  Proof. intros c cl ps G P. rewrite (properties_names_raw _ _ _ P). exact (ok_names _ _ _ (OK _ _ G)). Qed.

  Theorem alien_rejected : forall m t j, alien E m t j -> turned_down t j.
  Proof.
    intros m t j H. induction H as [m k j A N|m t j N|m t js j I _ [IH _]|m t j N|m t js j I _ [IH _]|m k t j N|m k t o p j I _ [IH _]
      |m ts j N|m ts js N|m ts js t j I _ [IH _]|m op ts j _ IH|m l c j L N|m t md j AL [_ IH2]|m s a t j L _ [IH _]
      |m c cl ms j G K N|m c cl j G NE N|m c cl ps x t p o G NE P I O Sn N|m c cl ps p o G NE P Np I X|m c cl ps x t r p j o G NE P D I Sn J R _ [IH _]].
    - apply reject_by_expansion; [forms | forms | | ].
      + destruct (addressed_simple k A) as (d & B). intros force d' _ B'. congruence.
      + intros d B. destruct (simple_typed k d B) as (s & I & T). eapply reject_typed; [exact I | apply T; exact N].
    - apply reject_by_expansion; [forms | forms | | discriminate].
      intros force d _ _ H. apply exp_list in H. destruct H as (dw & _ & ->). eapply reject_typed; [left; reflexivity | apply not_array; exact N].
    - apply reject_by_expansion; [forms | forms | | discriminate].
      intros force d Hd _ H. apply exp_list in H. destruct H as (dw & Sw & ->). eapply rejects_intro; [right; left; reflexivity|].
      eapply fails_items; [reflexivity | exact I|]. eapply IH; [|exact Sw]. eapply held_one; [exact Hd | left; reflexivity | right; left; reflexivity | reflexivity].
    - apply reject_by_expansion; [forms | forms | | discriminate].
      intros force d _ _ H. apply exp_set in H. destruct H as (dw & _ & ->). eapply reject_typed; [left; reflexivity | apply not_array; exact N].
    - apply reject_by_expansion; [forms | forms | | discriminate].
      intros force d Hd _ H. apply exp_set in H. destruct H as (dw & Sw & ->). eapply rejects_intro; [right; left; reflexivity|].
      eapply fails_items; [reflexivity | exact I|]. eapply IH; [|exact Sw]. eapply held_one; [exact Hd | left; reflexivity | right; left; reflexivity | reflexivity].
    - apply reject_by_expansion; [forms | forms | | discriminate].
      intros force d _ _ H. apply exp_dict in H. destruct H as (dw & dk & _ & _ & ->). eapply reject_typed; [left; reflexivity | apply not_object; exact N].
    - apply reject_by_expansion; [forms | forms | | discriminate].
      intros force d Hd _ H. apply exp_dict in H. destruct H as (dw & dk & Sw & Dk & ->). apply dict_forms in Dk.
      destruct Dk as [->|(c & cl & ms & vs & -> & G & K & V & [(L & ->)|(L & ->)])].
      + eapply rejects_intro; [right; left; reflexivity|]. eapply fails_additional; [exact I | intros []|].
        eapply IH; [|exact Sw]. eapply held_one; [exact Hd | right; left; reflexivity | right; left; reflexivity | reflexivity].
      + eapply rejects_intro; [right; right; left; reflexivity|]. eapply fails_additional; [exact I | intros []|].
        eapply IH; [|exact Sw]. eapply held_one; [exact Hd | right; left; reflexivity | right; right; left; reflexivity | reflexivity].
      + destruct (in_dec (list_eq_dec N.eq_dec) p vs) as [Y|Y].
        * eapply rejects_intro; [right; left; reflexivity|]. eapply fails_properties; [exact I | apply dict_of_same; exact Y|].
          eapply IH; [|exact Sw]. eapply held_named; [exact Hd | left; reflexivity | right; left; reflexivity | apply dict_get_in, (dict_of_same vs _ p Y)].
        * eapply rejects_intro; [right; right; left; reflexivity|]. eapply fails_additional; [exact I | | apply rejects_false].
          unfold known_properties. cbn [typed app dict_get]. change (pystr_eqb (str "type") (str "properties")) with false.
          change (pystr_eqb (str "properties") (str "properties")) with true. cbv iota. rewrite dict_of_keys. exact Y.
    - apply reject_by_expansion; [forms | forms | | discriminate].
      intros force d _ _ H. apply exp_tuple in H. destruct H as (ds & _ & ->). eapply reject_typed; [left; reflexivity | apply not_array; exact N].
    - apply reject_by_expansion; [forms | forms | | discriminate].
      intros force d _ _ H. apply exp_tuple in H. destruct H as (ds & _ & ->).
      destruct (Nat.lt_ge_cases (length js) (length ts)) as [L|L].
      + eapply rejects_intro; [right; left; reflexivity|]. apply fails_min_items. lia.
      + eapply rejects_intro; [right; right; left; reflexivity|]. apply fails_max_items. lia.
    - apply reject_by_expansion; [forms | forms | | discriminate].
      intros force d Hd _ H. apply exp_tuple in H. destruct H as (ds & F & ->).
      assert (X : exists dw, In (JObj dw, j) (combine (map JObj ds) js) /\ schema_of E S false t dw /\ In dw ds).
      { clear - F I. revert js I. induction F as [|t' d' ts ds A F IH]; intros [|j' js] I; try contradiction. cbn [combine map In] in *.
        destruct I as [Q|I]; [injection Q as -> ->; exists d'; auto|]. destruct (IH _ I) as (dw & A1 & A2 & A3). exists dw. auto. }
      destruct X as (dw & X1 & X2 & X3). eapply rejects_intro; [right; right; right; left; reflexivity|]. eapply fails_prefix; [exact X1|].
      eapply IH; [|exact X2]. eapply held_list; [exact Hd | right; left; reflexivity | right; right; right; left; reflexivity | apply in_map; exact X3].
    - apply reject_by_expansion; [forms | forms | | discriminate].
      intros force d Hd _ H. apply exp_union in H. destruct H as (ds & F & ->). eapply rejects_intro; [left; reflexivity|]. apply fails_one.
      intros x I. apply in_map_iff in I. destruct I as (dw & <- & I). destruct (Forall2_in_r _ _ _ _ _ _ F I) as (t & It & Sw).
      eapply (proj1 (IH t It)); [|exact Sw]. eapply held_list; [exact Hd | left; reflexivity | left; reflexivity | apply in_map; exact I].
    - apply reject_by_expansion; [forms | forms | | discriminate].
      intros force d _ _ H. apply exp_literal in H. destruct H as (l' & c' & dw & Q & L' & _ & ->). injection Q as <-. rewrite L in L'. injection L' as <-.
      eapply rejects_intro; [|apply fails_const; exact N]. apply dict_get_in. rewrite set_lookup. reflexivity.
    - split; [|intros force d _ _ (n & u & u' & Q); discriminate Q].
      apply (lift_annot E S doc CO LK (fun d => rejects (JObj d) j)).
      + intros d d' C. apply rejects_core, C.
      + intros r d P. apply rejects_by_ref, P.
      + exact IH2.
      + intros d0 d B Rk. destruct t as [k| | | | | | | | | | |]; try discriminate B.
        destruct (simple_typed k d0 B) as (s & I & T). eapply reject_typed; [eapply remarks_type; [exact Rk | exact I]|]. apply T. intros Nt. inversion AL; subst. contradiction.
    - destruct (lift_ref E S doc CO LK (fun d => rejects (JObj d) j)) with (m := m) (s := s) (a := a) (t := t) as (A & B).
      + intros d d' C. apply rejects_core, C.
      + intros r d P. apply rejects_by_ref, P.
      + exact L.
      + exact IH.
      + split; [exact A | intros force d Hd _; apply B; exact Hd].
    - apply reject_by_expansion; [forms | forms | | discriminate].
      intros force d _ _ H. eapply exp_enum in H; [|exact G | exact K].
      assert (X : existsb (same j) (map snd ms) = false).
      { apply not_true_is_false. intros X. apply existsb_exists in X. destruct X as (v & I & Q). apply in_map_iff in I.
        destruct I as ([x v'] & Q' & I). cbn [snd] in Q'. subst v'. rewrite (N x v I) in Q. discriminate Q. }
      unfold enum_to_schema in H. apply bind_ok in H. destruct H as (ks & Ks & H).
      destruct ks as [|k [|? ?]]; try discriminate H.
      assert (Y : forall s, Ok (describe S (TClass c) [(str "type", JStr s); (str "enum", JArr (map snd ms))]) = Ok d -> rejects (JObj d) j).
      { intros s Q. injection Q as <-. eapply rejects_core; [symmetry; unfold core; apply (describe_filter (fun k => negb (note k))); reflexivity|].
        eapply rejects_intro; [right; left; reflexivity | apply fails_enum; exact X]. }
      destruct k; cbn [simple_type_to_schema] in H; try discriminate H; try (exact (Y _ H)).
      all: apply enum_types in Ks; destruct Ks as (Ka & x & v & Im); pose proof (Ka x v Im) as Jv; destruct v; try discriminate Jv.
      injection H as <-. eapply rejects_core; [symmetry; unfold core; apply (describe_filter (fun k => negb (note k))); reflexivity|].
      eapply reject_typed; [left; reflexivity|]. pose proof (N x JNull Im) as Q. destruct j; try reflexivity. discriminate Q.
    - apply reject_by_expansion; [forms | forms | | discriminate].
      intros force d _ _ H. pose proof H as (n & u & u' & H0). cbn [expand] in H0. rewrite G in H0.
      assert (X : exists ps, class_properties E cl = Ok ps).
      { destruct (c_kind cl) eqn:K; [destruct (NE _ K)|..]; apply bind_ok in H0; destruct H0 as (ps & P & _); eauto. }
      destruct X as (ps & P). pose proof (exp_object _ _ _ _ _ _ _ G NE P H) as [CS _].
      eapply class_rejects_others; [exact CS|]. intros o ->. apply N. eexists. reflexivity.
    - apply reject_by_expansion; [forms | forms | | discriminate].
      intros force d _ _ H. pose proof (exp_object _ _ _ _ _ _ _ G NE P H) as [CS _]. eapply class_rejects_missing; eassumption.
    - apply reject_by_expansion; [forms | forms | | discriminate].
      intros force d _ _ H. pose proof (exp_object _ _ _ _ _ _ _ G NE P H) as [CS _]. eapply class_rejects_extra; eassumption.
    - apply reject_by_expansion; [forms | forms | | discriminate].
      intros force d Hd _ H. pose proof (exp_object _ _ _ _ _ _ _ G NE P H) as [CS (props & req & C & Rf & K1 & K2 & M)].
      pose proof (distinct_out _ (field_names _ _ _ G P) D) as ND. destruct (M ND x t I) as (w & d0 & dx & W & Sw & Cx & Rx & Gx).
      apply (proj1 (out_name_spec x t p)) in Sn. subst p.
      apply (rejects_core asserts doc (object_schema props req)); [rewrite C; unfold object_schema; destruct props, req; reflexivity|].
      assert (Ip : In (str "properties", JObj props) (object_schema props req)).
      { unfold object_schema. destruct props; [discriminate Gx | right; left; reflexivity]. }
      eapply rejects_intro; [exact Ip|]. eapply fails_properties; [exact J | exact Gx|].
      eapply rejects_core; [symmetry; exact Cx|].
      rewrite (read_unique _ _ _ (properties_canonical _ _ _ _ _ _ CE G P I) R W) in IH. eapply IH; [|exact Sw].
      intros r' R'. apply Hd, Rf. eapply rf_named; [left; reflexivity | exact Ip | apply dict_get_in; exact Gx | apply Rx; exact R'].
  Qed.

  (** *** Acceptance *)

  Variable V : value -> Prop.
  Hypothesis LE : lenient_for V asserts.

  Definition welcomed (t : typ) (j : json) : Prop :=
    (forall force d, held d -> schema_of E S force t d -> accepts (JObj d) j) /\
    (forall force d, held d -> simple_type_to_schema t = None -> expansion E S force t d -> accepts (JObj d) j).

  Lemma accept_by_expansion : forall t j, not_annot t -> not_ref t ->
    (forall force d, held d -> simple_type_to_schema t = None -> expansion E S force t d -> accepts (JObj d) j) ->
    (forall d, simple_type_to_schema t = Some d -> accepts (JObj d) j) -> welcomed t j.
  Proof.
    intros t j NA NR X Y. split; [|exact X].
    apply (lift E S doc CO LK (fun d => accepts (JObj d) j)); try assumption.
    - intros d d' C. apply accepts_core, C.
    - intros r d P. apply accepts_by_ref, P.
  Qed.

  (** Keywords that do not look at their neighbours. *)
  Definition holding (j : json) (kx : pystr * json) : Prop := forall kws, holds asserts doc kws j (fst kx) (snd kx).

  Lemma accepts_holding : forall d j, Forall (holding j) d -> accepts (JObj d) j.
  Proof. intros d j H. apply accepts_intro. eapply Forall_impl; [|exact H]. intros kx X. apply X. Qed.

  Lemma holding_set : forall j d k x, Forall (holding j) d -> holding j (k, x) -> Forall (holding j) (dict_set d k x).
  Proof.
    intros j d k x F H. apply Forall_forall. intros [k' x'] I. apply SchemaProofs.dict_set_in in I. destruct I as [[-> ->]|I]; [exact H|].
    rewrite Forall_forall in F. apply F, I.
  Qed.

  Lemma holding_upd : forall j e d, Forall (holding j) d -> Forall (holding j) e -> Forall (holding j) (upd d e).
  Proof.
    intros j e. unfold upd. induction e as [|[k x] e IH]; intros d F H; [exact F|]. inversion H; subst. cbn [fold_left fst snd].
    apply IH; [apply holding_set; assumption | assumption].
  Qed.

  Lemma scalar_natural : forall k v j, addressed k = false -> scalar_type k v -> scalar_image v j -> natural k j.
  Proof. intros k v j A T I. destruct I; destruct k; try contradiction; try discriminate A; exact Logic.I. Qed.

  Lemma scalar_holding : forall k v j d, addressed k = false -> V v -> scalar_type k v -> scalar_image v j -> simple_type_to_schema (TScalar k) = Some d ->
    Forall (holding j) d.
  Proof.
    intros k v j d A Vv T I H.
    assert (F : forall kw f, text_format k = Some (kw, f) -> asserts kw f j = true) by (intros kw f Q; eapply (lf_text _ _ LE); eassumption).
    destruct I; destruct k; try contradiction; try discriminate A; injection H as <-;
      repeat (apply Forall_cons; [intros kws; cbn [fst snd];
        first [apply holds_type; reflexivity | apply holds_format, F; reflexivity | apply holds_encoding, F; reflexivity] |]); apply Forall_nil.
  Qed.

  Lemma scalar_value : forall k v, scalar_type k v ->
    match v with VList _ | VTuple _ | VSet _ | VDict _ | VEnum _ _ | VObj _ _ => False | _ => True end.
  Proof. intros k v H. destruct k, v; try contradiction; exact Logic.I. Qed.

  Lemma holds_elsewhere : forall kws j k x, In k [str "minimum"; str "maximum"; str "exclusiveMinimum"; str "exclusiveMaximum"; str "multipleOf"] ->
    num_of x <> None -> (match j with JInt _ | JFloat _ => False | _ => True end) -> holds asserts doc kws j k x.
  Proof.
    intros kws j k x K N J. exists 0.
    assert (X : forall f, number_test j x f = Some true) by (intros f; unfold number_test; destruct (num_of x); [destruct j; try contradiction; reflexivity | contradiction]).
    cbn [In] in K. destruct K as [<-|[<-|[<-|[<-|[<-|[]]]]]]; apply X.
  Qed.

  Lemma holds_other_length : forall kws j k x, In k [str "minLength"; str "maxLength"] -> (match j with JStr _ => False | _ => True end) -> holds asserts doc kws j k x.
  Proof.
    intros kws j k x K J. exists 0. cbn [In] in K. destruct K as [<-|[<-|[]]]; destruct j; try contradiction; reflexivity.
  Qed.

  Lemma metadata_holding : forall a j, obeys a j -> Forall (holding j) (metadata_to_schema S a).
  Proof.
    intros a j O. destruct a; cbn [metadata_to_schema]; try (apply Forall_nil).
    - constructor; [|constructor; [|constructor]]; intros kws; cbn [fst snd].
      + destruct j; try contradiction; try (apply holds_elsewhere; [left; reflexivity | discriminate | exact Logic.I]).
        apply holds_minimum. cbn [obeys] in O. lia.
      + destruct j; try contradiction; try (apply holds_elsewhere; [right; left; reflexivity | discriminate | exact Logic.I]).
        apply holds_maximum. cbn [obeys] in O. lia.
    - destruct j; contradiction.
    - constructor; [|constructor]. intros kws; cbn [fst snd]. destruct j; try (apply holds_other_length; [left; reflexivity | exact Logic.I]).
      apply holds_min_length. exact O.
    - constructor; [|constructor]. intros kws; cbn [fst snd]. destruct j; try (apply holds_other_length; [right; left; reflexivity | exact Logic.I]).
      apply holds_max_length. exact O.
  Qed.

  Lemma with_metadata_holding : forall j md d, (forall a, In a md -> obeys a j) -> Forall (holding j) d -> Forall (holding j) (with_metadata S d md).
  Proof.
    intros j md. unfold with_metadata. induction md as [|a md IH]; intros d O F; [exact F|]. cbn [fold_left]. apply IH.
    - intros a' I. apply O. right. exact I.
    - apply holding_upd; [exact F | apply metadata_holding, O; left; reflexivity].
  Qed.

  Lemma auxiliary_format : forall t f, get_auxiliary_format t = Some f -> In (t, f) auxiliary_types.
  Proof.
    intros t f. unfold get_auxiliary_format. generalize auxiliary_types. intros l. induction l as [|[u g] l IH]; intros H; [discriminate H|].
    destruct (typ_eqb u t) eqn:Q; [|right; apply IH; exact H]. injection H as <-. apply typ_eqb_eq in Q. subst u. left. reflexivity.
  Qed.

  Lemma auxiliary_asserted : forall k md f v j, get_auxiliary_format (TAnnot (TScalar k) md) = Some f -> scalar_type k v -> scalar_image v j ->
    (forall a, In a md -> obeys a j) -> asserts (str "format") f j = true.
  Proof.
    intros k md f v j A T I O. apply auxiliary_format in A. unfold auxiliary_types in A. cbn [In] in A.
    assert (X : forall s b w lo hi, md = [ASigned b; AStorage w; AIntegerRange lo hi] -> k = KInt -> In (s, (lo, hi)) integer_formats -> asserts (str "format") s j = true).
    { intros s b w lo hi -> -> Is. destruct v; try contradiction. inversion I; subst. eapply (lf_integer _ _ LE); [exact Is|].
      apply (O (AIntegerRange lo hi)). right. right. left. reflexivity. }
    assert (Y : forall s, k = KFloat -> s = str "float32" \/ s = str "float64" -> asserts (str "format") s j = true).
    { intros s -> Is. destruct v; try contradiction. inversion I; subst. apply (lf_float _ _ LE). exact Is. }
    repeat (destruct A as [A|A]; [injection A as <- <- <-;
      first [eapply X; [reflexivity | reflexivity | unfold integer_formats; cbn [In]; tauto] | apply Y; [reflexivity | auto]] |]). destruct A.
  Qed.

  Lemma member_name : forall x t p, (forall k, In k python_keywords -> x <> k ++ str "_") -> prop_name x t p -> p = out_name x t.
  Proof.
    intros x t p K [a A|k Na I ->|Na _]; [|destruct (K k I eq_refl)|]; apply (out_name_spec x t).
    - apply sn_alias, A.
    - apply sn_same, Na.
  Qed.

  Lemma image_object : forall c cl attrs j, get_class E c = Some cl -> c_to_json cl = None -> image E (VObj c attrs) j -> is_object j.
  Proof.
    intros c cl attrs j G T H. inversion H as [? ? Si| | | | |? c' cl' h ? O G' T' Q| | | |]; subst; try (eexists; reflexivity).
    - inversion Si.
    - cbn [object_class] in O. injection O as <-. congruence.
  Qed.

  Lemma properties_annotated : forall cl x t ps, not_enum cl -> class_properties E cl = Ok ps -> In (x, t) ps -> annotated cl.
  Proof.
    intros cl x t ps NE P I. apply properties_names_raw in P. unfold annotated. destruct (c_kind cl) as [ms|hs|xs|fz fs|hs] eqn:K; try exact Logic.I.
    - destruct (NE _ K).
    - cbn [raw_fields map] in P. destruct ps; [destruct I | discriminate P].
    - intros ->. cbn [raw_fields map] in P. destruct ps; [destruct I | discriminate P].
  Qed.

  Lemma texts_in : forall (ms : list (pystr * json)) vs x s, mapM (fun m => value_text (snd m)) ms = Ok vs -> In (x, JStr s) ms -> In s vs.
  Proof.
    intros ms vs x s H I. apply mapM_ok in H. destruct (Forall2_in_l _ _ _ _ _ _ H I) as (s' & I' & Q). cbn [snd value_text] in Q.
    injection Q as ->. exact I'.
  Qed.

  Theorem fits_accepted : forall m t v, fits E m t v -> (forall w, SpecRoundTrip.inside v w -> V w) -> forall j, image E v j -> welcomed t j.
  Proof.
    intros m t v H. induction H as [m k v A T|m t vs _ IH|m t vs _ IH D|m k t kvs KT Hk _ _ IH|m ts vs L _ IH|m op ts1 t ts2 v _ IH AL|m l c LJ
      |m t md v FT IH O|m s a t v L _ IH|m c cl ms x G K T I SE|m c cl ps attrs G NE T P D KW NN _ IH]; intros IN j IM.
    - pose proof (image_scalar _ _ _ IM (scalar_value _ _ T)) as SI. apply accept_by_expansion; [forms | forms | |].
      + destruct (addressed_simple k A) as (d & B). intros force d' _ B'. congruence.
      + intros d B. apply accepts_holding. eapply scalar_holding; try eassumption. apply IN, SpecRoundTrip.in_self.
    - destruct (image_list _ _ _ IM) as (js & -> & F). apply accept_by_expansion; [forms | forms | | discriminate].
      intros force d Hd _ Ex. apply exp_list in Ex. destruct Ex as (dw & Sw & ->). apply accepts_intro.
      constructor; [apply holds_type; reflexivity | constructor; [|constructor]]. cbn [fst snd]. apply holds_items; [reflexivity|].
      intros x I. destruct (Forall2_in_r _ _ _ _ _ _ F I) as (v & Iv & Im). eapply (proj1 (IH v Iv (fun w W => IN w (SpecRoundTrip.in_list _ _ _ Iv W)) x Im)); [|exact Sw].
      eapply held_one; [exact Hd | left; reflexivity | right; left; reflexivity | reflexivity].
    - destruct (image_set _ _ _ IM) as (js & -> & F). apply accept_by_expansion; [forms | forms | | discriminate].
      intros force d Hd _ Ex. apply exp_set in Ex. destruct Ex as (dw & Sw & ->). apply accepts_intro.
      constructor; [apply holds_type; reflexivity | constructor; [|constructor; [|constructor]]]; cbn [fst snd].
      + apply holds_items; [reflexivity|].
        intros x I. destruct (Forall2_in_r _ _ _ _ _ _ F I) as (v & Iv & Im). eapply (proj1 (IH v Iv (fun w W => IN w (SpecRoundTrip.in_set _ _ _ Iv W)) x Im)); [|exact Sw].
        eapply held_one; [exact Hd | left; reflexivity | right; left; reflexivity | reflexivity].
      + apply holds_unique, D, F.
    - destruct (image_dict _ _ _ IM) as (pso & o & -> & M & F). apply accept_by_expansion; [forms | forms | | discriminate].
      intros force d Hd _ Ex. apply exp_dict in Ex. destruct Ex as (dw & dk & Sw & Dk & ->). apply dict_forms in Dk.
      assert (VV : forall p x, In (p, x) o -> held dw -> accepts (JObj dw) x /\ exists a b, In (a, b) kvs /\ key_text E a p).
      { intros p x I Hw. apply (merged_in _ _ _ _ M) in I. destruct (Forall2_in_r _ _ _ _ _ _ F I) as ([a b] & Iab & Kt & Im). cbn [fst snd] in *.
        split; [eapply (proj1 (IH a b Iab (fun w W => IN w (SpecRoundTrip.in_dict _ _ _ _ Iab W)) x Im)); [exact Hw | exact Sw] | eauto]. }
      destruct Dk as [->|(c & cl & ms & vs & -> & G & K & Vt & [(Ln & ->)|(Ln & ->)])]; apply accepts_intro; constructor; try (apply holds_type; reflexivity).
      + constructor; [|constructor]. cbn [fst snd]. apply holds_additional. intros p x I _. apply (VV p x I).
        eapply held_one; [exact Hd | right; left; reflexivity | right; left; reflexivity | reflexivity].
      + assert (Hw : held dw) by (eapply held_one; [exact Hd | right; left; reflexivity | right; right; left; reflexivity | reflexivity]).
        constructor; [|constructor; [|constructor]]; cbn [fst snd].
        * apply holds_names. intros p x I. destruct (VV p x I Hw) as (_ & a & b & Iab & Kt).
          apply accepts_intro. constructor; [|constructor]. cbn [fst snd]. apply holds_pattern. apply matches_join.
          -- destruct KT as [Q|[Q|(c' & cl' & ms' & Q & G' & K' & Lt)]]; try discriminate Q. injection Q as <-.
             assert (Qm : ms' = ms) by congruence. subst ms'. apply Forall_forall. intros s Is. pose proof (proj1 (mapM_ok _ _ _ _ _) Vt) as Fv.
             destruct (Forall2_in_r _ _ _ _ _ _ Fv Is) as ([y jv] & Iy & Q). cbn [snd] in Q.
             assert (Ll : 4 < length ms) by (rewrite (Forall2_length_eq _ _ _ _ _ Fv); exact Ln).
             destruct (Lt Ll y jv Iy) as (s' & -> & Ls). cbn [value_text] in Q. injection Q as ->. exact Ls.
          -- pose proof (Hk a b Iab) as Fk. destruct Kt as [s|c' cl' ms' y s G' K' Iy]; [inversion Fk|].
             assert (Qc : c' = c) by (inversion Fk; congruence). subst c'. assert (Qm : ms' = ms) by congruence. subst ms'. eapply texts_in; eassumption.
        * apply holds_additional. intros p x I _. apply (VV p x I Hw).
      + constructor; [|constructor; [|constructor]]; cbn [fst snd].
        * apply holds_properties. intros p x s I Gs.
          assert (Is : In p vs) by (apply (dict_of_keys vs (JObj dw)); apply in_map_iff; exists (p, s); split; [reflexivity | apply dict_get_in; exact Gs]).
          assert (Qs : s = JObj dw) by (pose proof (dict_of_same vs (JObj dw) p Is); congruence). subst s. apply (VV p x I).
          eapply held_named; [exact Hd | left; reflexivity | right; left; reflexivity | apply dict_get_in; exact Gs].
        * apply holds_additional. intros p x I Nk. exfalso. apply Nk. unfold known_properties. cbn [typed app dict_get].
          change (pystr_eqb (str "type") (str "properties")) with false. change (pystr_eqb (str "properties") (str "properties")) with true. cbv iota.
          apply dict_of_keys. apply (merged_in _ _ _ _ M) in I. destruct (Forall2_in_r _ _ _ _ _ _ F I) as ([a b] & Iab & Kt & _). cbn [fst snd] in *.
          pose proof (Hk a b Iab) as Fk. destruct Kt as [s|c' cl' ms' y s G' K' Iy]; [inversion Fk|].
          assert (Qc : c' = c) by (inversion Fk; congruence). subst c'. assert (Qm : ms' = ms) by congruence. subst ms'. eapply texts_in; eassumption.
    - destruct (image_tuple _ _ _ IM) as (js & -> & F). apply accept_by_expansion; [forms | forms | | discriminate].
      intros force d Hd _ Ex. apply exp_tuple in Ex. destruct Ex as (ds & Fd & ->). apply accepts_intro.
      pose proof (Forall2_length_eq _ _ _ _ _ F) as Lj.
      constructor; [apply holds_type; reflexivity | constructor; [|constructor; [|constructor; [|constructor]]]]; cbn [fst snd].
      + apply holds_min_items. lia.
      + apply holds_max_items. lia.
      + apply holds_prefix. intros s x I.
        assert (X : exists t v dw, In (t, v) (combine ts vs) /\ image E v x /\ schema_of E S false t dw /\ s = JObj dw /\ In dw ds).
        { clear - Fd F L I. revert vs js F L I. induction Fd as [|t dw ts ds A Fd IH]; intros vs js F L I; [destruct I|].
          destruct vs as [|v vs]; [discriminate L|]. inversion F as [|? ? ? ? F1 F2]; subst. cbn [combine map In length] in *.
          destruct I as [Q|I]; [injection Q as <- <-; exists t, v, dw; auto 6|]. injection L as L. destruct (IH _ _ F2 L I) as (t' & v' & dw' & X1 & X2 & X3 & X4 & X5).
          exists t', v', dw'. auto 6. }
        destruct X as (t & v & dw & X1 & X2 & X3 & -> & X5). eapply (proj1 (IH t v X1 (fun w W => IN w (SpecRoundTrip.in_tuple _ _ _ (in_combine_r _ _ _ _ X1) W)) x X2)); [|exact X3].
        eapply held_list; [exact Hd | right; left; reflexivity | right; right; right; left; reflexivity | apply in_map; exact X5].
    - apply accept_by_expansion; [forms | forms | | discriminate].
      intros force d Hd _ Ex. apply exp_union in Ex. destruct Ex as (ds & Fd & ->).
      apply Forall2_app_inv_l in Fd. destruct Fd as (d1 & d2 & F1 & F2 & ->). inversion F2 as [|? dw ? d2' Sw F3]; subst.
      assert (Hm : forall dx, In dx (d1 ++ dw :: d2') -> held dx).
      { intros dx Ix. eapply held_list; [exact Hd | left; reflexivity | left; reflexivity | apply in_map; exact Ix]. }
      apply accepts_intro. constructor; [|constructor]. cbn [fst snd]. rewrite map_app. cbn [map]. apply holds_one.
      + eapply (proj1 (IH IN j IM)); [apply Hm, in_app_iff; right; left; reflexivity | exact Sw].
      + intros x Ix. assert (X : exists u dx, (In u ts1 \/ In u ts2) /\ schema_of E S false u dx /\ x = JObj dx /\ In dx (d1 ++ dw :: d2')).
        { destruct Ix as [Ix|Ix]; apply in_map_iff in Ix; destruct Ix as (dx & <- & Ix).
          - destruct (Forall2_in_r _ _ _ _ _ _ F1 Ix) as (u & Iu & Su). exists u, dx. split; [left; exact Iu | split; [exact Su | split; [reflexivity|]]].
            apply in_app_iff. left. exact Ix.
          - destruct (Forall2_in_r _ _ _ _ _ _ F3 Ix) as (u & Iu & Su). exists u, dx. split; [right; exact Iu | split; [exact Su | split; [reflexivity|]]].
            apply in_app_iff. right. right. exact Ix. }
        destruct X as (u & dx & Iu & Su & -> & Id). eapply (proj1 (alien_rejected m u j (AL u j Iu IM))); [apply Hm; exact Id | exact Su].
    - assert (Ij : j = c).
      { destruct l; try discriminate LJ; injection LJ as <-; cbn [lit_value] in IM; apply image_scalar in IM; try exact Logic.I; inversion IM; reflexivity. }
      subst j. apply accept_by_expansion; [forms | forms | | discriminate].
      intros force d Hd _ Ex. apply exp_literal in Ex. destruct Ex as (l' & c' & dw & Q & LJ' & Sw & ->). injection Q as <-. rewrite LJ in LJ'. injection LJ' as <-.
      apply accepts_holding. apply schema_of_inv in Sw.
      destruct Sw as [Sw|[(Sw & _)|[(w & md & d0 & Q & _)|[(w & md & Q & _)|(_ & Sw & _)]]]]; destruct l; try discriminate LJ; try discriminate Sw; try discriminate Q;
        injection LJ as <-; injection Sw as <-; (apply holding_set; [constructor; [intros kws; apply holds_type; reflexivity | constructor]|]);
        intros kws; apply holds_const; cbn [fst snd same num_of]; try reflexivity.
      + apply eqb_reflx.
      + unfold num_eqb. rewrite num_cmp_int, Z.compare_refl. reflexivity.
      + apply pystr_eqb_refl.
    - destruct (IH IN j IM) as (_ & IH2). split; [|intros force d _ _ (n & u & u' & Q); discriminate Q].
      apply (lift_annot E S doc CO LK (fun d => accepts (JObj d) j)).
      + intros d d' C. apply accepts_core, C.
      + intros r d P. apply accepts_by_ref, P.
      + exact IH2.
      + intros d0 d B Rk. destruct t as [k| | | | | | | | | | |]; try discriminate B. inversion FT as [? ? ? A T| | | | | | | | | |]; subst.
        pose proof (image_scalar _ _ _ IM (scalar_value _ _ T)) as SI. pose proof (scalar_holding _ _ _ _ A (IN _ (SpecRoundTrip.in_self _)) T SI B) as F0.
        assert (O' : forall a, In a md -> obeys a j) by (intros a Ia; eapply O; [reflexivity | exact Ia | exact IM]).
        apply accepts_holding. destruct Rk as [f Af|].
        * apply holding_upd; [exact F0|]. constructor; [|constructor]. intros kws. apply holds_format. eapply auxiliary_asserted; eassumption.
        * apply with_metadata_holding; assumption.
    - destruct (lift_ref E S doc CO LK (fun d => accepts (JObj d) j)) with (m := m) (s := s) (a := a) (t := t) as (A & B).
      + intros d d' C. apply accepts_core, C.
      + intros r d P. apply accepts_by_ref, P.
      + exact L.
      + exact (proj1 (IH IN j IM)).
      + split; [exact A | intros force d Hd _; apply B; exact Hd].
    - pose proof (image_enum _ _ _ _ _ _ G K T IM) as Im. apply accept_by_expansion; [forms | forms | | discriminate].
      intros force d _ _ Ex. eapply exp_enum in Ex; [|exact G | exact K].
      assert (X : existsb (same j) (map snd ms) = true).
      { apply existsb_exists. exists j. split; [apply in_map_iff; exists (x, j); auto | eapply SE; exact Im]. }
      unfold enum_to_schema in Ex. apply bind_ok in Ex. destruct Ex as (ks & Ks & Ex).
      destruct ks as [|k [|? ?]]; try discriminate Ex. apply enum_types in Ks. destruct Ks as (Ka & _). pose proof (Ka x j Im) as Jk.
      assert (Y : forall s, is_type s j = Some true -> Ok (describe S (TClass c) [(str "type", JStr s); (str "enum", JArr (map snd ms))]) = Ok d -> accepts (JObj d) j).
      { intros s Ty Q. injection Q as <-. eapply accepts_core; [symmetry; unfold core; apply (describe_filter (fun k => negb (note k))); reflexivity|].
        apply accepts_intro. constructor; [apply holds_type; exact Ty | constructor; [apply holds_enum; exact X | constructor]]. }
      destruct j; try discriminate Jk; injection Jk as <-; cbn [simple_type_to_schema] in Ex; try (eapply Y; [|exact Ex]; reflexivity).
      injection Ex as <-. eapply accepts_core; [symmetry; unfold core; apply (describe_filter (fun k => negb (note k))); reflexivity|].
      apply accepts_intro. constructor; [apply holds_type; reflexivity | constructor].
    - destruct (image_object _ _ _ _ G T IM) as (o & ->). apply accept_by_expansion; [forms | forms | | discriminate].
      intros force d Hd _ Ex. pose proof (exp_object _ _ _ _ _ _ _ G NE P Ex) as [CS (props & req & C & Rf & K1 & K2 & M)].
      apply (accepts_core asserts doc (object_schema props req)); [rewrite C; unfold object_schema; destruct props, req; reflexivity|].
      pose proof (M (distinct_out _ (field_names _ _ _ G P) D)) as MS.
      assert (X : ps = [] \/ exists l pso, present attrs ps l /\
        Forall2 (fun f p => prop_name (fst (fst f)) (snd (fst f)) (fst p) /\ image E (snd f) (snd p)) l pso /\ merged pso o).
      { destruct ps as [|[x0 t0] ps0] eqn:Qps; [left; reflexivity | right]. rewrite <- Qps in *.
        assert (An : annotated cl) by (eapply properties_annotated; [exact NE | exact P | rewrite Qps; left; reflexivity]).
        destruct (image_fields _ _ _ _ _ G T An IM) as (fs & l & pso & o' & Q & P' & PR & F & Mg). injection Q as <-.
        assert (Qf : fs = ps) by congruence. subst fs. eauto. }
      assert (Fields : forall p x, In (p, x) o -> ps <> [] -> exists y t, In (y, t) ps /\ p = out_name y t /\
        forall w, (if is_type_optional t then unwrap_optional t = Ok w else w = t) -> welcomed w x).
      { intros p x I Np. destruct X as [X|(l & pso & PR & F & Mg)]; [contradiction|].
        apply (merged_in _ _ _ _ Mg) in I. destruct (Forall2_in_r _ _ _ _ _ _ F I) as ([[y t] w] & Il & Pn & Im). cbn [fst snd] in *.
        destruct (present_in _ _ _ _ _ _ PR Il) as (Iy & Gw & Nw). exists y, t. split; [exact Iy|]. split; [eapply member_name; [|exact Pn]; intros k; eapply KW; exact Iy|].
        intros r W. eapply IH; [exact Iy | exact Gw | exact Nw | | intros u Iu; apply IN; eapply SpecRoundTrip.in_object; [apply dict_get_in; exact Gw | exact Iu] | exact Im]. apply read_by; [eapply properties_canonical; eassumption | exact W]. }
      apply accepts_intro. unfold object_schema at 2. apply Forall_app. split; [constructor; [apply holds_type; reflexivity | constructor]|].
      apply Forall_app. split.
      + destruct props as [|p0 props0] eqn:Qp; [constructor|]. rewrite <- Qp in *.
        assert (Np : ps <> []).
        { intros ->. destruct p0 as [p0 j0]. destruct (proj1 (K1 p0)) as (x & t & [] & _). rewrite Qp. left. reflexivity. }
        assert (Ip : In (str "properties", JObj props) (object_schema props req)) by (unfold object_schema; rewrite Qp; right; left; reflexivity).
        constructor; [|constructor; [|constructor]]; cbn [fst snd].
        * apply holds_properties. intros p x s I Gs. destruct (Fields p x I Np) as (y & t & Iy & -> & Wl).
          destruct (MS y t Iy) as (w & d0 & dx & W & Sw & Cx & Rx & Gx). assert (Qs : s = JObj dx) by congruence. subst s.
          eapply accepts_core; [symmetry; exact Cx|]. eapply (proj1 (Wl w W)); [|exact Sw].
          intros r R. apply Hd, Rf. eapply rf_named; [left; reflexivity | exact Ip | apply dict_get_in; exact Gx | apply Rx; exact R].
        * apply holds_additional. intros p x I Nk. exfalso. apply Nk. destruct (Fields p x I Np) as (y & t & Iy & -> & _).
          unfold known_properties, object_schema. rewrite Qp.
          change (In (out_name y t) (map fst (p0 :: props0))). rewrite <- Qp. apply K1. eauto.
      + destruct req as [|r0 req0] eqn:Qr; [constructor|]. rewrite <- Qr in *. constructor; [|constructor]. cbn [fst snd].
        apply holds_required. intros p I. apply K2 in I. destruct I as (x & t & Ix & -> & Op).
        destruct X as [->|(l & pso & PR & F & Mg)]; [destruct Ix|].
        assert (Pv : exists w, dict_get attrs x = Some w).
        { clear - PR Ix. induction PR as [|y u fs l D PR IH|y u fs w l D Nw PR IH]; [destruct Ix|..];
            (destruct Ix as [Q|Ix]; [injection Q as -> ->; eauto | auto]). }
        destruct Pv as (w & Gw). destruct (value_none_dec w) as [->|Nw].
        { pose proof (NN x t Ix Gw) as O. apply is_type_optional_spec in O. congruence. }
        pose proof (present_has _ _ _ _ _ _ PR Ix Gw Nw) as Il. destruct (Forall2_in_l _ _ _ _ _ _ F Il) as ([p i] & Ip & Pn & _). cbn [fst snd] in *.
        rewrite <- (member_name x t p (fun k => KW x t k Ix) Pn). apply (proj2 (merged_keys _ _ Mg)). apply in_map_iff. exists (p, i). auto.
  Qed.
End Valid.

(** ** Documents *)

Theorem valid_document_for : forall V asserts E S n k m t doc v j, env_ok E -> canonical_env E -> lenient_for V asserts -> coherent E S ->
  s_path S = str "#/definitions/" -> classdef_to_schema E S n k t = Ok doc ->
  (forall s, lost E S t s -> exists sch, defined doc s sch) ->
  fits E m t v -> (forall w, SpecRoundTrip.inside v w -> V w) -> image E v j -> satisfies asserts doc j.
Proof.
  intros V asserts E S n k m t doc v j OK CE LE CO P H L F IN IM.
  pose proof (document_linked E S CO n k t doc P H L) as LK.
  pose proof (fits_accepted asserts E S doc CE CO LK OK V LE m t v F IN j IM) as (W & _).
  apply document_shape in H. destruct H as (d & u & defs & A & _ & _ & Q).
  unfold satisfies. rewrite Q at 2. eapply accepts_core with (kws := d).
  - unfold core, definitions_of. destruct (sort_attrs defs); reflexivity.
  - eapply W; [|exists n, [], u; exact A]. intros r R. rewrite Q. apply (proj2 (refers_one_member _ _)).
    apply (proj1 (refers_one_member _ _)) in R. destruct R as (k' & x & I & B & R). exists k', x. split; [|auto].
    right. apply in_app_iff. right. exact I.
Qed.

Theorem valid_document : forall asserts E S n k m t doc v j, env_ok E -> canonical_env E -> lenient asserts -> coherent E S ->
  s_path S = str "#/definitions/" -> classdef_to_schema E S n k t = Ok doc ->
  (forall s, lost E S t s -> exists sch, defined doc s sch) ->
  fits E m t v -> image E v j -> satisfies asserts doc j.
Proof.
  intros asserts E S n k m t doc v j OK CE LE CO P H L F IM. eapply (valid_document_for (fun _ => True)); try eassumption; [|intros; exact Logic.I].
  destruct LE as [A B C]. split; [intros; eapply A; eassumption | exact B | exact C].
Qed.

Theorem alien_document : forall asserts E S n k m t doc j, canonical_env E -> env_ok E -> coherent E S ->
  s_path S = str "#/definitions/" -> classdef_to_schema E S n k t = Ok doc ->
  (forall s, lost E S t s -> exists sch, defined doc s sch) -> alien E m t j -> violates asserts doc j.
Proof.
  intros asserts E S n k m t doc j CE OK CO P H L A.
  pose proof (document_linked E S CO n k t doc P H L) as LK.
  pose proof (alien_rejected asserts E S doc CE CO LK OK m t j A) as (W & _).
  apply document_shape in H. destruct H as (d & u & defs & B & _ & _ & Q).
  unfold violates. rewrite Q at 2. eapply rejects_core with (kws := d).
  - unfold core, definitions_of. destruct (sort_attrs defs); reflexivity.
  - eapply W; [|exists n, [], u; exact B]. intros r R. rewrite Q. apply (proj2 (refers_one_member _ _)).
    apply (proj1 (refers_one_member _ _)) in R. destruct R as (k' & x & I & B' & R). exists k', x. split; [|auto].
    right. apply in_app_iff. right. exact I.
Qed.
