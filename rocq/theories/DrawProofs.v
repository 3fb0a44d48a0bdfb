(** Proofs about the types for which a schema can be generated. *)
From Coq Require Import String List NArith ZArith Bool Lia.
From Verif Require Import Base Json PyTypes TypeAlgebra TypeAlgebraProofs Lists Deser Ser SerFacts TypingFacts Catalog Schema SpecTypes SpecTagged SpecGenerate SpecValid SpecDraw
  SchemaProofs.
Import ListNotations.
Open Scope list_scope.
Open Scope nat_scope.

(** ** Decisions of the generator *)

Lemma plain_simple : forall t, plain t <-> exists d, simple_type_to_schema t = Some d.
Proof.
  intros t. split.
  - intros (k & -> & A). destruct k; try discriminate A; eexists; reflexivity.
  - intros [d H]. destruct t; try discriminate H. exists k. split; [reflexivity|]. destruct k; try discriminate H; reflexivity.
Qed.

Lemma not_plain : forall t, ~ plain t <-> simple_type_to_schema t = None.
Proof.
  intros t. rewrite plain_simple. destruct (simple_type_to_schema t) as [d|]; split; intros H; auto.
  - destruct H. eauto.
  - discriminate H.
  - intros [d X]. discriminate X.
Qed.

Lemma in_catalog_get : forall S t, in_catalog S t = true <-> exists e, registered S t e.
Proof.
  intros S t. unfold registered.
  assert (X : (forall s, t <> TRef s) -> contains (s_catalog S) t = true <-> exists e, get (s_catalog S) t = Ok e).
  { intros N. destruct t; try (cbn [contains get]; destruct (type_get (by_type (s_catalog S)) _); split;
      [eauto | reflexivity | discriminate | intros [e X]; discriminate X]). destruct (N s eq_refl). }
  destruct t; try (cbn [in_catalog]; rewrite X by discriminate; split; intros [e H]; exists e;
    [split; [exact H | discriminate] | apply H]).
  cbn [in_catalog contains get]. rewrite andb_true_iff. unfold dict_mem. split.
  - intros [F H]. destruct (dict_get (by_name (s_catalog S)) s) as [e|]; [|discriminate H]. exists e. split; [reflexivity|].
    intros s' Q. injection Q as <-. exact F.
  - intros (e & H & F). split; [apply F; reflexivity|]. destruct (dict_get (by_name (s_catalog S)) s); [reflexivity | discriminate H].
Qed.

Lemma in_place_iff : forall S f t, in_place S f t <-> negb f && in_catalog S t = false.
Proof.
  intros S f t. unfold in_place. destruct f; cbn [negb andb]; [split; auto|]. destruct (in_catalog S t) eqn:C.
  - apply in_catalog_get in C. split; [|discriminate]. intros [H|H]; [discriminate H|]. destruct C as [e C]. destruct (H e C).
  - split; [auto|]. intros _. right. intros e R. assert (in_catalog S t = true) by (apply in_catalog_get; eauto). congruence.
Qed.

Lemma proper_union_iff : forall op ts, proper_union ts <-> is_type_union (TUnion op ts) = true.
Proof.
  intros op ts. unfold proper_union, is_type_union. cbn [unwrap_annotated]. rewrite orb_true_iff, Nat.ltb_lt, negb_true_iff.
  assert (X : existsb (typ_eqb (TScalar KNone)) ts = true <-> In none_type ts).
  { rewrite existsb_exists. split; [intros (t & I & Q); apply typ_eqb_eq in Q; subst t; exact I | intros I; eexists; split; [exact I | apply typ_eqb_refl]]. }
  destruct (existsb (typ_eqb (TScalar KNone)) ts); intuition congruence.
Qed.

Lemma shown_iff : forall t r, shown t r <-> (if is_type_optional t then unwrap_optional t else Ok t) = Ok r.
Proof.
  intros t r. unfold shown. pose proof (is_type_optional_spec t) as X. destruct (is_type_optional t).
  - assert (O : optional t) by (apply X; reflexivity). split; [intros [[_ H]|[H _]]; [exact H | destruct (H O)] | auto].
  - assert (O : ~ optional t) by (intros H; apply X in H; discriminate H). split; [intros [[H _]|[_ ->]]; [destruct (O H) | reflexivity]|].
    intros H. right. split; [exact O | congruence].
Qed.

Lemma scalar_dec_nodup : forall (dec : forall a b : scalar, {a = b} + {a <> b}) ks k,
  nodup dec ks = [k] <-> ks <> [] /\ forall x, In x ks -> x = k.
Proof.
  intros dec ks k. split.
  - intros H. split; [intros ->; discriminate H|]. intros x I. apply (nodup_In dec) in I. rewrite H in I. destruct I as [->|[]]. reflexivity.
  - intros [H1 H2]. pose proof (NoDup_nodup dec ks) as D. assert (X : forall x, In x (nodup dec ks) -> x = k) by (intros x I; apply nodup_In in I; auto).
    destruct (nodup dec ks) as [|a [|b l]] eqn:Q.
    + destruct ks as [|a ks]; [destruct H1; reflexivity|]. assert (I : In a (nodup dec (a :: ks))) by (apply nodup_In; left; reflexivity).
      rewrite Q in I. destruct I.
    + rewrite (X a); [reflexivity | left; reflexivity].
    + exfalso. inversion D; subst. apply H3. rewrite (X a), (X b); [left; reflexivity | right; left; reflexivity | left; reflexivity].
Qed.

Lemma scalar_of_values : forall (ms : list (pystr * json)) ks, mapM (fun m => json_scalar (snd m)) ms = Ok ks ->
  Forall2 (fun j k => json_scalar j = Ok k) (map snd ms) ks.
Proof.
  intros ms ks H. apply (proj1 (mapM_ok _ _ _ _ _)) in H. induction H; [constructor | constructor; assumption].
Qed.

Lemma enum_drawn : forall S t ms, (exists d, enum_to_schema S t ms = Ok d) <-> one_type (map snd ms).
Proof.
  intros S t ms. unfold enum_to_schema, enum_value_types. split.
  - intros [d H]. apply bind_ok in H. destruct H as (ks & A & H). apply bind_ok in A. destruct A as (ks0 & A & B).
    injection B as <-. apply scalar_of_values in A. match type of H with match ?nd with _ => _ end = _ => destruct nd as [|k [|k1 ks]] eqn:Q end; try discriminate H.
    apply (proj1 (scalar_dec_nodup _ _ _)) in Q. destruct Q as [Q1 Q2].
    assert (N : map snd ms <> []) by (intros Z; rewrite Z in A; inversion A; subst; contradiction).
    assert (X : forall j, In j (map snd ms) -> json_scalar j = Ok k).
    { intros j I. destruct (Forall2_in_l _ _ _ _ _ _ A I) as (k' & I' & P). rewrite (Q2 _ I') in P. exact P. }
    clear - N X H. destruct k; try discriminate H.
    + apply ot_null; [exact N|]. intros j I. apply X in I. destruct j; try discriminate I; reflexivity.
    + apply ot_bool; [exact N|]. intros j I. apply X in I. destruct j; try discriminate I; eauto.
    + apply ot_int; [exact N|]. intros j I. apply X in I. destruct j; try discriminate I; eauto.
    + apply ot_float; [exact N|]. intros j I. apply X in I. destruct j; try discriminate I; eauto.
    + apply ot_str; [exact N|]. intros j I. apply X in I. destruct j; try discriminate I; eauto.
    + exfalso. destruct (map snd ms) as [|j r]; [contradiction|]. specialize (X j (or_introl eq_refl)). destruct j; discriminate X.
    + exfalso. destruct (map snd ms) as [|j r]; [contradiction|]. specialize (X j (or_introl eq_refl)). destruct j; discriminate X.
    + exfalso. destruct (map snd ms) as [|j r]; [contradiction|]. specialize (X j (or_introl eq_refl)). destruct j; discriminate X.
    + exfalso. destruct (map snd ms) as [|j r]; [contradiction|]. specialize (X j (or_introl eq_refl)). destruct j; discriminate X.
    + exfalso. destruct (map snd ms) as [|j r]; [contradiction|]. specialize (X j (or_introl eq_refl)). destruct j; discriminate X.
    + exfalso. destruct (map snd ms) as [|j r]; [contradiction|]. specialize (X j (or_introl eq_refl)). destruct j; discriminate X.
  - intros O.
    assert (X : exists k, map snd ms <> [] /\ (forall j, In j (map snd ms) -> json_scalar j = Ok k) /\
      match k with KNone | KBool | KInt | KFloat | KStr => True | _ => False end).
    { destruct O as [js N H|js N H|js N H|js N H|js N H];
        [exists KNone | exists KBool | exists KInt | exists KFloat | exists KStr]; (split; [exact N|]; split; [|exact Logic.I]);
        intros j I; specialize (H j I); [rewrite H|destruct H as [x ->] ..]; reflexivity. }
    destruct X as (k & N & X & K).
    assert (A : mapM (fun m => json_scalar (snd m)) ms = Ok (map (fun _ => k) ms)).
    { clear - X. induction ms as [|m r IH]; [reflexivity|]. cbn [mapM map]. rewrite (X (snd m)) by (left; reflexivity). cbn [bind].
      rewrite IH; [reflexivity|]. intros j I. apply X. right. exact I. }
    rewrite A. cbn [bind].
    match goal with |- context [nodup ?dec ?l] => assert (Q : nodup dec l = [k]) end.
    { apply scalar_dec_nodup. split.
      - intros Z. apply N. destruct ms; [reflexivity | discriminate Z].
      - intros x I. apply in_map_iff in I. destruct I as (? & <- & _). reflexivity. }
    rewrite Q. destruct k; try contradiction; eexists; reflexivity.
Qed.

Lemma value_text_ok : forall j, (exists s, value_text j = Ok s) <-> match j with JFloat _ | JArr _ | JObj _ => False | _ => True end.
Proof. intros j. destruct j as [|[]| | | | |]; cbn; split; intros H; eauto; try (destruct H as [s H]; discriminate H); contradiction. Qed.

Lemma key_drawn : forall E k v, drawn_key E k <-> check_schema_key E k = Ok tt /\ exists d, dict_to_schema E k v = Ok d.
Proof.
  intros E k v. split.
  - intros [->|[->|(c & cl & ms & -> & G & K & H)]]; [split; [reflexivity | eexists; reflexivity] .. |].
    cbn [check_schema_key dict_to_schema]. rewrite G, K. split; [reflexivity|].
    assert (X : exists vs, mapM (fun m => value_text (snd m)) ms = Ok vs).
    { clear - H. induction ms as [|[x j] r IH]; [eexists; reflexivity|]. cbn [mapM snd].
      destruct (proj2 (value_text_ok j) (H x j (or_introl eq_refl))) as [s Q]. rewrite Q. cbn [bind].
      destruct IH as [vs ->]; [|eexists; reflexivity]. intros y i I. apply (H y i). right. exact I. }
    destruct X as [vs ->]. cbn [bind]. destruct (4 <? length vs); eexists; reflexivity.
  - intros [A [d B]]. unfold drawn_key. destruct k as [k|b|w|w|k w|ts|op ts|ls|w md|c|s|]; try discriminate A.
    + destruct k; try discriminate A; auto.
    + destruct w; discriminate B.
    + right. right. cbn [check_schema_key dict_to_schema] in *. destruct (get_class E c) as [cl|] eqn:G; [|discriminate A].
      destruct (c_kind cl) as [ms| | | |] eqn:K; try discriminate A. exists c, cl, ms. split; [reflexivity|]. split; [exact G|]. split; [exact K|].
      intros x j I. apply bind_ok in B. destruct B as (vs & B & _). apply (proj1 (mapM_ok _ _ _ _ _)) in B.
      destruct (Forall2_in_l _ _ _ _ _ _ B I) as (s & _ & Q). apply value_text_ok. eauto.
Qed.

Lemma default_ok : forall E S c x, default_written E S c x <-> exists d, default_schema E S c x = Ok d.
Proof.
  intros E S c x. unfold default_written, default_schema. destruct (dict_get (s_attrs S c) x) as [v|].
  - split.
    + intros H. specialize (H v eq_refl). destruct v; try (eexists; reflexivity); destruct (H Logic.I) as [j ->]; eexists; reflexivity.
    + intros [d H] v' Q X. injection Q as <-. destruct v; try contradiction; apply bind_ok in H; destruct H as (j & H & _); eauto.
  - split; [intros _; eexists; reflexivity | intros _ v Q; discriminate Q].
Qed.

Lemma finish_ok : forall E S c x d, default_written E S c x <-> exists d', finish_property E S c x d = Ok d'.
Proof.
  intros E S c x d. rewrite default_ok. unfold finish_property. split.
  - intros [df ->]. cbn [bind]. destruct (text_or_none (dict_get (s_props S c) x)); eexists; reflexivity.
  - intros [d' H]. apply bind_ok in H. destruct H as (df & H & _). eauto.
Qed.

Lemma lit_const_ok : forall l j, lit_const l = Ok j <-> lit_json l = Some j.
Proof. intros [| | | | |] j; cbn; split; congruence. Qed.

Lemma lit_plain : forall l j, lit_json l = Some j -> plain (lit_type l).
Proof. intros [| | | | |] j H; try discriminate H; (eexists; split; [reflexivity | reflexivity]). Qed.

(** ** What is recorded *)

Definition notes (u R u' : list (pystr * typ)) : Prop :=
  (forall s, In s (map fst u') <-> In s (map fst u) \/ In s (map fst R)) /\
  (forall s t, In (s, t) u' -> In (s, t) u \/ In (s, t) R) /\
  (NoDup (map fst u) -> NoDup (map fst u')).

Lemma notes_refl : forall u, notes u [] u.
Proof. intros u. split; [|split]; [intros s; cbn; tauto | intros s t; cbn; tauto | auto]. Qed.

Lemma notes_app : forall u R u' R' u'', notes u R u' -> notes u' R' u'' -> notes u (R ++ R') u''.
Proof.
  intros u R u' R' u'' (A1 & A2 & A3) (B1 & B2 & B3). split; [|split].
  - intros s. rewrite B1, A1, map_app, in_app_iff. tauto.
  - intros s t I. rewrite in_app_iff. destruct (B2 s t I) as [J|J]; [|auto]. destruct (A2 s t J); auto.
  - auto.
Qed.

Lemma notes_set : forall u s t, notes u [(s, t)] (dict_set u s t).
Proof.
  intros u s t. split; [|split].
  - intros x. rewrite dict_set_keys. cbn [map fst In]. intuition congruence.
  - intros x w I. apply dict_set_in in I. destruct I as [[-> ->]|I]; [right; left; reflexivity | auto].
  - apply dict_set_nodup.
Qed.

Lemma notes_default : forall u s t, notes u [(s, t)] (setdefault u s t).
Proof.
  intros u s t. split; [|split].
  - intros x. rewrite setdefault_keys. cbn [map fst In]. intuition congruence.
  - intros x w I. unfold setdefault in I. destruct (dict_mem u s); [auto|]. apply notes_set. exact I.
  - unfold setdefault. destruct (dict_mem u s); [auto|]. apply dict_set_nodup.
Qed.

(** ** Only drawable types have schemas *)

Section Sound.
  Variables (E : env) (S : senv) (rec : bool -> typ -> used -> res (sdict * used)).
  Hypothesis Hrec : forall f t u d u', rec f t u = Ok (d, u') -> exists R, draw E S f t R /\ notes u R u'.

  Lemma seq_sound : forall ts u js u', seq_schema (rec false) ts u = Ok (js, u') -> exists R, draw_all E S ts R /\ notes u R u'.
  Proof.
    induction ts as [|t ts IH]; intros u js u' H; cbn [seq_schema] in H.
    - injection H as <- <-. exists []. split; [constructor | apply notes_refl].
    - apply bind_ok in H. destruct H as ([d u1] & A & H). apply bind_ok in H. destruct H as ([js1 u2] & B & H). cbn [fst snd] in *. injection H as <- <-.
      destruct (Hrec _ _ _ _ _ A) as (R & D & P). destruct (IH _ _ _ B) as (R' & D' & P').
      exists (R ++ R'). split; [constructor; assumption | eapply notes_app; eassumption].
  Qed.

  Lemma fields_sound : forall c ps props req u x, properties_schema (rec false) E S c ps props req u = Ok x ->
    exists R, draw_fields E S c ps R /\ notes u R (snd x).
  Proof.
    intros c ps. induction ps as [|[x t] ps IH]; intros props req u y H; cbn [properties_schema] in H.
    - injection H as <-. exists []. split; [constructor | apply notes_refl].
    - apply bind_ok in H. destruct H as (w & A & H). apply bind_ok in H. destruct H as ([d u1] & B & H).
      apply bind_ok in H. destruct H as (d' & F & H). cbn [fst snd] in *.
      destruct (Hrec _ _ _ _ _ B) as (R & D & P). destruct (IH _ _ _ _ H) as (R' & D' & P').
      exists (R ++ R'). split; [|eapply notes_app; eassumption]. econstructor; [apply shown_iff; exact A | exact D | | exact D'].
      eapply finish_ok. eauto.
  Qed.

  Lemma expand_sound : forall f t u d u', expand E S rec f t u = Ok (d, u') -> simple_type_to_schema t = None -> exists R, spell E S f t R /\ notes u R u'.
  Proof.
    intros f t u d u' H N. destruct t as [k|b|w|w|k w|ts|op ts|ls|w md|c|s|]; cbn [expand] in H; try discriminate H.
    - injection H as <- <-. exists []. split; [|apply notes_refl]. constructor. destruct k; try discriminate N; reflexivity.
    - injection H as <- <-. exists []. split; [constructor | apply notes_refl].
    - apply bind_ok in H. destruct H as ([x u1] & A & H). cbn [fst snd] in H. injection H as <- <-.
      destruct (Hrec _ _ _ _ _ A) as (R & D & P). exists R. split; [constructor|]; assumption.
    - apply bind_ok in H. destruct H as ([x u1] & A & H). cbn [fst snd] in H. injection H as <- <-.
      destruct (Hrec _ _ _ _ _ A) as (R & D & P). exists R. split; [constructor|]; assumption.
    - apply bind_ok in H. destruct H as ([] & K & H). apply bind_ok in H. destruct H as ([x u1] & A & H). cbn [fst snd] in H.
      apply bind_ok in H. destruct H as (d0 & B & H). injection H as <- <-.
      destruct (Hrec _ _ _ _ _ A) as (R & D & P). exists R. split; [constructor|]; try assumption. eapply key_drawn. split; [exact K | eauto].
    - apply bind_ok in H. destruct H as ([x u1] & A & H). cbn [fst snd] in H. injection H as <- <-.
      destruct (seq_sound _ _ _ _ A) as (R & D & P). exists R. split; [constructor|]; assumption.
    - destruct (is_type_union (TUnion op ts)) eqn:U; [|discriminate H].
      apply bind_ok in H. destruct H as ([x u1] & A & H). cbn [fst snd] in H. injection H as <- <-.
      destruct (seq_sound _ _ _ _ A) as (R & D & P). exists R. split; [constructor|]; try assumption. eapply proper_union_iff. exact U.
    - destruct ls as [|l [|]]; try discriminate H. apply bind_ok in H. destruct H as (j & L & H). apply bind_ok in H. destruct H as ([x u1] & A & H).
      cbn [fst snd] in H. injection H as <- <-. apply lit_const_ok in L. destruct (Hrec _ _ _ _ _ A) as (R & D & P).
      assert (R = []) as ->. { pose proof (lit_plain _ _ L) as PL. inversion D; subst; try reflexivity; try contradiction.
        all: destruct l; discriminate. }
      exists []. split; [econstructor; exact L | exact P].
    - destruct (get_class E c) as [cl|] eqn:G; [|discriminate H].
      assert (X : not_enum cl -> (do ps <- class_properties E cl;
              do x <- properties_schema (rec false) E S c ps [] [] u;
              Ok (describe S (TClass c) (object_schema (fst (fst x)) (snd (fst x))), snd x)) = Ok (d, u') ->
              exists R, spell E S f (TClass c) R /\ notes u R u').
      { intros NE Q. apply bind_ok in Q. destruct Q as (ps & A & Q). apply bind_ok in Q. destruct Q as (x & B & Q). injection Q as <- <-.
        destruct (fields_sound _ _ _ _ _ _ B) as (R & D & P). exists R. split; [|exact P]. eapply sl_class; eassumption. }
      destruct (c_kind cl) as [ms| | | |] eqn:K; try (apply X; [intros ms Q; congruence | exact H]).
      apply bind_ok in H. destruct H as (d0 & A & H). injection H as <- <-. exists []. split; [|apply notes_refl].
      eapply sl_enum; [exact G | exact K | eapply enum_drawn; eauto].
    - destruct f.
      + destruct (s_eval S s) as [w|] eqn:V; [|discriminate H]. destruct (Hrec _ _ _ _ _ H) as (R & D & P). exists R. split; [|exact P].
        eapply sl_text_forced; eassumption.
      + destruct (s_eval S s) as [w|] eqn:V; injection H as <- <-.
        * exists [(s, w)]. split; [constructor; exact V | apply notes_set].
        * exists []. split; [constructor; exact V | apply notes_refl].
  Qed.
End Sound.

Theorem schema_sound : forall E S n f t u d u', type_to_schema E S n f t u = Ok (d, u') -> exists R, draw E S f t R /\ notes u R u'.
Proof.
  intros E S n. induction n as [|n IH]; intros f t u d u' H; [discriminate H|]. cbn [type_to_schema] in H.
  destruct (simple_type_to_schema t) as [d0|] eqn:B.
  { injection H as <- <-. exists []. split; [|apply notes_refl]. constructor. apply plain_simple. eauto. }
  pose proof (proj2 (not_plain t) B) as NP.
  destruct (negb f && in_catalog S t) eqn:C.
  { apply andb_true_iff in C. destruct C as [F C]. destruct f; [discriminate F|]. apply in_catalog_get in C. destruct C as [e' C].
    apply bind_ok in H. destruct H as (e & G & H). cbv zeta in H. injection H as <- <-.
    exists [(en_identifier e, t)]. split; [|apply notes_default]. constructor; [exact NP|]. split; [exact G | apply C]. }
  pose proof (proj2 (in_place_iff S f t) C) as IP.
  assert (X : ~ is_annotated t -> expand E S (type_to_schema E S n) f t u = Ok (d, u') -> exists R, draw E S f t R /\ notes u R u').
  { intros NA Q. destruct (expand_sound _ _ _ IH _ _ _ _ _ Q B) as (R & D & P). exists R. split; [|exact P]. apply dr_in_place; assumption. }
  destruct t as [k|b|w|w|k w|ts|op ts|ls|w md|c|s|]; try (apply X; [exact (fun Q => Q) | exact H]).
  destruct (simple_type_to_schema w) as [d0|] eqn:B0.
  - exists []. assert (u' = u) as -> by (destruct (get_auxiliary_format (TAnnot w md)); congruence).
    split; [|apply notes_refl]. apply dr_annot_plain; [apply plain_simple; eauto | exact IP].
  - destruct (expand_sound _ _ _ IH _ _ _ _ _ H B0) as (R & D & P). exists R. split; [|exact P].
    apply dr_annot; [apply not_plain; exact B0 | exact IP | exact D].
Qed.

(** ** A larger budget does not change the outcome *)

Section Mono.
  Variables (E : env) (S : senv) (rec rec' : bool -> typ -> used -> res (sdict * used)).
  Hypothesis Hrec : forall f t u x, rec f t u = Ok x -> rec' f t u = Ok x.

  Lemma seq_mono : forall f ts u x, seq_schema (rec f) ts u = Ok x -> seq_schema (rec' f) ts u = Ok x.
  Proof.
    intros f. induction ts as [|t ts IH]; intros u x H; cbn [seq_schema] in *; [exact H|].
    apply bind_ok in H. destruct H as (y & A & H). rewrite (Hrec _ _ _ _ A). cbn [bind].
    apply bind_ok in H. destruct H as (z & B & H). rewrite (IH _ _ B). exact H.
  Qed.

  Lemma properties_mono : forall f c ps props req u x,
    properties_schema (rec f) E S c ps props req u = Ok x -> properties_schema (rec' f) E S c ps props req u = Ok x.
  Proof.
    intros f c ps. induction ps as [|[x t] ps IH]; intros props req u y H; cbn [properties_schema] in *; [exact H|].
    apply bind_ok in H. destruct H as (w & A & H). rewrite A. cbn [bind].
    apply bind_ok in H. destruct H as (z & B & H). rewrite (Hrec _ _ _ _ B). cbn [bind].
    apply bind_ok in H. destruct H as (d & F & H). rewrite F. cbn [bind]. apply IH. exact H.
  Qed.

  Lemma expand_mono : forall f t u x, expand E S rec f t u = Ok x -> expand E S rec' f t u = Ok x.
  Proof.
    intros f t u x H. destruct t as [k|b|w|w|k w|ts|op ts|ls|w md|c|s|]; cbn [expand] in *; try exact H.
    - apply bind_ok in H. destruct H as (y & A & H). rewrite (Hrec _ _ _ _ A). exact H.
    - apply bind_ok in H. destruct H as (y & A & H). rewrite (Hrec _ _ _ _ A). exact H.
    - apply bind_ok in H. destruct H as (z & K & H). rewrite K. cbn [bind]. apply bind_ok in H. destruct H as (y & A & H). rewrite (Hrec _ _ _ _ A). exact H.
    - apply bind_ok in H. destruct H as (y & A & H). rewrite (seq_mono _ _ _ _ A). exact H.
    - destruct (is_type_union (TUnion op ts)); [|exact H]. apply bind_ok in H. destruct H as (y & A & H). rewrite (seq_mono _ _ _ _ A). exact H.
    - destruct ls as [|l [|]]; try exact H. apply bind_ok in H. destruct H as (j & L & H). rewrite L. cbn [bind].
      apply bind_ok in H. destruct H as (y & A & H). rewrite (Hrec _ _ _ _ A). exact H.
    - destruct (get_class E c) as [cl|]; [|exact H]. destruct (c_kind cl); try exact H;
        (apply bind_ok in H; destruct H as (ps & P & H); rewrite P; cbn [bind];
         apply bind_ok in H; destruct H as (y & A & H); rewrite (properties_mono _ _ _ _ _ _ _ A); exact H).
    - destruct f; [|exact H]. destruct (s_eval S s); [apply Hrec; exact H | exact H].
  Qed.
End Mono.

Lemma schema_step : forall E S n f t u x, type_to_schema E S n f t u = Ok x -> type_to_schema E S (Datatypes.S n) f t u = Ok x.
Proof.
  intros E S n. induction n as [|n IH]; intros f t u x H; [discriminate H|]. cbn [type_to_schema] in H.
  change (type_to_schema E S (Datatypes.S (Datatypes.S n)) f t u) with (match simple_type_to_schema t with
    | Some d => Ok (d, u)
    | None => if negb f && in_catalog S t then do e <- get (s_catalog S) t; let s := en_identifier e in Ok (ref_to S s, setdefault u s t)
      else match t with
        | TAnnot w md => match simple_type_to_schema w with
            | Some d => match get_auxiliary_format t with Some f => Ok (upd d [(str "format", JStr f)], u) | None => Ok (with_metadata S d md, u) end
            | None => expand E S (type_to_schema E S (Datatypes.S n)) f w u
            end
        | _ => expand E S (type_to_schema E S (Datatypes.S n)) f t u
        end
    end).
  destruct (simple_type_to_schema t) as [d0|]; [exact H|]. destruct (negb f && in_catalog S t); [exact H|].
  destruct t as [k|b|w|w|k w|ts|op ts|ls|w md|c|s|]; try (eapply expand_mono; [exact IH | exact H]).
  destruct (simple_type_to_schema w) as [d0|]; [exact H|]. eapply expand_mono; [exact IH | exact H].
Qed.

Lemma schema_mono : forall E S n m f t u x, n <= m -> type_to_schema E S n f t u = Ok x -> type_to_schema E S m f t u = Ok x.
Proof. intros E S n m f t u x L H. induction L; [exact H | apply schema_step; assumption]. Qed.

Lemma lookup_mono : forall E S n m t u x, n <= m -> type_to_schema_with_lookup E S n t u = Ok x -> type_to_schema_with_lookup E S m t u = Ok x.
Proof.
  intros E S n m t u x L H. unfold type_to_schema_with_lookup in *. apply bind_ok in H. destruct H as (e & G & H). rewrite G. cbn [bind].
  apply bind_ok in H. destruct H as (y & A & H).
  match goal with |- bind ?z _ = _ => assert (z = Ok y) as -> end; [|exact H].
  destruct (en_schema e); [exact A | eapply schema_mono; eassumption].
Qed.

Lemma define_all_mono : forall E S n m todo def u x, n <= m -> define_all E S n todo def u = Ok x -> define_all E S m todo def u = Ok x.
Proof.
  intros E S n m todo. induction todo as [|[s t] r IH]; intros def u x L H; cbn [define_all] in *; [exact H|].
  apply bind_ok in H. destruct H as (y & A & H). rewrite (lookup_mono _ _ _ _ _ _ _ L A). cbn [bind]. apply IH; assumption.
Qed.

Lemma define_loop_mono : forall E S n m k k' def u x, n <= m -> k <= k' -> define_loop E S n k def u = Ok x -> define_loop E S m k' def u = Ok x.
Proof.
  intros E S n m k. induction k as [|k IH]; intros k' def u x L K H; cbn [define_loop] in H.
  - destruct k'; cbn [define_loop]; destruct (length def <? length u); try exact H; discriminate H.
  - destruct k' as [|k']; [lia|]. cbn [define_loop]. destruct (length def <? length u); [|exact H].
    cbv zeta in *. apply bind_ok in H. destruct H as (y & A & H). rewrite (define_all_mono _ _ _ _ _ _ _ _ L A). cbn [bind].
    apply IH; [exact L | lia | exact H].
Qed.

Lemma classdef_mono : forall E S n m k k' t doc, n <= m -> k <= k' -> classdef_to_schema E S n k t = Ok doc -> classdef_to_schema E S m k' t = Ok doc.
Proof.
  intros E S n m k k' t doc L K H. unfold classdef_to_schema in *. apply bind_ok in H. destruct H as (x & A & H).
  assert (generate E S m k' false t = Ok x) as ->; [|exact H]. unfold generate in *.
  assert (X : (do x <- type_to_schema E S n false t []; do defs <- define_loop E S n k [] (snd x); Ok (fst x, sort_attrs defs)) = Ok x ->
    (do x <- type_to_schema E S m false t []; do defs <- define_loop E S m k' [] (snd x); Ok (fst x, sort_attrs defs)) = Ok x).
  { intros Q. apply bind_ok in Q. destruct Q as (y & B & Q). rewrite (schema_mono _ _ _ _ _ _ _ _ L B). cbn [bind].
    apply bind_ok in Q. destruct Q as (z & C & Q). rewrite (define_loop_mono _ _ _ _ _ _ _ _ _ L K C). exact Q. }
  destruct t; try exact (X A). exact A.
Qed.

(** ** Drawable types have schemas *)

Scheme draw_ind' := Minimality for draw Sort Prop
  with spell_ind' := Minimality for spell Sort Prop
  with draw_all_ind' := Minimality for draw_all Sort Prop
  with draw_fields_ind' := Minimality for draw_fields Sort Prop.
Combined Scheme draw_mutual from draw_ind', spell_ind', draw_all_ind', draw_fields_ind'.

Section Complete.
  Variables (E : env) (S : senv).

  Definition drawn (n : nat) (f : bool) (t : typ) (R : list (pystr * typ)) : Prop :=
    forall u, exists d u', type_to_schema E S n f t u = Ok (d, u') /\ notes u R u'.

  Lemma drawn_mono : forall n m f t R, n <= m -> drawn n f t R -> drawn m f t R.
  Proof. intros n m f t R L H u. destruct (H u) as (d & u' & A & P). exists d, u'. split; [eapply schema_mono; eassumption | exact P]. Qed.

  Definition spelled (n : nat) (f : bool) (t : typ) (R : list (pystr * typ)) : Prop :=
    forall u, exists d u', expand E S (type_to_schema E S n) f t u = Ok (d, u') /\ notes u R u'.

  Definition drawn_all (n : nat) (ts : list typ) (R : list (pystr * typ)) : Prop :=
    forall u, exists js u', seq_schema (type_to_schema E S n false) ts u = Ok (js, u') /\ notes u R u'.

  Lemma drawn_all_mono : forall n m ts R, n <= m -> drawn_all n ts R -> drawn_all m ts R.
  Proof.
    intros n m ts R L H u. destruct (H u) as (d & u' & A & P). exists d, u'. split; [|exact P].
    eapply (seq_mono (type_to_schema E S n)); [intros; eapply schema_mono; eassumption | exact A].
  Qed.

  Definition drawn_fields (n : nat) (c : nat) (ps : list (pystr * typ)) (R : list (pystr * typ)) : Prop :=
    forall u props req, exists x, properties_schema (type_to_schema E S n false) E S c ps props req u = Ok x /\ notes u R (snd x).

  Lemma drawn_fields_mono : forall n m c ps R, n <= m -> drawn_fields n c ps R -> drawn_fields m c ps R.
  Proof.
    intros n m c ps R L H u props req. destruct (H u props req) as (x & A & P). exists x. split; [|exact P].
    eapply (properties_mono E S (type_to_schema E S n)); [intros; eapply schema_mono; eassumption | exact A].
  Qed.

  Lemma drawn_spelled : forall n f t R, simple_type_to_schema t = None -> ~ is_annotated t -> in_place S f t -> spelled n f t R -> drawn (Datatypes.S n) f t R.
  Proof.
    intros n f t R B NA IP H u. destruct (H u) as (d & u' & A & P). exists d, u'. split; [|exact P]. cbn [type_to_schema]. rewrite B.
    rewrite (proj1 (in_place_iff S f t) IP). destruct t; try exact A. destruct (NA Logic.I).
  Qed.

  Theorem schema_complete_all :
    (forall f t R, draw E S f t R -> exists n, drawn n f t R) /\
    (forall f t R, spell E S f t R -> exists n, spelled n f t R) /\
    (forall ts R, draw_all E S ts R -> exists n, drawn_all n ts R) /\
    (forall c ps R, draw_fields E S c ps R -> exists n, drawn_fields n c ps R).
  Proof.
    apply draw_mutual.
    - intros f t P. exists 1. intros u. apply plain_simple in P. destruct P as [d P]. exists d, u. cbn [type_to_schema]. rewrite P.
      split; [reflexivity | apply notes_refl].
    - intros t e NP R. exists 1. intros u. apply not_plain in NP. cbn [type_to_schema]. rewrite NP.
      assert (in_catalog S t = true) as -> by (apply in_catalog_get; eauto). cbn [negb andb]. rewrite (proj1 R). cbn [bind].
      eexists _, _. split; [reflexivity | apply notes_default].
    - intros f t md P IP. exists 1. intros u. cbn [type_to_schema simple_type_to_schema]. rewrite (proj1 (in_place_iff _ _ _) IP).
      apply plain_simple in P. destruct P as [d P]. rewrite P. destruct (get_auxiliary_format (TAnnot t md)); eexists _, _; (split; [reflexivity | apply notes_refl]).
    - intros f t md R NP IP _ [n H]. exists (Datatypes.S n). intros u. cbn [type_to_schema simple_type_to_schema]. rewrite (proj1 (in_place_iff _ _ _) IP).
      apply not_plain in NP. rewrite NP. apply H.
    - intros f t R NP NA IP _ [n H]. exists (Datatypes.S n). apply drawn_spelled; [apply not_plain; exact NP | exact NA | exact IP | exact H].
    - intros f k A. exists 0. intros u. eexists _, u. split; [reflexivity | apply notes_refl].
    - intros f b. exists 0. intros u. eexists _, u. split; [reflexivity | apply notes_refl].
    - intros s t R V _ [n H]. exists n. intros u. destruct (H u) as (d & u' & A & P). exists d, u'. split; [|exact P]. cbn [expand]. rewrite V. exact A.
    - intros s t V. exists 0. intros u. eexists _, _. split; [cbn [expand]; rewrite V; reflexivity | apply notes_set].
    - intros s V. exists 0. intros u. eexists _, _. split; [cbn [expand]; rewrite V; reflexivity | apply notes_refl].
    - intros f op ts R U _ [n H]. exists n. intros u. destruct (H u) as (js & u' & A & P). eexists _, u'. split; [|exact P]. cbn [expand].
      rewrite (proj1 (proper_union_iff op ts) U), A. reflexivity.
    - intros f ts R _ [n H]. exists n. intros u. destruct (H u) as (js & u' & A & P). eexists _, u'. split; [|exact P]. cbn [expand]. rewrite A. reflexivity.
    - intros f t R _ [n H]. exists n. intros u. destruct (H u) as (d & u' & A & P). eexists _, u'. split; [|exact P]. cbn [expand]. rewrite A. reflexivity.
    - intros f t R _ [n H]. exists n. intros u. destruct (H u) as (d & u' & A & P). eexists _, u'. split; [|exact P]. cbn [expand]. rewrite A. reflexivity.
    - intros f k t R K _ [n H]. exists n. intros u. destruct (H u) as (d & u' & A & P). cbn [expand].
      destruct (proj1 (key_drawn E k d) K) as [K1 [d' K2]]. eexists _, u'. split; [|exact P]. rewrite K1. cbn [bind]. rewrite A. cbn [bind fst snd]. rewrite K2. reflexivity.
    - intros f l j L. exists 1. intros u. cbn [expand]. rewrite (proj2 (lit_const_ok l j) L). cbn [bind].
      destruct (proj1 (plain_simple _) (lit_plain _ _ L)) as [d D]. cbn [type_to_schema]. rewrite D. eexists _, u. split; [reflexivity | apply notes_refl].
    - intros f c cl ms G K O. exists 0. intros u. cbn [expand]. rewrite G, K. destruct (proj2 (enum_drawn S (TClass c) ms) O) as [d D]. rewrite D.
      eexists _, u. split; [reflexivity | apply notes_refl].
    - intros f c cl ps R G NE P _ [n H]. exists n. intros u. cbn [expand]. rewrite G. destruct (H u [] []) as (x & A & Q).
      destruct (c_kind cl) eqn:K; try (rewrite P; cbn [bind]; rewrite A; eexists _, _; split; [reflexivity | exact Q]).
      destruct (NE _ K).
    - exists 0. intros u. eexists _, _. split; [reflexivity | apply notes_refl].
    - intros t ts R R' _ [n H] _ [m H']. exists (Nat.max n m). intros u.
      destruct (drawn_mono _ _ _ _ _ (Nat.le_max_l n m) H u) as (d & u1 & A & P).
      destruct (drawn_all_mono _ _ _ _ (Nat.le_max_r n m) H' u1) as (js & u2 & A' & P').
      eexists _, u2. split; [|eapply notes_app; eassumption]. cbn [seq_schema]. rewrite A. cbn [bind snd]. rewrite A'. reflexivity.
    - intros c. exists 0. intros u props req. eexists. split; [reflexivity | apply notes_refl].
    - intros c x t r ps R R' Sh _ [n H] D _ [m H']. exists (Nat.max n m). intros u props req. cbn [properties_schema].
      rewrite (proj1 (shown_iff t r) Sh). cbn [bind].
      destruct (drawn_mono _ _ _ _ _ (Nat.le_max_l n m) H u) as (d & u1 & A & P). rewrite A. cbn [bind fst snd].
      destruct (proj1 (finish_ok E S c x d) D) as [d' ->]. cbn [bind].
      match goal with |- context [properties_schema _ E S c ps ?p ?q u1] =>
        destruct (drawn_fields_mono _ _ _ _ _ (Nat.le_max_r n m) H' u1 p q) as (y & A' & P') end.
      exists y. split; [exact A' | eapply notes_app; eassumption].
  Qed.

  Theorem schema_complete : forall f t R, draw E S f t R -> exists n, drawn n f t R.
  Proof. apply schema_complete_all. Qed.
End Complete.

Theorem schema_exists : forall E S f t u,
  (exists n d u', type_to_schema E S n f t u = Ok (d, u')) <-> exists R, draw E S f t R.
Proof.
  intros E S f t u. split.
  - intros (n & d & u' & H). destruct (schema_sound _ _ _ _ _ _ _ _ H) as (R & D & _). eauto.
  - intros [R D]. destruct (schema_complete _ _ _ _ _ D) as [n H]. destruct (H u) as (d & u' & A & _). eauto.
Qed.

(** ** Documents *)

Section Loop.
  Variables (E : env) (S : senv).

  Definition looked_up (n : nat) (t : typ) (R : list (pystr * typ)) : Prop :=
    forall u, exists d u', type_to_schema_with_lookup E S n t u = Ok (d, u') /\ notes u R u'.

  Lemma define_complete : forall t R, define E S t R -> exists n, looked_up n t R.
  Proof.
    intros t R D.
    assert (X : forall e, registered S t e -> (match t with
           | TRef s => if s_forward S s then get (s_catalog S) t else Err EKey
           | _ => get (s_catalog S) t
           end) = Ok e).
    { intros e [G F]. destruct t; try exact G. rewrite (F _ eq_refl). exact G. }
    destruct D as [e d Re Sc|e R Re Sc D].
    - exists 0. intros u. unfold type_to_schema_with_lookup. rewrite (X e Re). cbn [bind]. rewrite Sc. cbn [bind fst snd].
      eexists _, u. split; [reflexivity | apply notes_refl].
    - destruct (schema_complete _ _ _ _ _ D) as [n H]. exists n. intros u. unfold type_to_schema_with_lookup. rewrite (X e Re). cbn [bind]. rewrite Sc.
      destruct (H u) as (d & u' & A & P). rewrite A. cbn [bind fst snd]. eexists _, u'. split; [reflexivity | exact P].
  Qed.

  Lemma looked_up_mono : forall n m t R, n <= m -> looked_up n t R -> looked_up m t R.
  Proof. intros n m t R L H u. destruct (H u) as (d & u' & A & P). exists d, u'. split; [eapply lookup_mono; eassumption | exact P]. Qed.

  (** One budget for all definitions. *)
  Lemma define_budget : forall (G G' : list (pystr * typ)), (forall s t, In (s, t) G -> exists R, define E S t R /\ incl R G') ->
    exists n, forall s t, In (s, t) G -> exists R, looked_up n t R /\ incl R G'.
  Proof.
    induction G as [|[s t] G IH]; intros G' H.
    - exists 0. intros s t [].
    - destruct (IH G') as [n Hn]. { intros s' t' I. apply (H s' t'). right. exact I. }
      destruct (H s t (or_introl eq_refl)) as (R & D & C). destruct (define_complete _ _ D) as [m Hm].
      exists (Nat.max n m). intros s' t' [Q|I].
      + injection Q as <- <-. exists R. split; [eapply looked_up_mono; [apply Nat.le_max_r | exact Hm] | exact C].
      + destruct (Hn _ _ I) as (R' & L & C'). exists R'. split; [eapply looked_up_mono; [apply Nat.le_max_l | exact L] | exact C'].
  Qed.

  Variables (n : nat) (G : list (pystr * typ)).
  Hypothesis Hn : forall s t, In (s, t) G -> exists R, looked_up n t R /\ incl R G.

  Lemma notes_within : forall u R u', notes u R u' -> incl u G -> incl R G -> incl u' G.
  Proof. intros u R u' (_ & H & _) A B [s t] I. destruct (H _ _ I); auto. Qed.

  Lemma define_all_ok : forall todo (def : list (pystr * json)) u, incl todo G -> incl u G -> NoDup (map fst u) -> NoDup (map fst def) ->
    exists def' u', define_all E S n todo def u = Ok (def', u') /\ incl u' G /\ NoDup (map fst u') /\ NoDup (map fst def') /\
      (forall s, In s (map fst def') <-> In s (map fst def) \/ In s (map fst todo)) /\ incl (map fst u) (map fst u').
  Proof.
    induction todo as [|[s t] r IH]; intros def u T U Nu Nd; cbn [define_all].
    - exists def, u. split; [reflexivity|]. split; [exact U|]. split; [exact Nu|]. split; [exact Nd|]. split; [|apply incl_refl]. intros s. cbn. tauto.
    - destruct (Hn s t (T _ (or_introl eq_refl))) as (R & L & C). destruct (L u) as (d & u1 & A & P). rewrite A. cbn [bind fst snd].
      destruct (IH (dict_set def s (JObj d)) u1) as (def' & u' & B & U' & Nu' & Nd' & K & I).
      + intros x X. apply T. right. exact X.
      + eapply notes_within; eassumption.
      + apply P, Nu.
      + apply dict_set_nodup, Nd.
      + exists def', u'. split; [exact B|]. split; [exact U'|]. split; [exact Nu'|]. split; [exact Nd'|]. split.
        * intros x. rewrite K, dict_set_keys. cbn [map fst In]. intuition congruence.
        * intros x X. apply I. apply P. left. exact X.
  Qed.

  Lemma define_loop_ok : forall k (def : list (pystr * json)) u, incl u G -> NoDup (map fst u) -> NoDup (map fst def) -> incl (map fst def) (map fst u) ->
    length G <= length def + k -> exists defs, define_loop E S n k def u = Ok defs.
  Proof.
    induction k as [|k IH]; intros def u U Nu Nd C L; cbn [define_loop]; destruct (length def <? length u) eqn:Q; try (eexists; reflexivity);
      apply Nat.ltb_lt in Q.
    - exfalso. assert (length u <= length G); [|lia]. rewrite <- (map_length fst u), <- (map_length fst G). apply NoDup_incl_length; [exact Nu|].
      intros s I. apply in_map_iff in I. destruct I as (x & <- & I). apply in_map, U, I.
    - cbv zeta. set (todo := filter (fun st => negb (dict_mem def (fst st))) u).
      destruct (define_all_ok todo def u) as (def' & u' & B & U' & Nu' & Nd' & K & I).
      + intros x X. apply filter_In in X. apply U, X.
      + exact U.
      + exact Nu.
      + exact Nd.
      + rewrite B. cbn [bind fst snd]. apply IH; [exact U' | exact Nu' | exact Nd' | |].
        * intros s X. apply K in X. apply I. destruct X as [X|X]; [apply C, X|]. apply in_map_iff in X. destruct X as (y & <- & X).
          apply filter_In in X. apply in_map, X.
        * assert (X : incl (map fst u) (map fst def')).
          { intros s X. apply K. apply in_map_iff in X. destruct X as ([s' t'] & <- & X). cbn [fst].
            destruct (dict_mem def s') eqn:D.
            - left. unfold dict_mem in D. destruct (dict_get def s') eqn:Z; [|discriminate D]. apply dict_get_in in Z. apply (in_map fst) in Z. exact Z.
            - right. apply in_map_iff. exists (s', t'). split; [reflexivity|]. apply filter_In. split; [exact X|]. cbn [fst]. rewrite D. reflexivity. }
          pose proof (NoDup_incl_length Nu X) as Y. rewrite !map_length in Y. lia.
  Qed.
End Loop.

Theorem document_exists : forall E S t R G, t <> TForm -> draw E S false t R -> incl R G -> definable E S G ->
  exists doc n k, forall n' k', n <= n' -> k <= k' -> classdef_to_schema E S n' k' t = Ok doc.
Proof.
  intros E S t R G NF D C H. destruct (schema_complete _ _ _ _ _ D) as [n Hn]. destruct (define_budget _ _ _ _ H) as [m Hm].
  destruct (Hn []) as (d & u & A & P).
  destruct (define_loop_ok E S m G Hm (length G) [] u) as [defs B].
  - eapply notes_within; [exact P | intros x [] | exact C].
  - apply P. constructor.
  - constructor.
  - intros s [].
  - cbn. lia.
  - assert (X : exists doc, classdef_to_schema E S (Nat.max n m) (length G) t = Ok doc).
    { unfold classdef_to_schema, generate. apply (schema_mono _ _ _ (Nat.max n m)) in A; [|lia].
      apply (define_loop_mono _ _ _ (Nat.max n m) _ (length G)) in B; [|lia|lia]. rewrite A. cbn [bind fst snd]. rewrite B. cbn [bind].
      destruct t; try (eexists; reflexivity). destruct (NF eq_refl). }
    destruct X as [doc X]. exists doc, (Nat.max n m), (length G). intros n' k' L K. eapply classdef_mono; eassumption.
Qed.

Lemma define_sound : forall E S n t u d u', type_to_schema_with_lookup E S n t u = Ok (d, u') -> exists R, define E S t R /\ notes u R u'.
Proof.
  intros E S n t u d u' H. unfold type_to_schema_with_lookup in H. apply bind_ok in H. destruct H as (e & G & H).
  assert (Re : registered S t e).
  { destruct t; try (split; [exact G | discriminate]). destruct (s_forward S s) eqn:F; [|discriminate G]. split; [exact G|].
    intros s' Q. injection Q as <-. exact F. }
  apply bind_ok in H. destruct H as ([x u1] & A & H). cbn [fst snd] in H. cbv zeta in H. injection H as _ <-.
  destruct (en_schema e) as [j|] eqn:Sc.
  - destruct j; try discriminate A. injection A as <- <-. exists []. split; [eapply de_given; eassumption | apply notes_refl].
  - destruct (schema_sound _ _ _ _ _ _ _ _ A) as (R & D & P). exists R. split; [eapply de_drawn; eassumption | exact P].
Qed.

(** [G]: what has been defined so far; the names referred to are in [u]. *)
Definition settled_so_far (E : env) (S : senv) (G u : list (pystr * typ)) : Prop :=
  forall s t, In (s, t) G -> exists R, define E S t R /\ incl (map fst R) (map fst u).

Lemma settled_more : forall E S G u u', settled_so_far E S G u -> incl (map fst u) (map fst u') -> settled_so_far E S G u'.
Proof. intros E S G u u' H L s t I. destruct (H s t I) as (R & D & C). exists R. split; [exact D|]. intros x X. apply L, C, X. Qed.

Lemma define_all_sound : forall E S n todo (def : list (pystr * json)) u G def' u', define_all E S n todo def u = Ok (def', u') ->
  settled_so_far E S G u -> (forall s, In s (map fst G) <-> In s (map fst def)) ->
  exists G', settled_so_far E S G' u' /\ (forall s, In s (map fst G') <-> In s (map fst def')) /\ incl (map fst u) (map fst u') /\
    (forall s, In s (map fst def') <-> In s (map fst def) \/ In s (map fst todo)) /\ (NoDup (map fst def) -> NoDup (map fst def')).
Proof.
  intros E S n todo. induction todo as [|[s t] r IH]; intros def u G def' u' H A B; cbn [define_all] in H.
  - injection H as <- <-. exists G. split; [exact A|]. split; [exact B|]. split; [apply incl_refl|]. split; [|auto]. intros s. cbn. tauto.
  - apply bind_ok in H. destruct H as ([d u1] & Q & H). cbn [fst snd] in H. destruct (define_sound _ _ _ _ _ _ _ Q) as (R & D & P).
    destruct P as (P1 & _ & _). assert (L : incl (map fst u) (map fst u1)) by (intros x X; apply P1; auto).
    destruct (IH _ _ ((s, t) :: G) _ _ H) as (G' & A' & B' & L' & K' & N').
    + intros s' t' [Z|I]; [|exact (settled_more _ _ _ _ _ A L s' t' I)]. injection Z as <- <-. exists R. split; [exact D|].
      intros x X. apply P1. auto.
    + intros x. rewrite dict_set_keys. cbn [map fst In]. rewrite B. intuition congruence.
    + exists G'. split; [exact A'|]. split; [exact B'|]. split; [intros x X; apply L', L, X|]. split.
      * intros x. rewrite K', dict_set_keys. cbn [map fst In]. intuition congruence.
      * intros N. apply N', dict_set_nodup, N.
Qed.

Lemma define_loop_sound : forall E S n k (def : list (pystr * json)) u G defs, define_loop E S n k def u = Ok defs ->
  settled_so_far E S G u -> (forall s, In s (map fst G) <-> In s (map fst def)) -> NoDup (map fst def) -> incl (map fst def) (map fst u) ->
  exists G', (forall s t, In (s, t) G' -> exists R, define E S t R /\ incl (map fst R) (map fst G')) /\ incl (map fst u) (map fst G').
Proof.
  intros E S n k. induction k as [|k IH]; intros def u G defs H A B N C; cbn [define_loop] in H; destruct (length def <? length u) eqn:Q.
  1: discriminate H.
  2: { cbv zeta in H. apply bind_ok in H. destruct H as ([def' u'] & D & H). cbn [fst snd] in H.
    destruct (define_all_sound _ _ _ _ _ _ _ _ _ D A B) as (G' & A' & B' & L' & K' & N').
    destruct (IH _ _ _ _ H A' B' (N' N)) as (G'' & A'' & L'').
    - intros s X. apply L'. apply K' in X. destruct X as [X|X]; [apply C, X|]. apply in_map_iff in X. destruct X as (y & <- & X).
      apply filter_In in X. apply in_map, X.
    - exists G''. split; [exact A''|]. intros s X. apply L'', L', X. }
  all: apply Nat.ltb_ge in Q; assert (X : incl (map fst u) (map fst def))
    by (apply NoDup_length_incl; [exact N | rewrite !map_length; exact Q | exact C]);
    exists G; (split; [|intros s I; apply B, X, I]); intros s t I; destruct (A s t I) as (R & D & Y); exists R; (split; [exact D|]);
    intros x Z; apply B, X, Y, Z.
Qed.

Theorem document_needs : forall E S n k t doc, classdef_to_schema E S n k t = Ok doc ->
  exists R G, draw E S false t R /\ incl (map fst R) (map fst G) /\
    forall s w, In (s, w) G -> exists R', define E S w R' /\ incl (map fst R') (map fst G).
Proof.
  intros E S n k t doc H. unfold classdef_to_schema in H. apply bind_ok in H. destruct H as (x & A & _).
  assert (X : (do x <- type_to_schema E S n false t []; do defs <- define_loop E S n k [] (snd x); Ok (fst x, sort_attrs defs)) = Ok x)
    by (destruct t; solve [exact A | discriminate A]).
  apply bind_ok in X. destruct X as ([d u] & B & X). apply bind_ok in X. destruct X as (defs & D & _). cbn [snd] in D.
  destruct (schema_sound _ _ _ _ _ _ _ _ B) as (R & Dr & P).
  destruct (define_loop_sound _ _ _ _ _ _ [] _ D) as (G & Hg & L).
  - intros s w [].
  - intros s. cbn. tauto.
  - constructor.
  - intros s [].
  - exists R, G. split; [exact Dr|]. split; [|exact Hg]. intros s I. apply L. apply P. auto.
Qed.
