(** Schemas are well-formed documents: no keyword, property or definition comes twice. *)
From Coq Require Import String List NArith ZArith Bool Lia Permutation.
From Verif Require Import Base Json PyTypes TypeAlgebra Lists Deser Ser SerFacts Catalog Schema SpecTyping SpecTypes SpecSer SpecSchema SchemaSem SpecGenerate SchemaProofs SpecRewrite RewriteProofs PropSer.
From Verif Require MirrorProofs.
Import ListNotations.
Open Scope list_scope.
Open Scope nat_scope.

Notation wfd d := (json_wf (JObj d)).

Lemma wf_set : forall d k v, wfd d -> json_wf v -> wfd (dict_set d k v).
Proof.
  intros d k v H V. inversion H as [| | | | | |o ND F]; subst. apply wf_obj; [apply SchemaProofs.dict_set_nodup, ND|].
  rewrite Forall_forall in *. intros [k' j] I. apply SchemaProofs.dict_set_in in I. destruct I as [[-> ->]|I]; [exact V | exact (F _ I)].
Qed.

Lemma wf_upd : forall e d, wfd d -> Forall (fun kv => json_wf (snd kv)) e -> wfd (upd d e).
Proof.
  unfold upd. intros e. induction e as [|[k v] e IH]; intros d H F; cbn [fold_left fst snd]; [exact H|].
  inversion F as [|? ? V F']; subst. apply IH; [apply wf_set; assumption | exact F'].
Qed.

Lemma wf_filter : forall d (q : pystr * json -> bool), wfd d -> wfd (filter q d).
Proof.
  intros d q H. inversion H as [| | | | | |o ND F]; subst. apply wf_obj.
  - clear - ND. induction d as [|[k v] d IH]; [constructor|]. cbn [map fst] in ND. inversion ND as [|? ? N ND']; subst. cbn [filter].
    destruct (q (k, v)); [|exact (IH ND')]. cbn [map fst]. constructor; [|exact (IH ND')]. intros I. apply N. apply in_map_iff in I. destruct I as (p & <- & I).
    apply filter_In in I. apply in_map. tauto.
  - rewrite Forall_forall in *. intros p I. apply filter_In in I. apply F. tauto.
Qed.

Lemma wf_perm : forall d d', Permutation d d' -> wfd d -> wfd d'.
Proof.
  intros d d' P H. inversion H as [| | | | | |o ND F]; subst. apply wf_obj; [eapply Permutation_NoDup; [apply Permutation_map; exact P | exact ND]|].
  rewrite Forall_forall in *. intros p I. apply F. eapply Permutation_in; [apply Permutation_sym; exact P | exact I].
Qed.

Lemma wf_values : forall d, wfd d -> Forall (fun kv => json_wf (snd kv)) d.
Proof. intros d H. inversion H. assumption. Qed.

Lemma docs_wf : forall S t, Forall (fun kv => json_wf (snd kv)) (docstring_to_schema S t).
Proof. intros S t. unfold docstring_to_schema. destruct (text_or_none (s_short S t)), (text_or_none (s_long S t)); cbn [app]; repeat constructor. Qed.

Lemma describe_wf : forall S t d, wfd d -> wfd (describe S t d).
Proof. intros S t d H. unfold describe. destruct (s_describe S); [apply wf_upd; [exact H | apply docs_wf] | exact H]. Qed.

Lemma metadata_wf : forall S md d, wfd d -> wfd (with_metadata S d md).
Proof.
  intros S md. unfold with_metadata. induction md as [|a md IH]; intros d H; cbn [fold_left]; [exact H|]. apply IH, wf_upd; [exact H|].
  assert (P : forall z, json_wf (pow10 S z)) by (intros z; unfold pow10; destruct (0 <=? z)%Z; constructor).
  assert (N : forall z, json_wf (jneg (pow10 S z))) by (intros z; unfold pow10; destruct (0 <=? z)%Z; [constructor | cbn [jneg]; destruct (s_tenth _ _); constructor]).
  destruct a; cbn [metadata_to_schema]; repeat constructor; cbn [snd]; auto.
Qed.

Lemma typed_wf : forall s, wfd (typed s).
Proof. intros s. apply wf_obj; [repeat constructor; intros [] | repeat constructor]. Qed.

Lemma simple_wf : forall t d, simple_type_to_schema t = Some d -> wfd d.
Proof.
  intros t d H. assert (X : forall k1 k2 a b, k1 <> k2 -> wfd [(k1, JStr a); (k2, JStr b)]).
  { intros k1 k2 a b N. apply wf_obj; [|repeat constructor]. cbn. constructor; [intros [Q|[]]; destruct (N (eq_sym Q)) | repeat constructor; intros []]. }
  destruct t as [k| | | | | | | | | | |]; try discriminate H. destruct k; try discriminate H; injection H as <-; first [apply typed_wf | apply X; discriminate].
Qed.

Lemma wf_two : forall k1 k2 a b, k1 <> k2 -> json_wf a -> json_wf b -> wfd [(k1, a); (k2, b)].
Proof.
  intros k1 k2 a b N A B. apply wf_obj; [|repeat constructor; assumption]. cbn. constructor; [intros [Q|[]]; destruct (N (eq_sym Q)) | repeat constructor; intros []].
Qed.

Lemma scalar_wf : forall j k, json_scalar j = Ok k -> json_wf j.
Proof. intros j k H. destruct j; try discriminate H; constructor. Qed.

Lemma enum_wf : forall S t ms d, enum_to_schema S t ms = Ok d -> wfd d.
Proof.
  intros S t ms d H. unfold enum_to_schema in H. apply bind_ok in H. destruct H as (ks & V & H). destruct ks as [|k [|? ?]]; try discriminate H.
  assert (F : Forall json_wf (map snd ms)).
  { apply Forall_forall. intros j I. apply in_map_iff in I. destruct I as (mj & <- & I). eapply scalar_wf. exact (MirrorProofs.enum_types_one _ _ V mj I). }
  apply MirrorProofs.enum_type_scalar in V. destruct V as [<-|[<-|[<-|[<-|[<-|[]]]]]]; cbn [simple_type_to_schema] in H; injection H as <-; apply describe_wf;
    first [apply typed_wf | apply wf_two; [discriminate | constructor | constructor; exact F]].
Qed.

Section Wf.
  Variables (E : env) (S : senv).
  Hypothesis OK : env_ok E.
  Hypothesis TD : tidy E.

  Lemma default_wf : forall c x df, default_schema E S c x = Ok df -> Forall (fun kv => json_wf (snd kv)) df.
  Proof.
    intros c x df H. unfold default_schema in H. destruct (dict_get (s_attrs S c) x) as [v|]; [|injection H as <-; constructor].
    destruct v; try (injection H as <-; constructor; fail); apply bind_ok in H; destruct H as (j & A & H); injection H as <-;
      (constructor; [|constructor]); cbn [snd]; (eapply image_wf; [exact OK | exact TD|]; eapply C14_image; [exact OK | | exact A]; apply cf_leaf; exact Logic.I).
  Qed.

  Lemma finish_wf : forall c x d dx, finish_property E S c x d = Ok dx -> wfd d -> wfd dx.
  Proof.
    intros c x d dx H W. unfold finish_property in H. apply bind_ok in H. destruct H as (df & Q & H). cbv zeta in H.
    assert (X : wfd (upd d df)) by (apply wf_upd; [exact W | eapply default_wf; exact Q]).
    destruct (text_or_none _); injection H as <-; [|exact X]. apply wf_set; [apply wf_filter; exact X | constructor].
  Qed.

  Section Rec.
    Variable rec : bool -> typ -> list (pystr * typ) -> res (list (pystr * json) * list (pystr * typ)).
    Hypothesis REC : forall force t u d u', rec force t u = Ok (d, u') -> wfd d.

    Lemma seq_wf : forall force ts u js u', seq_schema (rec force) ts u = Ok (js, u') -> Forall json_wf js.
    Proof.
      intros force ts. induction ts as [|t ts IH]; intros u js u' H; cbn [seq_schema] in H; [injection H as <- _; constructor|].
      apply bind_ok in H. destruct H as ([d u1] & A & H). apply bind_ok in H. destruct H as ([js' u2] & B & H). cbn [fst snd] in *. injection H as <- _.
      constructor; [eapply REC; exact A | eapply IH; exact B].
    Qed.

    Lemma properties_wf : forall c ps props required u props' required' u', properties_schema (rec false) E S c ps props required u = Ok (props', required', u') ->
      wfd props -> wfd props'.
    Proof.
      intros c ps. induction ps as [|[x t] ps IH]; intros props required u props' required' u' H W; cbn [properties_schema] in H; [injection H as <- _ _; exact W|].
      apply bind_ok in H. destruct H as (w & _ & H). apply bind_ok in H. destruct H as ([d u1] & A & H). apply bind_ok in H. destruct H as (dx & B & H).
      cbn [fst snd] in *. eapply IH; [exact H|]. apply wf_set; [exact W | eapply finish_wf; [exact B | eapply REC; exact A]].
    Qed.

    Lemma wf_nil : wfd [].
    Proof. apply wf_obj; constructor. Qed.

    Lemma object_wf : forall props req, wfd props -> wfd (object_schema props req).
    Proof.
      intros props req W. unfold object_schema, typed.
      assert (R : json_wf (JArr (map JStr req))) by (constructor; apply Forall_forall; intros j I; apply in_map_iff in I; destruct I as (s & <- & _); constructor).
      destruct props as [|p props], req as [|r req]; cbn [app]; apply wf_obj; cbn [map fst];
        repeat first [apply NoDup_cons; [cbn; intuition discriminate|] | apply NoDup_nil | apply Forall_cons; [cbn [snd]; first [assumption | constructor]|] | apply Forall_nil].
    Qed.

    Lemma dict_wf : forall k v d, dict_to_schema E k v = Ok d -> wfd v -> wfd (typed (str "object") ++ d).
    Proof.
      intros k v d H W. assert (A : wfd (typed (str "object") ++ [(str "additionalProperties", JObj v)])) by (apply wf_two; [discriminate | constructor | exact W]).
      destruct k as [k| | | | | | | |w md|c| |]; try discriminate H.
      - destruct k; try discriminate H; injection H as <-; exact A.
      - destruct w; discriminate H.
      - cbn [dict_to_schema] in H. destruct (get_class E c) as [cl|]; [|discriminate H]. destruct (c_kind cl) as [ms|hs|xs|fr fs|hs]; try discriminate H.
        apply bind_ok in H. destruct H as (vs & _ & H). destruct (4 <? length vs); injection H as <-; cbn [app]; unfold typed; cbn [app].
        + apply wf_obj; cbn [map fst]; repeat first [apply NoDup_cons; [cbn; intuition discriminate|] | apply NoDup_nil | apply Forall_cons; [cbn [snd]; first [assumption | constructor]|] | apply Forall_nil];
            repeat constructor; cbn; tauto.
        + assert (P : wfd (dict_of (map (fun s => (s, JObj v)) vs))).
          { unfold dict_of. generalize wf_nil. generalize (@nil (pystr * json)) as d0. induction vs as [|s vs IH]; intros d0 W0; cbn [map fold_left]; [exact W0|]. apply IH, wf_set; assumption. }
          apply wf_obj; cbn [map fst]; repeat first [apply NoDup_cons; [cbn; intuition discriminate|] | apply NoDup_nil | apply Forall_cons; [cbn [snd]; first [exact P | constructor]|] | apply Forall_nil].
    Qed.

    Lemma expand_wf : forall force t u d u', expand E S rec force t u = Ok (d, u') -> wfd d.
    Proof.
      intros force t u d u' H.
      destruct t as [k|b|w|w|k w|ts|op ts|ls|w md|c|s|]; cbn [expand] in H; try discriminate H.
      - injection H as <- _. apply describe_wf, typed_wf.
      - injection H as <- _. apply describe_wf, typed_wf.
      - apply bind_ok in H. destruct H as ([dw u1] & A & H). cbn [fst snd] in H. injection H as <- _. apply wf_two; [discriminate | constructor | eapply REC; exact A].
      - apply bind_ok in H. destruct H as ([dw u1] & A & H). cbn [fst snd] in H. injection H as <- _. apply REC in A. unfold typed. cbn [app].
        apply wf_obj; cbn [map fst]; repeat first [apply NoDup_cons; [cbn; intuition discriminate|] | apply NoDup_nil | apply Forall_cons; [cbn [snd]; first [assumption | constructor]|] | apply Forall_nil].
      - apply bind_ok in H. destruct H as ([] & _ & H). apply bind_ok in H. destruct H as ([dw u1] & A & H). cbn [fst snd] in H.
        apply bind_ok in H. destruct H as (dk & K & H). assert (Q : typed (str "object") ++ dk = d) by congruence. subst d. eapply dict_wf; [exact K | eapply REC; exact A].
      - apply bind_ok in H. destruct H as ([js u1] & A & H). cbn [fst snd] in H. injection H as <- _. apply seq_wf in A. unfold typed. cbn [app].
        apply wf_obj; cbn [map fst]; repeat first [apply NoDup_cons; [cbn; intuition discriminate|] | apply NoDup_nil | apply Forall_cons; [cbn [snd]; constructor|] | apply Forall_nil]; exact A.
      - destruct (is_type_union (TUnion op ts)); [|discriminate H]. apply bind_ok in H. destruct H as ([js u1] & A & H). cbn [fst snd] in H. injection H as <- _. apply seq_wf in A.
        apply wf_obj; cbn [map fst]; [repeat constructor; intros [] | repeat constructor; exact A].
      - destruct ls as [|l [|? ?]]; try discriminate H. apply bind_ok in H. destruct H as (j & L & H). apply bind_ok in H. destruct H as ([dw u1] & A & H). cbn [fst snd] in H.
        injection H as <- _. apply wf_set; [eapply REC; exact A | destruct l; try discriminate L; injection L as <-; constructor].
      - destruct (get_class E c) as [cl|]; [|discriminate H].
        assert (X : (do ps <- class_properties E cl; do x <- properties_schema (rec false) E S c ps [] [] u;
          Ok (describe S (TClass c) (object_schema (fst (fst x)) (snd (fst x))), snd x)) = Ok (d, u') -> wfd d).
        { intros H'. apply bind_ok in H'. destruct H' as (ps & _ & H'). apply bind_ok in H'. destruct H' as ([[props required] u1] & P & H').
          cbn [fst snd] in H'. assert (Q : describe S (TClass c) (object_schema props required) = d) by congruence. subst d.
          apply describe_wf, object_wf. eapply properties_wf; [exact P | exact wf_nil]. }
        destruct (c_kind cl); try exact (X H). apply bind_ok in H. destruct H as (d' & A & H). injection H as <- _. eapply enum_wf; exact A.
      - destruct force.
        + destruct (s_eval S s); [|discriminate H]. eapply REC; eassumption.
        + assert (Q : d = ref_to S s) by (destruct (s_eval S s); injection H as <- _; reflexivity). subst d. apply wf_obj; [repeat constructor; intros [] | repeat constructor].
    Qed.
  End Rec.

  Lemma schema_wf : forall n force t u d u', type_to_schema E S n force t u = Ok (d, u') -> wfd d.
  Proof.
    induction n as [|n IH]; intros force t u d u' H; [discriminate H|]. cbn [type_to_schema] in H.
    destruct (simple_type_to_schema t) as [d0|] eqn:SI; [injection H as <- _; eapply simple_wf; exact SI|].
    destruct (negb force && in_catalog S t).
    { apply bind_ok in H. destruct H as (e & G & H). cbv zeta in H. injection H as <- _. apply wf_obj; [repeat constructor; intros [] | repeat constructor]. }
    destruct t; try (eapply expand_wf; [exact IH | exact H]).
    destruct (simple_type_to_schema t) as [d0|] eqn:SW; [|eapply expand_wf; [exact IH | exact H]]. apply simple_wf in SW.
    destruct (get_auxiliary_format _); injection H as <- _; [apply wf_set; [exact SW | constructor] | apply metadata_wf; exact SW].
  Qed.

  (** What is registered is well-formed. *)
  Definition registered_wf : Prop := forall t e, get (s_catalog S) t = Ok e -> (forall j, en_schema e = Some j -> json_wf j) /\ (forall j, en_examples e = Some j -> json_wf j).
  Hypothesis RW : registered_wf.

  Lemma lookup_wf : forall n t u d u', type_to_schema_with_lookup E S n t u = Ok (d, u') -> wfd d.
  Proof.
    intros n t u d u' H. unfold type_to_schema_with_lookup in H. apply bind_ok in H. destruct H as (e & G & H).
    assert (G' : get (s_catalog S) t = Ok e).
    { destruct t; try exact G. destruct (s_forward S s); [exact G | discriminate G]. }
    destruct (RW _ _ G') as (R1 & R2). apply bind_ok in H. destruct H as ([x u1] & A & H). cbn [fst snd] in H. cbv zeta in H. injection H as <- _.
    assert (W : wfd x).
    { destruct (en_schema e) as [j|] eqn:Q; [|eapply schema_wf; exact A]. destruct j; try discriminate A. injection A as -> _. exact (R1 _ eq_refl). }
    assert (X : wfd (if s_describe S && is_python_class t then upd x (docstring_to_schema S t) else x)).
    { destruct (s_describe S && is_python_class t); [apply wf_upd; [exact W | apply docs_wf] | exact W]. }
    destruct (en_examples e) as [j|] eqn:Q; [|exact X]. destruct (s_exemplify S && truthy j); [apply wf_set; [exact X | exact (R2 _ eq_refl)] | exact X].
  Qed.

  Lemma define_all_wf : forall n todo def u def' u', define_all E S n todo def u = Ok (def', u') -> wfd def -> wfd def'.
  Proof.
    intros n todo. induction todo as [|[s t] todo IH]; intros def u def' u' H W; cbn [define_all] in H; [injection H as <- _; exact W|].
    apply bind_ok in H. destruct H as ([d u1] & A & H). cbn [fst snd] in H. eapply IH; [exact H|]. apply wf_set; [exact W | eapply lookup_wf; exact A].
  Qed.

  Lemma define_loop_wf : forall n k def u defs, define_loop E S n k def u = Ok defs -> wfd def -> wfd defs.
  Proof.
    intros n k. induction k as [|k IH]; intros def u defs H W; cbn [define_loop] in H; destruct (length def <? length u); try discriminate H; try (injection H as <-; exact W).
    apply bind_ok in H. destruct H as ([def' u'] & A & H). cbn [fst snd] in H. eapply IH; [exact H | eapply define_all_wf; eassumption].
  Qed.

  Theorem document_wf : forall n k t doc, classdef_to_schema E S n k t = Ok doc -> json_wf doc.
  Proof.
    intros n k t doc H. unfold classdef_to_schema in H. apply bind_ok in H. destruct H as ([d defs] & G & H). cbn [fst snd] in H.
    assert (G' : (do x <- type_to_schema E S n false t []; do defs <- define_loop E S n k [] (snd x); Ok (fst x, sort_attrs defs)) = Ok (d, defs)).
    { unfold generate in G. destruct t; first [exact G | discriminate G]. }
    clear G. apply bind_ok in G'. destruct G' as ([d' u] & A & G). apply bind_ok in G. destruct G as (defs' & B & G). cbn [fst snd] in *. injection G as -> Q.
    apply schema_wf in A. apply define_loop_wf in B; [|exact wf_nil]. apply (wf_perm _ _ (sort_perm _)) in B. rewrite Q in B.
    assert (X : wfd (match defs with [] => [] | _ => [(str "definitions", JObj defs)] end)).
    { destruct defs; [exact wf_nil|]. apply wf_obj; [repeat constructor; intros [] | apply Forall_cons; [exact B | apply Forall_nil]]. }
    match type of H with Ok ?x = Ok doc => assert (Z : doc = x) by congruence end. rewrite Z. clear H Z.
    apply wf_upd; [apply wf_obj; [repeat constructor; intros [] | repeat constructor]|].
    assert (Y : wfd (upd (match defs with [] => [] | _ => [(str "definitions", JObj defs)] end) d)).
    { apply wf_upd; [exact X|]. apply wf_values. exact A. }
    apply wf_values. destruct defs; exact Y.
  Qed.
End Wf.
