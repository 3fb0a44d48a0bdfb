(** What the generator writes for each form of type, and where the references
    of a document lead. *)
From Coq Require Import String List NArith ZArith Bool Lia Permutation.
From Verif Require Import Base Json PyTypes TypeAlgebra TypeAlgebraProofs Lists Deser Ser SerFacts TypingFacts FieldProofs Catalog CatalogProofs Schema
  SpecTyping SpecTypes SpecFields SpecSer SpecTagged SpecSchema SchemaSem SpecGenerate SchemaProofs SchemaClass SpecValid.
Import ListNotations.
Open Scope list_scope.
Open Scope nat_scope.

Lemma set_lookup : forall V (d : list (pystr * V)) k v k',
  dict_get (dict_set d k v) k' = if pystr_eqb k k' then Some v else dict_get d k'.
Proof.
  intros V d k v k'. induction d as [|[k0 v0] d IH]; cbn [dict_set dict_get]; [reflexivity|].
  destruct (pystr_eqb k0 k) eqn:B; cbn [dict_get].
  - apply pystr_eqb_eq in B. subst k0. destruct (pystr_eqb k k'); reflexivity.
  - rewrite IH. destruct (pystr_eqb k k') eqn:C; [|reflexivity]. apply pystr_eqb_eq in C. subst k'. rewrite B. reflexivity.
Qed.

(** ** Schemas of types *)

Definition schema_of (E : env) (S : senv) (force : bool) (t : typ) (d : list (pystr * json)) : Prop :=
  exists n u u', type_to_schema E S n force t u = Ok (d, u').

Definition expansion (E : env) (S : senv) (force : bool) (t : typ) (d : list (pystr * json)) : Prop :=
  exists n u u', expand E S (type_to_schema E S n) force t u = Ok (d, u').

Definition not_annot (t : typ) : Prop := forall w md, t <> TAnnot w md.
Definition not_ref (t : typ) : Prop := forall s, t <> TRef s.

(** What is said about a scalar. *)
Inductive remarks (S : senv) (t : typ) (md : list annot) (d0 : list (pystr * json)) : list (pystr * json) -> Prop :=
| rk_format : forall f, get_auxiliary_format t = Some f -> remarks S t md d0 (upd d0 [(str "format", JStr f)])
| rk_metadata : get_auxiliary_format t = None -> remarks S t md d0 (with_metadata S d0 md).

Lemma schema_of_inv : forall E S force t d, schema_of E S force t d ->
  simple_type_to_schema t = Some d \/
  (simple_type_to_schema t = None /\ force = false /\ exists e, get (s_catalog S) t = Ok e /\ d = ref_to S (en_identifier e)) \/
  (exists w md d0, t = TAnnot w md /\ simple_type_to_schema w = Some d0 /\ remarks S t md d0 d) \/
  (exists w md, t = TAnnot w md /\ simple_type_to_schema w = None /\ expansion E S force w d) \/
  (not_annot t /\ simple_type_to_schema t = None /\ expansion E S force t d).
Proof.
  intros E S force t d (n & u & u' & H). destruct n as [|n]; [discriminate H|]. cbn [type_to_schema] in H.
  destruct (simple_type_to_schema t) as [d0|] eqn:B; [injection H as <- <-; left; reflexivity|]. right.
  destruct (negb force && in_catalog S t) eqn:C.
  { left. apply bind_ok in H. destruct H as (e & G & H). cbv zeta in H. injection H as <- <-.
    apply andb_true_iff in C. destruct C as (C & _). destruct force; [discriminate C|]. eauto 6. }
  right. destruct t as [k|b|w|w|k w|ts|op ts|ls|w md|c|s|];
    try (right; right; split; [intros w' md'; discriminate | split; [reflexivity | exists n, u, u'; exact H]]).
  destruct (simple_type_to_schema w) as [d0|] eqn:D.
  - left. exists w, md, d0. split; [reflexivity | split; [exact D|]].
    destruct (get_auxiliary_format (TAnnot w md)) as [f|] eqn:A; injection H as <- <-; [apply rk_format; exact A | apply rk_metadata; exact A].
  - right. left. exists w, md. split; [reflexivity | split; [exact D|]]. exists n, u, u'. exact H.
Qed.

(** ** Expansions *)

Section Forms.
  Variables (E : env) (S : senv).
  Notation schema_of := (schema_of E S).
  Notation expansion := (expansion E S).

  Lemma exp_list : forall force w d, expansion force (TList w) d ->
    exists dw, schema_of false w dw /\ d = typed (str "array") ++ [(str "items", JObj dw)].
  Proof.
    intros force w d (n & u & u' & H). cbn [expand] in H. apply bind_ok in H. destruct H as ([dw u1] & A & H). cbn [fst snd] in H.
    assert (Q : typed (str "array") ++ [(str "items", JObj dw)] = d) by congruence.
    exists dw. split; [exists n, u, u1; exact A | symmetry; exact Q].
  Qed.

  Lemma exp_set : forall force w d, expansion force (TSet w) d ->
    exists dw, schema_of false w dw /\ d = typed (str "array") ++ [(str "items", JObj dw); (str "uniqueItems", JBool true)].
  Proof.
    intros force w d (n & u & u' & H). cbn [expand] in H. apply bind_ok in H. destruct H as ([dw u1] & A & H). cbn [fst snd] in H.
    assert (Q : typed (str "array") ++ [(str "items", JObj dw); (str "uniqueItems", JBool true)] = d) by congruence.
    exists dw. split; [exists n, u, u1; exact A | symmetry; exact Q].
  Qed.

  Lemma seq_forms : forall n ts u js u', seq_schema (type_to_schema E S n false) ts u = Ok (js, u') ->
    exists ds, js = map JObj ds /\ Forall2 (schema_of false) ts ds.
  Proof.
    intros n ts. induction ts as [|t ts IH]; intros u js u' H; cbn [seq_schema] in H.
    - injection H as <- <-. exists []. split; [reflexivity | constructor].
    - apply bind_ok in H. destruct H as ([d u1] & A & H). apply bind_ok in H. destruct H as ([js' u2] & B & H). cbn [fst snd] in *.
      injection H as <- <-. apply IH in B. destruct B as (ds & -> & F). exists (d :: ds). split; [reflexivity|].
      constructor; [exists n, u, u1; exact A | exact F].
  Qed.

  Lemma exp_tuple : forall force ts d, expansion force (TTuple ts) d ->
    exists ds, Forall2 (schema_of false) ts ds /\
      d = typed (str "array") ++ [(str "minItems", JInt (Z.of_nat (length ts))); (str "maxItems", JInt (Z.of_nat (length ts)));
                                  (str "prefixItems", JArr (map JObj ds))].
  Proof.
    intros force ts d (n & u & u' & H). cbn [expand] in H. apply bind_ok in H. destruct H as ([js u1] & A & H). cbn [fst snd] in H.
    apply seq_forms in A. destruct A as (ds & -> & F). exists ds. split; [exact F|]. congruence.
  Qed.

  Lemma exp_union : forall force op ts d, expansion force (TUnion op ts) d ->
    exists ds, Forall2 (schema_of false) ts ds /\ d = [(str "oneOf", JArr (map JObj ds))].
  Proof.
    intros force op ts d (n & u & u' & H). cbn [expand] in H. destruct (is_type_union (TUnion op ts)); [|discriminate H].
    apply bind_ok in H. destruct H as ([js u1] & A & H). cbn [fst snd] in H.
    apply seq_forms in A. destruct A as (ds & -> & F). exists ds. split; [exact F|]. congruence.
  Qed.

  Lemma exp_dict : forall force k w d, expansion force (TDict k w) d ->
    exists dw dk, schema_of false w dw /\ dict_to_schema E k dw = Ok dk /\ d = typed (str "object") ++ dk.
  Proof.
    intros force k w d (n & u & u' & H). cbn [expand] in H. apply bind_ok in H. destruct H as ([] & _ & H).
    apply bind_ok in H. destruct H as ([dw u1] & A & H). apply bind_ok in H. destruct H as (dk & B & H). cbn [fst snd] in *.
    exists dw, dk. split; [exists n, u, u1; exact A | split; [exact B | congruence]].
  Qed.

  Lemma exp_literal : forall force ls d, expansion force (TLiteral ls) d ->
    exists l c dw, ls = [l] /\ lit_json l = Some c /\ schema_of false (lit_type l) dw /\ d = dict_set dw (str "const") c.
  Proof.
    intros force ls d (n & u & u' & H). cbn [expand] in H. destruct ls as [|l [|l' ls]]; try discriminate H.
    apply bind_ok in H. destruct H as (c & C & H). apply bind_ok in H. destruct H as ([dw u1] & A & H). cbn [fst snd] in *.
    exists l, c, dw. split; [reflexivity|]. split; [|split; [exists n, u, u1; exact A | congruence]].
    destruct l; try discriminate C; injection C as <-; reflexivity.
  Qed.

  Lemma exp_ref : forall force s d, expansion force (TRef s) d ->
    (force = true /\ exists w, s_eval S s = Some w /\ schema_of true w d) \/ (force = false /\ d = ref_to S s).
  Proof.
    intros force s d (n & u & u' & H). cbn [expand] in H. destruct force.
    - left. split; [reflexivity|]. destruct (s_eval S s) as [w|]; [|discriminate H]. exists w. split; [reflexivity | exists n, u, u'; exact H].
    - right. split; [reflexivity|]. destruct (s_eval S s) as [w|]; injection H as <- _; reflexivity.
  Qed.

  Lemma exp_enum : forall force c cl ms d, get_class E c = Some cl -> c_kind cl = CEnum ms -> expansion force (TClass c) d ->
    enum_to_schema S (TClass c) ms = Ok d.
  Proof.
    intros force c cl ms d G K (n & u & u' & H). cbn [expand] in H. rewrite G, K in H. apply bind_ok in H. destruct H as (d' & A & H).
    rewrite A. f_equal. congruence.
  Qed.

  (** The schema of each property. *)
  Definition member_schema (x : pystr) (t : typ) (props : list (pystr * json)) : Prop :=
    exists w d0 dx, (if is_type_optional t then unwrap_optional t = Ok w else w = t) /\ schema_of false w d0 /\ core dx = core d0 /\
      (forall r, refers (JObj d0) r -> refers (JObj dx) r) /\ dict_get props (out_name x t) = Some (JObj dx).

  Lemma finish_core : forall c x d d', finish_property E S c x d = Ok d' -> core d' = core d.
  Proof. intros c x d d' H. unfold core. eapply (finish_filter (fun k => negb (note k))); [reflexivity | reflexivity | reflexivity | exact H]. Qed.

  Lemma properties_forms : forall n c ps props required u props' required' u',
    properties_schema (type_to_schema E S n false) E S c ps props required u = Ok (props', required', u') -> NoDup (map (fun f => out_name (fst f) (snd f)) ps) ->
    (forall p, (forall x t, In (x, t) ps -> p <> out_name x t) -> dict_get props' p = dict_get props p) /\
    (forall x t, In (x, t) ps -> member_schema x t props').
  Proof.
    intros n c ps. induction ps as [|[x t] ps IH]; intros props required u props' required' u' H N; cbn [properties_schema] in H.
    - injection H as <- <- <-. split; [reflexivity | intros x t []].
    - apply bind_ok in H. destruct H as (w & W & H). apply bind_ok in H. destruct H as ([d0 u1] & A & H). apply bind_ok in H. destruct H as (dx & D & H).
      cbn [fst snd map] in *. inversion N as [|? ? N1 N2]; subst. apply IH in H; [|exact N2]. destruct H as (H1 & H2).
      fold (out_name x t) in H1. split.
      + intros p X. rewrite H1; [|intros x' t' I; apply X; right; exact I]. rewrite set_lookup.
        destruct (pystr_eq_dec p (out_name x t)) as [->|Ne]; [destruct (X x t (or_introl eq_refl) eq_refl)|].
        destruct (pystr_eqb _ _) eqn:Q; [apply pystr_eqb_eq in Q; congruence | reflexivity].
      + intros x' t' [Q|I]; [|apply H2; exact I]. injection Q as <- <-. exists w, d0, dx.
        split; [destruct (is_type_optional t); [exact W | injection W as <-; reflexivity]|].
        split; [exists n, u, u1; exact A|]. split; [eapply finish_core; exact D|]. split.
        * intros r R. eapply refers_same; [|exact R]. symmetry. eapply finish_filter; [reflexivity | reflexivity | reflexivity | exact D].
        * rewrite H1; [rewrite set_lookup, pystr_eqb_refl; reflexivity|].
          intros x' t' I Q. apply N1. rewrite Q. apply in_map_iff. exists (x', t'). split; [reflexivity | exact I].
  Qed.

  Record object_form (c : nat) (ps : list (pystr * typ)) (d : list (pystr * json)) : Prop := {
    of_schema : class_schema ps d;
    of_core : exists props required, core d = object_schema props required /\
      (forall r, refers (JObj (object_schema props required)) r -> refers (JObj d) r) /\
      (forall p, In p (map fst props) <-> exists x t, In (x, t) ps /\ p = out_name x t) /\
      (forall p, In p required <-> exists x t, In (x, t) ps /\ p = out_name x t /\ is_type_optional t = false) /\
      (NoDup (map (fun f => out_name (fst f) (snd f)) ps) -> forall x t, In (x, t) ps -> member_schema x t props)
  }.

  Lemma exp_object : forall force c cl ps d, get_class E c = Some cl -> not_enum cl -> class_properties E cl = Ok ps ->
    expansion force (TClass c) d -> object_form c ps d.
  Proof.
    intros force c cl ps d G NE C (n & u & u' & H). cbn [expand] in H. rewrite G in H.
    assert (H' : (do ps <- class_properties E cl;
       do x <- properties_schema (type_to_schema E S n false) E S c ps [] [] u;
       Ok (describe S (TClass c) (object_schema (fst (fst x)) (snd (fst x))), snd x)) = Ok (d, u')).
    { destruct (c_kind cl) eqn:K; [destruct (NE _ K) | exact H ..]. }
    rewrite C in H'. cbn [bind] in H'. apply bind_ok in H'. destruct H' as ([[props required] u1] & P & H'). cbn [fst snd] in H'.
    injection H' as <- <-. pose proof (properties_names _ _ _ _ _ _ _ _ _ _ _ P) as (P1 & P2 & P3).
    assert (Q1 : forall p, In p (map fst props) <-> exists x t, In (x, t) ps /\ p = out_name x t).
    { intros p. rewrite P1. cbn [map In]. tauto. }
    assert (Q3 : forall p, In p required <-> exists x t, In (x, t) ps /\ p = out_name x t /\ is_type_optional t = false).
    { intros p. rewrite P3. cbn [In]. tauto. }
    constructor.
    - apply object_class_schema; [exact Q1 | apply P2; constructor | exact Q3].
    - exists props, required. split; [|split; [|split; [exact Q1 | split; [exact Q3|]]]].
      + unfold core. rewrite (describe_filter (fun k => negb (note k))) by reflexivity. unfold object_schema. destruct props, required; reflexivity.
      + intros r R. eapply refers_same; [|exact R]. symmetry. apply describe_filter; reflexivity.
      + intros N. exact (proj2 (properties_forms _ _ _ _ _ _ _ _ _ P N)).
  Qed.
End Forms.

(** Fields have distinct names. *)
Lemma distinct_out : forall ps, NoDup (map fst ps) -> distinct_names ps -> NoDup (map (fun f => out_name (fst f) (snd f)) ps).
Proof.
  intros ps N D. assert (D' : forall f g, In f ps -> In g ps -> out_name (fst f) (snd f) = out_name (fst g) (snd g) -> f = g).
  { intros [x t] [y u] I J Q. cbn [fst snd] in Q. apply (D x t y u (out_name x t) I J); apply out_name_spec; auto. }
  clear D. apply (NoDup_map_inv fst) in N. induction ps as [|f ps IH]; [constructor|]. cbn [map]. inversion N; subst. constructor.
  - intros I. apply in_map_iff in I. destruct I as (g & Q & I).
    assert (X : f = g) by (apply D'; [left; reflexivity | right; exact I | symmetry; exact Q]). subst. contradiction.
  - apply IH; [assumption|]. intros f' g I J. apply D'; right; assumption.
Qed.

(** ** Documents *)

(** Where references lead. *)
Definition linked (E : env) (S : senv) (doc : json) : Prop :=
  forall r, refers doc r -> exists s w d' d'', r = s_path S ++ s /\ stands_for S s w /\ points_to doc r = Some (JObj d') /\
    core d' = core d'' /\ schema_of E S true w d'' /\ (forall r', refers (JObj d'') r' -> refers doc r').

(** What is recorded while generating. *)
Definition recorded (S : senv) (s : pystr) (w : typ) : Prop :=
  (exists e, get (s_catalog S) w = Ok e /\ en_identifier e = s) \/ s_eval S s = Some w.

Section Recorded.
  Variables (E : env) (S : senv).

  Definition records (u : list (pystr * typ)) : Prop := forall s w, In (s, w) u -> recorded S s w.

  Section Rec.
    Variable rec : bool -> typ -> list (pystr * typ) -> res (list (pystr * json) * list (pystr * typ)).
    Hypothesis REC : forall force t u d u', rec force t u = Ok (d, u') -> records u -> records u'.

    Lemma seq_records : forall force ts u js u', seq_schema (rec force) ts u = Ok (js, u') -> records u -> records u'.
    Proof.
      intros force ts. induction ts as [|t ts IH]; intros u js u' H R; cbn [seq_schema] in H; [injection H as <- <-; exact R|].
      apply bind_ok in H. destruct H as ([d u1] & A & H). apply bind_ok in H. destruct H as ([js' u2] & B & H). cbn [fst snd] in *.
      injection H as <- <-. eapply IH; [exact B | eapply REC; eassumption].
    Qed.

    Lemma properties_records : forall c ps props required u props' required' u',
      properties_schema (rec false) E S c ps props required u = Ok (props', required', u') -> records u -> records u'.
    Proof.
      intros c ps. induction ps as [|[x t] ps IH]; intros props required u props' required' u' H R; cbn [properties_schema] in H;
        [injection H as <- <- <-; exact R|].
      apply bind_ok in H. destruct H as (w & _ & H). apply bind_ok in H. destruct H as ([d u1] & A & H). apply bind_ok in H. destruct H as (dx & _ & H).
      cbn [fst snd] in *. eapply IH; [exact H | eapply REC; eassumption].
    Qed.

    Lemma expand_records : forall force t u d u', expand E S rec force t u = Ok (d, u') -> records u -> records u'.
    Proof.
      intros force t u d u' H R.
      destruct t as [k|b|w|w|k w|ts|op ts|ls|w md|c|s|]; cbn [expand] in H; try discriminate H.
      - injection H as _ <-. exact R.
      - injection H as _ <-. exact R.
      - apply bind_ok in H. destruct H as ([dw u1] & A & H). injection H as _ <-. eapply REC; eassumption.
      - apply bind_ok in H. destruct H as ([dw u1] & A & H). injection H as _ <-. eapply REC; eassumption.
      - apply bind_ok in H. destruct H as ([] & _ & H). apply bind_ok in H. destruct H as ([dw u1] & A & H).
        apply bind_ok in H. destruct H as (dk & _ & H). injection H as _ <-. eapply REC; eassumption.
      - apply bind_ok in H. destruct H as ([dw u1] & A & H). injection H as _ <-. eapply seq_records; eassumption.
      - destruct (is_type_union (TUnion op ts)); [|discriminate H].
        apply bind_ok in H. destruct H as ([dw u1] & A & H). injection H as _ <-. eapply seq_records; eassumption.
      - destruct ls as [|l [|? ?]]; try discriminate H. apply bind_ok in H. destruct H as (j & _ & H).
        apply bind_ok in H. destruct H as ([dw u1] & A & H). injection H as _ <-. eapply REC; eassumption.
      - destruct (get_class E c) as [cl|]; [|discriminate H].
        assert (X : (do ps <- class_properties E cl; do x <- properties_schema (rec false) E S c ps [] [] u;
          Ok (describe S (TClass c) (object_schema (fst (fst x)) (snd (fst x))), snd x)) = Ok (d, u') -> records u').
        { intros H'. apply bind_ok in H'. destruct H' as (ps & _ & H'). apply bind_ok in H'. destruct H' as ([[props required] u1] & P & H').
          cbn [fst snd] in H'. assert (Q : u1 = u') by congruence. subst u1. eapply properties_records; eassumption. }
        destruct (c_kind cl); try exact (X H). apply bind_ok in H. destruct H as (d' & _ & H). injection H as _ <-. exact R.
      - destruct force.
        + destruct (s_eval S s); [|discriminate H]. eapply REC; eassumption.
        + destruct (s_eval S s) as [w|] eqn:V; injection H as _ <-; [|exact R].
          intros s' w' I. apply SchemaProofs.dict_set_in in I. destruct I as [[-> ->]|I]; [right; exact V | exact (R s' w' I)].
    Qed.
  End Rec.

  Lemma schema_records : forall n force t u d u', type_to_schema E S n force t u = Ok (d, u') -> records u -> records u'.
  Proof.
    induction n as [|n IH]; intros force t u d u' H R; [discriminate H|]. cbn [type_to_schema] in H.
    destruct (simple_type_to_schema t); [injection H as _ <-; exact R|].
    destruct (negb force && in_catalog S t).
    { apply bind_ok in H. destruct H as (e & G & H). cbv zeta in H. injection H as _ <-. intros s w I. unfold setdefault in I.
      destruct (dict_mem u (en_identifier e)); [exact (R s w I)|]. apply SchemaProofs.dict_set_in in I. destruct I as [[-> ->]|I]; [|exact (R s w I)].
      left. exists e. auto. }
    destruct t; try (eapply expand_records; eassumption).
    destruct (simple_type_to_schema t); [|eapply expand_records; eassumption].
    destruct (get_auxiliary_format _); injection H as _ <-; exact R.
  Qed.

  Hypothesis CO : coherent E S.

  (** The definition of a name. *)
  Definition explained (s : pystr) (j : json) : Prop :=
    exists w d d', recorded S s w /\ schema_of E S true w d /\ core d' = core d /\ (forall r, refers (JObj d) r -> refers (JObj d') r) /\ j = JObj d'.

  Lemma lookup_explained : forall n s t u d u', recorded S s t -> type_to_schema_with_lookup E S n t u = Ok (d, u') -> records u ->
    explained s (JObj d) /\ records u'.
  Proof.
    intros n s t u d u' Rs H R. unfold type_to_schema_with_lookup in H. apply bind_ok in H. destruct H as (e & G & H).
    assert (G' : get (s_catalog S) t = Ok e).
    { destruct t; try exact G. destruct (s_forward S s0); [exact G | discriminate G]. }
    rewrite (co_derived _ _ CO _ _ G') in H. apply bind_ok in H. destruct H as ([x u1] & A & H). cbn [fst snd] in H. cbv zeta in H. injection H as <- <-.
    split; [|eapply schema_records; eassumption]. exists t, x. eexists. split; [exact Rs|]. split; [exists n, u, u1; exact A|].
    split; [|split; [|reflexivity]].
    - unfold core.
      destruct (en_examples e) as [j|]; [destruct (s_exemplify S && truthy j); [rewrite (dict_set_filter (fun k => negb (note k))) by reflexivity|]|];
        (destruct (s_describe S && is_python_class t); [apply (upd_filter (fun k => negb (note k))), (docs_keys (fun k => negb (note k))); reflexivity | reflexivity]).
    - intros r. apply refers_same. symmetry.
      destruct (en_examples e) as [j|]; [destruct (s_exemplify S && truthy j); [rewrite dict_set_filter by reflexivity|]|];
        (destruct (s_describe S && is_python_class t); [apply upd_filter, docs_keys; reflexivity | reflexivity]).
  Qed.

  Lemma define_all_explained : forall n todo def u def' u', (forall s t, In (s, t) todo -> recorded S s t) ->
    (forall s j, In (s, j) def -> explained s j) -> records u -> define_all E S n todo def u = Ok (def', u') ->
    (forall s j, In (s, j) def' -> explained s j) /\ records u'.
  Proof.
    intros n todo. induction todo as [|[s t] todo IH]; intros def u def' u' T D R H; cbn [define_all] in H.
    - injection H as <- <-. auto.
    - apply bind_ok in H. destruct H as ([d u1] & A & H). cbn [fst snd] in H.
      pose proof (lookup_explained _ s _ _ _ _ (T s t (or_introl eq_refl)) A R) as (X & R1).
      eapply IH in H; [exact H | intros s' t' I; apply T; right; exact I | | exact R1].
      intros s' j I. apply SchemaProofs.dict_set_in in I. destruct I as [[-> ->]|I]; [exact X | exact (D s' j I)].
  Qed.

  Lemma define_loop_explained : forall n k def u defs, (forall s j, In (s, j) def -> explained s j) -> records u ->
    define_loop E S n k def u = Ok defs -> forall s j, In (s, j) defs -> explained s j.
  Proof.
    intros n k. induction k as [|k IH]; intros def u defs D R H; cbn [define_loop] in H; destruct (length def <? length u);
      try discriminate H; try (injection H as <-; exact D).
    apply bind_ok in H. destruct H as ([def' u'] & A & H). cbn [fst snd] in H.
    apply define_all_explained in A; [| intros s t I; apply filter_In in I; apply R; tauto | exact D | exact R].
    destruct A as (A1 & A2). eapply IH; [exact A1 | exact A2 | exact H].
  Qed.

  (** Names recorded stand for a type. *)
  Lemma recorded_stands : forall s w d, recorded S s w -> schema_of E S true w d ->
    exists w', stands_for S s w' /\ schema_of E S true w' d.
  Proof.
    intros s w d [(e & G & Q)|V] H; [|exists w; split; [apply sf_evaluated; exact V | exact H]].
    assert (X : not_ref w \/ exists s', w = TRef s') by (destruct w; try (left; intros s'; discriminate); right; eauto).
    destruct X as [X|(s' & ->)]; [exists w; split; [eapply sf_registered; eassumption | exact H]|].
    cbn [get] in G. destruct (dict_get (by_name (s_catalog S)) s') as [e'|] eqn:G'; [|discriminate G]. injection G as ->.
    rewrite (co_named _ _ CO _ _ G') in Q. subst s'. apply schema_of_inv in H.
    destruct H as [H|[(_ & H & _)|[(w & md & d0 & H & _)|[(w & md & H & _)|(_ & _ & H)]]]]; try discriminate H.
    apply exp_ref in H. destruct H as [(_ & w & V & H)|(H & _)]; [|discriminate H]. exists w. split; [apply sf_evaluated; exact V | exact H].
  Qed.

  (** Every reference of a document leads to the schema of the type its name
      stands for. *)
  Theorem document_linked : forall n k t doc, s_path S = str "#/definitions/" -> classdef_to_schema E S n k t = Ok doc ->
    (forall s, lost E S t s -> exists sch, defined doc s sch) -> linked E S doc.
  Proof.
    intros n k t doc P H L r R.
    assert (SC : selfcontained S) by (intros t' e s r' G Q; rewrite (co_derived _ _ CO _ _ G) in Q; discriminate Q).
    destruct (references_defined _ _ _ _ _ _ _ SC H R) as (s & -> & D).
    assert (D' : exists sch, defined doc s sch) by (destruct D as [D|D]; [exact D | exact (L s D)]).
    destruct D' as (sch & D'). pose proof H as H0.
    apply document_shape in H. destruct H as (d & u & defs & A & B & T & Qd).
    assert (X : explained s sch /\ forall r', refers sch r' -> refers doc r').
    { destruct D' as (o & defs' & Qo & I & J). split.
      - rewrite Qd in Qo. injection Qo as <-. destruct I as [I|I]; [discriminate I|]. apply in_app_iff in I. destruct I as [I|I].
        + eapply (define_loop_explained n k [] u defs); [intros s' j []| eapply schema_records; [exact A | intros s' w' []] | exact B|].
          unfold definitions_of in I. destruct (sort_attrs defs) as [|p l] eqn:Sd; [destruct I|]. destruct I as [I|[]]. injection I as <-.
          eapply Permutation_in; [apply Permutation_sym, sort_perm | rewrite Sd; exact J].
        + exfalso. apply (in_map fst) in I. apply T in I. apply mem_str_in in I. discriminate I.
      - intros r' R'. rewrite Qo. eapply rf_named; [right; left; reflexivity | exact I | exact J | exact R']. }
    destruct X as ((w & dw & d' & Rw & Sw & Cw & Fw & ->) & Rr).
    destruct (recorded_stands _ _ _ Rw Sw) as (w' & St & Sw'). exists s, w', d', dw. split; [reflexivity|]. split; [exact St|]. split.
    - rewrite P. eapply reference_target; [exact H0 | exact D' | exact (co_plain _ _ CO _ _ St)].
    - split; [exact Cw | split; [exact Sw'|]]. intros r' R'. apply Rr, Fw, R'.
  Qed.
End Recorded.
