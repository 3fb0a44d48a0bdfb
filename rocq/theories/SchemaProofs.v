(** Proofs about schema generation. *)
From Coq Require Import String List NArith ZArith Bool Lia Permutation.
From Verif Require Import Base Json PyTypes TypeAlgebra Lists Deser Ser SerFacts TypingFacts Catalog Schema SpecSchema SchemaSem SpecGenerate.
Import ListNotations.
Open Scope list_scope.
Open Scope nat_scope.

(** ** Dictionaries *)

Section Dict.
  Context {A : Type}.
  Implicit Types d e : list (pystr * A).

  Lemma dict_set_filter : forall (q : pystr -> bool) d k v, q k = false ->
    filter (fun kv => q (fst kv)) (dict_set d k v) = filter (fun kv => q (fst kv)) d.
  Proof.
    intros q d k v Q. induction d as [|[k' x] r IH]; cbn [dict_set filter fst]; [rewrite Q; reflexivity|].
    destruct (pystr_eqb k' k) eqn:B; cbn [filter fst].
    - apply pystr_eqb_eq in B. subst k'. rewrite Q. reflexivity.
    - rewrite IH. reflexivity.
  Qed.

  Lemma dict_set_keys : forall d k v x, In x (map fst (dict_set d k v)) <-> x = k \/ In x (map fst d).
  Proof.
    intros d k v x. induction d as [|[k' y] r IH]; cbn [dict_set map fst In].
    - split; intros [H|H]; auto.
    - destruct (pystr_eqb k' k) eqn:B; cbn [map fst In].
      + apply pystr_eqb_eq in B. subst k'. split; [intros [H|H]; auto | intros [H|[H|H]]; auto].
      + rewrite IH. tauto.
  Qed.

  Lemma dict_set_nodup : forall d k v, NoDup (map fst d) -> NoDup (map fst (dict_set d k v)).
  Proof.
    intros d k v H. induction d as [|[k' y] r IH]; cbn [dict_set map fst] in *; [constructor; [intros []|constructor]|].
    destruct (pystr_eqb k' k) eqn:B; cbn [map fst]; [apply pystr_eqb_eq in B; subst k'; exact H|].
    inversion H; subst. constructor; [|auto]. intros I. apply dict_set_keys in I. destruct I as [->|I]; [|contradiction].
    rewrite pystr_eqb_refl in B. discriminate.
  Qed.

  Lemma dict_set_in : forall d k v k' x, In (k', x) (dict_set d k v) -> (k' = k /\ x = v) \/ In (k', x) d.
  Proof.
    intros d k v k' x. induction d as [|[k1 y] r IH]; cbn [dict_set In].
    - intros [H|[]]. injection H as <- <-. auto.
    - destruct (pystr_eqb k1 k) eqn:B; cbn [In].
      + apply pystr_eqb_eq in B. subst k1. intros [H|H]; [injection H as <- <-; auto | auto].
      + intros [H|H]; [auto|]. destruct (IH H); auto.
  Qed.
End Dict.

Lemma upd_filter : forall (q : pystr -> bool) e d, Forall (fun kv => q (fst kv) = false) e ->
  filter (fun kv => q (fst kv)) (upd d e) = filter (fun kv => q (fst kv)) d.
Proof.
  intros q e. unfold upd. induction e as [|[k v] r IH]; intros d H; [reflexivity|]. inversion H; subst. cbn [fold_left fst snd].
  rewrite IH by assumption. apply dict_set_filter. assumption.
Qed.

Lemma upd_fresh : forall e d, NoDup (map fst e) -> (forall k, In k (map fst e) -> ~ In k (map fst d)) -> upd d e = d ++ e.
Proof.
  intros e. unfold upd. induction e as [|[k v] r IH]; intros d N F; cbn [fold_left fst snd map] in *; [symmetry; apply app_nil_r|].
  inversion N; subst. rewrite IH.
  - rewrite dict_set_fresh; [rewrite <- app_assoc; reflexivity|]. apply F. left. reflexivity.
  - assumption.
  - intros k' I J. apply dict_set_keys in J. destruct J as [->|J]; [contradiction|]. exact (F k' (or_intror I) J).
Qed.

Lemma pop_filter : forall (q : pystr -> bool) d k, q k = false ->
  filter (fun kv => q (fst kv)) (pop d k) = filter (fun kv => q (fst kv)) d.
Proof.
  intros q d k Q. unfold pop. induction d as [|[k' x] r IH]; [reflexivity|]. cbn [filter fst].
  destruct (pystr_eqb k' k) eqn:B; cbn [negb filter fst].
  - apply pystr_eqb_eq in B. subst k'. rewrite Q. exact IH.
  - rewrite IH. reflexivity.
Qed.

(** ** Notes *)

Definition bears (k : pystr) : bool :=
  mem_str k [str "$ref"; str "items"; str "additionalProperties"; str "propertyNames"; str "oneOf"; str "prefixItems"; str "properties"; str "definitions"].

Lemma docs_keys : forall (q : pystr -> bool) S t, q (str "title") = false -> q (str "description") = false ->
  Forall (fun kv => q (fst kv) = false) (docstring_to_schema S t).
Proof.
  intros q S t A B. unfold docstring_to_schema. apply Forall_app. split.
  - destruct (text_or_none (s_short S t)); repeat constructor. exact A.
  - destruct (text_or_none (s_long S t)); repeat constructor. exact B.
Qed.

Lemma describe_filter : forall (q : pystr -> bool) S t d, q (str "title") = false -> q (str "description") = false ->
  filter (fun kv => q (fst kv)) (describe S t d) = filter (fun kv => q (fst kv)) d.
Proof.
  intros q S t d A B. unfold describe. destruct (s_describe S); [|reflexivity]. apply upd_filter. apply docs_keys; assumption.
Qed.

Lemma finish_filter : forall (q : pystr -> bool) E S c x d d', q (str "title") = false -> q (str "description") = false ->
  q (str "default") = false -> finish_property E S c x d = Ok d' ->
  filter (fun kv => q (fst kv)) d' = filter (fun kv => q (fst kv)) d.
Proof.
  intros q E S c x d d' A B C H. unfold finish_property in H. apply bind_ok in H. destruct H as (df & D & H).
  assert (F : Forall (fun kv => q (fst kv) = false) df).
  { unfold default_schema in D. destruct (dict_get (s_attrs S c) x) as [v|]; [|injection D as <-; constructor].
    destruct v; first [solve [injection D as <-; apply Forall_nil]
      | apply bind_ok in D; destruct D as (j & _ & D); injection D as <-; apply Forall_cons; [exact C | apply Forall_nil]]. }
  cbv zeta in H. destruct (text_or_none (dict_get (s_props S c) x)); injection H as <-.
  - rewrite dict_set_filter, pop_filter by assumption. apply upd_filter. exact F.
  - apply upd_filter. exact F.
Qed.

(** ** References *)

Lemma refers_inv : forall o r, refers (JObj o) r ->
  In (str "$ref", JStr r) o \/
  (exists k x, In k [str "items"; str "additionalProperties"; str "propertyNames"] /\ In (k, x) o /\ refers x r) \/
  (exists k l x, In k [str "oneOf"; str "prefixItems"] /\ In (k, JArr l) o /\ In x l /\ refers x r) \/
  (exists k ps y x, In k [str "properties"; str "definitions"] /\ In (k, JObj ps) o /\ In (y, x) ps /\ refers x r).
Proof.
  intros o r H. inversion H; subst; [left; assumption | right; left; eauto | right; right; left | right; right; right].
  - eexists. eexists. eexists. eauto.
  - eexists. eexists. eexists. eexists. eauto.
Qed.

(** A reference goes with the member it is found in. *)
Lemma refers_one_member : forall o r, refers (JObj o) r <-> exists k x, In (k, x) o /\ bears k = true /\ refers (JObj [(k, x)]) r.
Proof.
  intros o r. split.
  - intros H. apply refers_inv in H.
    destruct H as [H | [(k & x & K & I & R) | [(k & l & x & K & I & J & R) | (k & ps & y & x & K & I & J & R)]]].
    + exists (str "$ref"), (JStr r). split; [exact H | split; [reflexivity|]]. apply rf_here. left. reflexivity.
    + exists k, x. split; [exact I | split].
      * apply mem_str_in. cbn [In] in *. tauto.
      * eapply rf_one; [exact K | left; reflexivity | exact R].
    + exists k, (JArr l). split; [exact I | split].
      * apply mem_str_in. cbn [In] in *. tauto.
      * eapply rf_list; [exact K | left; reflexivity | exact J | exact R].
    + exists k, (JObj ps). split; [exact I | split].
      * apply mem_str_in. cbn [In] in *. tauto.
      * eapply rf_named; [exact K | left; reflexivity | exact J | exact R].
  - intros (k0 & x0 & I0 & _ & H). apply refers_inv in H.
    destruct H as [H | [(k & x & K & I & R) | [(k & l & x & K & I & J & R) | (k & ps & y & x & K & I & J & R)]]].
    + destruct H as [Q|[]]. injection Q as -> ->. apply rf_here. exact I0.
    + destruct I as [Q|[]]. injection Q as -> ->. eapply rf_one; eassumption.
    + destruct I as [Q|[]]. injection Q as -> ->. eapply rf_list; eassumption.
    + destruct I as [Q|[]]. injection Q as -> ->. eapply rf_named; eassumption.
Qed.

Lemma refers_filter : forall d r, refers (JObj d) r <-> refers (JObj (filter (fun kv => bears (fst kv)) d)) r.
Proof.
  intros d r. rewrite (refers_one_member d), (refers_one_member (filter _ d)). split; intros (k & x & I & B & R); exists k, x.
  - split; [apply filter_In; auto | auto].
  - apply filter_In in I. destruct I as (I & _). auto.
Qed.

Lemma refers_same : forall d d' r, filter (fun kv => bears (fst kv)) d = filter (fun kv => bears (fst kv)) d' ->
  refers (JObj d) r -> refers (JObj d') r.
Proof. intros d d' r Q H. apply (proj2 (refers_filter _ _)). rewrite <- Q. apply (proj1 (refers_filter _ _)). exact H. Qed.

Lemma refers_nil : forall r, ~ refers (JObj []) r.
Proof. intros r H. apply (proj1 (refers_one_member _ _)) in H. destruct H as (k & x & [] & _). Qed.

Lemma refers_app : forall d e r, refers (JObj (d ++ e)) r -> refers (JObj d) r \/ refers (JObj e) r.
Proof.
  intros d e r H. apply (proj1 (refers_one_member _ _)) in H. destruct H as (k & x & I & B & R). apply in_app_iff in I.
  destruct I as [I|I]; [left | right]; apply refers_one_member; eauto.
Qed.

Lemma refers_cons : forall k x d r, refers (JObj ((k, x) :: d)) r -> refers (JObj [(k, x)]) r \/ refers (JObj d) r.
Proof. intros k x d r H. exact (refers_app [(k, x)] d r H). Qed.

Lemma refers_upd : forall e d r, refers (JObj (upd d e)) r -> refers (JObj d) r \/ refers (JObj e) r.
Proof.
  intros e. unfold upd. induction e as [|[k v] e IH]; intros d r H; [left; exact H|]. cbn [fold_left fst snd] in H.
  apply IH in H. destruct H as [H|H].
  - apply (proj1 (refers_one_member _ _)) in H. destruct H as (k' & x & I & B & R). apply dict_set_in in I. destruct I as [[-> ->]|I].
    + right. apply refers_one_member. exists k, v. split; [left; reflexivity | auto].
    + left. apply refers_one_member. eauto.
  - right. apply (proj1 (refers_one_member _ _)) in H. destruct H as (k' & x & I & B & R). apply refers_one_member. exists k', x.
    split; [right; exact I | auto].
Qed.

(** A member that bears no schema. *)
Lemma refers_inert : forall k x r, bears k = false -> ~ refers (JObj [(k, x)]) r.
Proof.
  intros k x r B H. apply (proj1 (refers_filter _ _)) in H. cbn [filter fst] in H. rewrite B in H. exact (refers_nil r H).
Qed.

Ltac other_key K := cbn [In] in K; repeat match goal with H : _ \/ _ |- _ => destruct H end;
  try contradiction; subst; discriminate.

Lemma refers_member : forall k x r, In k [str "items"; str "additionalProperties"; str "propertyNames"] ->
  refers (JObj [(k, x)]) r -> refers x r.
Proof.
  intros k0 x0 r K0 H. apply refers_inv in H.
  destruct H as [H | [(k & x & K & I & R) | [(k & l & x & K & I & J & R) | (k & ps & y & x & K & I & J & R)]]].
  - destruct H as [Q|[]]. injection Q as -> ->. other_key K0.
  - destruct I as [Q|[]]. injection Q as -> ->. exact R.
  - destruct I as [Q|[]]. injection Q as -> ->. cbn [In] in K. other_key K0.
  - destruct I as [Q|[]]. injection Q as -> ->. cbn [In] in K. other_key K0.
Qed.

Lemma refers_scalar : forall k r, ~ refers (JStr k) r.
Proof. intros k r H. inversion H. Qed.

Lemma refers_array : forall l r, ~ refers (JArr l) r.
Proof. intros l r H. inversion H. Qed.

Lemma refers_bool : forall b r, ~ refers (JBool b) r.
Proof. intros b r H. inversion H. Qed.

Lemma refers_members : forall k l r, refers (JObj [(k, JArr l)]) r -> exists x, In x l /\ refers x r.
Proof.
  intros k0 l0 r H. apply refers_inv in H.
  destruct H as [H | [(k & x & K & I & R) | [(k & l & x & K & I & J & R) | (k & ps & y & x & K & I & J & R)]]].
  - destruct H as [Q|[]]. discriminate Q.
  - destruct I as [Q|[]]. injection Q as <- <-. destruct (refers_array _ _ R).
  - destruct I as [Q|[]]. injection Q as -> ->. eauto.
  - destruct I as [Q|[]]. discriminate Q.
Qed.

Lemma refers_table : forall k ps r, In k [str "properties"; str "definitions"] -> refers (JObj [(k, JObj ps)]) r ->
  exists y x, In (y, x) ps /\ refers x r.
Proof.
  intros k0 ps0 r K0 H. apply refers_inv in H.
  destruct H as [H | [(k & x & K & I & R) | [(k & l & x & K & I & J & R) | (k & ps & y & x & K & I & J & R)]]].
  - destruct H as [Q|[]]. discriminate Q.
  - destruct I as [Q|[]]. injection Q as <- <-. cbn [In] in K. other_key K0.
  - destruct I as [Q|[]]. discriminate Q.
  - destruct I as [Q|[]]. injection Q as -> ->. eauto.
Qed.

Lemma refers_ref : forall S s r, refers (JObj (ref_to S s)) r -> r = s_path S ++ s.
Proof.
  intros S s r H. unfold ref_to in H. apply refers_inv in H.
  destruct H as [H | [(k & x & K & I & R) | [(k & l & x & K & I & J & R) | (k & ps & y & x & K & I & J & R)]]].
  - destruct H as [Q|[]]. injection Q as Q. symmetry. exact Q.
  - destruct I as [Q|[]]. injection Q as <- <-. destruct (refers_scalar _ _ R).
  - destruct I as [Q|[]]. discriminate Q.
  - destruct I as [Q|[]]. discriminate Q.
Qed.

(** ** Types met *)

Lemma met_trans : forall E S a b c, met E S a b -> met E S b c -> met E S a c.
Proof.
  intros E S a b c H. induction H; intros K; [exact K | ..];
    try solve [econstructor; eauto | eapply mt_field; eauto | eapply mt_optional; eauto | eapply mt_text; eauto].
Qed.

(** ** The state of the generator *)

(** What a call for the sake of [t0] leaves behind. *)
Record stepped (E : env) (S : senv) (t0 : typ) (u : list (pystr * typ)) (refs : pystr -> Prop) (u' : list (pystr * typ)) : Prop := {
  sp_kept : forall s, In s (map fst u) -> In s (map fst u');
  sp_met : forall s w, In (s, w) u' -> In (s, w) u \/ met E S t0 w;
  sp_refs : forall r, refs r -> exists s, r = s_path S ++ s /\ (In s (map fst u') \/ lost E S t0 s)
}.

Lemma stepped_same : forall E S t0 u (refs : pystr -> Prop), (forall r, ~ refs r) -> stepped E S t0 u refs u.
Proof. intros E S t0 u refs H. constructor; [auto | auto | intros r R; destruct (H r R)]. Qed.

Lemma stepped_trans : forall E S t0 u (r1 r2 : pystr -> Prop) u1 u2, stepped E S t0 u r1 u1 -> stepped E S t0 u1 r2 u2 ->
  stepped E S t0 u (fun r => r1 r \/ r2 r) u2.
Proof.
  intros E S t0 u r1 r2 u1 u2 [A1 B1 C1] [A2 B2 C2]. constructor.
  - auto.
  - intros s w I. destruct (B2 s w I) as [I1|I1]; [exact (B1 s w I1) | right; exact I1].
  - intros r [R|R]; [|exact (C2 r R)]. destruct (C1 r R) as (s & Q & [I|I]); exists s; auto.
Qed.

Lemma stepped_weaken : forall E S t0 u (r1 r2 : pystr -> Prop) u', stepped E S t0 u r1 u' -> (forall r, r2 r -> r1 r) ->
  stepped E S t0 u r2 u'.
Proof. intros E S t0 u r1 r2 u' [A B C] H. constructor; auto. Qed.

Lemma simple_refs : forall t d r, simple_type_to_schema t = Some d -> ~ refers (JObj d) r.
Proof.
  intros t d r H R. apply (proj1 (refers_filter _ _)) in R.
  destruct t as [k| | | | | | | | | | |]; try discriminate H; destruct k; try discriminate H; injection H as <-; exact (refers_nil r R).
Qed.

Lemma with_metadata_filter : forall (q : pystr -> bool) S md d,
  Forall (fun k => q k = false) [str "minimum"; str "maximum"; str "multipleOf"; str "exclusiveMinimum"; str "exclusiveMaximum"; str "minLength"; str "maxLength"] ->
  filter (fun kv => q (fst kv)) (with_metadata S d md) = filter (fun kv => q (fst kv)) d.
Proof.
  intros q S md d H. unfold with_metadata. revert d. induction md as [|a md IH]; intros d; [reflexivity|]. cbn [fold_left].
  rewrite IH. apply upd_filter. rewrite Forall_forall in H.
  destruct a; cbn [metadata_to_schema]; repeat (apply Forall_cons; [apply H; cbn [In]; tauto|]); apply Forall_nil.
Qed.

Section Steps.
  Variables (E : env) (S : senv) (t0 : typ).
  Variable rec : bool -> typ -> list (pystr * typ) -> res (list (pystr * json) * list (pystr * typ)).
  Hypothesis Hrec : forall force t u d u', met E S t0 t -> rec force t u = Ok (d, u') -> stepped E S t0 u (refers (JObj d)) u'.

  Lemma seq_stepped : forall force ts u js u', (forall t, In t ts -> met E S t0 t) -> seq_schema (rec force) ts u = Ok (js, u') ->
    stepped E S t0 u (fun r => exists j, In j js /\ refers j r) u'.
  Proof.
    intros force ts. induction ts as [|t ts IH]; intros u js u' M H; cbn [seq_schema] in H.
    - injection H as <- <-. apply stepped_same. intros r (j & [] & _).
    - apply bind_ok in H. destruct H as ([d u1] & A & H). apply bind_ok in H. destruct H as ([js' u2] & B & H).
      cbn [fst snd] in *. injection H as <- <-.
      eapply stepped_weaken; [eapply stepped_trans; [eapply Hrec; [|exact A]; apply M; left; reflexivity
        | eapply IH; [|exact B]; intros t' I; apply M; right; exact I]|].
      intros r (j & [<-|I] & R); [left; exact R | right; eauto].
  Qed.

  Lemma properties_stepped : forall c ps props required u0 u props' required' u',
    (forall x t, In (x, t) ps -> met E S t0 t /\ forall w, unwrap_optional t = Ok w -> met E S t0 w) ->
    stepped E S t0 u0 (fun r => exists y j, In (y, j) props /\ refers j r) u ->
    properties_schema (rec false) E S c ps props required u = Ok (props', required', u') ->
    stepped E S t0 u0 (fun r => exists y j, In (y, j) props' /\ refers j r) u'.
  Proof.
    intros c ps. induction ps as [|[x t] ps IH]; intros props required u0 u props' required' u' M P H; cbn [properties_schema] in H.
    - injection H as <- <- <-. exact P.
    - apply bind_ok in H. destruct H as (w & A & H). apply bind_ok in H. destruct H as ([d u1] & B & H).
      apply bind_ok in H. destruct H as (d' & C & H). cbn [fst snd] in *.
      destruct (M x t (or_introl eq_refl)) as (M1 & M2).
      assert (Mw : met E S t0 w).
      { destruct (is_type_optional t); [exact (M2 w A) | injection A as <-; exact M1]. }
      pose proof (Hrec _ _ _ _ _ Mw B) as St1.
      eapply IH; [intros x' t' I; apply (M x' t'); right; exact I | | exact H].
      eapply stepped_weaken; [eapply stepped_trans; [exact P | exact St1]|].
      intros r (y & j & I & R). apply dict_set_in in I. destruct I as [[-> ->]|I]; [right | left; eauto].
      eapply refers_same; [|exact R]. eapply finish_filter; [..|exact C]; reflexivity.
  Qed.

  Lemma object_refs : forall props required r, refers (JObj (object_schema props required)) r -> exists y j, In (y, j) props /\ refers j r.
  Proof.
    intros props required r R. unfold object_schema in R.
    apply refers_app in R. destruct R as [R|R]; [destruct (refers_inert _ _ _ (eq_refl : bears (str "type") = false) R)|].
    apply refers_app in R. destruct R as [R|R].
    - destruct props as [|p props]; [destruct (refers_nil _ R)|].
      apply (refers_app [(str "properties", JObj (p :: props))] [_]) in R. destruct R as [R|R].
      + apply refers_table in R; [exact R | left; reflexivity].
      + apply refers_member in R; [destruct (refers_bool _ _ R) | right; left; reflexivity].
    - destruct required; [destruct (refers_nil _ R) | destruct (refers_inert _ _ _ (eq_refl : bears (str "required") = false) R)].
  Qed.

  Lemma dict_refs : forall k v d r, dict_to_schema E k v = Ok d -> refers (JObj d) r -> refers (JObj v) r.
  Proof.
    intros k v d r H R.
    assert (X : forall v', refers (JObj [(str "additionalProperties", v')]) r -> refers v' r).
    { intros v' R'. apply refers_member in R'; [exact R' | right; left; reflexivity]. }
    assert (Y : forall c, dict_to_schema E (TClass c) v = Ok d -> refers (JObj v) r).
    { intros c H'. cbn [dict_to_schema] in H'. destruct (get_class E c) as [cl|]; [|discriminate H'].
      destruct (c_kind cl) as [ms| | | |]; try discriminate H'.
      apply bind_ok in H'. destruct H' as (vs & _ & H').
      destruct (4 <? length vs); injection H' as <-.
      - apply (refers_app [(str "propertyNames", _)] [_]) in R. destruct R as [R|R]; [|exact (X _ R)].
        apply refers_member in R; [|right; right; left; reflexivity].
        destruct (refers_inert _ _ _ (eq_refl : bears (str "pattern") = false) R).
      - apply (refers_app [(str "properties", _)] [_]) in R. destruct R as [R|R]; [|destruct (refers_bool _ _ (X _ R))].
        apply refers_table in R; [|left; reflexivity]. destruct R as (y & x & I & R).
        assert (Z : forall l (acc : list (pystr * json)), In (y, x) (fold_left (fun d kv => dict_set d (fst kv) (snd kv)) (map (fun s => (s, JObj v)) l) acc) ->
          x = JObj v \/ In (y, x) acc).
        { intros l. induction l as [|s l IH]; intros acc I'; [right; exact I'|]. cbn [map fold_left fst snd] in I'.
          destruct (IH _ I') as [Q|I2]; [left; exact Q|]. apply dict_set_in in I2. tauto. }
        destruct (Z vs [] I) as [->|[]]. exact R. }
    destruct k as [k| | | | | |op us|ls|w md|c| |]; try discriminate H.
    - destruct k; try discriminate H; injection H as <-; exact (X _ R).
    - destruct w; discriminate H.
    - exact (Y _ H).
  Qed.

  Lemma enum_refs : forall t ms d r, enum_to_schema S t ms = Ok d -> ~ refers (JObj d) r.
  Proof.
    intros t ms d r H R. unfold enum_to_schema in H. apply bind_ok in H. destruct H as (ks & _ & H).
    destruct ks as [|k [|? ?]]; try discriminate H.
    assert (X : forall d', Ok (describe S t d') = Ok d -> filter (fun kv => bears (fst kv)) d' = [] -> False).
    { intros d' Q F. injection Q as <-. apply (proj1 (refers_filter _ _)) in R.
      rewrite describe_filter in R by reflexivity. rewrite F in R. exact (refers_nil r R). }
    destruct k; cbn [simple_type_to_schema] in H; try discriminate H; apply X in H; solve [exact H | reflexivity].
  Qed.

  Lemma expand_stepped : forall force t u d u', met E S t0 t ->
    (forall s, t = TRef s -> force = false -> s_eval S s = None -> lost E S t0 s) ->
    expand E S rec force t u = Ok (d, u') -> stepped E S t0 u (refers (JObj d)) u'.
  Proof.
    intros force t u d u' M L H.
    assert (inert : forall k x r, refers (JObj [(k, x)]) r -> bears k = false -> False) by (intros k x r R B; exact (refers_inert _ _ _ B R)).
    destruct t as [k|b|w|w|k w|ts|op ts|ls|w md|c|s|]; cbn [expand] in H; try discriminate H.
    - injection H as <- <-. apply stepped_same. intros r R. apply (proj1 (refers_filter _ _)) in R.
      rewrite describe_filter in R by reflexivity. exact (refers_nil r R).
    - injection H as <- <-. apply stepped_same. intros r R. apply (proj1 (refers_filter _ _)) in R.
      rewrite describe_filter in R by reflexivity. exact (refers_nil r R).
    - apply bind_ok in H. destruct H as ([x u1] & A & H). injection H as <- <-. cbn [fst snd].
      eapply stepped_weaken; [eapply Hrec; [|exact A]; eapply met_trans; [exact M | apply mt_list, mt_refl]|].
      intros r R. apply refers_cons in R. destruct R as [R|R]; [destruct (inert _ _ _ R eq_refl)|].
      apply refers_member in R; [exact R | left; reflexivity].
    - apply bind_ok in H. destruct H as ([x u1] & A & H). injection H as <- <-. cbn [fst snd].
      eapply stepped_weaken; [eapply Hrec; [|exact A]; eapply met_trans; [exact M | apply mt_set, mt_refl]|].
      intros r R. apply refers_cons in R. destruct R as [R|R]; [destruct (inert _ _ _ R eq_refl)|].
      apply refers_cons in R. destruct R as [R|R]; [|destruct (inert _ _ _ R eq_refl)].
      apply refers_member in R; [exact R | left; reflexivity].
    - apply bind_ok in H. destruct H as ([] & _ & H). apply bind_ok in H. destruct H as ([x u1] & A & H).
      apply bind_ok in H. destruct H as (d1 & B & H). injection H as <- <-. cbn [fst snd] in *.
      eapply stepped_weaken; [eapply Hrec; [|exact A]; eapply met_trans; [exact M | apply mt_dict, mt_refl]|].
      intros r R. apply refers_cons in R. destruct R as [R|R]; [destruct (inert _ _ _ R eq_refl)|].
      eapply dict_refs; eassumption.
    - apply bind_ok in H. destruct H as ([x u1] & A & H). injection H as <- <-. cbn [fst snd] in *.
      eapply stepped_weaken.
      + eapply seq_stepped; [|exact A]. intros t I. eapply met_trans; [exact M | eapply mt_tuple; [exact I | apply mt_refl]].
      + intros r R. apply refers_cons in R. destruct R as [R|R]; [destruct (inert _ _ _ R eq_refl)|].
        apply refers_cons in R. destruct R as [R|R]; [destruct (inert _ _ _ R eq_refl)|].
        apply refers_cons in R. destruct R as [R|R]; [destruct (inert _ _ _ R eq_refl)|].
        apply refers_members in R. exact R.
    - destruct (is_type_union (TUnion op ts)); [|discriminate H].
      apply bind_ok in H. destruct H as ([x u1] & A & H). injection H as <- <-. cbn [fst snd] in *.
      eapply stepped_weaken.
      + eapply seq_stepped; [|exact A]. intros t I. eapply met_trans; [exact M | eapply mt_union; [exact I | apply mt_refl]].
      + intros r R. apply refers_members in R. exact R.
    - destruct ls as [|l [|? ?]]; try discriminate H.
      apply bind_ok in H. destruct H as (j & _ & H). apply bind_ok in H. destruct H as ([x u1] & A & H). injection H as <- <-. cbn [fst snd] in *.
      eapply stepped_weaken; [eapply Hrec; [|exact A]; eapply met_trans; [exact M | eapply mt_literal; [left; reflexivity | apply mt_refl]]|].
      intros r R. eapply refers_same; [|exact R]. apply dict_set_filter. reflexivity.
    - destruct (get_class E c) as [cl|] eqn:G; [|discriminate H].
      assert (X : (do ps <- class_properties E cl;
                   do x <- properties_schema (rec false) E S c ps [] [] u;
                   Ok (describe S (TClass c) (object_schema (fst (fst x)) (snd (fst x))), snd x)) = Ok (d, u') ->
                  stepped E S t0 u (refers (JObj d)) u').
      { clear H. intros H. apply bind_ok in H. destruct H as (ps & A & H). apply bind_ok in H. destruct H as ([[props required] u1] & B & H).
        cbn [fst snd] in H. injection H as <- <-.
        eapply stepped_weaken.
        - eapply (properties_stepped c ps [] [] u u); [|apply stepped_same; intros r (y & j & [] & _) | exact B].
          intros x t I. split.
          + eapply met_trans; [exact M | eapply mt_field; [exact G | exact A | exact I | apply mt_refl]].
          + intros w W. eapply met_trans; [exact M | eapply mt_optional; [exact G | exact A | exact I | exact W | apply mt_refl]].
        - intros r R. apply (proj1 (refers_filter _ _)) in R. rewrite describe_filter in R by reflexivity.
          apply (proj2 (refers_filter _ _)) in R. eapply object_refs. exact R. }
      destruct (c_kind cl) as [ms| | | |]; try exact (X H).
      apply bind_ok in H. destruct H as (d1 & A & H). injection H as <- <-. apply stepped_same. intros r. eapply enum_refs. exact A.
    - destruct force.
      + destruct (s_eval S s) as [w|] eqn:V; [|discriminate H]. eapply Hrec; [|exact H].
        eapply met_trans; [exact M | eapply mt_text; [exact V | apply mt_refl]].
      + destruct (s_eval S s) as [w|] eqn:V; injection H as <- <-; constructor; auto.
        * intros s' I. apply dict_set_keys. right. exact I.
        * intros s' w' I. apply dict_set_in in I. destruct I as [[-> ->]|I]; [right | left; exact I].
          eapply met_trans; [exact M | eapply mt_text; [exact V | apply mt_refl]].
        * intros r R. apply refers_ref in R. exists s. split; [exact R | left; apply dict_set_keys; left; reflexivity].
        * intros r R. apply refers_ref in R. exists s. split; [exact R | right; apply L; reflexivity || exact V].
  Qed.
End Steps.

Lemma setdefault_keys : forall u k (t : typ) x, In x (map fst (setdefault u k t)) <-> x = k \/ In x (map fst u).
Proof.
  intros u k t x. unfold setdefault. destruct (dict_mem u k) eqn:D; [|apply dict_set_keys].
  split; [auto|]. intros [->|I]; [|exact I]. unfold dict_mem in D. destruct (dict_get u k) eqn:G; [|discriminate D].
  apply dict_get_in in G. apply in_map_iff. eexists. split; [|exact G]. reflexivity.
Qed.

Theorem type_to_schema_stepped : forall E S t0 n force t u d u', met E S t0 t -> type_to_schema E S n force t u = Ok (d, u') ->
  stepped E S t0 u (refers (JObj d)) u'.
Proof.
  intros E S t0 n. induction n as [|n IH]; intros force t u d u' M H; [discriminate H|]. cbn [type_to_schema] in H.
  destruct (simple_type_to_schema t) as [d0|] eqn:B.
  { injection H as <- <-. apply stepped_same. intros r. eapply simple_refs. exact B. }
  destruct (negb force && in_catalog S t) eqn:C.
  { apply bind_ok in H. destruct H as (e & G & H). cbv zeta in H. injection H as <- <-. constructor.
    - intros s I. apply setdefault_keys. right. exact I.
    - intros s w I. unfold setdefault in I. destruct (dict_mem u (en_identifier e)); [left; exact I|].
      apply dict_set_in in I. destruct I as [[-> ->]|I]; [right; exact M | left; exact I].
    - intros r R. apply refers_ref in R. exists (en_identifier e). split; [exact R | left; apply setdefault_keys; left; reflexivity]. }
  assert (X : forall w, (match t with TAnnot _ _ => False | _ => w = t end) -> expand E S (type_to_schema E S n) force w u = Ok (d, u') ->
    stepped E S t0 u (refers (JObj d)) u').
  { intros w Q K. assert (w = t) by (destruct t; [exact Q .. | contradiction | exact Q | exact Q | exact Q]). subst w.
    eapply expand_stepped; [exact IH | exact M | | exact K].
    intros s -> -> V. split; [exact V | left]. split; [exact M|]. cbn [negb andb in_catalog contains] in C.
    destruct (s_forward S s); [right | left; reflexivity]. cbn [andb] in C. unfold dict_mem in C.
    destruct (dict_get (by_name (s_catalog S)) s) eqn:G; [discriminate C|]. apply dict_get_none in G. exact G. }
  destruct t as [k|b|w|w|k w|ts|op ts|ls|w md|c|s|]; try (apply (X _ eq_refl H)).
  destruct (simple_type_to_schema w) as [d0|] eqn:B0.
  - destruct (get_auxiliary_format (TAnnot w md)) as [f|]; injection H as <- <-; apply stepped_same; intros r R;
      eapply simple_refs; try exact B0; eapply refers_same; try exact R.
    + apply dict_set_filter. reflexivity.
    + apply with_metadata_filter. repeat constructor.
  - eapply expand_stepped; [exact IH | | | exact H].
    + eapply met_trans; [exact M | apply mt_annot, mt_refl].
    + intros s -> -> V. split; [exact V | right]. exists md. exact M.
Qed.

Lemma lookup_stepped : forall E S t0 n t u d u', selfcontained S -> met E S t0 t -> type_to_schema_with_lookup E S n t u = Ok (d, u') ->
  stepped E S t0 u (refers (JObj d)) u'.
Proof.
  intros E S t0 n t u d u' SC M H. unfold type_to_schema_with_lookup in H. apply bind_ok in H. destruct H as (e & G & H).
  assert (G' : get (s_catalog S) t = Ok e).
  { destruct t; try exact G. destruct (s_forward S s); [exact G | discriminate G]. }
  apply bind_ok in H. destruct H as ([x u1] & A & H). cbn [fst snd] in H. cbv zeta in H. injection H as <- <-.
  assert (P : stepped E S t0 u (refers (JObj x)) u1).
  { destruct (en_schema e) as [j|] eqn:Sc; [|eapply type_to_schema_stepped; eassumption].
    destruct j; try discriminate A. injection A as <- <-. apply stepped_same. intros r. eapply SC; eassumption. }
  eapply stepped_weaken; [exact P|]. intros r R. eapply refers_same; [|exact R].
  destruct (en_examples e) as [j|]; [destruct (s_exemplify S && truthy j); [rewrite dict_set_filter by reflexivity|]|];
    (destruct (s_describe S && is_python_class t); [apply upd_filter, docs_keys; reflexivity | reflexivity]).
Qed.

Lemma define_all_stepped : forall E S t0 n todo u0 def u def' u', selfcontained S ->
  (forall s t, In (s, t) todo -> met E S t0 t) ->
  stepped E S t0 u0 (fun r => exists s j, In (s, j) def /\ refers j r) u ->
  define_all E S n todo def u = Ok (def', u') ->
  stepped E S t0 u0 (fun r => exists s j, In (s, j) def' /\ refers j r) u' /\
  (forall s, In s (map fst def') <-> In s (map fst def) \/ In s (map fst todo)) /\
  (NoDup (map fst def) -> NoDup (map fst def')) /\
  (forall s, In s (map fst u) -> In s (map fst u')).
Proof.
  intros E S t0 n todo. induction todo as [|[s t] todo IH]; intros u0 def u def' u' SC M P H; cbn [define_all] in H.
  - injection H as <- <-. split; [exact P|]. split; [|split; auto]. intros s. cbn [map In]. tauto.
  - apply bind_ok in H. destruct H as ([d u1] & A & H). cbn [fst snd] in H.
    pose proof (lookup_stepped _ _ _ _ _ _ _ _ SC (M s t (or_introl eq_refl)) A) as P1.
    eapply IH in H; [|exact SC | intros s' t' I; apply (M s' t'); right; exact I
      | eapply stepped_weaken; [eapply stepped_trans; [exact P | exact P1]|];
        intros r (s' & j & I & R); apply dict_set_in in I; destruct I as [[-> ->]|I]; [right; exact R | left; eauto]].
    destruct H as (H1 & H2 & H3 & H4). split; [exact H1|]. split; [|split].
    + intros s'. rewrite H2, dict_set_keys. cbn [map fst In]. split; [intros [[->|I]|I]; auto | intros [I|[->|I]]; auto].
    + intros N. apply H3, dict_set_nodup, N.
    + intros s' I. apply H4. apply (sp_kept _ _ _ _ _ _ P1), I.
Qed.

Lemma define_loop_stepped : forall E S t0 n k def u defs, selfcontained S ->
  (forall s t, In (s, t) u -> met E S t0 t) ->
  (forall r, (exists s j, In (s, j) def /\ refers j r) -> exists s, r = s_path S ++ s /\ (In s (map fst u) \/ lost E S t0 s)) ->
  NoDup (map fst def) -> incl (map fst def) (map fst u) ->
  define_loop E S n k def u = Ok defs ->
  NoDup (map fst defs) /\ incl (map fst u) (map fst defs) /\
  forall r, (exists s j, In (s, j) defs /\ refers j r) -> exists s, r = s_path S ++ s /\ (In s (map fst defs) \/ lost E S t0 s).
Proof.
  intros E S t0 n k. induction k as [|k IH]; intros def u defs SC M P N C H; cbn [define_loop] in H;
    destruct (length def <? length u) eqn:L.
  1: discriminate H.
  2: { apply bind_ok in H. destruct H as ([def' u'] & A & H). cbn [fst snd] in H.
    set (todo := filter (fun st => negb (dict_mem def (fst st))) u) in *.
    assert (P0 : stepped E S t0 u (fun r => exists s j, In (s, j) def /\ refers j r) u) by (constructor; auto).
    eapply define_all_stepped in A; [|exact SC | intros s t I; apply (M s t); apply filter_In in I; tauto | exact P0].
    destruct A as (A1 & A2 & A3 & A4). destruct A1 as [B1 B2 B3].
    apply IH in H; [| exact SC | | exact B3 | auto |].
    - destruct H as (H1 & H2 & H3). split; [exact H1|]. split; [|exact H3]. intros s I. apply H2, A4, I.
    - intros s t I. destruct (B2 s t I) as [I'|I']; [exact (M s t I') | exact I'].
    - intros s I. apply A4. apply A2 in I. destruct I as [I|I]; [exact (C s I)|]. apply in_map_iff in I.
      destruct I as (st & <- & I). apply filter_In in I. apply in_map. tauto. }
  all: injection H as <-; split; [exact N|]; assert (X : incl (map fst u) (map fst def))
    by (apply NoDup_length_incl; [exact N | rewrite !map_length; apply Nat.ltb_ge; exact L | exact C]);
    split; [exact X|]; intros r R; destruct (P r R) as (s & Q & [I|I]); exists s; auto.
Qed.

(** ** Keys *)

Definition emitted : list pystr :=
  [str "type"; str "format"; str "contentEncoding"; str "enum"; str "const"; str "title"; str "description"; str "default"; str "items"; str "uniqueItems";
   str "prefixItems"; str "minItems"; str "maxItems"; str "properties"; str "additionalProperties"; str "propertyNames"; str "required"; str "oneOf"; str "$ref";
   str "minimum"; str "maximum"; str "multipleOf"; str "exclusiveMinimum"; str "exclusiveMaximum"; str "minLength"; str "maxLength"].

Definition tidy (d : list (pystr * json)) : Prop := NoDup (map fst d) /\ forall k, In k (map fst d) -> In k emitted.

Lemma tidy_set : forall d k v, tidy d -> In k emitted -> tidy (dict_set d k v).
Proof.
  intros d k v (A & B) I. split; [apply dict_set_nodup, A|]. intros k' J. apply dict_set_keys in J. destruct J as [->|J]; auto.
Qed.

Lemma tidy_upd : forall e d, tidy d -> (forall k, In k (map fst e) -> In k emitted) -> tidy (upd d e).
Proof.
  intros e. unfold upd. induction e as [|[k v] e IH]; intros d T H; [exact T|]. cbn [fold_left fst snd].
  apply IH; [apply tidy_set; [exact T | apply H; left; reflexivity] | intros k' I; apply H; right; exact I].
Qed.

Lemma docs_emitted : forall S t k, In k (map fst (docstring_to_schema S t)) -> In k emitted.
Proof.
  intros S t k I. apply mem_str_in. unfold docstring_to_schema in I. rewrite map_app in I. apply in_app_iff in I. destruct I as [I|I].
  - destruct (text_or_none (s_short S t)); [destruct I as [<-|[]]; reflexivity | destruct I].
  - destruct (text_or_none (s_long S t)); [destruct I as [<-|[]]; reflexivity | destruct I].
Qed.

Lemma tidy_describe : forall S t d, tidy d -> tidy (describe S t d).
Proof.
  intros S t d T. unfold describe. destruct (s_describe S); [|exact T]. apply tidy_upd; [exact T|]. intros k. apply docs_emitted.
Qed.

Fixpoint nodupb (l : list pystr) : bool :=
  match l with
  | [] => true
  | x :: r => negb (mem_str x r) && nodupb r
  end.

Lemma nodupb_ok : forall l, nodupb l = true -> NoDup l.
Proof.
  induction l as [|x l IH]; cbn [nodupb]; intros H; [constructor|]. apply andb_true_iff in H. destruct H as (A & B).
  constructor; [|auto]. intros I. apply mem_str_in in I. rewrite I in A. discriminate A.
Qed.

Lemma tidy_check : forall d, nodupb (map fst d) && forallb (fun k => mem_str k emitted) (map fst d) = true -> tidy d.
Proof.
  intros d H. apply andb_true_iff in H. destruct H as (A & B). split; [apply nodupb_ok, A|].
  intros k I. rewrite forallb_forall in B. apply mem_str_in. exact (B k I).
Qed.

Lemma tidy_app : forall d e, tidy d -> tidy e -> (forall k, In k (map fst d) -> ~ In k (map fst e)) -> tidy (d ++ e).
Proof.
  intros d e (A & B) (A' & B') D. split; rewrite map_app.
  - clear B B'. induction (map fst d) as [|k l IH]; [exact A'|]. cbn [app]. inversion A; subst. constructor.
    + intros I. apply in_app_iff in I. destruct I as [I|I]; [contradiction|]. exact (D k (or_introl eq_refl) I).
    + apply IH; [assumption|]. intros k' I. apply D. right. exact I.
  - intros k I. apply in_app_iff in I. destruct I; auto.
Qed.

Lemma simple_tidy : forall t d, simple_type_to_schema t = Some d -> tidy d.
Proof.
  intros t d H. destruct t as [k| | | | | | | | | | |]; try discriminate H; destruct k; try discriminate H; injection H as <-;
    apply tidy_check; reflexivity.
Qed.

Lemma dict_tidy : forall E k v d, dict_to_schema E k v = Ok d -> tidy (typed (str "object") ++ d).
Proof.
  intros E k v d H.
  destruct k as [k| | | | | |op us|ls|w md|c| |]; try discriminate H.
  - destruct k; try discriminate H; injection H as <-; apply tidy_check; reflexivity.
  - destruct w; discriminate H.
  - cbn [dict_to_schema] in H. destruct (get_class E c) as [cl|]; [|discriminate H].
    destruct (c_kind cl) as [ms| | | |]; try discriminate H.
    apply bind_ok in H. destruct H as (vs & _ & H).
    destruct (4 <? length vs); injection H as <-; apply tidy_check; reflexivity.
Qed.

Lemma enum_tidy : forall S t ms d, enum_to_schema S t ms = Ok d -> tidy d.
Proof.
  intros S t ms d H. unfold enum_to_schema in H. apply bind_ok in H. destruct H as (ks & _ & H).
  destruct ks as [|k [|? ?]]; try discriminate H.
  destruct k; cbn [simple_type_to_schema] in H; try discriminate H; injection H as <-; apply tidy_describe, tidy_check; reflexivity.
Qed.

Lemma object_tidy : forall props required, tidy (object_schema props required).
Proof. intros props required. unfold object_schema. destruct props, required; apply tidy_check; reflexivity. Qed.

Lemma with_metadata_tidy : forall S md d, tidy d -> tidy (with_metadata S d md).
Proof.
  intros S md. unfold with_metadata. induction md as [|a md IH]; intros d T; [exact T|]. cbn [fold_left]. apply IH. apply tidy_upd; [exact T|].
  intros k I. apply mem_str_in. destruct a; cbn [metadata_to_schema map fst In] in I;
    repeat (destruct I as [<-|I]; [reflexivity|]); destruct I.
Qed.

Theorem schema_tidy : forall E S n force t u d u', type_to_schema E S n force t u = Ok (d, u') -> tidy d.
Proof.
  intros E S n. induction n as [|n IH]; intros force t u d u' H; [discriminate H|]. cbn [type_to_schema] in H.
  destruct (simple_type_to_schema t) as [d0|] eqn:B; [injection H as <- <-; eapply simple_tidy; exact B|].
  destruct (negb force && in_catalog S t).
  { apply bind_ok in H. destruct H as (e & G & H). cbv zeta in H. injection H as <- <-. apply tidy_check. reflexivity. }
  assert (X : forall w, expand E S (type_to_schema E S n) force w u = Ok (d, u') -> tidy d).
  { intros w K. destruct w as [k|b|w|w|k w|ts|op ts|ls|w md|c|s|]; cbn [expand] in K; try discriminate K.
    - injection K as <- <-. apply tidy_describe, tidy_check. reflexivity.
    - injection K as <- <-. apply tidy_describe, tidy_check. reflexivity.
    - apply bind_ok in K. destruct K as (x & _ & K). injection K as <- <-. apply tidy_check. reflexivity.
    - apply bind_ok in K. destruct K as (x & _ & K). injection K as <- <-. apply tidy_check. reflexivity.
    - apply bind_ok in K. destruct K as (x & _ & K). apply bind_ok in K. destruct K as (y & _ & K). apply bind_ok in K. destruct K as (z & Z & K).
      apply dict_tidy in Z. injection K as <- <-. exact Z.
    - apply bind_ok in K. destruct K as (x & _ & K). injection K as <- <-. apply tidy_check. reflexivity.
    - destruct (is_type_union (TUnion op ts)); [|discriminate K].
      apply bind_ok in K. destruct K as (x & _ & K). injection K as <- <-. apply tidy_check. reflexivity.
    - destruct ls as [|l [|? ?]]; try discriminate K.
      apply bind_ok in K. destruct K as (j & _ & K). apply bind_ok in K. destruct K as ([x u1] & A & K). injection K as <- <-.
      apply tidy_set; [eapply IH; exact A | apply mem_str_in; reflexivity].
    - destruct (get_class E c) as [cl|]; [|discriminate K].
      destruct (c_kind cl) as [ms| | | |];
        [apply bind_ok in K; destruct K as (x & A & K); injection K as <- <-; eapply enum_tidy; exact A|..];
        apply bind_ok in K; destruct K as (ps & _ & K); apply bind_ok in K; destruct K as (x & _ & K); injection K as <- <-;
        apply tidy_describe, object_tidy.
    - destruct force.
      + destruct (s_eval S s); [|discriminate K]. eapply IH. exact K.
      + destruct (s_eval S s); injection K as <- <-; apply tidy_check; reflexivity. }
  destruct t as [k|b|w|w|k w|ts|op ts|ls|w md|c|s|]; try (exact (X _ H)).
  destruct (simple_type_to_schema w) as [d0|] eqn:B0; [|exact (X _ H)].
  destruct (get_auxiliary_format (TAnnot w md)) as [f|]; injection H as <- <-.
  - apply tidy_set; [eapply simple_tidy; exact B0 | apply mem_str_in; reflexivity].
  - apply with_metadata_tidy. eapply simple_tidy. exact B0.
Qed.

(** ** Documents *)

Definition dialect : pystr * json := (str "$schema", JStr (str "https://json-schema.org/draft/2020-12/schema")).

Definition definitions_of (defs : list (pystr * json)) : list (pystr * json) :=
  match defs with [] => [] | ds => [(str "definitions", JObj ds)] end.

Lemma document_shape : forall E S n k t doc, classdef_to_schema E S n k t = Ok doc ->
  exists d u defs, type_to_schema E S n false t [] = Ok (d, u) /\ define_loop E S n k [] u = Ok defs /\ tidy d /\
    doc = JObj (dialect :: definitions_of (sort_attrs defs) ++ d).
Proof.
  intros E S n k t doc H. unfold classdef_to_schema in H. apply bind_ok in H. destruct H as ([d defs] & G & H). cbn [fst snd] in H.
  assert (G' : (do x <- type_to_schema E S n false t []; do defs <- define_loop E S n k [] (snd x); Ok (fst x, sort_attrs defs)) = Ok (d, defs)).
  { unfold generate in G. destruct t; first [exact G | discriminate G]. }
  clear G. apply bind_ok in G'. destruct G' as ([d' u] & A & G). apply bind_ok in G. destruct G as (defs' & B & G). cbn [fst snd] in *.
  injection G as -> Q. exists d, u, defs'. split; [exact A|]. split; [exact B|]. pose proof (schema_tidy _ _ _ _ _ _ _ _ A) as T. split; [exact T|].
  rewrite Q. assert (H' : JObj (upd [dialect] (upd (definitions_of defs) d)) = doc) by (destruct defs; injection H as H; exact H).
  rewrite <- H'. f_equal. assert (D : upd (definitions_of defs) d = definitions_of defs ++ d).
  { apply upd_fresh; [apply T|]. intros k0 I J. apply T in I. unfold definitions_of in J. destruct defs; [destruct J|].
    destruct J as [<-|[]]. apply mem_str_in in I. discriminate I. }
  rewrite D. rewrite upd_fresh; [reflexivity | |].
  - rewrite map_app. unfold definitions_of. destruct defs; [exact (proj1 T)|]. cbn [map fst app]. constructor; [|exact (proj1 T)].
    intros I. apply T in I. apply mem_str_in in I. discriminate I.
  - intros k0 I [<-|[]]. rewrite map_app in I. apply in_app_iff in I. destruct I as [I|I].
    + unfold definitions_of in I. destruct defs; [destruct I | destruct I as [I|[]]; discriminate I].
    + apply T in I. apply mem_str_in in I. discriminate I.
Qed.

Theorem references_defined : forall E S n k t doc r, selfcontained S -> classdef_to_schema E S n k t = Ok doc -> refers doc r ->
  exists name, r = s_path S ++ name /\ ((exists sch, defined doc name sch) \/ lost E S t name).
Proof.
  intros E S n k t doc r SC H R. apply document_shape in H. destruct H as (d & u & defs & A & B & _ & ->).
  pose proof (type_to_schema_stepped _ _ t _ _ _ _ _ _ (mt_refl _ _ _) A) as [_ P2 P3].
  assert (P2' : forall s w, In (s, w) u -> met E S t w) by (intros s w I; destruct (P2 s w I) as [[]|M]; exact M).
  eapply (define_loop_stepped _ _ t) in B; [|exact SC | exact P2' | intros r' (s & j & [] & _) | constructor | intros x []].
  destruct B as (N & C & Q).
  assert (X : exists s, r = s_path S ++ s /\ (In s (map fst defs) \/ lost E S t s)).
  { apply refers_cons in R. destruct R as [R|R]; [destruct (refers_inert _ _ _ (eq_refl : bears (str "$schema") = false) R)|].
    apply refers_app in R. destruct R as [R|R].
    - apply Q. unfold definitions_of in R. destruct (sort_attrs defs) eqn:D; [destruct (refers_nil _ R)|]. rewrite <- D in R.
      apply refers_table in R; [|right; left; reflexivity]. destruct R as (y & x & I & R). exists y, x. split; [|exact R].
      eapply Permutation_in; [apply Permutation_sym, sort_perm | exact I].
    - destruct (P3 r R) as (s & Q' & [I|I]); exists s; auto. }
  destruct X as (s & -> & [I|I]); exists s; split; auto. left.
  apply in_map_iff in I. destruct I as ((s' & sch) & Q' & I). cbn [fst] in Q'. subst s'. exists sch.
  apply (Permutation_in _ (sort_perm defs)) in I.
  exists (dialect :: definitions_of (sort_attrs defs) ++ d), (sort_attrs defs). split; [reflexivity|]. split; [|exact I].
  unfold definitions_of. destruct (sort_attrs defs); [destruct I|]. right. left. reflexivity.
Qed.

(** ** Pointers *)

Lemma tokens_plain : forall s acc, (forall c, In c s -> c <> 47%N) -> tokens acc s = [rev acc ++ s].
Proof.
  induction s as [|c s IH]; intros acc H; cbn [tokens]; [rewrite app_nil_r; reflexivity|].
  destruct (N.eqb_spec c 47) as [Q|_]; [destruct (H c (or_introl eq_refl) Q)|].
  rewrite IH by (intros c' I; apply H; right; exact I). cbn [rev]. rewrite <- app_assoc. reflexivity.
Qed.

Lemma pointer : forall doc name, plain_name name ->
  points_to doc (str "#/definitions/" ++ name) = walk doc [str "definitions"; name].
Proof.
  intros doc name H. unfold points_to.
  assert (F : existsb (fun c => (c =? 126)%N || (c =? 37)%N) (str "#/definitions/" ++ name) = false).
  { rewrite existsb_app. apply orb_false_iff. split; [reflexivity|].
    apply not_true_is_false. intros X. apply existsb_exists in X. destruct X as (c & I & X). destruct (H c I) as (_ & B & C).
    apply orb_true_iff in X. destruct X as [X|X]; apply N.eqb_eq in X; contradiction. }
  rewrite F. change (str "#/definitions/" ++ name) with (35%N :: 47%N :: (str "definitions/" ++ name)). cbv iota beta.
  f_equal. change (str "definitions/" ++ name) with (str "definitions" ++ 47%N :: name).
  transitivity (str "definitions" :: tokens [] name); [reflexivity|]. f_equal. rewrite tokens_plain; [reflexivity|]. intros c I. apply (H c I).
Qed.

Theorem reference_target : forall E S n k t doc name sch, classdef_to_schema E S n k t = Ok doc -> defined doc name sch -> plain_name name ->
  points_to doc (str "#/definitions/" ++ name) = Some sch.
Proof.
  intros E S n k t doc name sch H (o & defs & -> & I & J) P. rewrite pointer by exact P.
  apply document_shape in H. destruct H as (d & u & defs' & A & B & T & Q). injection Q as ->.
  destruct I as [I|I]; [discriminate I|]. apply in_app_iff in I. destruct I as [I|I].
  2: { apply (in_map fst) in I. apply T in I. apply mem_str_in in I. discriminate I. }
  assert (N : NoDup (map fst defs')).
  { clear - B. revert B. assert (X : forall n k def u defs, NoDup (map fst def) -> define_loop E S n k def u = Ok defs -> NoDup (map fst defs)).
    { clear. intros n k. induction k as [|k IH]; intros def u defs N H; cbn [define_loop] in H; destruct (length def <? length u); try discriminate H.
      - injection H as <-. exact N.
      - apply bind_ok in H. destruct H as ([def' u'] & A & H). eapply IH; [|exact H]. cbn [fst].
        clear - N A. revert A. generalize (filter (fun st => negb (dict_mem def (fst st))) u). intros todo. revert def u N.
        induction todo as [|[s t] todo IH]; intros def u N A; cbn [define_all] in A; [injection A as <- <-; exact N|].
        apply bind_ok in A. destruct A as (x & _ & A). eapply IH; [|exact A]. apply dict_set_nodup, N.
      - injection H as <-. exact N. }
    intros B. eapply X; [|exact B]. constructor. }
  unfold definitions_of in *. destruct (sort_attrs defs') as [|p l] eqn:D; [destruct I|]. destruct I as [I|[]]. injection I as <-.
  assert (G : dict_get (p :: l) name = Some sch).
  { apply dict_get_nodup; [|exact J]. rewrite <- D. eapply Permutation_NoDup; [apply Permutation_map, sort_perm | exact N]. }
  transitivity (match dict_get (p :: l) name with Some x => Some x | None => None end); [reflexivity | rewrite G; reflexivity].
Qed.
