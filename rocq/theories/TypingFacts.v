(** Facts about typing and about the resolution of annotations. *)
From Coq Require Import String List NArith ZArith Bool Lia.
From Verif Require Import Base Json PyTypes Deser Lists SpecTyping.
Import ListNotations.
Open Scope list_scope.
Open Scope nat_scope.

(** * Equality of annotations *)

Lemma scalar_idx_inj : forall a b, scalar_idx a = scalar_idx b -> a = b.
Proof. intros [] []; cbn; intros H; try reflexivity; discriminate. Qed.

Lemma bare_idx_inj : forall a b, bare_idx a = bare_idx b -> a = b.
Proof. intros [] []; cbn; intros H; try reflexivity; discriminate. Qed.

Lemma lit_eqb_eq : forall a b, lit_eqb a b = true -> a = b.
Proof.
  intros [] []; cbn [lit_eqb]; intros H; try discriminate; try reflexivity.
  - apply eqb_prop in H. congruence.
  - apply Z.eqb_eq in H. congruence.
  - apply pystr_eqb_eq in H. congruence.
  - apply pystr_eqb_eq in H. congruence.
  - apply andb_true_iff in H. destruct H as [H1 H2]. apply Nat.eqb_eq in H1.
    apply pystr_eqb_eq in H2. congruence.
Qed.

Lemma lit_eqb_refl : forall a, lit_eqb a a = true.
Proof.
  intros []; cbn [lit_eqb]; rewrite ?eqb_reflx, ?Z.eqb_refl, ?pystr_eqb_refl, ?Nat.eqb_refl; reflexivity.
Qed.

Lemma annot_eqb_eq : forall a b, annot_eqb a b = true -> a = b.
Proof.
  intros [] []; cbn [annot_eqb]; intros H; try discriminate;
    rewrite ?andb_true_iff, ?Z.eqb_eq, ?N.eqb_eq, ?pystr_eqb_eq in H;
    try apply eqb_prop in H; try destruct H; congruence.
Qed.

Lemma annot_eqb_refl : forall a, annot_eqb a a = true.
Proof.
  intros []; cbn [annot_eqb];
    rewrite ?eqb_reflx, ?Z.eqb_refl, ?N.eqb_refl, ?pystr_eqb_refl; reflexivity.
Qed.

Lemma typ_eqb_eq : forall a b, typ_eqb a b = true -> a = b.
Proof.
  induction a using typ_induct; intros d H'; destruct d; cbn [typ_eqb] in H';
    try discriminate; try reflexivity.
  - apply N.eqb_eq, scalar_idx_inj in H'. congruence.
  - apply N.eqb_eq, bare_idx_inj in H'. congruence.
  - apply IHa in H'. congruence.
  - apply IHa in H'. congruence.
  - apply andb_true_iff in H'. destruct H' as [H1 H2]. apply IHa1 in H1. apply IHa2 in H2. congruence.
  - f_equal. apply (list_eqb_eq _ typ_eqb); [|exact H']. intros x y I.
    rewrite Forall_forall in H. apply H. exact I.
  - apply andb_true_iff in H'. destruct H' as [H1 H2]. apply eqb_prop in H1. subst.
    f_equal. apply (list_eqb_eq _ typ_eqb); [|exact H2]. intros x y I.
    rewrite Forall_forall in H. apply H. exact I.
  - f_equal. apply (list_eqb_eq _ lit_eqb); [|exact H']. intros x y _. apply lit_eqb_eq.
  - apply andb_true_iff in H'. destruct H' as [H1 H2]. apply IHa in H1. subst.
    f_equal. apply (list_eqb_eq _ annot_eqb); [|exact H2]. intros x y _. apply annot_eqb_eq.
  - apply Nat.eqb_eq in H'. congruence.
  - apply pystr_eqb_eq in H'. congruence.
Qed.

Lemma typ_eqb_refl : forall a, typ_eqb a a = true.
Proof.
  induction a using typ_induct; cbn [typ_eqb];
    rewrite ?N.eqb_refl, ?Nat.eqb_refl, ?pystr_eqb_refl, ?eqb_reflx, ?IHa, ?IHa1, ?IHa2;
    cbn [andb]; try reflexivity.
  - apply list_eqb_refl. rewrite Forall_forall in H. exact H.
  - apply list_eqb_refl. rewrite Forall_forall in H. exact H.
  - apply list_eqb_refl. intros x _. apply lit_eqb_refl.
  - apply list_eqb_refl. intros x _. apply annot_eqb_refl.
Qed.

Lemma typ_eq_dec : forall a b : typ, {a = b} + {a <> b}.
Proof.
  intros a b. destruct (typ_eqb a b) eqn:E.
  - left. apply typ_eqb_eq. exact E.
  - right. intros ->. rewrite typ_eqb_refl in E. discriminate.
Qed.

(** * Inversion of typing *)

Section Inv.
  Variable E : env.

  Lemma ht_scalar_iff : forall m k v, has_type E m (TScalar k) v <-> scalar_type k v.
  Proof. intros. split; intros H; [inversion H; assumption | constructor; exact H]. Qed.

  Lemma ht_list_iff : forall m t v, has_type E m (TList t) v <->
    exists vs, v = VList vs /\ Forall (has_type E m t) vs.
  Proof.
    intros. split.
    - intros H. inversion H; subst. eauto.
    - intros (vs & -> & H). constructor. exact H.
  Qed.

  Lemma ht_set_iff : forall m t v, has_type E m (TSet t) v <->
    exists vs, v = VSet vs /\ Forall (has_type E m t) vs /\
      Forall (fun v => hashable E v = true) vs /\
      ForallOrdPairs (fun a b => py_eq E a b = false) vs.
  Proof.
    intros. split.
    - intros H. inversion H; subst. exists vs. auto.
    - intros (vs & -> & H & H1 & H2). constructor; assumption.
  Qed.

  Lemma ht_dict_iff : forall m k t v, has_type E m (TDict k t) v <->
    exists kvs, v = VDict kvs /\ Forall (fun kv => has_type E m k (fst kv)) kvs /\
      Forall (fun kv => has_type E m t (snd kv)) kvs /\ NoDup (map fst kvs).
  Proof.
    intros. split.
    - intros H. inversion H; subst. exists kvs. auto.
    - intros (vs & -> & H & H1 & H2). constructor; assumption.
  Qed.

  Lemma ht_tuple_iff : forall m ts v, has_type E m (TTuple ts) v <->
    exists vs, v = VTuple vs /\ Forall2 (has_type E m) ts vs.
  Proof.
    intros. split.
    - intros H. inversion H; subst. eauto.
    - intros (vs & -> & H). constructor. exact H.
  Qed.

  Lemma ht_union_iff : forall m op ts v, has_type E m (TUnion op ts) v <->
    exists t, In t ts /\ has_type E m t v.
  Proof.
    intros. split.
    - intros H. inversion H; subst. eauto.
    - intros (t & I & H). econstructor; eassumption.
  Qed.

  Lemma ht_literal_iff : forall m ls v, has_type E m (TLiteral ls) v <->
    exists l, In l ls /\ v = lit_value l.
  Proof.
    intros. split.
    - intros H. inversion H; subst. eauto.
    - intros (l & I & ->). constructor. exact I.
  Qed.

  Lemma ht_annot_iff : forall m t md v, has_type E m (TAnnot t md) v <-> has_type E m t v.
  Proof. intros. split; intros H; [inversion H; assumption | constructor; exact H]. Qed.

  Lemma ht_ref_iff : forall m s v, has_type E m (TRef s) v <->
    exists a t, lookup E m s = Some (a, t) /\ has_type E m t v.
  Proof.
    intros. split.
    - intros H. inversion H; subst. eauto.
    - intros (a & t & L & H). econstructor; eassumption.
  Qed.

  Lemma ht_bare : forall m b v, ~ has_type E m (TBare b) v.
  Proof. intros m b v H. inversion H. Qed.

  Lemma ht_form : forall m v, ~ has_type E m TForm v.
  Proof. intros m v H. inversion H. Qed.

  (** The module only matters for references. *)
  Lemma ht_class_module : forall m m' c v, has_type E m (TClass c) v -> has_type E m' (TClass c) v.
  Proof.
    intros m m' c v H. inversion H; subst.
    - eapply ht_enum; eassumption.
    - eapply ht_obj; eassumption.
    - eapply ht_raw; try eassumption. reflexivity.
    - eapply ht_hook; eassumption.
  Qed.

  (** * Unions *)

  Lemma flatten_union_has : forall m ts v,
    (exists t, In t (flatten_union ts) /\ has_type E m t v) <->
    (exists t, In t ts /\ has_type E m t v).
  Proof.
    intros m ts v. unfold flatten_union. split.
    - intros (t & I & H). apply in_flat_map in I. destruct I as (u & Iu & I).
      exists u. split; [exact Iu|].
      destruct u; try (destruct I as [<-|[]]; exact H).
      apply ht_union_iff. exists t. auto.
    - intros (t & I & H).
      assert (D : (exists op us, t = TUnion op us) \/ In t (match t with TUnion _ us => us | _ => [t] end)).
      { destruct t; try (right; left; reflexivity). left. eauto. }
      destruct D as [(op & us & ->)|D].
      + apply ht_union_iff in H. destruct H as (u & Iu & H). exists u. split; [|exact H].
        apply in_flat_map. exists (TUnion op us). auto.
      + exists t. split; [|exact H]. apply in_flat_map. exists t. auto.
  Qed.

  Lemma dedup_in : forall ts seen t, In t (dedup seen ts) -> In t ts.
  Proof.
    induction ts as [|u ts IH]; intros seen t; cbn [dedup]; [tauto|].
    destruct (existsb (typ_eqb u) seen).
    - intros I. right. apply (IH seen). exact I.
    - intros [<-|I]; [left; reflexivity | right; apply (IH (u :: seen)); exact I].
  Qed.

  Lemma in_dedup : forall ts seen t, In t ts -> In t seen \/ In t (dedup seen ts).
  Proof.
    induction ts as [|u ts IH]; intros seen t I; cbn [dedup]; [destruct I|].
    destruct (existsb (typ_eqb u) seen) eqn:X.
    - destruct I as [<-|I]; [|apply IH; exact I]. left.
      apply existsb_exists in X. destruct X as (w & Iw & Ew). apply typ_eqb_eq in Ew. subst. exact Iw.
    - destruct I as [<-|I]; [right; left; reflexivity|].
      destruct (IH (u :: seen) t I) as [[<-|J]|J]; [right; left; reflexivity | left; exact J | right; right; exact J].
  Qed.

  Lemma mk_union_has : forall m op ts t v, mk_union op ts = Ok t ->
    (has_type E m t v <-> exists u, In u ts /\ has_type E m u v).
  Proof.
    intros m op ts t v H. rewrite <- flatten_union_has. unfold mk_union in H.
    assert (D : (exists u, In u (dedup [] (flatten_union ts)) /\ has_type E m u v) <->
                (exists u, In u (flatten_union ts) /\ has_type E m u v)).
    { split; intros (u & I & Hu); exists u; (split; [|exact Hu]).
      - eapply dedup_in. exact I.
      - destruct (in_dedup (flatten_union ts) [] u I) as [[]|J]. exact J. }
    rewrite <- D. destruct (dedup [] (flatten_union ts)) as [|u [|u' us]].
    - discriminate.
    - injection H as <-. split.
      + intros Hu. exists u. split; [left; reflexivity | exact Hu].
      + intros (w & [<-|[]] & Hw). exact Hw.
    - injection H as <-. apply ht_union_iff.
  Qed.

  Lemma mk_annot_has : forall m t md v, has_type E m (mk_annot t md) v <-> has_type E m t v.
  Proof.
    intros m t md v. destruct t; cbn [mk_annot]; rewrite ?ht_annot_iff; tauto.
  Qed.

  (** * Resolution keeps the values of a type *)

  Lemma resolve_eq : forall m n g t, resolve E m n g t =
    match t with
    | TScalar _ | TBare _ | TLiteral _ | TClass _ | TForm => Ok t
    | TList u => do u' <- resolve E m n g u; Ok (TList u')
    | TSet u => do u' <- resolve E m n g u; Ok (TSet u')
    | TDict k v => do k' <- resolve E m n g k; do v' <- resolve E m n g v; Ok (TDict k' v')
    | TTuple ts => do ts' <- mapM (resolve E m n g) ts; Ok (TTuple ts')
    | TUnion op ts => do ts' <- mapM (resolve E m n g) ts; mk_union op ts'
    | TAnnot u md => do u' <- resolve E m n g u; Ok (mk_annot u' md)
    | TRef s =>
        if mem_str s g then Ok t
        else match lookup E m s with
             | None => Err EName
             | Some (_, t') =>
                 match n with
                 | O => Err ERecursion
                 | S n' => resolve E m n' (s :: g) t'
                 end
             end
    end.
  Proof. intros m [|n] g []; reflexivity. Qed.

  Lemma resolve_has : forall m n g t t', resolve E m n g t = Ok t' ->
    forall v, has_type E m t' v <-> has_type E m t v.
  Proof.
    intros m. induction n as [|n IHn]; intros g t.
    all: induction t using typ_induct; intros t' R v; rewrite resolve_eq in R.
    all: try (injection R as <-; tauto).
    all: try (apply bind_ok in R; destruct R as (u' & R1 & R2)).
    all: try (injection R2 as <-).
    all: try (apply bind_ok in R2; destruct R2 as (w' & R2 & R3); injection R3 as <-).
    all: try (match goal with
      | |- has_type _ _ (TList _) _ <-> _ =>
          rewrite !ht_list_iff; split; intros (vs & -> & F); exists vs; (split; [reflexivity|]);
          (eapply Forall_impl; [|exact F]); intros x; apply (IHt _ R1)
      | |- has_type _ _ (TSet _) _ <-> _ =>
          rewrite !ht_set_iff; split; intros (vs & -> & F & F'); exists vs; (split; [reflexivity|]);
          (split; [|exact F']); (eapply Forall_impl; [|exact F]); intros x; apply (IHt _ R1)
      | |- has_type _ _ (TDict _ _) _ <-> _ =>
          rewrite !ht_dict_iff; split; intros (vs & -> & F & F' & N); exists vs; (split; [reflexivity|]);
          (split; [eapply Forall_impl; [|exact F]; intros x; apply (IHt1 _ R1)|]);
          (split; [eapply Forall_impl; [|exact F']; intros x; apply (IHt2 _ R2)|exact N])
      | |- has_type _ _ (mk_annot _ _) _ <-> _ =>
          rewrite mk_annot_has, ht_annot_iff; apply (IHt _ R1)
      end).
    all: try (match type of R1 with mapM _ _ = Ok _ => apply mapM_ok in R1 end).
    all: try (rewrite Forall_forall in H).
    all: try (match goal with
      | |- has_type _ _ (TTuple _) _ <-> _ =>
          rewrite !ht_tuple_iff; split; intros (vs & -> & F); exists vs; (split; [reflexivity|]);
          revert vs F; clear - H R1; induction R1 as [|a b l r Hab _ IH]; intros vs F; inversion F; subst; constructor;
          [ apply (H a (or_introl eq_refl) _ Hab); assumption
          | apply IH; [intros x I; apply H; right; exact I | assumption]
          | apply (H a (or_introl eq_refl) _ Hab); assumption
          | apply IH; [intros x I; apply H; right; exact I | assumption] ]
      | |- _ <-> has_type _ _ (TUnion _ _) _ =>
          rewrite (mk_union_has _ _ _ _ _ R2), ht_union_iff; split;
          [ intros (u & I & Hu); destruct (Forall2_in_r _ _ _ _ _ _ R1 I) as (x & J & Hx);
            exists x; split; [exact J | apply (H x J _ Hx); exact Hu]
          | intros (u & I & Hu); destruct (Forall2_in_l _ _ _ _ _ _ R1 I) as (x & J & Hx);
            exists x; split; [exact J | apply (H u I _ Hx); exact Hu] ]
      end).
    all: destruct (mem_str s g); [injection R as <-; tauto|].
    all: destruct (lookup E m s) as [[a u]|] eqn:L; [|discriminate]; try discriminate.
    rewrite (IHn _ _ _ R v), ht_ref_iff. split.
    - intros H. eauto.
    - intros (a' & u' & L' & H). rewrite L in L'. injection L' as -> ->. exact H.
  Qed.

  Lemma hints_ok : forall cl hs, hints E cl = Ok hs ->
    Forall2 (fun r h => fst h = fst r /\
      forall v, has_type E (c_module cl) (snd h) v <-> has_type E (c_module cl) (snd r) v)
      (raw_fields (c_kind cl)) hs.
  Proof.
    intros cl hs H. unfold hints in H. apply mapM_ok in H.
    eapply Forall2_impl_in; [|exact H].
    intros [x t] [y u] _ _ R. apply bind_ok in R. destruct R as (t' & R & Q).
    injection Q as <- <-. cbn [fst snd]. split; [reflexivity|]. exact (resolve_has _ _ _ _ _ R).
  Qed.

  (** * Optional types *)

  Lemma none_member : forall ts, existsb (typ_eqb (TScalar KNone)) ts = true <-> In (TScalar KNone) ts.
  Proof.
    intros ts. rewrite existsb_exists. split.
    - intros (x & I & H). apply typ_eqb_eq in H. subst. exact I.
    - intros I. exists (TScalar KNone). split; [exact I | reflexivity].
  Qed.

  Lemma unwrap_inner_has : forall m t u v, unwrap_optional_inner t = Ok u ->
    (has_type E m u v -> has_type E m t v) /\
    (v <> VNone -> has_type E m t v -> has_type E m u v).
  Proof.
    intros m t u v H. destruct t; try discriminate. cbn [unwrap_optional_inner] in H.
    rewrite (mk_union_has _ _ _ _ _ H), ht_union_iff. split.
    - intros (w & I & Hw). apply filter_In in I. exists w. tauto.
    - intros Nv (w & I & Hw). exists w. split; [|exact Hw]. apply filter_In. split; [exact I|].
      destruct (typ_eqb (TScalar KNone) w) eqn:X; [|reflexivity].
      apply typ_eqb_eq in X. subst. apply ht_scalar_iff in Hw. destruct v; try destruct Hw.
      destruct Nv. reflexivity.
  Qed.

  Lemma unwrap_optional_has : forall m t u v, unwrap_optional t = Ok u ->
    (has_type E m u v -> has_type E m t v) /\
    (v <> VNone -> has_type E m t v -> has_type E m u v).
  Proof.
    intros m t u v H. destruct t; try (apply unwrap_inner_has; exact H).
    cbn [unwrap_optional] in H. apply bind_ok in H. destruct H as (w & H & Q). injection Q as <-.
    rewrite mk_annot_has, ht_annot_iff. apply unwrap_inner_has. exact H.
  Qed.

  Lemma optional_none : forall m t, is_type_optional t = true -> has_type E m t VNone.
  Proof.
    intros m t H. unfold is_type_optional in H.
    destruct t; cbn [unwrap_annotated] in H; try discriminate.
    - apply ht_union_iff. exists (TScalar KNone). split; [apply none_member; exact H|].
      apply ht_scalar_iff. exact I.
    - apply ht_annot_iff. destruct t; try discriminate.
      apply ht_union_iff. exists (TScalar KNone). split; [apply none_member; exact H|].
      apply ht_scalar_iff. exact I.
  Qed.
End Inv.
