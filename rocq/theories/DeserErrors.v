(** Which exceptions parsing can raise. *)
From Coq Require Import String List NArith ZArith Bool Lia.
From Verif Require Base64Proofs IsoTimeProofs TimeDeltaProofs AddressesProofs.
From Verif Require Import Base Json PyTypes Mapping Deser Lists SpecTyping TypingFacts DeserSound
  SpecRecursion DeserFuel DeserBuild SpecErrors.
Import ListNotations.
Open Scope list_scope.
Open Scope nat_scope.

Section Errors.
  Variables (E : env) (H : nat -> Prop).
  Hypothesis OK : env_ok E.
  Hypothesis PL : polite E H.

  (** * Hashable values *)

  Lemma hash_value : forall v m t, has_type E m t v -> hash_typ E H m t -> hashable E v = true.
  Proof.
    assert (LIT : forall l, hashable E (lit_value l) = true) by (intros []; reflexivity).
    apply (value_induct (fun v => forall m t, has_type E m t v -> hash_typ E H m t -> hashable E v = true)).
    { intros v. destruct v; try exact I; reflexivity. }
    all: [> intros vs IH m t T S | intros vs IH m t T S | intros vs IH m t T S | intros kvs IH m t T S
          | intros c attrs IH m t T S].
    - exfalso. remember (VList vs) as v eqn:Q. induction T; try discriminate.
      + destruct k, v; try contradiction; discriminate.
      + inversion S.
      + inversion S; subst. rewrite Forall_forall in *. eauto.
      + destruct l; discriminate.
      + inversion S; subst. eauto.
      + inversion S; subst. eauto.
    - remember (VTuple vs) as v eqn:Q. induction T; try discriminate.
      + destruct k, v; try contradiction; discriminate.
      + injection Q as ->. inversion S; subst. cbn [hashable]. apply forallb_forall. intros x I.
        destruct (Forall2_in_r _ _ _ _ _ _ H0 I) as (u & J & Hu). rewrite Forall_forall in IH, H2.
        apply (IH _ I m u Hu). apply H2. exact J.
      + inversion S; subst. rewrite Forall_forall in *. eauto.
      + destruct l; discriminate.
      + inversion S; subst. eauto.
      + inversion S; subst. eauto.
    - exfalso. remember (VSet vs) as v eqn:Q. induction T; try discriminate.
      + destruct k, v; try contradiction; discriminate.
      + inversion S.
      + inversion S; subst. rewrite Forall_forall in *. eauto.
      + destruct l; discriminate.
      + inversion S; subst. eauto.
      + inversion S; subst. eauto.
    - exfalso. remember (VDict kvs) as v eqn:Q. induction T; try discriminate.
      + destruct k, v; try contradiction; discriminate.
      + inversion S.
      + inversion S; subst. rewrite Forall_forall in *. eauto.
      + destruct l; discriminate.
      + inversion S; subst. eauto.
      + inversion S; subst. eauto.
    - remember (VObj c attrs) as v eqn:Q. induction T; try discriminate.
      + destruct k, v; try contradiction; discriminate.
      + inversion S; subst. rewrite Forall_forall in *. eauto.
      + destruct l; discriminate.
      + inversion S; subst. eauto.
      + inversion S; subst. eauto.
      + injection Q as -> ->. inversion S; subst. match goal with [HH : H c, G : get_class E c = Some _ |- _] => pose proof (pl_hash _ _ PL _ _ HH G) as HC end.
        cbn [hashable]. rewrite H0. unfold hash_class in HC.
        assert (FLD : Forall (fun t => hash_typ E H (c_module cl) t) (map snd (raw_fields (c_kind cl))) ->
          forallb (fun kv => hashable E (snd kv)) attrs = true).
        { intros F. apply forallb_forall. intros kv I. rewrite Forall_forall in IH, F.
          destruct (Forall2_in_r _ _ _ _ _ _ H3 (in_map snd _ _ I)) as (u & J & Hu).
          apply (IH _ I _ u Hu). apply F. exact J. }
        destruct (c_kind cl) as [ms|hs|xs|fr fs|hs]; try contradiction; try reflexivity.
        * apply FLD. cbn [raw_fields]. apply Forall_map. exact HC.
        * destruct HC as (-> & _ & HC). cbn [andb]. apply FLD. cbn [raw_fields]. rewrite map_map. cbn [snd].
          apply Forall_map. exact HC.
      + injection Q as -> ->. inversion S; subst. match goal with [HH : H c, G : get_class E c = Some _ |- _] => pose proof (pl_hash _ _ PL _ _ HH G) as HC end.
        unfold hash_class in HC. rewrite H1 in HC. contradiction.
      + injection Q as -> ->. inversion S; subst. match goal with [HH : H c, G : get_class E c = Some _ |- _] => pose proof (pl_hash _ _ PL _ _ HH G) as HC end.
        unfold hash_class in HC. cbn [hashable]. rewrite H0. destruct (c_kind cl); try contradiction; try reflexivity.
        destruct HC as (_ & X & _). congruence.
  Qed.

  (** * Resolution keeps items of sets hashable *)

  Lemma mk_union_hash : forall m op ts t, Forall (hash_typ E H m) ts -> mk_union op ts = Ok t -> hash_typ E H m t.
  Proof.
    intros m op ts t F Q. unfold mk_union in Q. rewrite Forall_forall in F.
    assert (D : Forall (hash_typ E H m) (dedup [] (flatten_union ts))).
    { apply Forall_forall. intros u I. apply dedup_in in I. apply in_flat_map in I.
      destruct I as (w & Iw & I). specialize (F _ Iw).
      destruct w; try (destruct I as [<-|[]]; exact F).
      inversion F; subst. rewrite Forall_forall in H1. apply H1. exact I. }
    destruct (dedup [] (flatten_union ts)) as [|u [|u' us]].
    - discriminate.
    - injection Q as <-. inversion D; assumption.
    - injection Q as <-. constructor. exact D.
  Qed.

  Lemma mk_annot_hash : forall m t md, hash_typ E H m t -> hash_typ E H m (mk_annot t md).
  Proof.
    intros m t md F. destruct t; cbn [mk_annot]; try (constructor; exact F).
    inversion F; subst. constructor. assumption.
  Qed.

  Lemma resolve_hash : forall m n g t t', hash_typ E H m t -> resolve E m n g t = Ok t' -> hash_typ E H m t'.
  Proof.
    intros m. induction n as [|n IHn]; intros g t.
    all: induction t using typ_induct; intros t' F R; rewrite resolve_eq in R; inversion F; subst.
    all: try (injection R as <-; exact F).
    all: try (apply bind_ok in R; destruct R as (u' & R1 & R2)).
    all: try (injection R2 as <-; apply mk_annot_hash; eauto; fail).
    all: try (match type of R1 with mapM _ _ = Ok _ =>
      apply mapM_ok in R1; rewrite Forall_forall in H0, H2;
      assert (FF : Forall (hash_typ E H m) u');
      [ apply Forall_forall; intros x I; destruct (Forall2_in_r _ _ _ _ _ _ R1 I) as (y & J & Hy);
        apply (H0 _ J _ (H2 _ J) Hy) | ] end).
    all: try (injection R2 as <-; constructor; exact FF).
    all: try (eapply mk_union_hash; eassumption).
    all: destruct (mem_str s g) eqn:M; [injection R as <-; constructor; assumption|].
    all: destruct (lookup E m s) as [[a u]|] eqn:L; [|discriminate]; try discriminate.
    eapply IHn; [|exact R]. eapply H1. reflexivity.
  Qed.

  Lemma mk_union_sets : forall m op ts t, Forall (sets_ok E H m) ts -> mk_union op ts = Ok t -> sets_ok E H m t.
  Proof.
    intros m op ts t F Q. unfold mk_union in Q. rewrite Forall_forall in F.
    assert (D : Forall (sets_ok E H m) (dedup [] (flatten_union ts))).
    { apply Forall_forall. intros u I. apply dedup_in in I. apply in_flat_map in I.
      destruct I as (w & Iw & I). specialize (F _ Iw).
      destruct w; try (destruct I as [<-|[]]; exact F).
      apply every_part_union in F. rewrite Forall_forall in F. apply F. exact I. }
    destruct (dedup [] (flatten_union ts)) as [|u [|u' us]].
    - discriminate.
    - injection Q as <-. inversion D; assumption.
    - injection Q as <-. split; [exact I | apply every_part_list; exact D].
  Qed.

  Lemma mk_annot_sets : forall m t md, sets_ok E H m t -> sets_ok E H m (mk_annot t md).
  Proof.
    intros m t md F. destruct t; cbn [mk_annot]; try (split; [exact I | exact F]).
    destruct F as [_ F]. split; [exact I | exact F].
  Qed.

  Lemma resolve_sets : forall m n g t t', sets_ok E H m t -> resolve E m n g t = Ok t' -> sets_ok E H m t'.
  Proof.
    intros m. induction n as [|n IHn]; intros g t.
    all: induction t using typ_induct; intros t' P R; pose proof R as R0; rewrite resolve_eq in R.
    all: try (injection R as <-; exact P).
    all: try (apply bind_ok in R; destruct R as (u' & R1 & R2)).
    all: try (destruct P as [P1 P2]).
    all: try (apply every_part_list in P2).
    all: try (injection R2 as <-).
    all: try (apply bind_ok in R2; destruct R2 as (w' & R2 & R3); injection R3 as <-).
    all: try (split; [exact I|]; apply (IHt _ P2 R1)).
    all: try (split; [eapply resolve_hash; eassumption|]; apply (IHt _ P2 R1)).
    all: try (split; [exact I|]; destruct P2 as [Pk Pv]; split;
              [apply (IHt1 _ Pk R1) | apply (IHt2 _ Pv R2)]).
    all: try (apply mk_annot_sets; apply (IHt _ P2 R1)).
    all: try (match type of R1 with mapM _ _ = Ok _ =>
      apply mapM_ok in R1; rewrite Forall_forall in H0, P2;
      assert (F : Forall (sets_ok E H m) u');
      [ apply Forall_forall; intros x I; destruct (Forall2_in_r _ _ _ _ _ _ R1 I) as (y & J & Hy);
        apply (H0 _ J _ (P2 _ J) Hy) | ] end).
    all: try (split; [exact I | apply every_part_list; exact F]).
    all: try (exact (mk_union_sets _ _ _ _ F R2)).
    all: destruct (mem_str s g) eqn:M; [injection R as <-; split; assumption|].
    all: destruct (lookup E m s) as [[a u]|] eqn:L; [|discriminate]; try discriminate.
    apply (IHn _ _ _ (pl_refs _ _ PL _ _ _ _ L) R).
  Qed.

  Lemma unwrap_optional_sets : forall m t t', sets_ok E H m t -> unwrap_optional t = Ok t' -> sets_ok E H m t'.
  Proof.
    assert (A : forall m t t', sets_ok E H m t -> unwrap_optional_inner t = Ok t' -> sets_ok E H m t').
    { intros m t t' P Q. destruct t; try discriminate. cbn [unwrap_optional_inner] in Q.
      apply every_part_union in P. rewrite Forall_forall in P.
      eapply mk_union_sets; [|exact Q]. apply Forall_forall. intros u I. apply filter_In in I. apply P, I. }
    intros m t t' P Q. destruct t; try (apply (A _ _ _ P Q)).
    cbn [unwrap_optional] in Q. apply bind_ok in Q. destruct Q as (u & Q & X). injection X as <-.
    destruct P as [P1 P2]. apply mk_annot_sets. apply (A _ _ _ P2 Q).
  Qed.

  Lemma field_parsers_sets : forall c cl fps fp, get_class E c = Some cl ->
    field_parsers E cl = Ok fps -> In fp fps -> sets_ok E H (c_module cl) (fp_type fp).
  Proof.
    intros c cl fps fp G Q I. unfold field_parsers in Q. apply bind_ok in Q. destruct Q as (hs & Hh & Q).
    unfold hints in Hh. apply mapM_ok in Hh.
    assert (A : forall x t, In (x, t) hs -> sets_ok E H (c_module cl) t).
    { intros x t J. destruct (Forall2_in_r _ _ _ _ _ _ Hh J) as ([y u] & Iy & R).
      apply bind_ok in R. destruct R as (t' & R & X). injection X as -> ->.
      eapply resolve_sets; [|exact R]. eapply pl_fields; eassumption. }
    assert (B : forall x t d fp, field_parser x t d = Ok fp -> In (x, t) hs -> sets_ok E H (c_module cl) (fp_type fp)).
    { clear fp I. intros x t d fp F J. pose proof (A _ _ J) as A1. unfold field_parser in F.
      apply bind_ok in F. destruct F as (u & U & X). injection X as <-. cbn [fp_type].
      destruct (is_type_optional t); [|injection U as <-; auto]. eapply unwrap_optional_sets; eassumption. }
    destruct (c_kind cl) as [ms|ths|xs|fr fs|phs].
    - injection Q as <-. destruct I.
    - injection Q as <-. apply in_map_iff in I. destruct I as ([x t] & <- & J). apply (A _ _ J).
    - injection Q as <-. destruct I.
    - apply mapM_ok in Q. destruct (Forall2_in_r _ _ _ _ _ _ Q I) as ([f [x t]] & J & F).
      apply (B _ _ _ _ F). apply in_combine_r in J. exact J.
    - apply mapM_ok in Q. destruct (Forall2_in_r _ _ _ _ _ _ Q I) as ([x t] & J & F).
      apply (B _ _ _ _ F J).
  Qed.

  (** * Errors *)

  Definition fair (e : exn) : Prop := data_error e \/ e = ERecursion.

  Lemma parse_scalar_errors : forall k j e, parse_scalar k j = Err e -> data_error e.
  Proof.
    unfold data_error.
    assert (ITF : forall z e, int_to_float z = Err e -> e = EOverflow).
    { intros z e. unfold int_to_float. destruct (_ <=? _)%N; congruence. }
    intros k j e. destruct k, j; cbn [parse_scalar]; intros Q; try discriminate; try (injection Q as <-; tauto);
      apply bind_err in Q; destruct Q as [Q|(x & _ & Q)]; try discriminate; try (apply ITF in Q; tauto).
    - apply Base64Proofs.parse_errors in Q. tauto.
    - apply IsoTimeProofs.datetime_errors in Q. tauto.
    - apply IsoTimeProofs.date_errors in Q. tauto.
    - apply IsoTimeProofs.time_errors in Q. tauto.
    - apply TimeDeltaProofs.parse_errors in Q. tauto.
    - apply AddressesProofs.uuid_errors in Q. tauto.
    - apply AddressesProofs.ipv4_errors in Q. tauto.
    - apply AddressesProofs.ipv6_errors in Q. tauto.
  Qed.

  Lemma parse_field_errors : forall p c cl fps fp o e, get_class E c = Some cl ->
    field_parsers E cl = Ok fps -> In fp fps -> parse_field p fp o = Err e ->
    data_error e \/ exists j, dict_get o (fp_prop fp) = Some j /\ p (fp_type fp) j = Err e.
  Proof.
    intros p c cl fps fp o e G F I Q. unfold parse_field in Q.
    destruct (fp_mode fp) as [| |d] eqn:M; destruct (dict_get o (fp_prop fp)) as [j|]; try discriminate.
    - destruct j; try (right; eexists; split; [reflexivity | exact Q]). injection Q as <-. left. unfold data_error. tauto.
    - injection Q as <-. left. unfold data_error. tauto.
    - destruct j; try discriminate; right; eexists; (split; [reflexivity | exact Q]).
    - destruct j; try (right; eexists; split; [reflexivity | exact Q]).
      all: left; subst d; unfold field_parsers in F; apply bind_ok in F; destruct F as (hs & _ & F);
      destruct (c_kind cl) as [ms|ths|xs|fr fs|phs] eqn:KD.
      all: try (injection F as <-; destruct I; fail).
      all: try (injection F as <-; apply in_map_iff in I; destruct I as ([x t] & <- & _); discriminate).
      all: apply mapM_ok in F; destruct (Forall2_in_r _ _ _ _ _ _ F I) as (q & J & P).
      all: try (destruct q as [f [x t]]).
      all: try (destruct q as [x t]).
      all: unfold field_parser in P; apply bind_ok in P; destruct P as (u & _ & P); injection P as <-; cbn [fp_mode] in M.
      all: try (destruct (is_type_optional t); discriminate).
      all: destruct (f_default f) as [d|] eqn:FD; [|destruct (is_type_optional t); discriminate].
      all: injection M as ->; apply in_combine_l in J; exact (pl_default _ _ PL _ _ _ _ _ _ G KD J FD).
    - left; subst d; unfold field_parsers in F; apply bind_ok in F; destruct F as (hs & _ & F);
      destruct (c_kind cl) as [ms|ths|xs|fr fs|phs] eqn:KD.
      all: try (injection F as <-; destruct I; fail).
      all: try (injection F as <-; apply in_map_iff in I; destruct I as ([x t] & <- & _); discriminate).
      all: apply mapM_ok in F; destruct (Forall2_in_r _ _ _ _ _ _ F I) as (q & J & P).
      all: try (destruct q as [f [x t]]).
      all: try (destruct q as [x t]).
      all: unfold field_parser in P; apply bind_ok in P; destruct P as (u & _ & P); injection P as <-; cbn [fp_mode] in M.
      all: try (destruct (is_type_optional t); discriminate).
      all: destruct (f_default f) as [d|] eqn:FD; [|destruct (is_type_optional t); discriminate].
      all: injection M as ->; apply in_combine_l in J; exact (pl_default _ _ PL _ _ _ _ _ _ G KD J FD).
  Qed.

  (** The properties that discriminate a union are tag properties. *)
  Lemma literal_properties_tags : forall t ps p, literal_properties E t = Ok ps -> In p ps -> tag_property E p.
  Proof.
    intros t ps p Q I. destruct t; try (injection Q as <-; destruct I). cbn [literal_properties] in Q.
    destruct (get_class E c) as [cl|] eqn:G; [|discriminate].
    apply bind_ok in Q. destruct Q as (qs & C & Q). injection Q as <-.
    apply in_map_iff in I. destruct I as ([p' t'] & <- & I). apply filter_In in I. destruct I as [I L]. cbn [fst snd] in *.
    assert (LV : literal_values t' <> None) by (destruct (literal_values t'); congruence).
    unfold class_properties in C.
    assert (HN : hints E cl = Ok qs -> tag_property E p').
    { intros Hh. unfold hints in Hh. apply mapM_ok in Hh.
      destruct (Forall2_in_r _ _ _ _ _ _ Hh I) as ([y u] & Iy & R). apply bind_ok in R. destruct R as (w & R & X).
      injection X as -> ->. exists c, cl, u, t'. repeat split; auto. }
    destruct (c_kind cl) eqn:KD; try (apply HN; exact C).
    injection C as <-. exists c, cl, t', t'. rewrite KD. repeat split; auto.
  Qed.

  Lemma common_properties_sub : forall ts qs ps p, common_properties E qs ts = Ok ps -> In p ps -> In p qs.
  Proof.
    induction ts as [|t ts IH]; intros qs ps p Q I; cbn [common_properties] in Q.
    - injection Q as <-. exact I.
    - apply bind_ok in Q. destruct Q as (rs & _ & Q). apply (IH _ _ _ Q) in I. apply filter_In in I. tauto.
  Qed.

  Lemma discriminating_tags : forall ts ps p, discriminating_properties E ts = Ok ps -> In p ps -> tag_property E p.
  Proof.
    intros [|t ts] ps p Q I; cbn [discriminating_properties] in Q; [injection Q as <-; destruct I|].
    destruct (forallb _ _); [|injection Q as <-; destruct I].
    apply bind_ok in Q. destruct Q as (qs & L & Q). apply (common_properties_sub _ _ _ _ Q) in I.
    eapply literal_properties_tags; eassumption.
  Qed.

  Lemma tag_select_errors : forall tbl ps o e, tag_select tbl ps o = Err e ->
    (forall p x, In p ps -> dict_get o p = Some x -> match x with JArr _ | JObj _ => False | _ => True end) ->
    e = EJsonType.
  Proof.
    intros tbl. induction ps as [|p ps IH]; intros o e Q S; cbn [tag_select] in Q; [congruence|].
    assert (S' : forall p x, In p ps -> dict_get o p = Some x -> match x with JArr _ | JObj _ => False | _ => True end)
      by (intros; eapply S; [right|]; eassumption).
    destruct (dict_get o p) as [x|] eqn:D; [|eapply IH; eassumption].
    pose proof (S p x (or_introl eq_refl) D) as SX.
    destruct x; try contradiction; try (eapply IH; eassumption); destruct (tag_find tbl p _); congruence.
  Qed.

  Lemma subdoc_trans : forall a b c, subdoc a b -> subdoc b c -> subdoc a c.
  Proof. intros a b c AB BC. induction BC; [exact AB | eapply sd_arr; eauto | eapply sd_obj; eauto]. Qed.

  Lemma scalar_tags_sub : forall a b, subdoc a b -> scalar_tags E b -> scalar_tags E a.
  Proof. intros a b S T o p x SD. apply T. eapply subdoc_trans; eassumption. Qed.

  (** the iteration order of a set only permutes it *)
  Hypothesis ORD : forall ps p, In p (e_order E ps) -> In p ps.

  Lemma parse_errors : forall S skip, closed E S -> forall n m t j e, static_ok E S m t -> sets_ok E H m t ->
    json_wf j -> scalar_tags E j -> parse E skip n m t j = Err e -> fair e.
  Proof.
    intros S skip CL. unfold fair.
    assert (DT : data_error EJsonType /\ data_error EJsonKey /\ data_error EJsonValue /\ data_error EValue)
      by (unfold data_error; tauto). destruct DT as (DT & DK & DV & DE).
    induction n as [|n IH]; intros m t j e SO SH WF ST Q; cbn [parse] in Q; [injection Q as <-; auto|].
    destruct SO as [k|t SO|t SO|k t C SO|ts SO|op ts ps D T SO|ls u L SO|t md R SO|c cl G K|s a u L D SO|s u L D K|s u L R SO].
    - left. eapply parse_scalar_errors. exact Q.
    - destruct j; try (injection Q as <-; auto). apply bind_err in Q. destruct Q as [Q|(x & _ & Q)]; [|discriminate].
      apply mapM_err in Q. destruct Q as (x & I & Q). inversion WF as [| | | | |? WFs|]; subst. rewrite Forall_forall in WFs.
      eapply IH; [exact SO | exact (proj2 SH) | apply WFs; exact I | | exact Q].
      eapply scalar_tags_sub; [|exact ST]. eapply sd_arr; [exact I | apply sd_refl].
    - destruct j; try (injection Q as <-; auto). apply bind_err in Q. destruct Q as [Q|(x & _ & Q)]; [|discriminate].
      apply mapM_err in Q. destruct Q as (x & I & Q). inversion WF as [| | | | |? WFs|]; subst. rewrite Forall_forall in WFs.
      apply bind_err in Q. destruct Q as [Q|(v & V & Q)].
      + eapply IH; [exact SO | exact (proj2 SH) | apply WFs; exact I | | exact Q].
        eapply scalar_tags_sub; [|exact ST]. eapply sd_arr; [exact I | apply sd_refl].
      + exfalso. apply (parse_sound E skip OK) in V; [|apply WFs; exact I].
        rewrite (hash_value _ _ _ V (proj1 SH)) in Q. discriminate.
    - destruct j; try (injection Q as <-; auto). apply bind_err in Q. destruct Q as [Q|(x & _ & Q)]; [|discriminate].
      apply mapM_err in Q. destruct Q as ([s x] & I & Q). inversion WF as [| | | | | |? _ WFs]; subst. rewrite Forall_forall in WFs.
      apply bind_err in Q. destruct Q as [Q|(kv & _ & Q)].
      + left. destruct k; try discriminate; cbn [check_key_type parse_key] in *.
        * destruct k; discriminate.
        * destruct (get_class E c) as [cl|]; [|discriminate]. destruct (c_kind cl); try discriminate.
          unfold parse_enum in Q. destruct (enum_find _ _); [discriminate|]. injection Q as <-. exact DE.
      + apply bind_err in Q. destruct Q as [Q|(v & _ & Q)]; [|discriminate].
        eapply IH; [exact SO | exact (proj2 (proj2 SH)) | apply (WFs _ I) | | exact Q].
        eapply scalar_tags_sub; [|exact ST]. eapply sd_obj; [exact I | apply sd_refl].
    - destruct j; try (injection Q as <-; auto). destruct (Nat.eqb _ _); [|injection Q as <-; auto].
      apply bind_err in Q. destruct Q as [Q|(x & _ & Q)]; [|discriminate].
      apply zip_parse_err in Q. destruct Q as (u & x & Iu & Ix & Q). inversion WF as [| | | | |? WFs|]; subst.
      rewrite Forall_forall in WFs, SO. destruct SH as [_ SH]. apply every_part_list in SH. rewrite Forall_forall in SH.
      eapply IH; [apply SO; exact Iu | apply SH; exact Iu | apply WFs; exact Ix | | exact Q].
      eapply scalar_tags_sub; [|exact ST]. eapply sd_arr; [exact Ix | apply sd_refl].
    - rewrite D in Q. cbn [bind] in Q. destruct SH as [_ SH]. apply every_part_list in SH. rewrite Forall_forall in SH, SO.
      assert (MEM : forall t, In t ts -> forall e, parse E skip n m t j = Err e -> data_error e \/ e = ERecursion).
      { intros t I e' Q'. eapply IH; [apply SO; exact I | apply SH; exact I | exact WF | exact ST | exact Q']. }
      destruct ps as [|p ps].
      + assert (UT : forall ts', (forall t, In t ts' -> In t ts) -> union_try (fun u => parse E skip n m u j) ts' = Err e ->
          data_error e \/ e = ERecursion).
        { clear Q. induction ts' as [|t ts' IHt]; intros INC Q; cbn [union_try] in Q; [injection Q as <-; auto|].
          destruct (parse E skip n m t j) as [v|e'] eqn:X; [discriminate|].
          assert (A := MEM t (INC t (or_introl eq_refl)) e' X).
          assert (B := IHt (fun u I => INC u (or_intror I))).
          destruct e'; try (injection Q as <-; exact A); apply B; exact Q. }
        apply (UT ts); [auto | exact Q].
      + destruct T as [|(tbl & T & TD)]; [discriminate|]. rewrite T in Q. cbn [bind] in Q.
        destruct j; try (injection Q as <-; auto).
        apply bind_err in Q. destruct Q as [Q|(u & SEL & Q)].
        * left. apply tag_select_errors in Q; [subst; exact DT|].
          intros p' x I DG. apply ORD in I. apply (ST o p' x (sd_refl _)); [apply dict_get_in; exact DG|].
          eapply discriminating_tags; eassumption.
        * apply tag_select_in in SEL. destruct SEL as (p' & l & x & _ & I & _).
          apply (tag_table_in _ _ _ _ _ _ _ T) in I. destruct I as (Iu & _).
          exact (MEM _ Iu _ Q).
    - rewrite L in Q. cbn [bind] in Q. apply bind_err in Q. destruct Q as [Q|(v & _ & Q)].
      + eapply IH; [exact SO | | exact WF | exact ST | exact Q].
        destruct ls as [|l ls]; [discriminate|]. cbn [literal_type] in L. destruct (forallb _ ls); [|discriminate].
        injection L as <-. destruct l; split; exact I.
      + destruct (existsb _ _); [discriminate|]. injection Q as <-. auto.
    - assert (Q' : parse E skip n m t j = Err e) by (destruct t; try exact Q; exfalso; apply R; exact I).
      eapply IH; [exact SO | exact (proj2 SH) | exact WF | exact ST | exact Q'].
    - rewrite G in Q. apply CL in K. cbn [key_ok] in K. destruct K as (cl' & G' & K).
      rewrite G in G'. injection G' as <-.
      assert (X : (exists fps, field_parsers E cl = Ok fps /\ Forall (fun fp => static_ok E S (c_module cl) (fp_type fp)) fps) ->
        (do fps <- field_parsers E cl; parse_object (parse E skip n (c_module cl)) skip c cl fps j) = Err e ->
        data_error e \/ e = ERecursion).
      { intros (fps & F & A) Q'. rewrite F in Q'. cbn [bind] in Q'.
        destruct j; try (injection Q' as <-; auto). cbn [parse_object] in Q'.
        apply bind_err in Q'. destruct Q' as [Q'|(vals & _ & Q')].
        - apply mapM_err in Q'. destruct Q' as (fp & I & Q'). apply bind_err in Q'. destruct Q' as [Q'|(v & _ & Q')]; [|discriminate].
          destruct (parse_field_errors _ _ _ _ _ _ _ G F I Q') as [|(x & DG & P)]; [auto|].
          apply dict_get_in in DG. inversion WF as [| | | | | |? _ WFs]; subst. rewrite Forall_forall in A, WFs.
          eapply IH; [apply A; exact I | eapply field_parsers_sets; eassumption | apply (WFs _ DG) | | exact P].
          eapply scalar_tags_sub; [|exact ST]. eapply sd_obj; [exact DG | apply sd_refl].
        - destruct (skip || _); [|injection Q' as <-; auto].
          destruct (c_kind cl) as [| |[|x xs]| |] eqn:KD; try discriminate.
          apply (pl_raw _ _ PL _ _ _ G) in KD. discriminate. }
      destruct (c_kind cl) eqn:KD, (c_from_json cl) eqn:HK;
        try (apply X; [exact K | exact Q]);
        try (left; eapply pl_hook; eassumption);
        unfold parse_enum in Q; (destruct (enum_find _ _); [discriminate|]); injection Q as <-; auto.
    - rewrite L in Q. eapply IH; [exact SO | | exact WF | exact ST |].
      + destruct (deref u); try contradiction; split; exact I.
      + destruct (deref u); try contradiction; exact Q.
    - rewrite L in Q. apply CL in K. cbn [key_ok] in K. destruct K as (u' & L' & SO & _). rewrite L in L'. injection L' as <-.
      eapply IH; [exact SO | | exact WF | exact ST |].
      + pose proof (pl_refs _ _ PL _ _ _ _ L) as P. destruct u; try exact P. exact (proj2 P).
      + destruct (deref u); try contradiction; exact Q.
    - rewrite L in Q. eapply IH; [exact SO | | exact WF | exact ST |].
      + pose proof (pl_refs _ _ PL _ _ _ _ L) as P. destruct u; try exact P. exact (proj2 P).
      + destruct (deref u); try exact Q. exfalso. apply R. exact I.
  Qed.
End Errors.

Theorem json_to_object_errors : forall E H skip m t j e vis, env_ok E -> polite E H -> guarded_env E ->
  (forall ps p, In p (e_order E ps) -> In p ps) ->
  every_part (guarded E m) t -> sets_ok E H m t -> create_deserializer E m t = Ok vis ->
  json_wf j -> scalar_tags E j -> json_to_object E skip m t j = Err e -> data_error e.
Proof.
  intros E H skip m t j e vis OK PL GE ORD G SH C WF ST Q.
  assert (CALM : calm E).
  { split.
    - intros c cl h d G' HK X. apply (pl_hook _ _ PL _ _ _ _ _ G' HK) in X.
      unfold data_error in X. intuition discriminate.
    - intros c cl fr fs f G' KD I X. apply (pl_default _ _ PL _ _ _ _ _ _ G' KD I) in X.
      unfold data_error in X. intuition discriminate. }
  pose proof (json_to_object_ends E GE CALM skip m t j G) as NR.
  unfold json_to_object in *. rewrite C in *. cbn [bind] in *.
  apply create_closed in C. destruct C as [CL SO].
  destruct (parse_errors E H OK PL ORD _ skip CL _ _ _ _ _ SO SH WF ST Q) as [D| ->]; [exact D | congruence].
Qed.
