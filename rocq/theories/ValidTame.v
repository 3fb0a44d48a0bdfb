(** All values of tame types fit. *)
From Coq Require Import String List NArith ZArith Bool Lia.
From Verif Require Import Base Json PyTypes Mapping Deser Ser Catalog Schema Lists SpecTyping TypingFacts SpecRecursion DeserFuel SpecTypes TypeAlgebraProofs
  SpecFields FieldProofs SpecSer SerFacts SpecTagged SpecDeser SpecRoundTrip SpecSchema SpecGenerate SpecValid SchemaClass SchemaSem DeserFacts RoundTrip SchemaValid.
Import ListNotations.
Open Scope list_scope.
Open Scope nat_scope.

Lemma combine_related : forall A B (R : A -> B -> Prop) l r a b, Forall2 R l r -> In (a, b) (combine l r) -> R a b.
Proof.
  intros A B R l r a b F. induction F as [|x y l r Rxy F IH]; intros I; [destruct I|]. cbn [combine In] in I.
  destruct I as [Q|I]; [injection Q as <- <-; exact Rxy | auto].
Qed.

(** The value of a field has the type the serializer sees. *)
Lemma property_value : forall E c cl ps attrs, env_ok E -> get_class E c = Some cl -> class_properties E cl = Ok ps ->
  map fst attrs = map fst (raw_fields (c_kind cl)) ->
  Forall2 (has_type E (c_module cl)) (map snd (raw_fields (c_kind cl))) (map snd attrs) ->
  forall x w, dict_get attrs x = Some w -> exists t, In (x, t) ps /\ has_type E (c_module cl) t w.
Proof.
  intros E c cl ps attrs OK G P AN AT x w D. apply dict_get_in in D.
  assert (X : exists t0, In (x, t0) (raw_fields (c_kind cl)) /\ has_type E (c_module cl) t0 w).
  { revert AN AT D. generalize (raw_fields (c_kind cl)) as rs. induction attrs as [|[a v] r IH]; intros [|[y u] rs] AN AT D; try discriminate; [destruct D|].
    cbn [map fst snd] in *. injection AN as -> AN. inversion AT; subst. destruct D as [Q|D].
    - injection Q as -> ->. exists u. split; [left; reflexivity | assumption].
    - destruct (IH rs AN) as (t0 & I & H); try assumption. exists t0. split; [right; exact I | exact H]. }
  destruct X as (t0 & I & H). unfold class_properties in P.
  destruct (c_kind cl) eqn:K; try (apply hints_ok in P; rewrite K in P;
    destruct (Forall2_in_l _ _ _ _ _ _ P I) as ([y t] & It & Q & HT); cbn [fst snd] in *; subst y; exists t; split; [exact It | apply HT; exact H]).
  injection P as <-. exists t0. auto.
Qed.

Lemma property_unique : forall E c cl ps x t u, env_ok E -> get_class E c = Some cl -> class_properties E cl = Ok ps ->
  In (x, t) ps -> In (x, u) ps -> t = u.
Proof.
  intros E c cl ps x t u OK G P I J. pose proof (properties_names_raw _ _ _ P) as N. pose proof (ok_names _ _ _ (OK _ _ G)) as ND.
  rewrite <- N in ND. apply dict_get_nodup in I; [|exact ND]. apply dict_get_nodup in J; [|exact ND]. congruence.
Qed.

Lemma read_value : forall E m t r w, canonical t -> read_type t r -> w <> VNone -> has_type E m t w -> has_type E m r w.
Proof.
  intros E m t r w C [(O & D)|(_ & ->)] N H; [|exact H]. apply (proj2 (unwrap_optional_spec _ _ C)) in D.
  apply (unwrap_optional_has E m t r w D); assumption.
Qed.

Lemma inner_exists : forall op ts, canonical (TUnion op ts) -> exists u, unwrap_optional_inner (TUnion op ts) = Ok u.
Proof.
  intros op ts C. pose proof C as C0. inversion C as [| | | | | |? ? L N F| | | | |]; subst.
  destruct (unwrap_optional_inner (TUnion op ts)) as [u|e] eqn:U; [eauto|]. exfalso. cbn [unwrap_optional_inner] in U.
  pose proof (none_filter ts) as W. set (us := filter _ ts) in *.
  assert (F' : Forall (fun t => ~ is_union t) us).
  { eapply without_none_sub; [exact W|]. eapply Forall_impl; [|exact F]. cbn. tauto. }
  rewrite mk_union_of in U; [|exact F' | eapply without_none_nodup; eassumption].
  destruct us as [|a [|b r]] eqn:Q; try discriminate U.
  assert (A : forall t, In t ts -> t = none_type).
  { intros t I. destruct (typ_eqb (TScalar KNone) t) eqn:B; [apply typ_eqb_eq in B; subst; reflexivity|].
    assert (In t us) by (apply filter_In; split; [exact I | rewrite B; reflexivity]). rewrite Q in H. destruct H. }
  destruct ts as [|x [|y r]]; cbn [length] in L; try lia. inversion N as [|? ? NI _]; subst. apply NI. left.
  rewrite (A x (or_introl eq_refl)), (A y (or_intror (or_introl eq_refl))). reflexivity.
Qed.

Lemma read_exists : forall t, canonical t -> exists r, read_type t r.
Proof.
  intros t C. destruct (is_type_optional t) eqn:O; [|exists t; apply read_by; [exact C | rewrite O; reflexivity]].
  pose proof O as O'. apply is_type_optional_spec in O'. destruct O' as (op & ts & _ & [->|(md & ->)]).
  - destruct (inner_exists op ts C) as (u & U). exists u. apply read_by; [exact C | rewrite O; exact U].
  - inversion C as [| | | | | | | |? ? C' _| | |]; subst. destruct (inner_exists op ts C') as (u & U).
    exists (mk_annot u md). apply read_by; [exact C|]. rewrite O. cbn [unwrap_optional]. rewrite U. reflexivity.
Qed.

Section Tame.
  Variable E : env.
  Hypothesis OK : env_ok E.
  Hypothesis CE : canonical_env E.
  Variable T : nat -> typ -> Prop.
  Hypothesis TM : tame E T.

  Lemma tame_key : forall m k a, key_type E k -> T m k -> has_type E m k a -> fits E m k a.
  Proof.
    intros m k a [->|[->|(c & cl & ms & -> & G & K & _)]] Tk H.
    - apply ft_scalar; [reflexivity | apply ht_scalar_iff in H; exact H].
    - apply ft_scalar; [reflexivity | apply ht_scalar_iff in H; exact H].
    - destruct (TM _ _ Tk) as (_ & X). destruct (X cl G) as (TJ & Y). rewrite K in Y.
      inversion H as [| | | | | | | | |? ? cl' ms' x G' K' I|? ? cl' attrs G' K' AN AT|? ? cl' xs attrs G' K'|? ? cl' h attrs G' K' FJ]; subst;
        rewrite G in G'; injection G' as <-; rewrite K in K'; try contradiction; try discriminate K'.
      injection K' as <-. eapply ft_enum; eassumption.
  Qed.

  Theorem tame_fits : forall m t v, T m t -> has_type E m t v -> fits E m t v /\ conforms E v.
  Proof.
    assert (MAIN : forall d k m t v, vdepth v < d -> level E k m t -> T m t -> has_type E m t v -> fits E m t v /\ conforms E v).
    { induction d as [|d IHd]; [intros; lia|]. induction k as [|k IHk]; intros m t v LT L Tt HT; [destruct L|].
      assert (IH : forall m t w, vdepth w < vdepth v -> T m t -> has_type E m t w -> fits E m t w /\ conforms E w).
      { intros m' t' w LW Tw HW. destruct (TM _ _ Tw) as (Gw & _). destruct (guarded_level E m' t' Gw) as (k' & Lw). eapply IHd; try eassumption. lia. }
      destruct (TM _ _ Tt) as (_ & X). clear IHd.
      destruct t as [k0|b|w|w|kt w|ts|op ts|ls|w md|c|s|].
      - apply ht_scalar_iff in HT. split; [apply ft_scalar; assumption | apply cf_leaf; destruct k0, v; try contradiction; exact Logic.I].
      - destruct X.
      - apply ht_list_iff in HT. destruct HT as (vs & -> & HT). rewrite Forall_forall in HT.
        assert (Y : forall x, In x vs -> fits E m w x /\ conforms E x) by (intros x I; apply IH; [apply vdepth_list; exact I | exact X | auto]).
        split; [apply ft_list; intros x I; apply Y; exact I | apply cf_list; apply Forall_forall; intros x I; apply Y; exact I].
      - pose proof HT as HT0. apply ht_set_iff in HT. destruct HT as (vs & -> & HT & HS & D). destruct X as (X & DS). rewrite Forall_forall in HT.
        assert (Y : forall x, In x vs -> fits E m w x /\ conforms E x) by (intros x I; apply IH; [apply vdepth_set; exact I | exact X | auto]).
        split; [apply ft_set; [intros x I; apply Y; exact I | intros js F; eapply DS; eassumption] | apply cf_set; apply Forall_forall; intros x I; apply Y; exact I].
      - apply ht_dict_iff in HT. destruct HT as (kvs & -> & HK & HT & ND). destruct X as (KT & Tk & X). rewrite Forall_forall in HK, HT.
        assert (Y : forall a b, In (a, b) kvs -> fits E m w b /\ conforms E b).
        { intros a b I. apply IH; [eapply vdepth_dict; exact I | exact X | exact (HT _ I)]. }
        split.
        + apply ft_dict; [exact KT | | intros a b I; eapply Y; exact I]. intros a b I. apply tame_key; [exact KT | exact Tk | exact (HK _ I)].
        + apply cf_dict. apply Forall_forall. intros [a b] I. eapply Y; exact I.
      - apply ht_tuple_iff in HT. destruct HT as (vs & -> & HT). split.
        + apply ft_tuple; [exact (Forall2_length_eq _ _ _ _ _ HT)|]. intros t x I. apply IH.
          * apply vdepth_tuple. eapply in_combine_r; exact I.
          * apply X. eapply in_combine_l; exact I.
          * eapply combine_related; eassumption.
        + apply cf_tuple. apply Forall_forall. intros x I. destruct (Forall2_in_r _ _ _ _ _ _ HT I) as (u & Iu & HX).
          apply (IH m u x); [apply vdepth_tuple; exact I | apply X; exact Iu | exact HX].
      - apply ht_union_iff in HT. destruct HT as (u & I & HT). cbn [level] in L. rewrite Forall_forall in L. destruct X as (X & AP).
        destruct (IHk m u v LT (L u I) (X u I) HT) as (Fu & Cu). split; [|exact Cu].
        apply in_split in I. destruct I as (ts1 & ts2 & ->). apply ft_union; [exact Fu|].
        intros u' j Iu IM. eapply AP; [reflexivity | exact Iu | exact HT | exact IM].
      - apply ht_literal_iff in HT. destruct HT as (l & I & ->). destruct X as (l' & c & -> & LJ). destruct I as [<-|[]].
        split; [eapply ft_literal; exact LJ | apply cf_leaf; destruct l'; exact Logic.I].
      - destruct X as (X & ID). apply ht_annot_iff in HT. destruct (IHk m w v LT L X HT) as (Fw & Cw). split; [|exact Cw].
        apply ft_annot; [exact Fw|]. intros k0 a j _ Ia _. specialize (ID a Ia). destruct a; try contradiction; destruct j; exact Logic.I.
      - inversion HT as [| | | | | | | | |? ? cl ms x G K I|? ? cl attrs G K AN AT|? ? cl xs attrs G K|? ? cl h attrs G K FJ]; subst;
          destruct (X cl G) as (TJ & Y).
        + rewrite K in Y. split; [eapply ft_enum; eassumption | apply cf_leaf; exact Logic.I].
        + assert (NE : not_enum cl) by (intros ms Q; rewrite Q in K; destruct K).
          assert (Z : exists ps, class_properties E cl = Ok ps /\ distinct_names ps /\
            (forall x t k, In (x, t) ps -> In k python_keywords -> x <> k ++ str "_") /\
            (forall x t, In (x, t) ps -> has_type E (c_module cl) t VNone -> optional t) /\
            (forall x t r, In (x, t) ps -> read_type t r -> T (c_module cl) r)) by (destruct (c_kind cl); try contradiction; apply Y).
          destruct Z as (ps & P & DN & KW & NO & RT). pose proof (ok_names _ _ _ (OK _ _ G)) as ND. rewrite <- AN in ND.
          assert (PV : forall x w, dict_get attrs x = Some w -> exists t, In (x, t) ps /\ has_type E (c_module cl) t w)
            by (eapply property_value; eassumption).
          assert (IV : forall x w r t, dict_get attrs x = Some w -> w <> VNone -> In (x, t) ps -> read_type t r -> fits E (c_module cl) r w /\ conforms E w).
          { intros x w r t D Nw I Rd. destruct (PV x w D) as (t' & I' & Hw). rewrite (property_unique _ _ _ _ _ _ _ OK G P I' I) in Hw.
            apply IH; [eapply vdepth_obj, dict_get_in; exact D | exact (RT x t r I Rd)|].
            eapply read_value; try eassumption. eapply properties_canonical; eassumption. }
          split.
          * eapply ft_object; try eassumption.
            -- intros x t I D. destruct (PV x VNone D) as (t' & I' & Hw). rewrite (property_unique _ _ _ _ _ _ _ OK G P I' I) in Hw. eapply NO; eassumption.
            -- intros x t w r I D Nw Rd. eapply IV; eassumption.
          * assert (CF : Forall (fun a => conforms E (snd a)) attrs).
            { apply Forall_forall. intros [a w] I. cbn [snd]. destruct (value_none_dec w) as [->|Nw]; [apply cf_leaf; exact Logic.I|].
              apply dict_get_nodup in I; [|exact ND]. destruct (PV a w I) as (t & It & Hw).
              destruct (read_exists t) as (r & Rd); [eapply properties_canonical; eassumption|]. eapply IV; eassumption. }
            assert (C : annotated cl \/ ~ annotated cl).
            { unfold annotated. destruct (c_kind cl) as [| | | |[|]]; try tauto. left. discriminate. }
            destruct C as [A|A]; [eapply cf_fields; eassumption | eapply cf_plain; eassumption].
        + rewrite K in Y. destruct Y.
        + exfalso. destruct (c_kind cl) eqn:Kc; try contradiction; destruct Y as (FW & _); unfold fieldwise in FW; rewrite Kc in FW; congruence.
      - apply ht_ref_iff in HT. destruct HT as (a & u & Q & HT). cbn [level] in L. rewrite Q in L.
        destruct (IHk m u v LT L (X a u Q) HT) as (Fu & Cu). split; [eapply ft_ref; eassumption | exact Cu].
      - destruct X. }
    intros m t v Tt HT. destruct (TM _ _ Tt) as (G & _). destruct (guarded_level E m t G) as (k & L). eapply (MAIN (S (vdepth v)) k); try eassumption. lia.
  Qed.
End Tame.

(** Sets of texts, integers and truth values are written with distinct elements. *)
Lemma plain_set : forall E m k vs js, In k [KBool; KInt; KStr] -> has_type E m (TSet (TScalar k)) (VSet vs) ->
  Forall2 (image E) vs js -> distinct js = true.
Proof.
  intros E m k vs js Ik H F. apply ht_set_iff in H. destruct H as (vs' & Q & HT & _ & D). injection Q as <-.
  revert js F. induction vs as [|v vs IH]; intros js F; [inversion F; reflexivity|].
  inversion F as [|? j ? js' Iv F']; subst. inversion HT as [|? ? Hv HT']; subst. inversion D as [|? ? Dv D']; subst.
  cbn [distinct]. rewrite (IH D' HT' js' F'), andb_true_r. apply negb_true_iff. apply not_true_is_false. intros X.
  apply existsb_exists in X. destruct X as (j' & I' & S). destruct (Forall2_in_r _ _ _ _ _ _ F' I') as (v' & Iv' & Im).
  rewrite Forall_forall in HT', Dv. specialize (HT' v' Iv'). specialize (Dv v' Iv'). apply ht_scalar_iff in Hv. apply ht_scalar_iff in HT'.
  assert (SI : forall v j, scalar_type k v -> image E v j -> scalar_image v j).
  { intros a b Ta Ia. eapply image_scalar; [exact Ia|]. destruct k, a; try contradiction; exact Logic.I. }
  apply SI in Iv; [|assumption]. apply SI in Im; [|assumption]. clear SI.
  cbn [In] in Ik. destruct Ik as [<-|[<-|[<-|[]]]]; destruct v; try contradiction; destruct v'; try contradiction;
    inversion Iv; inversion Im; subst.
  - cbn [same] in S. apply eqb_prop in S. subst. pose proof (py_eq_lit E (LBool b0)) as Z. cbn [lit_value] in Z. congruence.
  - revert S Dv. cbn [same num_of]. unfold num_eqb. rewrite num_cmp_int. cbn [py_eq value_number]. destruct (z ?= z0)%Z eqn:Q; try discriminate.
    apply Z.compare_eq_iff in Q. subst. intros _ Y. pose proof (py_eq_lit E (LInt z0)) as Z. cbn [lit_value py_eq value_number] in Z. congruence.
  - cbn [same py_eq value_number] in *. congruence.
Qed.

(** ** Members told apart *)

Lemma same_kind : forall a b, same a b = true -> kind_of a = kind_of b.
Proof. intros a b. destruct a, b; cbn [same kind_of]; intros H; try reflexivity; discriminate H. Qed.

Lemma unlike_alien : forall E m t jk, unlike E m t jk -> forall j, kind_of j = jk -> alien E m t j.
Proof.
  intros E m t jk H. induction H as [m k jk A N|m t jk N|m t jk N|m ts jk N|m k t jk N|m op ts jk _ IH|m l c jk L N|m t md jk _ IH
    |m s a t jk L _ IH|m c cl ms jk G K N|m c cl jk G NE N]; intros j Q.
  - apply al_scalar; [exact A|]. intros X. apply N. rewrite <- Q. destruct k, j; try contradiction; try discriminate A; reflexivity.
  - apply al_list. intros (js & ->). subst jk. destruct (N eq_refl).
  - apply al_set. intros (js & ->). subst jk. destruct (N eq_refl).
  - apply al_tuple. intros (js & ->). subst jk. destruct (N eq_refl).
  - apply al_dict. intros (js & ->). subst jk. destruct (N eq_refl).
  - apply al_union. intros t I. apply IH; assumption.
  - eapply al_literal; [exact L|]. apply not_true_is_false. intros X. apply same_kind in X. congruence.
  - apply al_annot, IH, Q.
  - eapply al_ref; [exact L | apply IH, Q].
  - eapply al_enum; [exact G | exact K|]. intros x v I. apply not_true_is_false. intros X. apply same_kind in X.
    apply (N x v I). congruence.
  - eapply al_class; [exact G | exact NE|]. intros (o & ->). subst jk. destruct (N eq_refl).
Qed.

Theorem kinds_apart : forall E m t u, (forall jk, gives E m t jk -> unlike E m u jk) -> told_apart E m t u.
Proof. intros E m t u H v j HT IM. eapply unlike_alien; [|reflexivity]. apply H. eapply image_gives; eassumption. Qed.

(** What is written for a literal field. *)
Lemma tag_image : forall E m c p l jc v j, env_ok E -> tagged_by E c p l -> lit_json l = Some jc -> jc <> JNull ->
  has_type E m (TClass c) v -> image E v j -> exists o, j = JObj o /\ In (p, jc) o.
Proof.
  intros E m c p l jc v j OK (cl & ps & G & A & FW & TJ & P & D & KW & I) LJ NN HT IM.
  assert (X : exists attrs, v = VObj c attrs /\ map fst attrs = map fst (raw_fields (c_kind cl)) /\
    Forall2 (has_type E (c_module cl)) (map snd (raw_fields (c_kind cl))) (map snd attrs)).
  { inversion HT as [| | | | | | | | |? ? cl' ms' x G' K' Ix|? ? cl' attrs G' K' AN AT|? ? cl' xs attrs G' K'|? ? cl' h attrs G' K' FJ]; subst;
      rewrite G in G'; injection G' as <-; unfold annotated, fieldwise in *; try (rewrite K' in A; destruct A); [eauto|].
    destruct (c_kind cl); try contradiction; congruence. }
  destruct X as (attrs & -> & AN & AT). destruct (image_fields _ _ _ _ _ G TJ A IM) as (fs & ls & pso & o & -> & P' & PR & F & M).
  assert (Qf : fs = ps) by congruence. subst fs. clear P'. exists o. split; [reflexivity|].
  assert (Nl : no_alias (TLiteral [l])) by (intros a (u & m1 & m2 & Q & _); discriminate Q).
  assert (V : forall w, dict_get attrs p = Some w -> w = lit_value l).
  { intros w Dw. destruct (property_value E c cl ps attrs OK G P AN AT p w Dw) as (t & It & Hw).
    rewrite (property_unique _ _ _ _ _ _ _ OK G P It I) in Hw. apply ht_literal_iff in Hw. destruct Hw as (l' & [<-|[]] & ->). reflexivity. }
  assert (Pv : exists w, dict_get attrs p = Some w).
  { clear - PR I. induction PR as [|y u fs l0 Dy PR IH|y u fs w l0 Dy Nw PR IH]; [destruct I|..];
      (destruct I as [Q|I]; [injection Q as -> ->; eauto | auto]). }
  destruct Pv as (w & Dw). pose proof (V w Dw) as ->.
  assert (Nw : lit_value l <> VNone) by (destruct l; try discriminate; cbn [lit_json] in LJ; congruence).
  pose proof (present_has _ _ _ _ _ _ PR I Dw Nw) as Il. destruct (Forall2_in_l _ _ _ _ _ _ F Il) as ([q i] & Iq & Pn & Im). cbn [fst snd] in *.
  assert (Qq : q = p).
  { destruct Pn as [a Al|k Na Ik Qk|Na Nk]; [destruct (Nl _ Al) | destruct (KW p _ _ I Ik Qk) | reflexivity]. }
  subst q. assert (Ik : In p (map fst o)) by (apply (proj2 (merged_keys _ _ M)), in_map_iff; exists (p, i); auto).
  apply in_map_iff in Ik. destruct Ik as ([p' x] & Q & Ix). cbn [fst] in Q. subst p'.
  pose proof (SchemaValid.merged_in _ _ _ _ M Ix) as Iy. destruct (Forall2_in_r _ _ _ _ _ _ F Iy) as ([[y t] w] & Ily & Pny & Imy). cbn [fst snd] in *.
  destruct (present_in _ _ _ _ _ _ PR Ily) as (Iyt & Dy & _).
  assert (Sy : schema_name y t p).
  { revert Pny. generalize p. intros p0 [a Al|k Na Ik Qk|Na Nk]; [apply sn_alias; exact Al | destruct (KW y t _ Iyt Ik Qk) | apply sn_same; exact Na]. }
  pose proof (D y t p (TLiteral [l]) p Iyt I Sy (sn_same p _ Nl)) as Q. injection Q as -> ->. rewrite (V w Dy) in Imy.
  assert (Qx : x = jc); [|subst x; exact Ix].
  destruct l; cbn [lit_json lit_value] in *; try discriminate LJ; injection LJ as <-; (apply image_scalar in Imy; [|exact Logic.I]; inversion Imy; reflexivity).
Qed.

Theorem tags_apart : forall E m c c' p l l' j j', env_ok E -> tagged_by E c p l -> tagged_by E c' p l' ->
  lit_json l = Some j -> lit_json l' = Some j' -> j <> JNull -> same j j' = false -> told_apart E m (TClass c) (TClass c').
Proof.
  intros E m c c' p l l' j j' OK T T' L L' N S v d HT IM. destruct (tag_image _ _ _ _ _ _ _ _ OK T L N HT IM) as (o & -> & I).
  destruct T' as (cl & ps & G & A & FW & TJ & P & D & KW & Ip).
  assert (Nl : no_alias (TLiteral [l'])) by (intros a (u & m1 & m2 & Q & _); discriminate Q).
  eapply al_class_field with (x := p) (t := TLiteral [l']) (p := p); try eassumption.
  - intros ms K. unfold fieldwise in FW. rewrite K in FW. exact FW.
  - apply sn_same, Nl.
  - right. split; [|reflexivity]. intros (op & ts & _ & [Q|(md & Q)]); discriminate Q.
  - eapply al_literal; eassumption.
Qed.
