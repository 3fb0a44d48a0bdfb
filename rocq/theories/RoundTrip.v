(** Deserialization undoes serialization. *)
From Coq Require Import String List NArith ZArith Bool Lia Permutation.
From Verif Require Import Base Json TimeDelta IsoTime Base64 Addresses PyTypes Mapping Deser Ser Lists
  SpecTimeDelta SpecIsoTime SpecBase64 SpecAddresses TimeDeltaProofs IsoTimeProofs Base64Proofs AddressesProofs
  SpecTyping TypingFacts DeserSound SpecRecursion DeserFuel DeserBuild DeserUnfold
  SpecNumbers NumbersProofs SpecDeser DeserFacts SpecTypes TypeAlgebraProofs SpecFields FieldProofs SpecTagged TaggedProofs
  SpecSer SerFacts SpecRoundTrip.
Import ListNotations.
Open Scope list_scope.
Open Scope nat_scope.

(** * Depth of values *)

Lemma vdepth_list : forall vs x, In x vs -> vdepth x < vdepth (VList vs).
Proof.
  intros vs x I. cbn [vdepth]. induction vs as [|y vs IH]; [destruct I|]. cbn [fold_right].
  destruct I as [->|I]; [lia|]. apply IH in I. lia.
Qed.
Lemma vdepth_tuple : forall vs x, In x vs -> vdepth x < vdepth (VTuple vs).
Proof. exact vdepth_list. Qed.
Lemma vdepth_set : forall vs x, In x vs -> vdepth x < vdepth (VSet vs).
Proof. exact vdepth_list. Qed.
Lemma vdepth_dict : forall kvs k x, In (k, x) kvs -> vdepth x < vdepth (VDict kvs).
Proof.
  intros kvs k x I. cbn [vdepth]. induction kvs as [|y vs IH]; [destruct I|]. cbn [fold_right].
  destruct I as [->|I]; [cbn [snd]; lia|]. apply IH in I. lia.
Qed.
Lemma vdepth_obj : forall c attrs a x, In (a, x) attrs -> vdepth x < vdepth (VObj c attrs).
Proof.
  intros c kvs k x I. cbn [vdepth]. induction kvs as [|y vs IH]; [destruct I|]. cbn [fold_right].
  destruct I as [->|I]; [cbn [snd]; lia|]. apply IH in I. lia.
Qed.

Lemma level_deref : forall E n m t, level E n m t -> level E n m (deref t).
Proof.
  intros E [|n] m t H; [exact H|]. destruct t; try exact H. cbn [deref unwrap_annotated]. cbn [level] in H.
  apply level_S. exact H.
Qed.

(** * Scalars *)

Lemma scalar_roundtrip : forall k v j, scalar_type k v -> exact_text v -> scalar_image v j -> parse_scalar k j = Ok v.
Proof.
  intros k v j T X H. destruct H; destruct k; try contradiction; cbn [scalar_type exact_text] in *; cbn [parse_scalar]; try reflexivity.
  - rewrite Base64Proofs.roundtrip by exact T. reflexivity.
  - rewrite (datetime_roundtrip d s T X H). reflexivity.
  - rewrite date_roundtrip by exact T. reflexivity.
  - rewrite time_roundtrip by assumption. reflexivity.
  - rewrite TimeDeltaProofs.roundtrip by assumption. reflexivity.
  - rewrite uuid_roundtrip by exact T. reflexivity.
  - rewrite ipv4_roundtrip by exact T. reflexivity.
  - rewrite ipv6_roundtrip by exact T. reflexivity.
Qed.

Lemma image_scalar : forall E v j, image E v j ->
  (match v with VList _ | VTuple _ | VSet _ | VDict _ | VEnum _ _ | VObj _ _ => False | _ => True end) -> scalar_image v j.
Proof.
  intros E v j H S. inversion H as [| | | | |? ? ? ? ? O| | | |]; subst; try contradiction; try assumption.
  destruct v; try contradiction; discriminate.
Qed.

Lemma image_list : forall E vs j, image E (VList vs) j -> exists js, j = JArr js /\ Forall2 (image E) vs js.
Proof. intros E vs j H. inversion H as [? ? S| | | | |? ? ? ? ? O| | | |]; subst; try discriminate; [inversion S|]. eauto. Qed.
Lemma image_tuple : forall E vs j, image E (VTuple vs) j -> exists js, j = JArr js /\ Forall2 (image E) vs js.
Proof. intros E vs j H. inversion H as [? ? S| | | | |? ? ? ? ? O| | | |]; subst; try discriminate; [inversion S|]. eauto. Qed.
Lemma image_set : forall E vs j, image E (VSet vs) j -> exists js, j = JArr js /\ Forall2 (image E) vs js.
Proof. intros E vs j H. inversion H as [? ? S| | | | |? ? ? ? ? O| | | |]; subst; try discriminate; [inversion S|]. eauto. Qed.
Lemma image_dict : forall E kvs j, image E (VDict kvs) j -> exists ps o, j = JObj o /\ merged ps o /\
  Forall2 (fun kv p => key_text E (fst kv) (fst p) /\ image E (snd kv) (snd p)) kvs ps.
Proof. intros E vs j H. inversion H as [? ? S| | | | |? ? ? ? ? O| | | |]; subst; try discriminate; [inversion S|]. eauto 6. Qed.

Lemma image_enum : forall E c cl ms x j, get_class E c = Some cl -> c_kind cl = CEnum ms -> c_to_json cl = None ->
  image E (VEnum c x) j -> In (x, j) ms.
Proof.
  intros E c cl ms x j G K T H. inversion H as [? ? S| | | | |? ? ? ? ? O G' T'|? ? ? ? ? G' T' K' I| | |]; subst.
  - inversion S.
  - injection O as <-. rewrite G in G'. injection G' as <-. congruence.
  - rewrite G in G'. injection G' as <-. rewrite K in K'. injection K' as <-. exact I.
Qed.

Lemma image_fields : forall E c cl attrs j, get_class E c = Some cl -> c_to_json cl = None -> annotated cl ->
  image E (VObj c attrs) j -> exists fs l ps o, j = JObj o /\ class_properties E cl = Ok fs /\ present attrs fs l /\
    Forall2 (fun f p => prop_name (fst (fst f)) (snd (fst f)) (fst p) /\ image E (snd f) (snd p)) l ps /\ merged ps o.
Proof.
  intros E c cl attrs j G T A H.
  inversion H as [? ? S| | | | |? ? ? ? ? O G' T'| |? ? fs ? l ps o G' T' A' P PR F M|? ? ? ? ? ? G' T' K'|? ? ? ? ? ? ? G' T' K']; subst.
  - inversion S.
  - injection O as <-. rewrite G in G'. injection G' as <-. congruence.
  - rewrite G in G'. injection G' as <-. exists fs, l, ps, o. auto.
  - rewrite G in G'. injection G' as <-. unfold annotated in A. rewrite K' in A. contradiction.
  - rewrite G in G'. injection G' as <-. unfold annotated in A. rewrite K' in A. contradiction.
Qed.

Lemma image_hook : forall E c cl h attrs j, get_class E c = Some cl -> c_to_json cl = Some h ->
  image E (VObj c attrs) j -> h (VObj c attrs) = Ok j.
Proof.
  intros E c cl h attrs j G T H.
  inversion H as [? ? S| | | | |? ? ? ? ? O G' T' Q| |? ? fs ? l ps o G' T' A' P PR F M|? ? ? ? ? ? G' T' K'|? ? ? ? ? ? ? G' T' K']; subst.
  - inversion S.
  - injection O as <-. rewrite G in G'. injection G' as <-. rewrite T in T'. injection T' as <-. exact Q.
  - rewrite G in G'. injection G' as <-. congruence.
  - rewrite G in G'. injection G' as <-. congruence.
  - rewrite G in G'. injection G' as <-. congruence.
Qed.

Lemma image_untyped : forall E c cl j, get_class E c = Some cl -> c_to_json cl = None -> c_kind cl = CPlain [] ->
  image E (VObj c []) j -> j = JObj [].
Proof.
  intros E c cl j G T K H.
  inversion H as [? ? S| | | | |? ? ? ? ? O G' T' Q| |? ? fs ? l ps o G' T' A' P PR F M|? ? ? ? ? ? G' T' K'|? ? ? l l' ps o G' T' K' PE SO FI FF F M]; subst.
  - inversion S.
  - injection O as <-. rewrite G in G'. injection G' as <-. congruence.
  - rewrite G in G'. injection G' as <-. unfold annotated in A'. rewrite K in A'. congruence.
  - rewrite G in G'. injection G' as <-. congruence.
  - apply Permutation_nil in PE. subst l. destruct FF as (f & ->). cbn [filter] in F. inversion F; subst.
    apply merged_fun in M. subst. reflexivity.
Qed.

(** * Attributes and properties *)

Lemma present_in : forall attrs fs l x t v, present attrs fs l -> In (x, t, v) l ->
  In (x, t) fs /\ dict_get attrs x = Some v /\ v <> VNone.
Proof.
  intros attrs fs l x t v H. induction H as [|y u fs l D _ IH|y u fs w l D N _ IH]; intros I.
  - destruct I.
  - apply IH in I. cbn [In]. tauto.
  - destruct I as [I|I]; [injection I as <- <- <-; cbn [In]; auto|]. apply IH in I. cbn [In]. tauto.
Qed.

Lemma present_has : forall attrs fs l x t v, present attrs fs l -> In (x, t) fs -> dict_get attrs x = Some v -> v <> VNone ->
  In (x, t, v) l.
Proof.
  intros attrs fs l x t v H. induction H as [|y u fs l D _ IH|y u fs w l D N _ IH]; intros I G NV.
  - destruct I.
  - destruct I as [I|I]; [injection I as -> ->; congruence|]. auto.
  - destruct I as [I|I]; [injection I as -> ->; rewrite D in G; injection G as ->; left; reflexivity|]. right. auto.
Qed.

Lemma present_names : forall attrs fs l, present attrs fs l -> NoDup (map fst fs) -> NoDup (map (fun f => fst (fst f)) l).
Proof.
  intros attrs fs l H. induction H as [|y u fs l D H IH|y u fs w l D N H IH]; intros ND; cbn [map fst] in *; [constructor|..];
    inversion ND as [|? ? N1 N2]; subst; [auto|]. constructor; [|auto].
  intros I. apply N1. apply in_map_iff in I. destruct I as ([[a b] d] & Q & I). cbn [fst] in Q. subst a.
  apply (present_in _ _ _ _ _ _ H) in I. apply in_map_iff. exists (y, b). tauto.
Qed.

Lemma Forall2_fst_nodup : forall A B (l : list A) (ps : list (pystr * json)) (R : A -> pystr * json -> Prop) (f : A -> B),
  Forall2 R l ps -> NoDup (map f l) ->
  (forall x y p q, In x l -> In y l -> R x p -> R y q -> fst p = fst q -> f x = f y) -> NoDup (map fst ps).
Proof.
  intros A B l ps R f H. induction H as [|x p l ps H1 H2 IH]; intros ND INJ; cbn [map]; [constructor|].
  cbn [map] in ND. inversion ND as [|? ? N1 N2]; subst. constructor.
  - intros I. apply in_map_iff in I. destruct I as (q & Q & I). destruct (Forall2_in_r _ _ _ _ _ _ H2 I) as (y & Iy & Ry).
    apply N1. rewrite (INJ x y p q (or_introl eq_refl) (or_intror Iy) H1 Ry (eq_sym Q)). apply in_map. exact Iy.
  - apply IH; [exact N2|]. intros a b q r Ia Ib. apply INJ; right; assumption.
Qed.

Lemma set_of_distinct : forall E vs acc, ForallOrdPairs (fun a b => py_eq E a b = false) vs ->
  (forall a b, In a acc -> In b vs -> py_eq E a b = false) -> set_of E acc vs = rev acc ++ vs.
Proof.
  intros E vs. induction vs as [|v vs IH]; intros acc H D; cbn [set_of]; [symmetry; apply app_nil_r|].
  inversion H as [|? ? H1 H2]; subst. rewrite Forall_forall in H1.
  replace (existsb (fun u => py_eq E u v) acc) with false.
  - rewrite IH; [cbn [rev]; rewrite <- app_assoc; reflexivity | exact H2|].
    intros a b [<-|I] J; [apply H1; exact J | apply D; [exact I | right; exact J]].
  - symmetry. apply not_true_iff_false. intros X. apply existsb_exists in X. destruct X as (u & I & Q).
    rewrite (D u v I (or_introl eq_refl)) in Q. discriminate.
Qed.

Lemma Forall2_nth : forall A B (R : A -> B -> Prop) l r, Forall2 R l r -> forall i x y,
  nth_error l i = Some x -> nth_error r i = Some y -> R x y.
Proof.
  intros A B R l r H. induction H as [|a b l r H1 _ IH]; intros [|i] x y X Y; try discriminate; cbn [nth_error] in *.
  - congruence.
  - eapply IH; eassumption.
Qed.

Lemma value_none_dec : forall v : value, v = VNone \/ v <> VNone.
Proof. intros []; try (right; discriminate). left. reflexivity. Qed.

Section RoundTrip.
  Variable E : env.
  Hypothesis OK : env_ok E.
  Hypothesis CE : canonical_env E.
  Hypothesis GE : guarded_env E.
  Hypothesis CALM : calm E.
  Hypothesis ORD : shuffles (e_order E).
  Variable skip : bool.
  Notation jto := (json_to_object E skip).
  Notation faithful := (faithful E skip).

  Lemma faithful_reach : forall m t m' u, reach E m t m' u -> faithful m t -> faithful m' u.
  Proof.
    intros m t m' u R [A B C D]. split; intros.
    - eapply A; [eapply reach_trans; eassumption | assumption].
    - eapply B; [eapply reach_trans; eassumption | eassumption].
    - eapply C; try eassumption. eapply reach_trans; eassumption.
    - eapply D; [eapply reach_trans; eassumption | assumption].
  Qed.

  Lemma regular_part : forall v w, inside v w -> regular v -> regular w.
  Proof.
    intros v w I H x J. apply H. clear H. revert x J. induction I; intros; eauto using inside.
  Qed.

  (** The class of an object is met while reading its type. *)
  Lemma class_reached : forall k m t v c, level E k m t -> has_type E m t v -> object_class v = Some c ->
    exists m', reach E m t m' (TClass c).
  Proof.
    induction k as [|k IH]; intros m t v c L HT O; [destruct L|].
    destruct t as [k0|b|t|t|kt t|ts|op ts|ls|t md|c'|s|].
    - apply ht_scalar_iff in HT. destruct k0, v; try contradiction; discriminate.
    - apply ht_bare in HT. contradiction.
    - apply ht_list_iff in HT. destruct HT as (vs & -> & _). discriminate.
    - apply ht_set_iff in HT. destruct HT as (vs & -> & _). discriminate.
    - apply ht_dict_iff in HT. destruct HT as (vs & -> & _). discriminate.
    - apply ht_tuple_iff in HT. destruct HT as (vs & -> & _). discriminate.
    - apply ht_union_iff in HT. destruct HT as (u & I & HT). cbn [level] in L. rewrite Forall_forall in L.
      destruct (IH _ _ _ _ (L _ I) HT O) as (m' & R). exists m'. eapply re_union; eassumption.
    - apply ht_literal_iff in HT. destruct HT as (l & I & ->). destruct l; try discriminate. injection O as ->.
      exists m. eapply re_literal; [exact I|]. apply re_refl.
    - rewrite ht_annot_iff in HT. destruct (IH _ _ _ _ L HT O) as (m' & R). exists m'. apply re_annot. exact R.
    - apply typeof_class in HT. destruct v; try discriminate; injection O as ->; injection HT as ->; exists m; apply re_refl.
    - apply ht_ref_iff in HT. destruct HT as (a & u & Q & HT). cbn [level] in L. rewrite Q in L.
      assert (HT' : has_type E m (unwrap_annotated u) v).
      { destruct u; try exact HT. cbn [unwrap_annotated]. rewrite ht_annot_iff in HT. exact HT. }
      destruct (IH _ _ _ _ (level_deref _ _ _ _ L) HT' O) as (m' & R). exists m'. eapply re_ref; eassumption.
    - apply ht_form in HT. contradiction.
  Qed.

  (** What is not None is not written as null. *)
  Lemma image_not_null : forall m t v j, ready E m t -> faithful m t -> has_type E m t v ->
    image E v j -> v <> VNone -> j <> JNull.
  Proof.
    intros m t v j R F HT IM N Q. subst j.
    destruct (guarded_level E m t (every_part_top _ _ (proj1 R))) as (k & L).
    inversion IM as [? ? SI| | | | |? c cl h ? O G T H|c cl ms x ? G T K I| | |]; subst.
    - inversion SI; subst. congruence.
    - destruct (class_reached _ _ _ _ _ L HT O) as (m' & RE).
      pose proof (fa_class _ _ _ _ F _ _ _ RE G) as M. unfold mirrored in M.
      destruct (c_kind cl); try (destruct M as [M _]; congruence); try contradiction;
        destruct (c_from_json cl); rewrite T in M; try contradiction; destruct (M _ _ O H) as [M1 _]; congruence.
    - destruct (class_reached _ _ _ _ c L HT eq_refl) as (m' & RE).
      pose proof (fa_class _ _ _ _ F _ _ _ RE G) as M. unfold mirrored in M. rewrite K in M. destruct M as [_ M].
      apply M in I. tauto.
  Qed.

  Lemma jto_hook : forall m c cl h j, ready E m (TClass c) -> get_class E c = Some cl ->
    (match c_kind cl with CData _ _ | CPlain _ => True | _ => False end) -> c_from_json cl = Some h ->
    jto m (TClass c) j = h j.
  Proof.
    intros m c cl h j R G K H. destruct (jto_step E GE CALM skip m (TClass c) j 0 R) as (n & _ & ->).
    cbn [parse]. rewrite G, H. destruct (c_kind cl); try contradiction; reflexivity.
  Qed.

  Definition below d := forall m t v j, vdepth v < d -> ready E m t -> faithful m t -> has_type E m t v ->
    regular v -> image E v j -> jto m t j = Ok v.

  Lemma properties_names_raw : forall cl fs, class_properties E cl = Ok fs -> map fst fs = map fst (raw_fields (c_kind cl)).
  Proof.
    intros cl fs P. unfold class_properties in P. destruct (c_kind cl) eqn:K; try (apply hints_names in P; rewrite K in P; exact P).
    congruence.
  Qed.

  Lemma layout_names : forall cl L, layout E cl L -> map (fun f => fst (fst f)) L = map fst (raw_fields (c_kind cl)).
  Proof.
    intros cl L [H _]. apply hints_names in H. rewrite <- H, map_map. reflexivity.
  Qed.

  (** Fields of one object. *)
  Section Object.
    Variables (m c : nat) (cl : class) (attrs : list (pystr * value)).
    Variables (L : list (pystr * typ * option (res value))) (fs : list (pystr * typ)).
    Variables (l : list (pystr * typ * value)) (ps : list (pystr * json)).
    Hypothesis G : get_class E c = Some cl.
    Hypothesis FW : fieldwise cl.
    Hypothesis MF : mirrored_fields E cl.
    Hypothesis LAY : layout E cl L.
    Hypothesis CP : class_properties E cl = Ok fs.
    Hypothesis AN : map fst attrs = map fst (raw_fields (c_kind cl)).
    Hypothesis AT : Forall2 (has_type E (c_module cl)) (map snd (raw_fields (c_kind cl))) (map snd attrs).
    Hypothesis PR : present attrs fs l.
    Hypothesis PS : Forall2 (fun f p => prop_name (fst (fst f)) (snd (fst f)) (fst p) /\ image E (snd f) (snd p)) l ps.

    Lemma names_nodup : NoDup (map fst (raw_fields (c_kind cl))).
    Proof. exact (ok_names _ _ _ (OK _ _ G)). Qed.

    Lemma names_fs : NoDup (map fst fs).
    Proof. rewrite (properties_names_raw _ _ CP). exact names_nodup. Qed.

    Lemma field_both : forall x u d, In (x, u, d) L -> exists t, In (x, t) fs /\ field_of E cl x t u d.
    Proof.
      intros x u d I.
      assert (J : In x (map fst fs)).
      { rewrite (properties_names_raw _ _ CP), <- (layout_names _ _ LAY). apply in_map_iff. exists (x, u, d). auto. }
      apply in_map_iff in J. destruct J as ([y t] & Q & J). cbn [fst] in Q. subst y.
      exists t. split; [exact J|]. exists fs, L. auto.
    Qed.

    Lemma field_back : forall x t, In (x, t) fs -> exists u d, In (x, u, d) L /\ field_of E cl x t u d.
    Proof.
      intros x t I.
      assert (J : In x (map (fun f => fst (fst f)) L)).
      { rewrite (layout_names _ _ LAY), <- (properties_names_raw _ _ CP). apply in_map_iff. exists (x, t). auto. }
      apply in_map_iff in J. destruct J as ([[y u] d] & Q & J). cbn [fst] in Q. subst y.
      exists u, d. split; [exact J|]. exists fs, L. auto.
    Qed.

    Lemma written_names : NoDup (map fst ps).
    Proof.
      apply (Forall2_fst_nodup _ _ _ _ _ (fun f => fst (fst f)) PS (present_names _ _ _ PR names_fs)).
      intros [[x t] v] [[y t'] v'] p q I J [P1 _] [Q1 _] Q. cbn [fst snd] in *. rewrite <- Q in Q1.
      apply (present_in _ _ _ _ _ _ PR) in I. apply (present_in _ _ _ _ _ _ PR) in J.
      destruct I as [I _]. destruct J as [J _].
      destruct (field_back _ _ I) as (u & d & _ & F1). destruct (field_back _ _ J) as (u' & d' & _ & F2).
      eapply (mf_distinct _ _ MF); [exact F1 | exact F2 | | ]; eapply (mf_name _ _ MF); eassumption.
    Qed.

    (** The attribute of a field and its type. *)
    Lemma field_values : Forall2 (fun f w => dict_get attrs (fst (fst f)) = Some w /\ has_type E (c_module cl) (snd (fst f)) w) L (map snd attrs).
    Proof.
      destruct LAY as [H _]. apply hints_ok in H. pose proof names_nodup as ND. rewrite <- AN in ND.
      assert (X : forall a v, In (a, v) attrs -> dict_get attrs a = Some v).
      { intros a v I. apply dict_get_nodup; assumption. }
      assert (Y : forall g : pystr -> option value, (forall a v, In (a, v) attrs -> g a = Some v) ->
        Forall2 (fun f w => g (fst (fst f)) = Some w /\ has_type E (c_module cl) (snd (fst f)) w) L (map snd attrs)).
      { clear X ND PR PS MF LAY CP. intros g. revert AN AT L H. generalize (raw_fields (c_kind cl)) as rs.
        induction attrs as [|[a v] at' IH]; intros rs AN' AT' L' H X.
        - destruct rs; [|discriminate]. inversion H as [Q|]; subst. destruct L'; [constructor|discriminate].
        - destruct rs as [|[y u0] rs]; [discriminate|]. cbn [map fst snd] in *. injection AN' as <- AN'.
          inversion AT' as [|? ? ? ? A1 A2]; subst. destruct L' as [|[[x u] d] L']; [inversion H|].
          cbn [map fst] in H. inversion H as [|? ? ? ? [H1 H2] H3]; subst. cbn [fst snd] in *. subst x. constructor.
          + cbn [fst snd]. split; [apply X; left; reflexivity | apply H2; exact A1].
          + apply (IH rs AN' A2 L' H3). intros b w I. apply X. right. exact I. }
      apply Y, X.
    Qed.

    (** A field that is not None is written under its JSON name ... *)
    Lemma field_written : forall x u d w, In (x, u, d) L -> dict_get attrs x = Some w -> w <> VNone ->
      exists p i, json_name cl x u p /\ In (p, i) ps /\ image E w i.
    Proof.
      intros x u d w I D N. destruct (field_both _ _ _ I) as (t & J & F).
      pose proof (present_has _ _ _ _ _ _ PR J D N) as Il. destruct (Forall2_in_l _ _ _ _ _ _ PS Il) as ([p i] & Ip & P & IM).
      cbn [fst snd] in *. exists p, i. split; [eapply (mf_name _ _ MF); eassumption | auto].
    Qed.

    (** ... and one that is None is not written. *)
    Lemma field_omitted : forall x u d p, In (x, u, d) L -> dict_get attrs x = Some VNone -> json_name cl x u p -> ~ In p (map fst ps).
    Proof.
      intros x u d p I D P Q. apply in_map_iff in Q. destruct Q as ([p' i] & Q & J). cbn [fst] in Q. subst p'.
      destruct (Forall2_in_r _ _ _ _ _ _ PS J) as ([[y t'] w] & Il & P' & _). cbn [fst snd] in *.
      apply (present_in _ _ _ _ _ _ PR) in Il. destruct Il as (Jf & Dw & N).
      destruct (field_back _ _ Jf) as (u' & d' & _ & F'). destruct (field_both _ _ _ I) as (t & _ & F).
      assert (x = y) by (eapply (mf_distinct _ _ MF); [exact F | exact F' | exact P | eapply (mf_name _ _ MF); eassumption]).
      subst y. congruence.
    Qed.

    Lemma written_known : forall p, In p (map fst ps) -> exists x u d, In (x, u, d) L /\ json_name cl x u p.
    Proof.
      intros p Q. apply in_map_iff in Q. destruct Q as ([p' i] & Q & J). cbn [fst] in Q. subst p'.
      destruct (Forall2_in_r _ _ _ _ _ _ PS J) as ([[y t'] w] & Il & P' & _). cbn [fst snd] in *.
      apply (present_in _ _ _ _ _ _ PR) in Il. destruct Il as (Jf & Dw & N).
      destruct (field_back _ _ Jf) as (u' & d' & Jl & F'). exists y, u', d'. split; [exact Jl|].
      eapply (mf_name _ _ MF); eassumption.
    Qed.
  End Object.

  Lemma ready_of_reach : forall m t m' u, reach E m t m' u -> ready E m t -> ready E m' u.
  Proof. exact (ready_reach E CE GE). Qed.

  (** Values of a field, None apart, have the type it is read at. *)
  Lemma field_read : forall m c cl L x u d w, ready E m (TClass c) -> get_class E c = Some cl -> fieldwise cl ->
    (match c_kind cl with CRawTuple _ => False | _ => True end) -> layout E cl L -> In (x, u, d) L ->
    has_type E (c_module cl) u w -> w <> VNone ->
    exists r, reads cl u r /\ has_type E (c_module cl) r w /\ reach E m (TClass c) (c_module cl) r.
  Proof.
    intros m c cl L x u d w R G FW NR LAY I HT N. pose proof LAY as [H _].
    assert (X : exists r, reads cl u r /\ has_type E (c_module cl) r w).
    { destruct (c_kind cl) as [ms|ts|xs|fr fds|fds] eqn:K; try contradiction; try (unfold fieldwise in FW; rewrite K in FW; contradiction).
      - exists u. split; [unfold reads; rewrite K; reflexivity | exact HT].
      - assert (O : ordinary cl) by (unfold ordinary, fieldwise in *; rewrite K in *; exact FW).
        destruct (ready_class E GE m c R) as (cl' & G' & X). rewrite G in G'. injection G' as <-.
        destruct (X (proj1 (fieldwise_by_fields cl) FW)) as (fps & FP & _).
        rewrite (layout_parsers E c cl L G O LAY) in FP. apply mapM_ok in FP.
        destruct (Forall2_in_l _ _ _ _ _ _ FP I) as (fp & _ & Q). cbn beta iota in Q.
        assert (CN : canonical u).
        { eapply (hints_canonical E CE); [exact G | exact H|]. apply in_map_iff. exists (x, u, d). split; [reflexivity | exact I]. }
        destruct (field_parser_spec x u d fp CN Q) as (_ & _ & RT & _). exists (fp_type fp).
        split; [unfold reads; rewrite K; exact RT|].
        unfold field_parser in Q. apply bind_ok in Q. destruct Q as (r & U & Q). injection Q as <-. cbn [fp_type].
        destruct (is_type_optional u); [|injection U as <-; exact HT].
        apply (unwrap_optional_has E (c_module cl) u r w U); assumption.
      - assert (O : ordinary cl) by (unfold ordinary, fieldwise in *; rewrite K in *; exact FW).
        destruct (ready_class E GE m c R) as (cl' & G' & X). rewrite G in G'. injection G' as <-.
        destruct (X (proj1 (fieldwise_by_fields cl) FW)) as (fps & FP & _).
        rewrite (layout_parsers E c cl L G O LAY) in FP. apply mapM_ok in FP.
        destruct (Forall2_in_l _ _ _ _ _ _ FP I) as (fp & _ & Q). cbn beta iota in Q.
        assert (CN : canonical u).
        { eapply (hints_canonical E CE); [exact G | exact H|]. apply in_map_iff. exists (x, u, d). split; [reflexivity | exact I]. }
        destruct (field_parser_spec x u d fp CN Q) as (_ & _ & RT & _). exists (fp_type fp).
        split; [unfold reads; rewrite K; exact RT|].
        unfold field_parser in Q. apply bind_ok in Q. destruct Q as (r & U & Q). injection Q as <-. cbn [fp_type].
        destruct (is_type_optional u); [|injection U as <-; exact HT].
        apply (unwrap_optional_has E (c_module cl) u r w U); assumption. }
    destruct X as (r & RD & HTr). exists r. split; [exact RD|]. split; [exact HTr|].
    eapply re_class; try eassumption; [|apply re_refl].
    apply in_map_iff. exists (x, u, d). split; [reflexivity | exact I].
  Qed.

  Lemma class_layout : forall m c cl, ready E m (TClass c) -> get_class E c = Some cl -> fieldwise cl -> exists L, layout E cl L.
  Proof.
    intros m c cl R G FW.
    destruct (ready_class E GE m c R) as (cl' & G' & X). rewrite G in G'. injection G' as <-.
    destruct (X (proj1 (fieldwise_by_fields cl) FW)) as (fps & F & _). unfold field_parsers in F.
    apply bind_ok in F. destruct F as (hs & H & _).
    exists (combine hs (defaults (c_kind cl))).
    assert (LEN : length hs = length (defaults (c_kind cl))).
    { apply hints_names in H. apply (f_equal (@length _)) in H. rewrite !map_length in H. rewrite H.
      destruct (c_kind cl); cbn [defaults raw_fields]; rewrite ?map_length; reflexivity. }
    split.
    - rewrite H. f_equal. symmetry. clear H. revert LEN. generalize (defaults (c_kind cl)) as ds.
      induction hs as [|h hs IH]; intros [|d ds] LEN; try discriminate; [reflexivity|]. cbn [combine map fst]. f_equal.
      apply IH. injection LEN. auto.
    - clear H. revert LEN. generalize (defaults (c_kind cl)) as ds.
      induction hs as [|h hs IH]; intros [|d ds] LEN; try discriminate; [reflexivity|]. cbn [combine map snd]. f_equal.
      apply IH. injection LEN. auto.
  Qed.

  (** An instance of a class that is read and written field by field. *)
  Lemma object_parts : forall m c cl attrs j, ready E m (TClass c) -> get_class E c = Some cl -> fieldwise cl ->
    (match c_kind cl with CRawTuple _ => False | _ => True end) -> c_to_json cl = None -> mirrored_fields E cl ->
    map fst attrs = map fst (raw_fields (c_kind cl)) ->
    Forall2 (has_type E (c_module cl)) (map snd (raw_fields (c_kind cl))) (map snd attrs) ->
    image E (VObj c attrs) j ->
    exists L fs l ps, layout E cl L /\ class_properties E cl = Ok fs /\ present attrs fs l /\
      Forall2 (fun f p => prop_name (fst (fst f)) (snd (fst f)) (fst p) /\ image E (snd f) (snd p)) l ps /\
      NoDup (map fst ps) /\ j = JObj ps.
  Proof.
    intros m c cl attrs j R G FW NR T MF AN AT IM.
    destruct (class_layout m c cl R G FW) as (L & LAY). exists L.
    assert (C : annotated cl \/ (c_kind cl = CPlain [] /\ attrs = [])).
    { unfold annotated. destruct (c_kind cl) as [ms|ts|xs|fr fs|fs] eqn:K; try tauto; try (left; exact Logic.I).
      - unfold fieldwise in FW. rewrite K in FW. contradiction.
      - destruct fs; [right | left; discriminate]. split; [reflexivity|]. destruct attrs; [reflexivity | discriminate]. }
    destruct C as [A|[K ->]].
    - destruct (image_fields E c cl attrs j G T A IM) as (fs & l & ps & o & -> & CP & PR & PS & M).
      exists fs, l, ps.
      assert (ND : NoDup (map fst ps)) by (eapply written_names; eassumption).
      apply merged_fun in M. rewrite (merged_distinct _ ND) in M. subst o. repeat (split; [assumption|]). reflexivity.
    - apply (image_untyped E c cl j G T K) in IM. subst j. exists [], [], [].
      split; [exact LAY|]. split.
      { unfold class_properties, hints. rewrite K. reflexivity. }
      split; [constructor|]. split; [constructor|]. split; [constructor | reflexivity].
  Qed.

  Lemma class_roundtrip : forall m c cl attrs j, below (vdepth (VObj c attrs)) ->
    ready E m (TClass c) -> faithful m (TClass c) -> get_class E c = Some cl -> fieldwise cl ->
    (match c_kind cl with CRawTuple _ => False | _ => True end) -> c_to_json cl = None -> mirrored_fields E cl ->
    map fst attrs = map fst (raw_fields (c_kind cl)) ->
    Forall2 (has_type E (c_module cl)) (map snd (raw_fields (c_kind cl))) (map snd attrs) ->
    regular (VObj c attrs) -> image E (VObj c attrs) j -> jto m (TClass c) j = Ok (VObj c attrs).
  Proof.
    intros m c cl attrs j IH R F G FW NR T MF AN AT RG IM.
    destruct (object_parts m c cl attrs j R G FW NR T MF AN AT IM) as (L & fs & l & ps & LAY & CP & PR & PS & ND & ->).
    assert (FV : Forall2 (fun f w => dict_get attrs (fst (fst f)) = Some w /\ has_type E (c_module cl) (snd (fst f)) w) L (map snd attrs))
      by (eapply field_values; eassumption).
    pose proof LAY as [H _].
    assert (AC : attrs = combine (map (fun f => fst (fst f)) L) (map snd attrs)).
    { rewrite (layout_names _ _ LAY), <- AN. clear. induction attrs as [|[a v] r IH]; [reflexivity|]. cbn [map combine fst snd]. congruence. }
    (* one field that is present *)
    assert (ONE : forall x u d w r, In (x, u, d) L -> dict_get attrs x = Some w -> w <> VNone -> reads cl u r ->
      has_type E (c_module cl) r w ->
      exists p i, json_name cl x u p /\ In (p, i) ps /\ i <> JNull /\ jto (c_module cl) r i = Ok w).
    { intros x u d w r I D N RD HT.
      assert (W : exists p i, json_name cl x u p /\ In (p, i) ps /\ image E w i) by (eapply field_written; eassumption).
      destruct W as (p & i & P & Ip & IMi).
      assert (RE : reach E m (TClass c) (c_module cl) r).
      { eapply re_class; try eassumption; [|apply re_refl].
        apply in_map_iff. exists (x, u, d). split; [reflexivity | exact I]. }
      pose proof (ready_of_reach _ _ _ _ RE R) as Rr. pose proof (faithful_reach _ _ _ _ RE F) as Fr.
      exists p, i. split; [exact P|]. split; [exact Ip|]. split; [eapply image_not_null; eassumption|].
      apply dict_get_in in D. apply IH; try assumption; [eapply vdepth_obj; exact D|].
      eapply regular_part; [|exact RG]. eapply in_object; [exact D | apply in_self]. }
    assert (KN : forall p, In p (map fst ps) -> known E cl p).
    { intros p I. assert (W : exists x u d, In (x, u, d) L /\ json_name cl x u p) by (eapply written_known; eassumption).
      destruct W as (x & u & d & J & P).
      exists (map fst L), x, u. split; [exact H|]. split; [|exact P].
      apply in_map_iff. exists (x, u, d). split; [reflexivity | exact J]. }
    assert (NT : forall x u d, In (x, u, d) L -> dict_get attrs x = Some VNone -> has_type E (c_module cl) u VNone ->
      match c_kind cl, d with CTuple _, _ => False | _, Some r => r = Ok VNone | _, None => optional u end).
    { intros x u d I _ HT. assert (W : exists t, In (x, t) fs /\ field_of E cl x t u d) by (eapply field_both; eassumption).
      destruct W as (t & _ & FO). eapply (mf_none _ _ MF); eassumption. }
    assert (ORDI : ordinary cl -> Forall2 (fun f v => received E skip (c_module cl) ps f (Ok v)) L (map snd attrs)).
    { intros O. eapply Forall2_impl_in; [|exact FV]. intros [[x u] d] w I _ [D HT]. cbn [fst snd] in *.
      assert (Q : exists fp, field_parser x u d = Ok fp).
      { destruct (ready_class E GE m c R) as (cl' & G' & X). rewrite G in G'. injection G' as <-.
        destruct (X (proj1 (fieldwise_by_fields cl) FW)) as (fps & FP & _).
        rewrite (layout_parsers E c cl L G O LAY) in FP. apply mapM_ok in FP.
        destruct (Forall2_in_l _ _ _ _ _ _ FP I) as (fp & _ & Q). eauto. }
      destruct Q as (fp & FP).
      assert (CN : canonical u).
      { eapply (hints_canonical E CE); [exact G | exact H|]. apply in_map_iff. exists (x, u, d). split; [reflexivity | exact I]. }
      destruct (field_parser_spec x u d fp CN FP) as (P & _ & RT & _).
      assert (JN : forall p, json_name cl x u p <-> prop_name x u p).
      { intros p. unfold json_name. unfold ordinary in O. destruct (c_kind cl); try contradiction; reflexivity. }
      destruct (value_none_dec w) as [->|N].
      - assert (AB : absent ps (fp_prop fp)).
        { intros J. apply JN in P. revert J. eapply field_omitted; eassumption. }
        pose proof (NT x u d I D HT) as NN. unfold ordinary in O.
        destruct (c_kind cl); try contradiction; (destruct d as [r|]; [subst r; eapply rc_default; eauto | eapply rc_none; eauto]).
      - assert (HTr : has_type E (c_module cl) (fp_type fp) w).
        { unfold field_parser in FP. apply bind_ok in FP. destruct FP as (r & U & Q). injection Q as <-. cbn [fp_type].
          destruct (is_type_optional u); [|injection U as <-; exact HT].
          apply (unwrap_optional_has E (c_module cl) u r w U); assumption. }
        destruct (ONE x u d w (fp_type fp) I D N) as (p & i & P' & Ip & NZ & J); [|exact HTr|].
        { unfold reads. unfold ordinary in O. destruct (c_kind cl); try contradiction; exact RT. }
        apply JN in P'. rewrite <- J. eapply (rc_present _ _ _ _ _ _ _ p); assumption. }
    destruct (c_kind cl) as [ms|ts|xs|fr fds|fds] eqn:K; unfold fieldwise in FW; rewrite K in FW; try contradiction.
    - (* named tuples *)
      apply (tuple_ok_spec E GE CALM skip m c cl ts (map fst L) ps R G K H ND).
      exists (map snd attrs). split; [rewrite map_map, <- AC; reflexivity|]. split; [|right].
      + apply Forall2_map_l.
        eapply Forall2_impl_in; [|exact FV]. intros [[x u] d] w I _ [D HT]. cbn [fst snd] in *.
        assert (N : w <> VNone). { intros ->. exact (NT x u d I D HT). }
        destruct (ONE x u d w u I D N) as (p & i & P & Ip & NZ & J).
        { unfold reads. rewrite K. reflexivity. }
        { exact HT. }
        unfold json_name in P. rewrite K in P. subst p. eauto.
      + intros p I. apply KN in I. destruct I as (hs & x & u & H' & I & P). rewrite H in H'. injection H' as <-.
        unfold json_name in P. rewrite K in P. subst p. apply in_map_iff. exists (x, u). auto.
    - assert (O : ordinary cl) by (unfold ordinary; rewrite K; exact FW).
      apply (class_ok_spec E CE GE CALM skip m c cl L ps R G O LAY ND).
      exists (map snd attrs). split; [rewrite <- AC; reflexivity|]. split; [exact (ORDI O) | right; exact KN].
    - assert (O : ordinary cl) by (unfold ordinary; rewrite K; exact FW).
      apply (class_ok_spec E CE GE CALM skip m c cl L ps R G O LAY ND).
      exists (map snd attrs). split; [rewrite <- AC; reflexivity|]. split; [exact (ORDI O) | right; exact KN].
  Qed.

  Lemma enum_roundtrip : forall m c x j, ready E m (TClass c) -> faithful m (TClass c) -> image E (VEnum c x) j ->
    jto m (TClass c) j = Ok (VEnum c x).
  Proof.
    intros m c x j R F IM. destruct (ready_class E GE m c R) as (cl & G & _).
    pose proof (fa_class _ _ _ _ F _ _ _ (re_refl _ _ _) G) as M. unfold mirrored in M.
    inversion IM as [? ? SI| | | | |? c' cl' h ? O G' T H|? cl' ms ? ? G' T K I| | |]; subst.
    - inversion SI.
    - injection O as <-. rewrite G in G'. injection G' as <-. rewrite T in M.
      destruct (c_kind cl) eqn:K; try (destruct M as [M _]; discriminate); try contradiction;
        destruct (c_from_json cl) as [f|] eqn:FJ; try contradiction;
        (rewrite (jto_hook m c cl f j R G); [apply (M (VEnum c x) j eq_refl H) | rewrite K; exact Logic.I | exact FJ]).
    - rewrite G in G'. injection G' as <-. rewrite K in M. destruct M as [_ M].
      apply (jto_enum_spec E skip m c cl ms j _ OK G K). exists x, j. split; [reflexivity|]. split; [exact I|].
      apply (M x). exact I.
  Qed.

  Lemma union_try_walk : forall p ts1 (u : typ) ts2 (v : value), p u = Ok v ->
    (forall w, In w ts1 -> p w = Ok v \/ exists e, soft e /\ p w = Err e) ->
    union_try p (ts1 ++ u :: ts2) = Ok v.
  Proof.
    intros p. induction ts1 as [|w ts1 IH]; intros u ts2 v P H; cbn [app union_try].
    - rewrite P. reflexivity.
    - destruct (H w (or_introl eq_refl)) as [Q|(e & SE & Q)]; rewrite Q; [reflexivity|].
      assert (X : union_try p (ts1 ++ u :: ts2) = Ok v) by (apply IH; [exact P | intros; apply H; right; assumption]).
      destruct SE as [->| ->]; exact X.
  Qed.

  Lemma typed_key : forall m k v s, check_key_type E k = Ok tt -> has_type E m k v -> key_text E v s -> key_of E k s v.
  Proof.
    intros m k v s C HT KT. destruct k; try discriminate; cbn [check_key_type] in C.
    - destruct k; try discriminate. apply ht_scalar_iff in HT. destruct KT; [constructor | contradiction].
    - apply typeof_class in HT. destruct KT as [s|c' cl ms x s G K I]; [discriminate|]. injection HT as <-.
      eapply ko_enum; eassumption.
  Qed.

  Lemma separable_split : forall m ts u v j, separable E skip m ts -> In u ts -> has_type E m u v -> image E v j ->
    exists ts1 ts2, ts = ts1 ++ u :: ts2 /\
      forall w, In w ts1 -> jto m w j = Ok v \/ exists e, soft e /\ jto m w j = Err e.
  Proof.
    intros m ts u v j SP I HT IM. apply in_split in I. destruct I as (ts1 & ts2 & ->). exists ts1, ts2.
    split; [reflexivity|]. intros w J. apply in_split in J. destruct J as (a & b & ->).
    apply (SP a w (b ++ u :: ts2) u v j); try assumption; [rewrite <- app_assoc; reflexivity|].
    apply in_or_app. right. left. reflexivity.
  Qed.

  (** What a literal-typed property of an object is written as. *)
  Lemma tag_written : forall c cl attrs ps fs l t ls p, get_class E c = Some cl -> fieldwise cl ->
    (match c_kind cl with CRawTuple _ => False | _ => True end) -> mirrored_fields E cl ->
    layout E cl l -> class_properties E cl = Ok fs ->
    map fst attrs = map fst (raw_fields (c_kind cl)) ->
    Forall2 (has_type E (c_module cl)) (map snd (raw_fields (c_kind cl))) (map snd attrs) ->
    (forall x t v, In (x, t) fs -> dict_get attrs x = Some v -> v <> VNone ->
       exists q i, prop_name x t q /\ In (q, i) ps /\ image E v i) ->
    In (p, t) fs -> literal_values t = Some ls -> json_name cl p t p -> (forall l, In l ls -> lit_json l <> None) -> ~ In LNone ls ->
    exists i l, In (p, i) ps /\ i <> JNull /\ In l ls /\ says l i.
  Proof.
    intros c cl attrs ps fs L t ls p G FW NR MF LAY CP AN AT WR I LV JN PL NN.
    assert (X : exists v, dict_get attrs p = Some v /\ has_type E (c_module cl) t v).
    { pose proof (ok_names _ _ _ (OK _ _ G)) as ND. rewrite <- AN in ND.
      assert (Y : exists t0, In (p, t0) (raw_fields (c_kind cl)) /\ forall v, has_type E (c_module cl) t0 v -> has_type E (c_module cl) t v).
      { unfold class_properties in CP. destruct (c_kind cl) as [ms|ts|xs|fr fds|fds] eqn:K; try (injection CP as <-; exists t; auto; fail);
          apply hints_ok in CP; destruct (Forall2_in_r _ _ _ _ _ _ CP I) as ([y t0] & It & Q & HT); cbn [fst snd] in *; subst y;
          rewrite K in It; exists t0; (split; [exact It | apply HT]). }
      destruct Y as (t0 & I0 & HT). clear CP I WR LAY.
      assert (Z : exists v, In (p, v) attrs /\ has_type E (c_module cl) t0 v).
      { revert AN AT I0. generalize (raw_fields (c_kind cl)) as rs. clear ND. induction attrs as [|[a v] r IH]; intros [|[y u] rs] AN AT I0; try discriminate; [destruct I0|].
        cbn [map fst snd] in *. injection AN as -> AN. inversion AT; subst. destruct I0 as [Q|I0].
        - injection Q as -> ->. exists v. split; [left; reflexivity | assumption].
        - destruct (IH rs AN) as (w & I & Hw); try assumption. exists w. split; [right; exact I | exact Hw]. }
      destruct Z as (v & Iv & HTv). exists v. split; [apply dict_get_nodup; assumption | apply HT; exact HTv]. }
    destruct X as (v & D & HT).
    assert (X : exists l, In l ls /\ v = lit_value l).
    { unfold literal_values in LV. destruct (unwrap_annotated t) as [| | | | | | |ls0| | | |] eqn:U; try discriminate. injection LV as ->.
      assert (HT' : has_type E (c_module cl) (TLiteral ls) v).
      { rewrite <- U. destruct t; try exact HT. cbn [unwrap_annotated]. rewrite ht_annot_iff in HT. exact HT. }
      apply ht_literal_iff in HT'. exact HT'. }
    destruct X as (l & Il & ->).
    assert (N : lit_value l <> VNone). { destruct l; try discriminate. contradiction. }
    destruct (WR p t _ I D N) as (q & i & P & Iq & IM).
    assert (q = p).
    { assert (X : exists u d, In (p, u, d) L /\ field_of E cl p t u d) by (eapply field_back; eassumption).
      destruct X as (u & d & _ & FO). pose proof (mf_name _ _ MF _ _ _ _ _ FO P) as JQ. unfold json_name in *.
      destruct (c_kind cl); first [exact JQ | exact (prop_name_fun _ _ _ _ P JN)]. }
    subst q. exists i, l. split; [exact Iq|].
    assert (S : lit_json l = Some i).
    { specialize (PL l Il). destruct l; cbn [lit_value lit_json] in *; try congruence;
        (apply image_scalar in IM; [|exact Logic.I]; inversion IM; subst; reflexivity). }
    split; [|split; [exact Il|]].
    - intros ->. destruct l; try discriminate. contradiction.
    - exists i. split; [exact S|]. destruct l; try discriminate; injection S as <-;
        first [apply je_null | apply je_str | eapply je_num; [constructor | constructor | reflexivity]].
  Qed.

  Lemma tagged_dec : forall m op ts, ready E m (TUnion op ts) -> (exists p, tag E ts p) \/ untagged E ts.
  Proof.
    intros m op ts R. destruct (ready_static E m _ R) as (vis & CL & SO). inversion SO as [| | | | |? ? ps D _ _| | | | | |]; subst.
    destruct ps as [|p ps].
    - right. apply (untagged_iff E ts [] D). reflexivity.
    - left. exists p. apply (discriminating_spec E ts _ p D). left. reflexivity.
  Qed.

  Theorem roundtrip_image : forall d k m t v j, vdepth v < d -> level E k m t -> ready E m t -> faithful m t ->
    has_type E m t v -> regular v -> image E v j -> jto m t j = Ok v.
  Proof.
    induction d as [|d IHd]; [intros; lia|].
    assert (BELOW : forall v, vdepth v < S d -> below (vdepth v)).
    { intros v LT m t w j LT' R F HT RG IM. destruct (guarded_level E m t (every_part_top _ _ (proj1 R))) as (k & L).
      eapply IHd; try eassumption. lia. }
    induction k as [|k IHk]; intros m t v j LT L R F HT RG IM; [destruct L|].
    pose proof (BELOW v LT) as IH. clear IHd BELOW.
    destruct t as [k0|b|t|t|kt t|ts|op ts|ls|t md|c|s|].
    - rewrite (jto_scalar E skip m k0 j). apply ht_scalar_iff in HT. apply scalar_roundtrip; [exact HT | apply RG; constructor|].
      eapply image_scalar; [exact IM|]. destruct k0, v; try contradiction; exact Logic.I.
    - apply ht_bare in HT. contradiction.
    - apply ht_list_iff in HT. destruct HT as (vs & -> & HT). apply image_list in IM. destruct IM as (js & -> & IM).
      apply (jto_list_spec E GE CALM skip m t js _ R). exists vs. split; [reflexivity|].
      assert (RE : reach E m (TList t) m t) by (apply re_list; apply re_refl).
      apply Forall2_flip in IM. eapply Forall2_impl_in; [|exact IM]. intros i w _ I X.
      rewrite Forall_forall in HT. apply IH; auto; [apply vdepth_list; exact I | eapply ready_of_reach; eassumption | eapply faithful_reach; eassumption|].
      eapply regular_part; [|exact RG]. eapply in_list; [exact I | constructor].
    - apply ht_set_iff in HT. destruct HT as (vs & -> & HT & HS & D). apply image_set in IM. destruct IM as (js & -> & IM).
      rewrite (jto_set E GE CALM skip m t _ R). apply bind_ok. exists vs.
      split; [|rewrite set_of_distinct by (try exact D; intros ? ? []); reflexivity].
      assert (RE : reach E m (TSet t) m t) by (apply re_set; apply re_refl).
      apply mapM_ok. apply Forall2_flip in IM. eapply Forall2_impl_in; [|exact IM]. intros i w _ I X.
      rewrite Forall_forall in HT, HS. rewrite (IH m t w i); auto.
      + cbn [bind]. rewrite (HS w I). reflexivity.
      + apply vdepth_set. exact I.
      + eapply ready_of_reach; eassumption.
      + eapply faithful_reach; eassumption.
      + eapply regular_part; [|exact RG]. eapply in_set; [exact I | constructor].
    - apply ht_dict_iff in HT. destruct HT as (kvs & -> & HK & HT & ND). apply image_dict in IM.
      destruct IM as (ps & o & -> & M & IM). rewrite Forall_forall in HK, HT.
      destruct (ready_dict E GE m kt t R) as [_ CK].
      assert (IM' : Forall2 (fun kv p => key_of E kt (fst p) (fst kv) /\ image E (snd kv) (snd p)) kvs ps).
      { eapply Forall2_impl_in; [|exact IM]. intros kv p I _ [KT X]. split; [|exact X]. eapply typed_key; eauto. }
      assert (N : NoDup (map fst ps)).
      { apply (Forall2_fst_nodup _ _ _ _ _ fst IM' ND). intros x y p q _ _ [KX _] [KY _] Q.
        apply (parse_key_spec E kt _ _ OK CK) in KX, KY. rewrite Q in KX. congruence. }
      apply merged_fun in M. rewrite (merged_distinct _ N) in M. subst o.
      apply (jto_dict_spec E GE CALM skip m kt t ps _ OK R). exists kvs. split; [reflexivity|].
      assert (RE : reach E m (TDict kt t) m t) by (apply re_dict; apply re_refl).
      apply Forall2_flip in IM'. eapply Forall2_impl_in; [|exact IM']. intros p [x w] _ I [KO X]. cbn [fst snd] in *.
      split; [exact KO|]. apply IH; auto.
      + eapply vdepth_dict; exact I.
      + eapply ready_of_reach; eassumption.
      + eapply faithful_reach; eassumption.
      + exact (HT _ I).
      + eapply regular_part; [|exact RG]. eapply in_dict; [exact I | constructor].
    - apply ht_tuple_iff in HT. destruct HT as (vs & -> & HT). apply image_tuple in IM. destruct IM as (js & -> & IM).
      apply (jto_tuple_spec E GE CALM skip m ts js _ R). exists vs. split; [reflexivity|].
      pose proof (Forall2_length_eq _ _ _ _ _ HT) as L1. pose proof (Forall2_length_eq _ _ _ _ _ IM) as L2.
      split; [congruence|]. split; [congruence|]. intros i u x w Hu Hx Hw.
      assert (RE : reach E m (TTuple ts) m u) by (eapply re_tuple; [eapply nth_error_In; exact Hu | apply re_refl]).
      pose proof (nth_error_In _ _ Hw) as I. apply IH.
      + apply vdepth_tuple. exact I.
      + eapply ready_of_reach; eassumption.
      + eapply faithful_reach; eassumption.
      + eapply Forall2_nth; eassumption.
      + eapply regular_part; [|exact RG]. eapply in_tuple; [exact I | constructor].
      + eapply Forall2_nth; eassumption.
    - apply ht_union_iff in HT. destruct HT as (u & I & HT). cbn [level] in L. rewrite Forall_forall in L.
      assert (RE : reach E m (TUnion op ts) m u) by (eapply re_union; [exact I | apply re_refl]).
      pose proof (ready_of_reach _ _ _ _ RE R) as Ru. pose proof (faithful_reach _ _ _ _ RE F) as Fu.
      assert (J : jto m u j = Ok v) by (apply IHk; auto).
      destruct (tagged_dec m op ts R) as [(p & TG)|U].
      + pose proof (fa_tags _ _ _ _ F _ _ _ _ (re_refl _ _ _) TG) as PT.
        pose proof TG as [_ FT]. rewrite Forall_forall in FT. destruct (FT u I) as (c & ls0 & -> & LP0).
        assert (X : exists o, j = JObj o /\ NoDup (map fst o) /\
          forall q, tag E ts q -> exists i, In (q, i) o /\ i <> JNull /\ claims E c q i).
        { destruct LP0 as (cl & t0 & fs0 & G & CP0 & I0 & LV0).
          destruct (PT p c cl fs0 t0 ls0 TG I G CP0 I0 LV0) as (FW & _).
          pose proof (fa_class _ _ _ _ Fu _ _ _ (re_refl _ _ _) G) as M. unfold mirrored in M.
          inversion HT as [| | | | | | | | |? ? cl' ms x G' K|? ? cl' attrs G' K AN AT|? ? cl' xs attrs G' K|? ? cl' h attrs G' K FJ]; subst;
            rewrite G in G'; injection G' as <-.
          - unfold fieldwise in FW. rewrite K in FW. contradiction.
          - assert (NR : match c_kind cl with CRawTuple _ => False | _ => True end) by (destruct (c_kind cl); tauto).
            assert (MT : c_to_json cl = None /\ mirrored_fields E cl).
            { destruct (c_kind cl); try contradiction; try exact M; unfold fieldwise in FW; rewrite K in M;
                (destruct (c_to_json cl); [contradiction | auto]). }
            destruct MT as [T MF].
            destruct (object_parts m c cl attrs j Ru G FW NR T MF AN AT IM) as (L' & fs & l & ps & LAY & CP & PR & PS & ND & ->).
            exists ps. split; [reflexivity|]. split; [exact ND|]. intros q TQ.
            pose proof TQ as [_ FQ]. rewrite Forall_forall in FQ. destruct (FQ _ I) as (c' & ls & Q & LP). injection Q as <-.
            pose proof LP as (cl' & tq & fs' & G' & CP' & Iq & LV). rewrite G in G'. injection G' as <-.
            rewrite CP in CP'. injection CP' as <-.
            destruct (PT q c cl fs tq ls TQ I G CP Iq LV) as (_ & JN & PL).
            destruct (tag_written c cl attrs ps fs L' tq ls q G FW NR MF LAY CP AN AT) as (i & l0 & Ii & NZ & Il & SY); try assumption.
            { intros x t1 w Ix Dx Nx. pose proof (present_has _ _ _ _ _ _ PR Ix Dx Nx) as Il.
              destruct (Forall2_in_l _ _ _ _ _ _ PS Il) as ([q1 i1] & Ip & P & IMi). exists q1, i1. auto. }
            { eapply (fa_null _ _ _ _ F); [apply re_refl | exact TQ | exact I | exact LP]. }
            exists i. split; [exact Ii|]. split; [exact NZ|]. exists ls, l0. auto.
          - rewrite K in M. contradiction.
          - unfold fieldwise in FW. destruct (c_kind cl); try contradiction; congruence. }
        destruct X as (o & -> & ND & X).
        rewrite (tagged_selects E OK GE CALM ORD skip m op ts R o c ND I).
        * exact J.
        * destruct (X p TG) as (i & Ii & NZ & _). exists p, i. split; [exact TG | split; assumption].
        * intros q x TQ [Ix Nx]. destruct (X q TQ) as (i & Ii & _ & CL).
          assert (x = i); [|subst; exact CL]. apply (dict_get_present _ _ _ ND) in Ix, Ii. congruence.
      + rewrite (jto_untagged E GE CALM skip m op ts j R U).
        destruct (separable_split m ts u v j (fa_union _ _ _ _ F _ _ _ (re_refl _ _ _) U) I HT IM) as (ts1 & ts2 & -> & W).
        apply union_try_walk; assumption.
    - apply ht_literal_iff in HT. destruct HT as (l & I & ->).
      assert (RE : reach E m (TLiteral ls) m (lit_type l)) by (eapply re_literal; [exact I | apply re_refl]).
      pose proof (ready_of_reach _ _ _ _ RE R) as Rl. pose proof (faithful_reach _ _ _ _ RE F) as Fl.
      assert (J : jto m (lit_type l) j = Ok (lit_value l)).
      { destruct l; cbn [lit_type lit_value] in *;
          try (rewrite jto_scalar; apply scalar_roundtrip; [|apply RG; constructor | apply image_scalar in IM; [exact IM | exact Logic.I]];
               try exact Logic.I; exact (RG _ (in_self _))).
        apply enum_roundtrip; assumption. }
      rewrite (jto_literal E GE CALM skip m ls j R). destruct (ready_literal E GE m ls R) as (u & LT' & _). rewrite LT'. cbn [bind].
      rewrite <- (literal_type_all _ _ LT' l I), J. cbn [bind].
      replace (existsb (fun l0 => py_eq E (lit_value l0) (lit_value l)) ls) with true; [reflexivity|].
      symmetry. apply existsb_exists. exists l. split; [exact I | apply py_eq_lit].
    - rewrite (jto_annot E GE CALM skip m t md j R). rewrite ht_annot_iff in HT.
      assert (RE : reach E m (TAnnot t md) m t) by (apply re_annot; apply re_refl).
      apply IHk; auto; [eapply ready_of_reach; eassumption | eapply faithful_reach; eassumption].
    - inversion HT as [| | | | | | | | |? ? cl ms x G K|? ? cl attrs G K AN AT|? ? cl xs attrs G K|? ? cl h attrs G K FJ]; subst.
      + apply enum_roundtrip; assumption.
      + pose proof (fa_class _ _ _ _ F _ _ _ (re_refl _ _ _) G) as M. unfold mirrored in M.
        assert (MT : c_to_json cl = None /\ mirrored_fields E cl).
        { destruct (c_kind cl); try contradiction; try exact M; rewrite K in M; (destruct (c_to_json cl); [contradiction | auto]). }
        destruct MT as [T MF]. eapply class_roundtrip; try eassumption; [unfold fieldwise|]; destruct (c_kind cl); tauto.
      + pose proof (fa_class _ _ _ _ F _ _ _ (re_refl _ _ _) G) as M. unfold mirrored in M. rewrite K in M. contradiction.
      + pose proof (fa_class _ _ _ _ F _ _ _ (re_refl _ _ _) G) as M. unfold mirrored in M. rewrite FJ in M.
        assert (X : exists g, c_to_json cl = Some g /\ forall v j, object_class v = Some c -> g v = Ok j -> j <> JNull /\ h j = Ok v).
        { destruct (c_kind cl); try contradiction; (destruct (c_to_json cl) as [g|]; [eauto | contradiction]). }
        destruct X as (g & T & X). rewrite (jto_hook m c cl h j R G K FJ). apply (X (VObj c attrs) j eq_refl).
        eapply image_hook; eassumption.
    - apply ht_ref_iff in HT. destruct HT as (a & u & Q & HT). cbn [level] in L. rewrite Q in L.
      assert (HT' : has_type E m (unwrap_annotated u) v).
      { destruct u; try exact HT. cbn [unwrap_annotated]. rewrite ht_annot_iff in HT. exact HT. }
      rewrite (jto_ref E GE CALM skip m s a u j R Q).
      assert (RE : reach E m (TRef s) m (unwrap_annotated u)) by (eapply re_ref; [exact Q | apply re_refl]).
      apply IHk; auto; [apply level_deref; exact L | eapply ready_of_reach; eassumption | eapply faithful_reach; eassumption].
    - apply ht_form in HT. contradiction.
  Qed.

  (** * Well-typed values conform to their classes *)

  Definition headed (t : typ) : Prop :=
    match t with TUnion _ _ | TAnnot _ _ | TRef _ => False | _ => True end.

  Lemma typed_head : forall k m t v, level E k m t -> has_type E m t v ->
    exists u, reach E m t m u /\ has_type E m u v /\ headed u.
  Proof.
    induction k as [|k IH]; intros m t v L HT; [destruct L|].
    destruct t as [k0|b|t|t|kt t|ts|op ts|ls|t md|c'|s|]; try (eexists; split; [apply re_refl | split; [exact HT | exact Logic.I]]).
    - apply ht_union_iff in HT. destruct HT as (u & I & HT). cbn [level] in L. rewrite Forall_forall in L.
      destruct (IH _ _ _ (L _ I) HT) as (w & R & X). exists w. split; [eapply re_union; eassumption | exact X].
    - rewrite ht_annot_iff in HT. destruct (IH _ _ _ L HT) as (w & R & X). exists w. split; [apply re_annot; exact R | exact X].
    - apply ht_ref_iff in HT. destruct HT as (a & u & Q & HT). cbn [level] in L. rewrite Q in L.
      assert (HT' : has_type E m (unwrap_annotated u) v).
      { destruct u; try exact HT. cbn [unwrap_annotated]. rewrite ht_annot_iff in HT. exact HT. }
      destruct (IH _ _ _ (level_deref _ _ _ _ L) HT') as (w & R & X). exists w. split; [eapply re_ref; eassumption | exact X].
  Qed.

  Theorem typed_conforms : forall v m t, ready E m t -> faithful m t -> has_type E m t v -> conforms E v.
  Proof.
    assert (MAIN : forall d v, vdepth v < d -> forall m t, ready E m t -> faithful m t -> has_type E m t v -> conforms E v).
    { induction d as [|d IHd]; [intros; lia|]. intros v LT m0 t0 R0 F0 HT0.
      destruct (guarded_level E m0 t0 (every_part_top _ _ (proj1 R0))) as (k & L0).
      destruct (typed_head _ _ _ _ L0 HT0) as (t & RE & HT & HD).
      pose proof (ready_of_reach _ _ _ _ RE R0) as R. pose proof (faithful_reach _ _ _ _ RE F0) as F.
      revert R F HT HD. generalize m0 as m. clear m0 t0 R0 F0 HT0 k L0 RE. intros m R F HT HD.
      assert (IH : forall w m' u, vdepth w < vdepth v -> reach E m t m' u -> has_type E m' u w -> conforms E w).
      { intros w m' u LW RE HW. eapply (IHd w); [lia | eapply ready_of_reach; eassumption | eapply faithful_reach; eassumption | exact HW]. }
      clear IHd.
      destruct t as [k0|b|t|t|kt t|ts|op ts|ls|t md|c|s|]; try contradiction.
      - apply ht_scalar_iff in HT. apply cf_leaf. destruct k0, v; try contradiction; exact Logic.I.
      - apply ht_bare in HT. contradiction.
      - apply ht_list_iff in HT. destruct HT as (vs & -> & HT). apply cf_list. rewrite Forall_forall in *. intros x I.
        apply (IH x m t); [apply vdepth_list; exact I | apply re_list; apply re_refl | auto].
      - apply ht_set_iff in HT. destruct HT as (vs & -> & HT & _). apply cf_set. rewrite Forall_forall in *. intros x I.
        apply (IH x m t); [apply vdepth_set; exact I | apply re_set; apply re_refl | auto].
      - apply ht_dict_iff in HT. destruct HT as (kvs & -> & _ & HT & _). apply cf_dict. rewrite Forall_forall in *. intros [k x] I.
        apply (IH x m t); [eapply vdepth_dict; exact I | apply re_dict; apply re_refl | exact (HT _ I)].
      - apply ht_tuple_iff in HT. destruct HT as (vs & -> & HT). apply cf_tuple. rewrite Forall_forall. intros x I.
        destruct (Forall2_in_r _ _ _ _ _ _ HT I) as (u & Iu & HX).
        apply (IH x m u); [apply vdepth_tuple; exact I | eapply re_tuple; [exact Iu | apply re_refl] | exact HX].
      - apply ht_literal_iff in HT. destruct HT as (l & _ & ->). apply cf_leaf. destruct l; exact Logic.I.
      - inversion HT as [| | | | | | | | |? ? cl ms x G K|? ? cl attrs G K AN AT|? ? cl xs attrs G K|? ? cl h attrs G K FJ]; subst;
          try (apply cf_leaf; exact Logic.I); pose proof (fa_class _ _ _ _ F _ _ _ (re_refl _ _ _) G) as M; unfold mirrored in M.
        + assert (FW : fieldwise cl) by (unfold fieldwise; destruct (c_kind cl); tauto).
          assert (NR : match c_kind cl with CRawTuple _ => False | _ => True end) by (destruct (c_kind cl); tauto).
          destruct (class_layout m c cl R G FW) as (L & LAY).
          assert (FV : Forall2 (fun f w => dict_get attrs (fst (fst f)) = Some w /\ has_type E (c_module cl) (snd (fst f)) w) L (map snd attrs))
            by (eapply field_values; eassumption).
          assert (CF : Forall (fun a => conforms E (snd a)) attrs).
          { rewrite Forall_forall. intros [a w] I. cbn [snd].
            destruct (value_none_dec w) as [->|N]; [apply cf_leaf; exact Logic.I|].
            assert (J : In w (map snd attrs)) by (apply in_map_iff; exists (a, w); auto).
            destruct (Forall2_in_r _ _ _ _ _ _ FV J) as ([[x u] d'] & Il & D & HTu). cbn [fst snd] in *.
            destruct (field_read m c cl L x u d' w R G FW NR LAY Il HTu N) as (r & _ & HTr & RE).
            apply (IH w (c_module cl) r); [eapply vdepth_obj; exact I | exact RE | exact HTr]. }
          assert (C : annotated cl \/ ~ annotated cl).
          { unfold annotated. destruct (c_kind cl) as [| | | |[|]]; try tauto. left. discriminate. }
          destruct C as [A|A]; [eapply cf_fields; eassumption | eapply cf_plain; eassumption].
        + rewrite K in M. contradiction.
        + rewrite FJ in M. assert (X : exists g, c_to_json cl = Some g).
          { destruct (c_kind cl); try contradiction; (destruct (c_to_json cl); [eauto | contradiction]). }
          destruct X as (g & T). eapply cf_hook; eassumption.
      - apply ht_form in HT. contradiction. }
    intros v. apply (MAIN (S (vdepth v)) v). lia.
  Qed.

  Theorem roundtrip : forall m t v j, ready E m t -> faithful m t -> has_type E m t v -> regular v ->
    object_to_json E v = Ok j -> jto m t j = Ok v.
  Proof.
    intros m t v j R F HT RG O. destruct (guarded_level E m t (every_part_top _ _ (proj1 R))) as (k & L).
    eapply (roundtrip_image (S (vdepth v)) k); try eassumption; [lia|].
    apply object_to_json_image; [exact OK | eapply typed_conforms; eassumption | exact O].
  Qed.

  (** * Alternatives told apart *)

  Lemma image_gives : forall m t v j, has_type E m t v -> image E v j -> gives E m t (kind_of j).
  Proof.
    intros m t v j HT. revert j.
    assert (CLS : forall m c v j, object_class v = Some c -> image E v j -> gives E m (TClass c) (kind_of j)).
    { clear. intros m c v j O IM.
      inversion IM as [? ? S| | | | |? c' cl h ? O' G T Q|? cl ms ? ? G T K I|? cl fs ? l ps o G T A|? cl xs ? ps o G T K|? cl ? l l' ps o G T K]; subst;
        try discriminate; cbn [object_class] in *.
      - inversion S; subst; discriminate.
      - rewrite O in O'. injection O' as <-. eapply gi_hook; eassumption.
      - injection O as <-. eapply gi_enum; eassumption.
      - injection O as <-. apply (gi_object E m _ cl G T). unfold annotated in A. destruct (c_kind cl); tauto.
      - injection O as <-. apply (gi_object E m _ cl G T). rewrite K. exact Logic.I.
      - injection O as <-. apply (gi_object E m _ cl G T). rewrite K. exact Logic.I. }
    assert (SCA : forall m k v j, scalar_type k v \/ (k = KBytes /\ exists b, v = VBytes b) -> image E v j -> gives E m (TScalar k) (kind_of j)).
    { clear. intros m k v j S IM. assert (Q : kind_of j = scalar_written k).
      { apply image_scalar in IM; [|destruct S as [S|(-> & b & ->)]; [destruct k, v; try contradiction; exact Logic.I | exact Logic.I]].
        destruct S as [S|(-> & b & ->)]; [|inversion IM; subst; reflexivity].
        destruct IM, k; try contradiction; reflexivity. }
      rewrite Q. constructor. }
    induction HT as [m k v S|m t vs H|m t vs H H2 H3|m k t kvs H H2 H3|m ts vs H|m op ts t v I H IH|m ls l I|m t md v H IH
      |m s a t v L H IH|m c cl ms x G K I|m c cl attrs G K A1 A2|m c cl xs attrs G K A|m c cl h attrs G K FJ]; intros j IM.
    - eapply SCA; eauto.
    - apply image_list in IM. destruct IM as (js & -> & _). constructor.
    - apply image_set in IM. destruct IM as (js & -> & _). constructor.
    - apply image_dict in IM. destruct IM as (ps & o & -> & _). constructor.
    - apply image_tuple in IM. destruct IM as (js & -> & _). constructor.
    - eapply gi_union; [exact I | apply IH; exact IM].
    - eapply gi_literal; [exact I|].
      destruct l; cbn [lit_type lit_value] in *; try (eapply SCA; [|exact IM]; left; exact Logic.I).
      + eapply SCA; [|exact IM]. right. eauto.
      + eapply CLS; [|exact IM]. reflexivity.
    - constructor. apply IH. exact IM.
    - eapply gi_ref; [exact L | apply IH; exact IM].
    - eapply CLS; [|exact IM]. reflexivity.
    - eapply CLS; [|exact IM]. reflexivity.
    - eapply CLS; [|exact IM]. reflexivity.
    - eapply CLS; [|exact IM]. reflexivity.
  Qed.

  Lemma refuses_soft : forall m t jk, refuses E m t jk -> ready E m t -> forall j, kind_of j = jk ->
    exists e, soft e /\ jto m t j = Err e.
  Proof.
    assert (ST : soft EJsonType) by (right; reflexivity). assert (SK : soft EJsonKey) by (left; reflexivity).
    intros m t jk H.
    induction H as [m k jk N|m t jk N|m t jk N|m ts jk N|m k t jk N|m op ts jk H IH|m ls jk H IH|m t md jk H IH|m s a t jk L H IH|m c cl jk G FW N];
      intros R j Q.
    - exists EJsonType. split; [exact ST|]. rewrite jto_scalar. subst jk.
      destruct k, j; cbn [scalar_kind kind_of parse_scalar] in *; try reflexivity; exfalso; apply N; try exact Logic.I; auto.
    - exists EJsonType. split; [exact ST|]. rewrite (jto_list E GE CALM skip m t j R). destruct j; try reflexivity. subst jk. destruct (N eq_refl).
    - exists EJsonType. split; [exact ST|]. rewrite (jto_set E GE CALM skip m t j R). destruct j; try reflexivity. subst jk. destruct (N eq_refl).
    - exists EJsonType. split; [exact ST|]. rewrite (jto_tuple E GE CALM skip m ts j R). destruct j; try reflexivity. subst jk. destruct (N eq_refl).
    - exists EJsonType. split; [exact ST|]. rewrite (jto_dict E GE CALM skip m k t j R). destruct j; try reflexivity. subst jk. destruct (N eq_refl).
    - pose proof (ready_union E GE m op ts R) as RU. rewrite Forall_forall in RU.
      destruct (tagged_dec m op ts R) as [TG|U].
      + destruct (jto_tagged E GE CALM ORD skip m op ts R TG) as (ps & tbl & _ & _ & _ & J). rewrite J. exists EJsonType.
        split; [exact ST|]. destruct j; try reflexivity. exfalso.
        destruct TG as (p & NE & FT). destruct ts as [|u ts]; [apply NE; reflexivity|].
        inversion FT as [|? ? (c & ls & -> & LP) _]; subst.
        specialize (H (TClass c) (or_introl eq_refl)). inversion H as [| | | | | | | | |? ? ? ? ? ? N]; subst. apply N. reflexivity.
      + rewrite (jto_untagged E GE CALM skip m op ts j R U). exists EJsonKey. split; [exact SK|].
        apply union_try_fail. left. split; [reflexivity|]. rewrite Forall_forall. intros u I.
        destruct (IH u I (RU u I) j Q) as (e & SE & J). exists e. auto.
    - destruct (ready_literal E GE m ls R) as (u & LT & Ru). rewrite (jto_literal E GE CALM skip m ls j R), LT. cbn [bind].
      destruct ls as [|l ls]; [discriminate|]. pose proof (literal_type_all _ _ LT l (or_introl eq_refl)) as LQ.
      rewrite <- LQ in *. destruct (IH l (or_introl eq_refl) Ru j Q) as (e & SE & J). exists e. split; [exact SE|]. rewrite J. reflexivity.
    - rewrite (jto_annot E GE CALM skip m t md j R). apply IH; [|exact Q]. apply (ready_annot E GE m t md R).
    - rewrite (jto_ref E GE CALM skip m s a t j R L). destruct (ready_ref E GE m s R) as (a' & t' & L' & _ & Rt).
      rewrite L in L'. injection L' as <- <-.
      apply IH; [exact Rt | exact Q].
    - destruct (ready_class E GE m c R) as (cl' & G' & X). rewrite G in G'. injection G' as <-.
      destruct (X (proj1 (fieldwise_by_fields cl) FW)) as (fps & FP & _).
      rewrite (jto_class E GE CALM skip m c cl fps j R G (proj1 (fieldwise_by_fields cl) FW) FP).
      exists EJsonType. split; [exact ST|]. destruct j; try reflexivity. subst jk. destruct (N eq_refl).
  Qed.

  Lemma missing_soft : forall m c c' v j, first_missing E c c' -> ready E m (TClass c) -> has_type E m (TClass c') v ->
    image E v j -> exists e, soft e /\ jto m (TClass c) j = Err e.
  Proof.
    intros m c c' v j (cl & cl' & x & t & p & L & G & O & LAY & NO & P & G' & T' & A' & NP) R HT IM.
    apply typeof_class in HT.
    assert (X : exists attrs, v = VObj c' attrs).
    { destruct v; try discriminate; injection HT as ->; try (eexists; reflexivity).
      exfalso. inversion IM as [? ? S| | | | |? ? ? ? ? O' G1 T1|? ? ms ? ? G1 T1 K| | |]; subst.
      - inversion S.
      - injection O' as <-. congruence.
      - rewrite G' in G1. injection G1 as <-. unfold annotated in A'. rewrite K in A'. contradiction. }
    destruct X as (attrs & ->).
    destruct (image_fields E c' cl' attrs j G' T' A' IM) as (fs & l & ps & o & -> & CP & PR & PS & M).
    assert (ND : NoDup (map fst o) /\ forall q, In q (map fst o) <-> In q (map fst ps)) by (apply merged_keys; exact M).
    destruct ND as [ND KS].
    exists EJsonKey. split; [left; reflexivity|].
    apply (class_err_spec E CE GE CALM skip m c cl _ o R G O LAY ND). left.
    exists [], (x, t, None), L. split; [reflexivity|]. split; [|constructor].
    eapply rc_missing; [exact P | | exact NO]. intros I. apply KS in I. apply in_map_iff in I.
    destruct I as ([q i] & Q & I). cbn [fst] in Q. subst q.
    destruct (Forall2_in_r _ _ _ _ _ _ PS I) as ([[y u] w] & Il & PQ & _). cbn [fst snd] in *.
    apply (present_in _ _ _ _ _ _ PR) in Il. destruct Il as [If _]. exact (NP fs y u CP If PQ).
  Qed.

  Theorem apart_separable : forall m op ts, ready E m (TUnion op ts) -> members_apart E m ts -> separable E skip m ts.
  Proof.
    intros m op ts R MA ts1 w ts2 u v j Q I HT IM. right.
    pose proof (ready_union E GE m op ts R) as RU. rewrite Forall_forall in RU.
    assert (Rw : ready E m w) by (apply RU; subst ts; apply in_or_app; right; left; reflexivity).
    destruct (MA ts1 w ts2 u Q I) as [K|(c & c' & -> & -> & FM)].
    - apply (refuses_soft m w (kind_of j)); [apply K; eapply image_gives; eassumption | exact Rw | reflexivity].
    - eapply missing_soft; eassumption.
  Qed.
End RoundTrip.
