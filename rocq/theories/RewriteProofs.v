(** Documents that are read and written again. *)
From Coq Require Import String List NArith ZArith QArith Bool Lia Permutation.
From Verif Require Import Base Json PyTypes TypeAlgebra TypeAlgebraProofs Lists Mapping Deser DeserFuel DeserBuild DeserUnfold DeserFacts DeserSound
  TypingFacts FieldProofs TaggedProofs Ser SerFacts SpecTyping SpecTypes SpecFields SpecNumbers NumbersProofs SpecRecursion SpecDeser SpecSer SpecTagged SpecRoundTrip
  SpecGenerate SchemaValid SchemaRead SpecExact ExactProofs SpecRewrite.
Import ListNotations.
Open Scope list_scope.
Open Scope nat_scope.

(** ** Unions less None *)

Section Unions.
  Variable E : env.
  Notation rewritten := (rewritten E).

  Lemma rewritten_union : forall m op ts j j', rewritten m (TUnion op ts) j j' <-> exists t, In t ts /\ rewritten m t j j'.
  Proof. intros m op ts j j'. split; [intros H; inversion H; subst; eauto | intros (t & I & H); eapply rw_union; eassumption]. Qed.

  Lemma rewritten_annot : forall m t md j j', rewritten m (TAnnot t md) j j' <-> rewritten m t j j'.
  Proof. intros m t md j j'. split; [intros H; inversion H; subst; assumption | apply rw_annot]. Qed.

  Lemma flatten_union_rewritten : forall m ts j j', (exists t, In t (flatten_union ts) /\ rewritten m t j j') -> exists t, In t ts /\ rewritten m t j j'.
  Proof.
    intros m ts j j' (t & I & H). apply in_flat_map in I. destruct I as (u & Iu & I). exists u. split; [exact Iu|].
    destruct u; try (destruct I as [<-|[]]; exact H). apply rewritten_union. exists t. auto.
  Qed.

  Lemma mk_union_rewritten : forall m op ts t j j', mk_union op ts = Ok t -> rewritten m t j j' -> exists u, In u ts /\ rewritten m u j j'.
  Proof.
    intros m op ts t j j' H R. apply flatten_union_rewritten. unfold mk_union in H.
    assert (D : exists u, In u (dedup [] (flatten_union ts)) /\ rewritten m u j j').
    { destruct (dedup [] (flatten_union ts)) as [|u [|u' us]]; [discriminate|..]; injection H as <-.
      - exists u. split; [left; reflexivity | exact R].
      - apply rewritten_union in R. exact R. }
    destruct D as (u & I & Hu). exists u. split; [eapply dedup_in; exact I | exact Hu].
  Qed.

  Lemma mk_annot_rewritten : forall m t md j j', rewritten m (mk_annot t md) j j' -> rewritten m t j j'.
  Proof. intros m t md j j'. destruct t; cbn [mk_annot]; rewrite ?rewritten_annot; tauto. Qed.

  Lemma unwrap_inner_rewritten : forall m t u j j', unwrap_optional_inner t = Ok u -> rewritten m u j j' -> rewritten m t j j'.
  Proof.
    intros m t u j j' H R. destruct t; try discriminate. cbn [unwrap_optional_inner] in H.
    destruct (mk_union_rewritten _ _ _ _ _ _ H R) as (w & I & Hw). apply filter_In in I. apply rewritten_union. exists w. tauto.
  Qed.

  Lemma unwrap_optional_rewritten : forall m t u j j', unwrap_optional t = Ok u -> rewritten m u j j' -> rewritten m t j j'.
  Proof.
    intros m t u j j' H R. destruct t; try (eapply unwrap_inner_rewritten; eassumption).
    cbn [unwrap_optional] in H. apply bind_ok in H. destruct H as (w & H & Q). injection Q as <-.
    apply mk_annot_rewritten in R. apply rewritten_annot. eapply unwrap_inner_rewritten; eassumption.
  Qed.
End Unions.

(** ** What is written for what is read *)

Section Rewriting.
  Variables (E : env) (skip : bool).
  Hypothesis OK : env_ok E.
  Hypothesis CE : canonical_env E.
  Notation rewritten := (rewritten E).

  Lemma image_scalar : forall v j, object_class v = None -> (match v with VList _ | VTuple _ | VSet _ | VDict _ => False | _ => True end) ->
    image E v j -> scalar_image v j.
  Proof. intros v j O S H. inversion H; subst; try assumption; try contradiction; cbn [object_class] in *; congruence. Qed.

  Lemma scalar_rewriting : forall k j v j', parse_scalar k j = Ok v -> image E v j' -> scalar_rewritten k j j'.
  Proof.
    intros k j v j' P I.
    assert (S : scalar_image v j').
    { pose proof (parse_scalar_sound _ _ _ P) as T. apply image_scalar; [| |exact I]; destruct k, v; try contradiction; try exact Logic.I; reflexivity. }
    clear I.
    assert (X : textual k -> scalar_rewritten k j j').
    { intros T. assert (Y : exists s, j = JStr s) by (destruct k; try contradiction; destruct j; try discriminate P; eauto).
      assert (Z : exists s, j' = JStr s).
      { pose proof (parse_scalar_sound _ _ _ P) as Q. destruct k; try contradiction; destruct v; try contradiction; inversion S; subst; eauto. }
      destruct Y as (s & ->). destruct Z as (s' & ->). eapply sr_text; eassumption. }
    destruct k; try (apply X; exact Logic.I); cbn [parse_scalar] in P; destruct j; try discriminate P.
    - injection P as <-. inversion S; subst. constructor.
    - injection P as <-. inversion S; subst. constructor.
    - injection P as <-. inversion S; subst. constructor.
    - injection P as <-. inversion S; subst. constructor.
    - destruct (int_to_float (if b then 1 else 0)%Z) as [f|] eqn:F; [|discriminate P]. cbn [bind] in P. injection P as <-. inversion S; subst.
      apply int_to_float_nearest in F. destruct F as (q & Q & N). eapply sr_number; eassumption.
    - destruct (int_to_float z) as [f|] eqn:F; [|discriminate P]. cbn [bind] in P. injection P as <-. inversion S; subst.
      apply int_to_float_nearest in F. destruct F as (q & Q & N). eapply sr_integer; eassumption.
    - injection P as <-. inversion S; subst. constructor.
    - injection P as <-. inversion S; subst. constructor.
  Qed.

  Lemma enum_value : forall c cl ms x w w', get_class E c = Some cl -> c_kind cl = CEnum ms -> In (x, w) ms -> In (x, w') ms -> w' = w.
  Proof.
    intros c cl ms x w w' G K I J. destruct (ok_members _ _ _ (OK _ _ G) _ K) as (ND & _).
    pose proof (dict_get_nodup _ _ _ ND I) as A. pose proof (dict_get_nodup _ _ _ ND J) as B. congruence.
  Qed.

  Lemma enum_rewriting : forall m c cl ms j v j', get_class E c = Some cl -> c_kind cl = CEnum ms -> parse_enum c ms j = Ok v -> image E v j' ->
    rewritten m (TClass c) j j'.
  Proof.
    intros m c cl ms j v j' G K H I. unfold parse_enum in H. destruct (enum_find ms j) as [y|] eqn:Y; [|discriminate]. injection H as <-.
    apply enum_find_in in Y. destruct Y as (w & Iw & S). apply scalar_eqb_spec in S.
    inversion I as [? ? Sc| | | | |? c' cl' h ? O G' T Hh|c' cl' ms' ? ? G' T K' Ij| | |]; subst.
    - inversion Sc.
    - cbn [object_class] in O. injection O as <-. eapply rw_to_json; [exact G | | | exact Hh]; [congruence | reflexivity].
    - rewrite G in G'. injection G' as <-. rewrite K in K'. injection K' as <-.
      rewrite (enum_value _ _ _ _ _ _ G K Iw Ij). eapply rw_enum; eassumption.
  Qed.

  (** Only null is read as None. *)
  Lemma not_none : forall n m t j v, j <> JNull -> parse E skip n m t j = Ok v -> v <> VNone.
  Proof.
    induction n as [|n IH]; intros m t j v NN H; [discriminate|]. destruct t; cbn [parse] in H.
    - destruct k; destruct j; try discriminate H; try (destruct (NN eq_refl)); cbn [parse_scalar] in H;
        try (apply bind_ok in H; destruct H as (w & _ & H)); injection H as <-; discriminate.
    - discriminate.
    - destruct j; try discriminate. apply bind_ok in H. destruct H as (vs & _ & H). injection H as <-. discriminate.
    - destruct j; try discriminate. apply bind_ok in H. destruct H as (vs & _ & H). injection H as <-. discriminate.
    - destruct j; try discriminate. apply bind_ok in H. destruct H as (vs & _ & H). injection H as <-. discriminate.
    - destruct j as [| | | | |js|]; try discriminate. destruct (Nat.eqb (length js) (length ts)); [|discriminate]. apply bind_ok in H. destruct H as (vs & _ & H). injection H as <-. discriminate.
    - apply bind_ok in H. destruct H as (ps & D & H). destruct ps as [|p ps].
      + apply union_try_ok in H. destruct H as (t & I & H). eapply IH; eassumption.
      + apply bind_ok in H. destruct H as (tbl & T & H). destruct j as [| | | | | |o]; try discriminate.
        apply bind_ok in H. destruct H as (u & S & H). eapply IH; eassumption.
    - apply bind_ok in H. destruct H as (u & L & H). apply bind_ok in H. destruct H as (w & P & H).
      destruct (existsb (fun l => py_eq E (lit_value l) w) ls); [|discriminate]. injection H as <-. eapply IH; eassumption.
    - destruct t; try discriminate; eapply IH; eassumption.
    - destruct (get_class E c) as [cl|] eqn:G; [|discriminate].
      assert (X : (do fps <- field_parsers E cl; parse_object (parse E skip n (c_module cl)) skip c cl fps j) = Ok v -> v <> VNone).
      { intros Q. apply bind_ok in Q. destruct Q as (fps & _ & Q). destruct j; try discriminate. cbn [parse_object] in Q.
        apply bind_ok in Q. destruct Q as (vals & _ & Q).
        destruct (skip || forallb (fun kv => mem_str (fst kv) (map fp_prop fps)) o); [|discriminate].
        destruct (c_kind cl) as [| |[|]| |]; try discriminate Q; injection Q as <-; discriminate. }
      assert (Y : forall h, c_from_json cl = Some h -> h j = Ok v -> v <> VNone).
      { intros h F Q. destruct (ok_hook _ _ _ (OK _ _ G) _ _ _ F Q) as (attrs & ->). discriminate. }
      destruct (c_kind cl) as [ms|hs|xs|fr fs|hs] eqn:K; destruct (c_from_json cl) as [h|] eqn:F; try (exact (X H)); try (exact (Y h eq_refl H)).
      all: unfold parse_enum in H; destruct (enum_find ms j); [|discriminate]; injection H as <-; discriminate.
    - destruct (lookup E m s) as [[a u]|] eqn:L; [|discriminate]. destruct (deref u) eqn:DU; try discriminate; eapply IH; eassumption.
    - discriminate.
  Qed.

  (** Which parsers the fields have. *)
  Lemma parsers_for : forall c cl L fps, get_class E c = Some cl -> fieldwise cl -> layout E cl L -> field_parsers E cl = Ok fps ->
    Forall2 (fun f fp => let '(x, u, d) := f in
      fp_name fp = x /\ json_name cl x u (fp_prop fp) /\
      (fp_mode fp = FOptional -> d = None /\ optional u) /\ (forall r, fp_mode fp = FDefault r -> d = Some r) /\
      (forall j j', rewritten (c_module cl) (fp_type fp) j j' -> rewritten (c_module cl) u j j')) L fps.
  Proof.
    intros c cl L fps G FW LAY FP. assert (O : ordinary cl \/ (exists hs, c_kind cl = CTuple hs) \/ L = []).
    { unfold fieldwise, ordinary in *. destruct LAY as (H & D). destruct (c_kind cl) eqn:K; try contradiction; eauto.
      right. right. cbn [defaults raw_fields map] in D. destruct L; [reflexivity | discriminate D]. }
    destruct O as [O|[(hs & K)|Q]].
    - rewrite (layout_parsers E c cl L G O LAY) in FP. apply mapM_ok in FP. eapply Forall2_impl_in; [|exact FP]. intros [[x u] d] fp I _ Q. cbn beta iota in Q.
      assert (CN : canonical u).
      { eapply (hints_canonical E CE); [exact G | exact (proj1 LAY)|]. apply in_map_iff. exists (x, u, d). split; [reflexivity | exact I]. }
      destruct (field_parser_spec x u d fp CN Q) as (PN & FN & RT & M). split; [exact FN|]. split.
      { unfold json_name, ordinary in *. destruct (c_kind cl); try contradiction; exact PN. }
      split; [|split].
      + intros Q1. rewrite M in Q1. destruct d; [discriminate|]. destruct (is_type_optional u) eqn:OU; [|discriminate]. split; [reflexivity|]. apply is_type_optional_spec. exact OU.
      + intros r Q1. rewrite M in Q1. destruct d; [congruence|]. destruct (is_type_optional u); discriminate.
      + intros j j' R. unfold field_parser in Q. apply bind_ok in Q. destruct Q as (r & U & Q). injection Q as <-. cbn [fp_type] in *.
        destruct (is_type_optional u); [|injection U as <-; exact R]. eapply unwrap_optional_rewritten; eassumption.
    - destruct LAY as (H & D). unfold field_parsers in FP. rewrite H in FP. cbn [bind] in FP. rewrite K in FP. injection FP as <-.
      clear H D G FW. unfold json_name. rewrite K. clear K. induction L as [|[[x u] d] L IH]; [constructor|]. cbn [map fst]. constructor; [|exact IH].
      cbn [fp_prop fp_mode fp_type fp_name]. split; [reflexivity|]. split; [reflexivity|]. split; [discriminate|]. split; [discriminate | auto].
    - subst L. destruct LAY as (H & _). unfold field_parsers in FP. rewrite H in FP. cbn [bind map] in FP.
      destruct (c_kind cl) as [| | |fz [|f fs]|]; cbn in FP; injection FP as <-; constructor.
  Qed.

  Lemma image_list : forall vs j, image E (VList vs) j -> exists js, j = JArr js /\ Forall2 (image E) vs js.
  Proof. intros vs j H. inversion H as [? ? Sc| | | | |? ? ? ? ? O| | | |]; subst; eauto; [inversion Sc | discriminate O]. Qed.
  Lemma image_set : forall vs j, image E (VSet vs) j -> exists js, j = JArr js /\ Forall2 (image E) vs js.
  Proof. intros vs j H. inversion H as [? ? Sc| | | | |? ? ? ? ? O| | | |]; subst; eauto; [inversion Sc | discriminate O]. Qed.
  Lemma image_tuple : forall vs j, image E (VTuple vs) j -> exists js, j = JArr js /\ Forall2 (image E) vs js.
  Proof. intros vs j H. inversion H as [? ? Sc| | | | |? ? ? ? ? O| | | |]; subst; eauto; [inversion Sc | discriminate O]. Qed.
  Lemma image_dict : forall kvs j, image E (VDict kvs) j -> exists ps o, j = JObj o /\
    Forall2 (fun kv p => key_text E (fst kv) (fst p) /\ image E (snd kv) (snd p)) kvs ps /\ merged ps o.
  Proof. intros vs j H. inversion H as [? ? Sc| | | | |? ? ? ? ? O| | | |]; subst; eauto; [inversion Sc | discriminate O]. Qed.

  Lemma zip_parse_nth : forall p ts js vs, zip_parse p ts js = Ok vs -> length js = length ts ->
    length vs = length ts /\ forall i t j v, nth_error ts i = Some t -> nth_error js i = Some j -> nth_error vs i = Some v -> p t j = Ok v.
  Proof.
    intros p ts. induction ts as [|t ts IH]; intros [|j js] vs H L; try discriminate L; cbn [zip_parse] in H.
    - injection H as <-. split; [reflexivity|]. intros [|i] t j v Q; discriminate Q.
    - destruct (p t j) as [v|] eqn:P; [|discriminate]. destruct (zip_parse p ts js) as [vs'|] eqn:Z; [|discriminate]. injection H as <-.
      destruct (IH _ _ Z) as (A & B); [cbn [length] in L; congruence|]. split; [cbn [length]; congruence|].
      intros [|i] t' j' v' Q1 Q2 Q3; cbn [nth_error] in *; [congruence | eapply B; eassumption].
  Qed.

  Lemma set_nonempty : forall vs, vs <> [] -> set_of E [] vs <> [].
  Proof.
    intros [|v vs] N; [destruct (N eq_refl)|]. cbn [set_of existsb]. destruct (set_of_spec E vs [v]) as (l & -> & _). discriminate.
  Qed.

  Lemma set_shorter : forall vs acc, length (set_of E acc vs) <= length acc + length vs.
  Proof.
    induction vs as [|v vs IH]; intros acc; cbn [set_of length]; [rewrite rev_length; lia|].
    destruct (existsb (fun u => py_eq E u v) acc); [specialize (IH acc); lia | specialize (IH (v :: acc)); cbn [length] in IH; lia].
  Qed.

  Lemma key_back : forall k s v s', parse_key E k s = Ok v -> key_text E v s' -> s' = s.
  Proof.
    intros k s v s' P T. destruct k as [k0| | | | | | | | |c| |]; try discriminate P; cbn [parse_key] in P.
    - destruct k0; try discriminate P; injection P as <-; inversion T; reflexivity.
    - destruct (get_class E c) as [cl|] eqn:G; [|discriminate]. destruct (c_kind cl) as [ms| | | |] eqn:K; try discriminate.
      unfold parse_enum in P. destruct (enum_find ms (JStr s)) as [y|] eqn:Y; [|discriminate]. injection P as <-.
      apply enum_find_in in Y. destruct Y as (w & I & S). apply scalar_eqb_str in S. subst w.
      inversion T as [|c' cl' ms' ? ? G' K' I']; subst. rewrite G in G'. injection G' as <-. rewrite K in K'. injection K' as <-.
      pose proof (enum_value _ _ _ _ _ _ G K I I') as Q. congruence.
  Qed.

  (** The attributes that are written, one by one. *)
  Lemma fields_rewriting : forall n cl ps o attrs, NoDup (map fst o) -> json_wf (JObj o) ->
    (forall m t j v j', json_wf j -> parse E skip n m t j = Ok v -> image E v j' -> rewritten m t j j') ->
    (forall x v, In (x, v) attrs -> dict_get attrs x = Some v) ->
    forall L fps fs vals l qs,
    Forall2 (fun f fp => let '(x, u, d) := f in
      fp_name fp = x /\ json_name cl x u (fp_prop fp) /\
      (fp_mode fp = FOptional -> d = None /\ optional u) /\ (forall r, fp_mode fp = FDefault r -> d = Some r) /\
      (forall j j', rewritten (c_module cl) (fp_type fp) j j' -> rewritten (c_module cl) u j j')) L fps ->
    Forall2 (fun fp a => (do v <- parse_field (parse E skip n (c_module cl)) fp o; Ok (fp_name fp, v)) = Ok a) fps vals ->
    map fst fs = map (fun f => fst (fst f)) L -> incl fs ps -> incl vals attrs ->
    present attrs fs l -> Forall2 (fun f p => prop_name (fst (fst f)) (snd (fst f)) (fst p) /\ image E (snd f) (snd p)) l qs ->
    fields_rewritten E cl ps o (rewritten (c_module cl)) L qs.
  Proof.
    intros n cl ps o attrs ND W IH AT L fps fs vals l qs F. revert fs vals l qs.
    induction F as [|[[x u] d] fp L fps (FN & JN & FO & FD & FT) F IHF]; intros fs vals l qs V M I J P Q.
    - destruct fs; [|discriminate M]. inversion P; subst. inversion Q; subst. constructor.
    - destruct fs as [|[x' t] fs]; [discriminate M|]. cbn [map fst] in M. assert (x' = x) by congruence. subst x'. assert (M' : map fst fs = map (fun f => fst (fst f)) L) by congruence.
      inversion V as [|? [y w] ? vals' Pv V']; subst. apply bind_ok in Pv. destruct Pv as (w' & Pv & E1).
      assert (y = fp_name fp /\ w' = w) as (-> & ->) by (split; congruence). clear E1.
      assert (A : dict_get attrs (fp_name fp) = Some w) by (apply AT, J; left; reflexivity).
      assert (It : In (fp_name fp, t) ps) by (apply I; left; reflexivity).
      assert (I' : incl fs ps) by (intros z Z; apply I; right; exact Z).
      assert (J' : incl vals' attrs) by (intros z Z; apply J; right; exact Z).
      destruct (parse_field_cases _ _ _ _ Pv) as [(j & Gj & NN & Pj)|(AB & B)].
      + pose proof (not_none _ _ _ _ _ NN Pj) as NV. pose proof (json_wf_get _ _ _ W Gj) as Wj. apply dict_get_in in Gj.
        inversion P as [|? ? ? ? D|? ? ? v ? D N P']; subst; [congruence|]. inversion Q as [|? [q j'] ? qs' (Q1 & Q2) Q']; subst. cbn [fst snd] in *.
        assert (v = w) by congruence. subst v. eapply fr_value; try eassumption; [|eapply IHF; eassumption]. apply FT. eapply IH; eassumption.
      + assert (AB' : absent o (fp_prop fp) \/ In (fp_prop fp, JNull) o).
        { destruct AB as [AB|AB]; [left|right; apply dict_get_in; exact AB]. intros X. apply in_map_iff in X. destruct X as ([p y] & Xp & X). cbn [fst] in Xp. subst p.
          rewrite (dict_get_nodup _ _ _ ND X) in AB. discriminate. }
        assert (D : w = VNone -> d = Some (Ok VNone) \/ (d = None /\ optional u)).
        { intros ->. destruct B as [(B & _)|B]; [right; exact (FO B) | left; exact (FD _ B)]. }
        inversion P as [|? ? ? ? D0 P'|? ? ? v ? D0 N P']; subst.
        * assert (w = VNone) by congruence. eapply fr_omitted; try eassumption; [exact (D H)|]. eapply IHF; eassumption.
        * assert (v = w) by congruence. subst v. destruct B as [(_ & B)|B]; [contradiction|]. rewrite (FD _ B).
          inversion Q as [|? [q j'] ? qs' (Q1 & Q2) Q']; subst. cbn [fst snd] in *. eapply fr_default; try eassumption. eapply IHF; eassumption.
  Qed.

  Lemma image_object : forall c cl attrs j, get_class E c = Some cl -> not_enum cl -> c_to_json cl = None -> image E (VObj c attrs) j ->
    exists fs l qs o, j = JObj o /\ merged qs o /\ class_properties E cl = Ok fs /\
      ((annotated cl /\ present attrs fs l /\ Forall2 (fun f p => prop_name (fst (fst f)) (snd (fst f)) (fst p) /\ image E (snd f) (snd p)) l qs) \/
       (~ annotated cl /\ (attrs = [] -> c_kind cl = CPlain [] \/ c_kind cl = CRawTuple [] -> qs = []))).
  Proof.
    intros c cl attrs j G NE NT H. inversion H as [? ? Sc| | | | |? c' cl' h ? O G' T Hh| |c' cl' fs ? l qs o G' T A CP P F M|c' cl' xs ? qs o G' T K F M|c' cl' ? l l' qs o G' T K PM SO FI FX F M]; subst.
    - inversion Sc.
    - cbn [object_class] in O. injection O as <-. congruence.
    - rewrite G in G'. injection G' as <-. exists fs, l, qs, o. auto 8.
    - rewrite G in G'. injection G' as <-. unfold class_properties, hints, annotated. rewrite K. exists [], [], qs, o. cbn. split; [reflexivity|]. split; [exact M|]. split; [reflexivity|].
      right. split; [tauto|]. intros _ [Q|Q]; [discriminate|]. injection Q as ->. inversion F. reflexivity.
    - rewrite G in G'. injection G' as <-. unfold class_properties, hints, annotated. rewrite K. exists [], [], qs, o. cbn. split; [reflexivity|]. split; [exact M|]. split; [reflexivity|].
      right. split; [intros Z; destruct (Z eq_refl)|]. intros -> _. apply Permutation_nil in PM. subst l. destruct FX as (f & ->). inversion F. reflexivity.
  Qed.

  Theorem read_rewritten : forall n m t j v j', json_wf j -> parse E skip n m t j = Ok v -> image E v j' -> rewritten m t j j'.
  Proof.
    induction n as [|n IH]; intros m t j v j' W H I; [discriminate|]. destruct t; cbn [parse] in H.
    - apply rw_scalar. eapply scalar_rewriting; eassumption.
    - discriminate.
    - destruct j; try discriminate. apply bind_ok in H. destruct H as (vs & H & Q). injection Q as <-. apply mapM_ok in H.
      destruct (image_list _ _ I) as (js & -> & F). constructor. clear I.
      assert (W' : forall x, In x l -> json_wf x) by (intros x Ix; eapply wf_item; eassumption). clear W.
      revert js F. induction H as [|a b l vs Hab _ IHl]; intros js F; inversion F as [|? y ? js' Fy F']; subst; constructor.
      + eapply IH; [apply W'; left; reflexivity | exact Hab | exact Fy].
      + apply IHl; [intros x Ix; apply W'; right; exact Ix | exact F'].
    - destruct j; try discriminate. apply bind_ok in H. destruct H as (vs & H & Q). injection Q as <-. apply mapM_ok in H.
      destruct (image_set _ _ I) as (js & -> & F). pose proof (Forall2_length_eq _ _ _ _ _ H) as LN. pose proof (Forall2_length_eq _ _ _ _ _ F) as LF. constructor.
      + intros y Iy. destruct (Forall2_in_r _ _ _ _ _ _ F Iy) as (w & Iw & Hw). destruct (set_of_spec E vs []) as (l' & E1 & E2 & _). cbn [rev app] in E1. rewrite E1 in Iw. apply E2 in Iw.
        destruct (Forall2_in_r _ _ _ _ _ _ H Iw) as (x & Ix & Hx). apply bind_ok in Hx. destruct Hx as (w' & Hx & Q). destruct (hashable E w'); [|discriminate]. injection Q as ->.
        exists x. split; [exact Ix|]. eapply IH; [eapply wf_item; eassumption | exact Hx | exact Hw].
      + pose proof (set_shorter vs []) as S. cbn [length] in S. lia.
      + intros N. assert (vs <> []) by (intros ->; destruct l; [destruct (N eq_refl) | discriminate LN]). pose proof (set_nonempty _ H0) as S. intros ->. destruct (set_of E [] vs); [destruct (S eq_refl) | discriminate LF].
    - destruct j; try discriminate. apply bind_ok in H. destruct H as (kvs & H & Q). injection Q as <-. apply mapM_ok in H.
      destruct (image_dict _ _ I) as (qs & o' & -> & F & M). clear I.
      assert (X : map fst qs = map fst o /\ Forall2 (fun a b => rewritten m t2 (snd a) (snd b)) o qs).
      { assert (W' : forall p x, In (p, x) o -> json_wf x) by (intros p x Ix; eapply wf_member; eassumption). clear W M.
        revert qs F. induction H as [|[s x] [k w] o kvs Hab _ IHl]; intros qs F; inversion F as [|? [q y] ? qs' (F1 & F2) F']; subst; [split; [reflexivity | constructor]|].
        destruct (IHl (fun p z Z => W' p z (or_intror Z)) _ F') as (A & B). apply bind_ok in Hab. destruct Hab as (k' & PK & Hab). apply bind_ok in Hab. destruct Hab as (w' & P & Q).
        assert (k' = k /\ w' = w) as (-> & ->) by (split; congruence). cbn [fst snd map] in *. split.
        - rewrite A, (key_back _ _ _ _ PK F1). reflexivity.
        - constructor; [|exact B]. cbn [snd]. eapply IH; [eapply W'; left; reflexivity | exact P | exact F2]. }
      destruct X as (X & Y). apply merged_fun in M. rewrite merged_distinct in M by (rewrite X; apply wf_keys; exact W). subst o'. constructor; assumption.
    - destruct j as [| | | | |js|]; try discriminate. destruct (Nat.eqb (length js) (length ts)) eqn:Q; [|discriminate]. apply Nat.eqb_eq in Q.
      apply bind_ok in H. destruct H as (vs & H & Q'). injection Q' as <-. destruct (image_tuple _ _ I) as (ys & -> & F).
      destruct (zip_parse_nth _ _ _ _ H Q) as (LV & N). constructor; [exact Q | rewrite <- (Forall2_length_eq _ _ _ _ _ F); exact LV|].
      intros i t x y A B C. assert (Z : exists w, nth_error vs i = Some w /\ image E w y).
      { clear - F C. revert i C. induction F as [|a b vs ys Hab F IHF]; intros [|i] C; cbn [nth_error] in *; try discriminate; [injection C as <-; eauto | eauto]. }
      destruct Z as (w & Z1 & Z2). eapply IH; [eapply wf_item; [exact W | eapply nth_error_In; exact B] | exact (N _ _ _ _ A B Z1) | exact Z2].
    - apply bind_ok in H. destruct H as (ps & D & H). destruct ps as [|p ps].
      + apply union_try_ok in H. destruct H as (t & It & H). eapply rw_union; [exact It|]. eapply IH; eassumption.
      + apply bind_ok in H. destruct H as (tbl & T & H). destruct j as [| | | | | |o]; try discriminate.
        apply bind_ok in H. destruct H as (u & S & H). eapply rw_union; [|eapply IH; eassumption].
        apply tag_select_in in S. destruct S as (p' & l & x & _ & It & _). apply (tag_table_in _ _ _ _ _ _ _ T) in It. tauto.
    - assert (LG : exists l, In l ls /\ (forall c, lit_json l = Some c -> json_equal c j) /\ parse E skip n m (lit_type l) j = Ok v).
      { apply bind_ok in H. destruct H as (u & L & H). apply bind_ok in H. destruct H as (w & P & H).
        destruct (existsb (fun l => py_eq E (lit_value l) w) ls) eqn:X; [|discriminate]. injection H as <-.
        apply existsb_exists in X. destruct X as (l & Il & X). pose proof (literal_type_all _ _ L _ Il) as Q. rewrite <- Q in P.
        exists l. split; [exact Il|]. split; [|exact P].
        intros c LJ. clear I. destruct n as [|n]; [discriminate P|].
        destruct l; try discriminate LJ; injection LJ as <-; cbn [lit_type parse parse_scalar] in P; destruct j; try discriminate P; injection P as <-; cbn [lit_value py_eq] in X.
        + constructor.
        + destruct b, b0; try discriminate X; eapply je_num; try constructor; reflexivity.
        + cbn [value_number number_eqb] in X. apply Z.eqb_eq in X. eapply je_num; [constructor | constructor | rewrite X; reflexivity].
        + cbn [value_number number_eqb] in X. apply Z.eqb_eq in X. eapply je_num; [constructor | constructor | rewrite X; reflexivity].
        + cbn [value_number] in X. apply pystr_eqb_eq in X. subst. constructor. }
      destruct LG as (l & Il & JE & P). eapply rw_literal; [exact Il | exact JE|]. eapply IH; eassumption.
    - apply rw_annot. destruct t; try discriminate; eapply IH; eassumption.
    - destruct (get_class E c) as [cl|] eqn:G; [|discriminate].
      assert (X : (do fps <- field_parsers E cl; parse_object (parse E skip n (c_module cl)) skip c cl fps j) = Ok v -> not_enum cl -> fieldwise cl -> rewritten m (TClass c) j j').
      { intros Q NE FW. apply bind_ok in Q. destruct Q as (fps & FP & Q). destruct j as [| | | | | |o]; try discriminate. cbn [parse_object] in Q.
        apply bind_ok in Q. destruct Q as (vals & V & Q). apply mapM_ok in V.
        destruct (skip || forallb (fun kv => mem_str (fst kv) (map fp_prop fps)) o) eqn:SK; [|discriminate].
        assert (v = VObj c vals /\ (forall xs, c_kind cl = CRawTuple xs -> xs = [])) as (-> & RW).
        { destruct (c_kind cl) as [| |[|]| |]; try discriminate Q; (split; [congruence | intros xs Z; congruence]). }
        clear Q. assert (HS : exists hs, hints E cl = Ok hs) by (unfold field_parsers in FP; destruct (hints E cl) as [hs|]; [eauto | discriminate FP]).
        destruct HS as (hs & HS). destruct (layout_any _ _ _ HS) as (L & LAY).
        pose proof (parsers_for _ _ _ _ G FW LAY FP) as F.
        destruct (c_to_json cl) as [h|] eqn:TJ.
        { inversion I as [? ? Sc| | | | |? c' cl' h' ? O G' T Hh| |c' cl' fs ? l qs o' G' T|c' cl' xs ? qs o' G' T|c' cl' ? l l' qs o' G' T]; subst;
            try (rewrite G in G'; injection G' as <-; congruence).
          - inversion Sc.
          - cbn [object_class] in O. injection O as <-. eapply rw_to_json; [exact G' | exact T | | exact Hh]. reflexivity. }
        destruct (image_object _ _ _ _ G NE TJ I) as (fs & l & qs & o' & -> & M & CP & D). eapply rw_class; try eassumption.
        assert (NL : map fst fs = map (fun f => fst (fst f)) L).
        { destruct LAY as (H1 & _). unfold class_properties in CP. apply hints_names in H1. rewrite map_map in H1.
          rewrite H1. assert (Z : hints E cl = Ok fs \/ fs = raw_fields (c_kind cl)) by (destruct (c_kind cl); [left; exact CP | left; exact CP | left; exact CP | right; congruence | left; exact CP]).
          destruct Z as [Z|Z]; [exact (hints_names _ _ _ Z) | rewrite Z; reflexivity]. }
        assert (VN : map fst vals = map (fun f => fst (fst f)) L).
        { clear - F V. revert vals V. induction F as [|[[x u] d] fp L fps (FN & _) F IHF]; intros vals V; inversion V as [|? [y w] ? vals' Q V']; subst; [reflexivity|].
          apply bind_ok in Q. destruct Q as (w' & _ & Q). cbn [map fst]. rewrite (IHF _ V'). congruence. }
        destruct D as [(A & P & FQ)|(NA & D)].
        - eapply fields_rewriting; try eassumption; try (intros z Z; exact Z).
          + apply wf_keys. exact W.
          + intros x w Ix. apply dict_get_nodup; [|exact Ix]. rewrite VN. destruct LAY as (H1 & _). apply hints_names in H1. rewrite map_map in H1. rewrite H1. apply (ok_names _ _ _ (OK _ _ G)).
        - assert (Z : L = [] /\ (c_kind cl = CPlain [] \/ c_kind cl = CRawTuple [])).
          { destruct LAY as (_ & H2). unfold annotated, fieldwise in *. destruct (c_kind cl) as [ms|ths|xs|fr fds|phs] eqn:K; try tauto.
            - cbn [defaults raw_fields map] in H2. destruct L; [|discriminate H2]. rewrite (RW _ eq_refl). auto.
            - destruct phs as [|a b]; [|destruct NA; discriminate]. cbn [defaults raw_fields map] in H2. destruct L; [auto | discriminate H2]. }
          destruct Z as (-> & Z). destruct vals; [|discriminate VN]. rewrite (D eq_refl Z). constructor. }
      assert (Y : forall h, not_enum cl -> c_from_json cl = Some h -> h j = Ok v -> rewritten m (TClass c) j j').
      { intros h NE F Q. eapply rw_from_json; eassumption. }
      destruct (c_kind cl) as [ms|hs|xs|fr fs|hs] eqn:K; destruct (c_from_json cl) as [h|] eqn:F.
      1,2: eapply enum_rewriting; eassumption.
      all: assert (NE : not_enum cl) by (intros ms; rewrite K; discriminate).
      all: try (apply X; [exact H | exact NE | unfold fieldwise; rewrite K; first [exact Logic.I | exact F]]).
      all: eapply Y; [exact NE | reflexivity | exact H].
    - destruct (lookup E m s) as [[a u]|] eqn:L; [|discriminate]. eapply rw_ref; [exact L|].
      assert (D : rewritten m (deref u) j j') by (destruct (deref u) eqn:DU; try discriminate; eapply IH; eassumption).
      destruct u; try exact D. constructor. exact D.
    - discriminate.
  Qed.

  Theorem document_rewritten : forall m t j v j', json_wf j -> json_to_object E skip m t j = Ok v -> conforms E v -> object_to_json E v = Ok j' ->
    rewritten m t j j'.
  Proof.
    intros m t j v j' W H C Q. unfold json_to_object in H. apply bind_ok in H. destruct H as (b & _ & H).
    eapply read_rewritten; [exact W | exact H|]. apply object_to_json_image; assumption.
  Qed.
End Rewriting.

(** ** Written documents are well formed *)

Section WellFormed.
  Variable E : env.
  Hypothesis OK : env_ok E.
  Hypothesis TIDY : tidy E.

  Lemma merged_wf : forall ps o, merged ps o -> (forall p x, In (p, x) ps -> json_wf x) -> json_wf (JObj o).
  Proof.
    intros ps o M H. constructor; [exact (proj1 (merged_keys _ _ M))|]. apply Forall_forall. intros [p x] I. cbn [snd].
    eapply H. eapply SchemaValid.merged_in; eassumption.
  Qed.

  Lemma image_wf : forall v j, image E v j -> json_wf j.
  Proof.
    fix IH 3. intros v j H. destruct H as [v j S|vs js F|vs js F|vs js F|kvs ps o F M|v c cl h j O G T Q|c cl ms x j G T K I|c cl fs attrs l ps o G T A CP P F M|c cl xs attrs ps o G T K F M|c cl attrs l l' ps o G T K PM SO FI FX F M].
    - inversion S; subst; constructor.
    - constructor. induction F; constructor; [eapply IH; eassumption | assumption].
    - constructor. induction F; constructor; [eapply IH; eassumption | assumption].
    - constructor. induction F; constructor; [eapply IH; eassumption | assumption].
    - eapply merged_wf; [exact M|]. clear M o. induction F as [|a b kvs ps (_ & X) F IHF]; intros p x I; [destruct I|]. destruct I as [Q|I].
      + subst b. eapply IH. exact X.
      + eapply IHF. exact I.
    - eapply TIDY; eassumption.
    - destruct (ok_members _ _ _ (OK _ _ G) _ K) as (_ & S & _). rewrite Forall_forall in S. specialize (S _ I). cbn [snd] in S. destruct j; try contradiction; constructor.
    - eapply merged_wf; [exact M|]. clear M o P. induction F as [|a b l ps (_ & X) F IHF]; intros p x I; [destruct I|]. destruct I as [Q|I].
      + subst b. eapply IH. exact X.
      + eapply IHF. exact I.
    - eapply merged_wf; [exact M|]. clear M o K. induction F as [|a b l ps (_ & w & _ & X) F IHF]; intros p x I; [destruct I|]. destruct I as [Q|I].
      + subst b. eapply IH. exact X.
      + eapply IHF. exact I.
    - eapply merged_wf; [exact M|]. clear M o PM SO FI FX. induction F as [|a b l'' ps (_ & X) F IHF]; intros p x I; [destruct I|]. destruct I as [Q|I].
      + subst b. eapply IH. exact X.
      + eapply IHF. exact I.
  Qed.
End WellFormed.
