(** Type soundness of parsing. *)
From Coq Require Import String List NArith ZArith Bool Lia Permutation.
From Verif Require Import Base Json TimeDelta IsoTime Base64 Addresses PyTypes Mapping Deser Lists
  SpecTimeDelta SpecIsoTime SpecBase64 SpecAddresses
  TimeDeltaProofs IsoTimeProofs Base64Proofs AddressesProofs SpecTyping TypingFacts.
Import ListNotations.
Open Scope list_scope.
Open Scope nat_scope.

Lemma parse_scalar_sound : forall k j v, parse_scalar k j = Ok v -> scalar_type k v.
Proof.
  intros k j v H.
  destruct k, j; cbn [parse_scalar] in H; try discriminate;
    try (apply bind_ok in H; destruct H as (x & P & Q); injection Q as <-);
    try (injection H as <-); cbn [scalar_type]; try exact I.
  - apply Base64Proofs.parse_sound in P. destruct P as (fl & T). inversion T; assumption.
  - apply datetime_parse_aware in P. apply P.
  - apply date_parse_wf in P. exact P.
  - apply time_parse_wf in P. exact P.
  - apply TimeDeltaProofs.parse_sound in P. destruct P as (ns & _ & _ & W & _). exact W.
  - exact (uuid_parse_bound _ _ P).
  - exact (ipv4_bound _ _ P).
  - exact (ipv6_parse_wf _ _ P).
Qed.

Lemma set_of_spec : forall E vs acc,
  exists l, set_of E acc vs = rev acc ++ l /\ (forall v, In v l -> In v vs) /\
    (ForallOrdPairs (fun a b => py_eq E a b = false) (rev acc) ->
     ForallOrdPairs (fun a b => py_eq E a b = false) (rev acc ++ l)).
Proof.
  intros E. induction vs as [|v vs IH]; intros acc; cbn [set_of].
  - exists []. rewrite app_nil_r. split; [reflexivity|]. split; [intros v []|auto].
  - destruct (existsb (fun u => py_eq E u v) acc) eqn:X.
    + destruct (IH acc) as (l & E1 & E2 & E3). exists l. split; [exact E1|].
      split; [intros w I; right; apply E2; exact I | exact E3].
    + destruct (IH (v :: acc)) as (l & E1 & E2 & E3). exists (v :: l).
      cbn [rev] in *. rewrite <- app_assoc in *. cbn [app] in *. split; [exact E1|].
      split; [intros w [<-|I]; [left; reflexivity | right; apply E2; exact I]|].
      intros F. apply E3.
      assert (A : Forall (fun u => py_eq E u v = false) (rev acc)).
      { apply Forall_forall. intros u I. apply in_rev in I.
        destruct (py_eq E u v) eqn:Y; [|reflexivity].
        assert (existsb (fun u => py_eq E u v) acc = true).
        { apply existsb_exists. exists u. auto. }
        congruence. }
      revert F A. generalize (rev acc) as q. intros q.
      induction q as [|a q IHq]; intros F A; cbn [app].
      * repeat constructor.
      * inversion F; subst. inversion A; subst. constructor; [|apply IHq; assumption].
        apply Forall_app. split; [assumption|]. constructor; [assumption | constructor].
Qed.

Lemma enum_find_in : forall ms j x, enum_find ms j = Some x -> exists v, In (x, v) ms /\ scalar_eqb v j = true.
Proof.
  induction ms as [|[y w] ms IH]; intros j x; cbn [enum_find]; [discriminate|].
  destruct (scalar_eqb w j) eqn:X.
  - intros H. injection H as ->. exists w. split; [left; reflexivity | exact X].
  - intros H. destruct (IH _ _ H) as (v & I & Hv). exists v. split; [right; exact I | exact Hv].
Qed.

Lemma scalar_eqb_str : forall v s, scalar_eqb v (JStr s) = true -> v = JStr s.
Proof.
  intros v s. unfold scalar_eqb. destruct v; cbn [as_number]; try discriminate.
  intros H. apply pystr_eqb_eq in H. congruence.
Qed.

Lemma parse_enum_sound : forall E m c cl ms j v, get_class E c = Some cl -> c_kind cl = CEnum ms ->
  parse_enum c ms j = Ok v -> has_type E m (TClass c) v.
Proof.
  intros E m c cl ms j v G K H. unfold parse_enum in H.
  destruct (enum_find ms j) as [x|] eqn:X; [|discriminate]. injection H as <-.
  destruct (enum_find_in _ _ _ X) as (w & I & _).
  eapply ht_enum; eauto. apply (in_map fst) in I. exact I.
Qed.

Lemma parse_key_sound : forall E m k s v, parse_key E k s = Ok v -> has_type E m k v.
Proof.
  intros E m k s v H. destruct k; try discriminate; cbn [parse_key] in H.
  - destruct k; try discriminate. injection H as <-. apply ht_scalar_iff. exact I.
  - destruct (get_class E c) as [cl|] eqn:G; [|discriminate].
    destruct (c_kind cl) eqn:K; try discriminate. eapply parse_enum_sound; eauto.
Qed.

Lemma parse_key_inj : forall E k s s' v, env_ok E -> parse_key E k s = Ok v -> parse_key E k s' = Ok v -> s = s'.
Proof.
  intros E k s s' v W H H'. destruct k; try discriminate; cbn [parse_key] in *.
  - destruct k; try discriminate. congruence.
  - destruct (get_class E c) as [cl|] eqn:G; [|discriminate].
    destruct (c_kind cl) eqn:K; try discriminate. unfold parse_enum in *.
    destruct (enum_find members (JStr s)) as [x|] eqn:X; [|discriminate].
    destruct (enum_find members (JStr s')) as [x'|] eqn:X'; [|discriminate].
    assert (x = x') by congruence. subst x'.
    apply enum_find_in in X. apply enum_find_in in X'.
    destruct X as (w & I & Hw). destruct X' as (w' & I' & Hw').
    apply scalar_eqb_str in Hw. apply scalar_eqb_str in Hw'. subst.
    destruct (ok_members _ _ _ (W _ _ G) _ K) as (N & _).
    pose proof (dict_get_nodup _ _ _ N I) as D. rewrite (dict_get_nodup _ _ _ N I') in D. congruence.
Qed.

Lemma union_try_ok : forall p ts v, union_try p ts = Ok v -> exists t, In t ts /\ p t = Ok v.
Proof.
  intros p. induction ts as [|t ts IH]; intros v; cbn [union_try]; [discriminate|].
  destruct (p t) as [w|e] eqn:X.
  - intros H. injection H as ->. exists t. split; [left; reflexivity | exact X].
  - intros H. assert (H' : union_try p ts = Ok v) by (destruct e; try discriminate; exact H).
    destruct (IH _ H') as (u & I & Hu). exists u. split; [right; exact I | exact Hu].
Qed.

Lemma tag_find_in : forall tbl p j t, tag_find tbl p j = Some t ->
  exists l, In (p, l, t) tbl /\ lit_json_eqb l j = true.
Proof.
  induction tbl as [|[[p' l] u] tbl IH]; intros p j t; cbn [tag_find]; [discriminate|].
  destruct (pystr_eqb p' p && lit_json_eqb l j) eqn:X.
  - apply andb_true_iff in X. destruct X as [X1 X2]. apply pystr_eqb_eq in X1. subst.
    intros H. injection H as ->. exists l. split; [left; reflexivity | exact X2].
  - intros H. destruct (IH _ _ _ H) as (l' & I & Hl). exists l'. split; [right; exact I | exact Hl].
Qed.

Lemma tag_row_in : forall E ps t row p l u, tag_row E ps t = Ok row -> In (p, l, u) row ->
  u = t /\ In p ps /\ exists ls, tag_values E t p = Ok ls /\ In l ls.
Proof.
  intros E ps t row p l u H I. unfold tag_row in H. apply bind_ok in H. destruct H as (rows & R & Q).
  injection Q as <-. apply mapM_ok in R. apply in_concat in I. destruct I as (r & Ir & I).
  destruct (Forall2_in_r _ _ _ _ _ _ R Ir) as (q & Iq & Hq).
  apply bind_ok in Hq. destruct Hq as (ls & Hl & Q). injection Q as <-.
  apply in_map_iff in I. destruct I as (l' & Q & Il). injection Q as -> -> ->.
  split; [reflexivity|]. split; [exact Iq|]. exists ls. auto.
Qed.

Lemma tag_table_in : forall E ps ts tbl p l u, tag_table E ps ts = Ok tbl -> In (p, l, u) tbl ->
  In u ts /\ In p ps /\ exists ls, tag_values E u p = Ok ls /\ In l ls.
Proof.
  intros E ps ts tbl p l u H I. unfold tag_table in H. apply bind_ok in H. destruct H as (rows & R & Q).
  injection Q as <-. apply mapM_ok in R. apply in_concat in I. destruct I as (r & Ir & I).
  destruct (Forall2_in_r _ _ _ _ _ _ R Ir) as (t & It & Ht).
  destruct (tag_row_in _ _ _ _ _ _ _ Ht I) as (-> & H1 & H2). auto.
Qed.

Lemma tag_select_in : forall tbl ps o t, tag_select tbl ps o = Ok t ->
  exists p l j, In p ps /\ In (p, l, t) tbl /\ dict_get o p = Some j /\ lit_json_eqb l j = true.
Proof.
  intros tbl. induction ps as [|p ps IH]; intros o t; cbn [tag_select]; [discriminate|].
  intros H.
  assert (D : tag_select tbl ps o = Ok t \/ exists j, dict_get o p = Some j /\ tag_find tbl p j = Some t).
  { destruct (dict_get o p) as [j|]; [|left; exact H].
    destruct j; try discriminate; try (left; exact H); right; eexists; (split; [reflexivity|]);
      match goal with |- ?x = _ => destruct x; congruence end. }
  destruct D as [D|(j & G & F)].
  - destruct (IH _ _ D) as (q & l & j & Iq & Il & G & Hl). exists q, l, j.
    split; [right; exact Iq|]. auto.
  - destruct (tag_find_in _ _ _ _ F) as (l & I & Hl). exists p, l, j.
    split; [left; reflexivity|]. auto.
Qed.

Section Sound.
  Variable E : env.
  Variable skip : bool.
  Hypothesis W : env_ok E.

  (** A field parser produces a value of the field type. *)
  Definition fp_sound (m : nat) (t : typ) (fp : fparser) : Prop :=
    (forall v, has_type E m (fp_type fp) v -> has_type E m t v) /\
    (fp_mode fp = FOptional -> has_type E m t VNone) /\
    (forall v, fp_mode fp = FDefault (Ok v) -> has_type E m t v).

  Lemma field_parser_ok : forall m x t d fp, field_parser x t d = Ok fp ->
    (forall v, d = Some (Ok v) -> has_type E m t v) ->
    fp_name fp = x /\ fp_prop fp = json_property x (Some t) /\ fp_sound m t fp.
  Proof.
    intros m x t d fp H D. unfold field_parser in H. apply bind_ok in H. destruct H as (u & U & Q).
    injection Q as <-. cbn [fp_name fp_prop]. split; [reflexivity|]. split; [reflexivity|].
    unfold fp_sound. cbn [fp_type fp_mode]. repeat split.
    - intros v. destruct (is_type_optional t); [|injection U as <-; tauto].
      apply (unwrap_optional_has E m t u v U).
    - destruct d; [discriminate|]. destruct (is_type_optional t) eqn:O; [|discriminate].
      intros _. apply optional_none. exact O.
    - intros v Q. apply D. destruct d; [congruence|]. destruct (is_type_optional t); discriminate.
  Qed.

  Lemma field_parsers_sound : forall c cl fps, get_class E c = Some cl ->
    (match c_kind cl with CTuple _ | CData _ _ | CPlain _ => True | _ => False end) ->
    field_parsers E cl = Ok fps ->
    Forall2 (fun r fp => fp_name fp = fst r /\ fp_sound (c_module cl) (snd r) fp)
            (raw_fields (c_kind cl)) fps.
  Proof.
    intros c cl fps G K H. unfold field_parsers in H. apply bind_ok in H. destruct H as (hs & Hh & H).
    apply hints_ok in Hh. pose proof (ok_defaults _ _ _ (W _ _ G)) as D.
    destruct (c_kind cl) as [ms|ths|xs|fr fs|phs] eqn:KD; try destruct K; cbn [raw_fields] in *.
    - injection H as <-. apply Forall2_map_r. eapply Forall2_impl_in; [|exact Hh].
      intros [x t] [y u] _ _ [Q HT]. cbn [fst snd] in *. subst y. split; [reflexivity|].
      split; [|split].
      + intros v. apply HT.
      + discriminate.
      + discriminate.
    - apply mapM_ok in H. assert (D' : forall f v, In f fs -> f_default f = Some (Ok v) ->
        has_type E (c_module cl) (f_type f) v) by (intros f v; eapply D; reflexivity).
      clear D KD. revert hs Hh fps H. induction fs as [|f fs IH]; intros hs Hh fps H; cbn [map] in *.
      + inversion Hh; subst. inversion H; subst. constructor.
      + inversion Hh as [|? [y u] ? hs' [Q HT] Hh']; subst. cbn [combine] in H.
        inversion H as [|? fp ? fps' F H']; subst. cbn [fst snd] in *. subst y.
        constructor; [|apply (IH (fun g v I => D' g v (or_intror I)) hs' Hh' fps' H')].
        cbn [fst snd].
        destruct (field_parser_ok (c_module cl) _ _ _ _ F) as (N & _ & S1 & S2 & S3).
        { intros v X. apply HT. apply D'; [left; reflexivity | exact X]. }
        split; [exact N|]. split; [|split].
        * intros v X. apply HT. apply S1. exact X.
        * intros X. apply HT. apply S2. exact X.
        * intros v X. apply HT. apply S3. exact X.
    - apply mapM_ok in H. clear D KD. revert fps H.
      induction Hh as [|[x t] [y u] l hs [Q HT] _ IH]; intros fps H; inversion H as [|? fp ? fps' F H']; subst;
        constructor; [|apply IH; exact H'].
      cbn [fst snd] in *. subst y.
      destruct (field_parser_ok (c_module cl) _ _ _ _ F) as (N & _ & S1 & S2 & S3); [discriminate|].
      split; [exact N|]. split; [|split].
      + intros v X. apply HT. apply S1. exact X.
      + intros X. apply HT. apply S2. exact X.
      + intros v X. apply HT. apply S3. exact X.
  Qed.

  Lemma parse_field_cases : forall p fp o v, parse_field p fp o = Ok v ->
    (exists j, dict_get o (fp_prop fp) = Some j /\ j <> JNull /\ p (fp_type fp) j = Ok v) \/
    ((dict_get o (fp_prop fp) = None \/ dict_get o (fp_prop fp) = Some JNull) /\
     ((fp_mode fp = FOptional /\ v = VNone) \/ fp_mode fp = FDefault (Ok v))).
  Proof.
    intros p fp o v H. unfold parse_field in H. destruct (fp_mode fp) as [| |d] eqn:M;
      destruct (dict_get o (fp_prop fp)) as [j|] eqn:G; try discriminate;
      try (right; split; [left; reflexivity|]);
      try (destruct j; try discriminate; try (left; eexists; split; [reflexivity|]; split; [discriminate | exact H]);
           try (right; split; [right; reflexivity|])).
    - left. split; [reflexivity | congruence].
    - left. split; [reflexivity | congruence].
    - right. congruence.
    - right. congruence.
  Qed.

  Lemma json_wf_get : forall o k j, json_wf (JObj o) -> dict_get o k = Some j -> json_wf j.
  Proof.
    intros o k j H G. inversion H as [| | | | | |? _ F]; subst. rewrite Forall_forall in F.
    apply dict_get_in in G. apply (F _ G).
  Qed.

  Lemma parse_object_sound : forall p c cl fps m j v,
    get_class E c = Some cl ->
    (match c_kind cl with
     | CTuple _ => True | CData _ _ | CPlain _ => c_from_json cl = None | _ => False end) ->
    field_parsers E cl = Ok fps -> json_wf j ->
    (forall t x w, json_wf x -> p t x = Ok w -> has_type E (c_module cl) t w) ->
    parse_object p skip c cl fps j = Ok v -> has_type E m (TClass c) v.
  Proof.
    intros p c cl fps m j v G K F WJ P H. destruct j; try discriminate. cbn [parse_object] in H.
    apply bind_ok in H. destruct H as (vals & V & H).
    destruct (skip || forallb (fun kv => mem_str (fst kv) (map fp_prop fps)) o); [|discriminate].
    assert (v = VObj c vals) by (destruct (c_kind cl) as [| |[|]| |]; try destruct K; congruence).
    subst v. clear H. apply mapM_ok in V.
    assert (K' : match c_kind cl with CTuple _ | CData _ _ | CPlain _ => True | _ => False end)
      by (destruct (c_kind cl); auto).
    pose proof (field_parsers_sound _ _ _ G K' F) as S.
    assert (A : map fst vals = map fst (raw_fields (c_kind cl)) /\
      Forall2 (has_type E (c_module cl)) (map snd (raw_fields (c_kind cl))) (map snd vals)).
    { clear K K' F. revert vals V. induction S as [|[x t] fp rs fps' [N [S1 [S2 S3]]] _ IH]; intros vals V;
        inversion V as [|? [y w] ? vals' Q V']; subst; cbn [map]; [split; [reflexivity | constructor]|].
      destruct (IH _ V') as [A1 A2]. cbn [fst snd] in *.
      apply bind_ok in Q. destruct Q as (w' & Q & Q'). injection Q' as <- <-.
      split; [congruence|]. constructor; [|exact A2].
      destruct (parse_field_cases _ _ _ _ Q) as [(j & Gj & _ & Pj)|(_ & [(M & ->)|M])].
      - apply S1. apply (P _ _ _ (json_wf_get _ _ _ WJ Gj) Pj).
      - apply S2. exact M.
      - apply S3. exact M. }
    destruct A as [A1 A2]. eapply ht_obj; eassumption.
  Qed.

  Theorem parse_sound : forall n m t j v, json_wf j -> parse E skip n m t j = Ok v -> has_type E m t v.
  Proof.
    induction n as [|n IH]; intros m t j v WJ H; [discriminate|].
    destruct t; cbn [parse] in H.
    - apply ht_scalar_iff. eapply parse_scalar_sound. exact H.
    - discriminate.
    - destruct j; try discriminate. apply bind_ok in H. destruct H as (vs & H & Q). injection Q as <-.
      apply mapM_ok in H. constructor. inversion WJ as [| | | | |? F|]; subst. rewrite Forall_forall in F.
      eapply Forall2_Forall_r; [|exact H]. intros x y I. apply IH. apply F. exact I.
    - destruct j; try discriminate. apply bind_ok in H. destruct H as (vs & H & Q). injection Q as <-.
      apply mapM_ok in H. inversion WJ as [| | | | |? F|]; subst. rewrite Forall_forall in F.
      assert (A : Forall (fun v => has_type E m t v /\ hashable E v = true) vs).
      { eapply Forall2_Forall_r; [|exact H]. intros x y I Q. apply bind_ok in Q. destruct Q as (w & Q & Q').
        destruct (hashable E w) eqn:X; [|discriminate]. injection Q' as <-.
        split; [apply (IH _ _ x); [apply F; exact I | exact Q] | exact X]. }
      rewrite Forall_forall in A.
      destruct (set_of_spec E vs []) as (l' & E1 & E2 & E3). cbn [rev app] in E1, E3. rewrite E1.
      constructor; [| |apply E3; constructor]; apply Forall_forall; intros x I; apply A, E2, I.
    - destruct j; try discriminate. apply bind_ok in H. destruct H as (kvs & H & Q). injection Q as <-.
      apply mapM_ok in H. inversion WJ as [| | | | | |? N F]; subst. rewrite Forall_forall in F.
      assert (H' : Forall2 (fun sx kv => parse_key E t1 (fst sx) = Ok (fst kv) /\
                                         parse E skip n m t2 (snd sx) = Ok (snd kv)) o kvs).
      { eapply Forall2_impl_in; [|exact H]. intros [s x] [k w] _ _ Q.
        apply bind_ok in Q. destruct Q as (k' & Q1 & Q). apply bind_ok in Q. destruct Q as (w' & Q2 & Q).
        injection Q as <- <-. auto. }
      clear H. constructor.
      + eapply Forall2_Forall_r; [|exact H']. intros sx kv I [Q _]. eapply parse_key_sound. exact Q.
      + eapply Forall2_Forall_r; [|exact H']. intros sx kv I [_ Q]. eapply IH; [apply F; exact I | exact Q].
      + clear F WJ IH. induction H' as [|sx kv o kvs [Q1 Q2] H' IH]; cbn [map]; [constructor|].
        cbn [map] in N. inversion N as [|? ? N1 N2]; subst. constructor; [|apply IH; exact N2].
        intros I. apply in_map_iff in I. destruct I as (kv' & Q & I).
        destruct (Forall2_in_r _ _ _ _ _ _ H' I) as (sx' & I' & Q1' & _).
        rewrite Q in Q1'. pose proof (parse_key_inj _ _ _ _ _ W Q1 Q1') as S.
        apply N1. rewrite S. apply in_map. exact I'.
    - destruct j; try discriminate. destruct (Nat.eqb (length l) (length ts)) eqn:L; [|discriminate].
      apply Nat.eqb_eq in L. apply bind_ok in H. destruct H as (vs & H & Q). injection Q as <-.
      apply zip_parse_ok in H; [|exact L]. constructor. inversion WJ as [| | | | |? F|]; subst.
      clear WJ. revert l L vs H F. induction ts as [|t ts IHts]; intros [|x l] L vs H F; try discriminate;
        cbn [combine] in H; inversion H as [|? ? ? ? Q H']; subst; constructor.
      + inversion F; subst. eapply IH; [|exact Q]. assumption.
      + inversion F; subst. apply (IHts l); auto.
    - apply bind_ok in H. destruct H as (ps & D & H). apply ht_union_iff.
      destruct ps as [|p0 ps].
      + destruct (union_try_ok _ _ _ H) as (t & I & Ht). exists t. split; [exact I|]. eapply IH; eassumption.
      + apply bind_ok in H. destruct H as (tbl & T & H). destruct j; try discriminate.
        apply bind_ok in H. destruct H as (u & S & H).
        destruct (tag_select_in _ _ _ _ S) as (p & l & j & _ & I & _).
        destruct (tag_table_in _ _ _ _ _ _ _ T I) as (Iu & _).
        exists u. split; [exact Iu|]. eapply IH; eassumption.
    - apply bind_ok in H. destruct H as (u & U & H). apply bind_ok in H. destruct H as (w & P & H).
      destruct (existsb (fun l => py_eq E (lit_value l) w) ls) eqn:X; [|discriminate]. injection H as <-.
      apply existsb_exists in X. destruct X as (l & I & X).
      apply ht_literal_iff. exists l. split; [exact I|].
      assert (HT : has_type E m (lit_type l) w).
      { pose proof (IH _ _ _ _ WJ P) as HT. destruct ls as [|l0 ls]; [destruct I|]. cbn [literal_type] in U.
        destruct (forallb (fun l' => typ_eqb (lit_type l0) (lit_type l')) ls) eqn:FB; [|discriminate].
        injection U as <-. destruct I as [<-|I]; [exact HT|].
        rewrite forallb_forall in FB. pose proof (typ_eqb_eq _ _ (FB _ I)) as Q. rewrite <- Q. exact HT. }
      destruct l; cbn [lit_type lit_value] in *; try apply ht_scalar_iff in HT;
        destruct w; cbn [scalar_type] in HT; try contradiction; try (inversion HT; fail);
        unfold py_eq in X; cbn [value_number number_eqb] in X; try discriminate; try reflexivity.
      + destruct b, b0; try reflexivity; discriminate.
      + apply Z.eqb_eq in X. congruence.
      + apply pystr_eqb_eq in X. congruence.
      + apply pystr_eqb_eq in X. congruence.
      + apply andb_true_iff in X. destruct X as [X1 X2]. apply Nat.eqb_eq in X1.
        apply pystr_eqb_eq in X2. congruence.
    - apply ht_annot_iff. destruct t; try discriminate; eapply IH; eassumption.
    - destruct (get_class E c) as [cl|] eqn:G; [|discriminate].
      assert (OBJ : (match c_kind cl with
                     | CTuple _ => True | CData _ _ | CPlain _ => c_from_json cl = None | _ => False end) ->
        (do fps <- field_parsers E cl; parse_object (parse E skip n (c_module cl)) skip c cl fps j) = Ok v ->
        has_type E m (TClass c) v).
      { intros K Q. apply bind_ok in Q. destruct Q as (fps & Q & Q').
        eapply parse_object_sound; try eassumption. intros t x w. apply IH. }
      assert (HK : forall h, c_from_json cl = Some h -> h j = Ok v ->
        (match c_kind cl with CData _ _ | CPlain _ => True | _ => False end) -> has_type E m (TClass c) v).
      { intros h HH Hv K. destruct (ok_hook _ _ _ (W _ _ G) _ _ _ HH Hv) as (attrs & ->).
        eapply ht_hook; eassumption. }
      destruct (c_kind cl) as [ms|hs|xs|fr fs|hs] eqn:K.
      + eapply parse_enum_sound; eassumption.
      + destruct (c_from_json cl) eqn:CF; apply OBJ; auto.
      + assert (Q : (do fps <- field_parsers E cl; parse_object (parse E skip n (c_module cl)) skip c cl fps j) = Ok v)
          by (destruct (c_from_json cl); exact H).
        apply bind_ok in Q. destruct Q as (fps & Q & Q'). unfold field_parsers in Q.
        apply bind_ok in Q. destruct Q as (hs & _ & Q). rewrite K in Q. injection Q as <-.
        destruct j; try discriminate. cbn [parse_object mapM bind] in Q'.
        destruct (skip || _); [|discriminate]. rewrite K in Q'. destruct xs; [|discriminate].
        injection Q' as <-. eapply ht_raw; try eassumption. reflexivity.
      + destruct (c_from_json cl) as [h|] eqn:CF; [eapply HK; eauto | apply OBJ; auto].
      + destruct (c_from_json cl) as [h|] eqn:CF; [eapply HK; eauto | apply OBJ; auto].
    - destruct (lookup E m s) as [[a u]|] eqn:L; [|discriminate].
      apply ht_ref_iff. exists a, u. split; [exact L|].
      assert (HT : has_type E m (deref u) v).
      { destruct (deref u) eqn:DU; try discriminate; eapply IH; eassumption. }
      unfold deref in HT. destruct u; cbn [unwrap_annotated] in HT; try exact HT.
      apply ht_annot_iff. exact HT.
    - discriminate.
  Qed.

  Theorem json_to_object_sound : forall m t j v, json_wf j ->
    json_to_object E skip m t j = Ok v -> has_type E m t v.
  Proof.
    intros m t j v WJ H. unfold json_to_object in H. apply bind_ok in H. destruct H as (vis & _ & H).
    eapply parse_sound; eassumption.
  Qed.
End Sound.
