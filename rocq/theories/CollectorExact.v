(** For which types the collection of referenced types comes to an end. *)
From Coq Require Import String List NArith ZArith Bool Lia Arith Relations.
From Verif Require Import Base Lists Json PyTypes TypingFacts SpecTypes SpecFields TypeAlgebraProofs DeserFuel Topological CatalogProofs Collector SpecCollector CollectorProofs.
Import ListNotations.
Open Scope list_scope.
Open Scope nat_scope.

Lemma two_members : forall ts : list typ, 2 <= length ts -> NoDup ts -> exists t, In t ts /\ t <> TScalar KNone.
Proof.
  intros [|a [|b ts]] L N; cbn in L; [lia | lia |]. inversion N as [|? ? NI _]; subst.
  destruct (typ_eqb (TScalar KNone) a) eqn:Q.
  - apply typ_eqb_iff in Q. exists b. split; [right; left; reflexivity|]. intros ->. apply NI. left. congruence.
  - exists a. split; [left; reflexivity|]. intros ->. rewrite typ_eqb_refl in Q. discriminate Q.
Qed.

Section Exact.
  Variable E : env.
  Hypothesis CE : canonical_env E.

  Lemma properties_canonical : forall c cl fs, get_class E c = Some cl -> class_properties E cl = Ok fs -> forall x t, In (x, t) fs -> canonical t.
  Proof.
    intros c cl fs G H x t I.
    assert (HH : hints E cl = Ok fs \/ fs = raw_fields (c_kind cl)).
    { unfold class_properties in H. destruct (c_kind cl); try (left; exact H). right. injection H as <-. reflexivity. }
    destruct HH as [HH| ->]; [|eapply (ce_fields E CE); eassumption]. unfold hints in HH. apply mapM_ok in HH.
    destruct (Forall2_in_r _ _ _ _ _ _ HH I) as ([f' u'] & J & R). apply bind_ok in R. destruct R as (w & R & Q). injection Q as -> ->.
    eapply resolve_canonical; [intros; eapply (ce_refs E CE); eassumption | eapply (ce_fields E CE); eassumption | exact R].
  Qed.

  (** Finite annotations can be evaluated. *)
  Lemma finite_resolves : forall m t, finite E (Some m) t -> canonical t -> forall n g e, resolve E m n g t = Err e -> e = ERecursion.
  Proof.
    assert (MM : forall (f : typ -> res typ) ts, (forall t e, In t ts -> f t = Err e -> e = ERecursion) -> forall e, mapM f ts = Err e -> e = ERecursion).
    { intros f ts H e M. apply mapM_err in M. destruct M as (t & I & Q). exact (H t e I Q). }
    intros m t F. remember (Some m) as mm eqn:QM. induction F as [k|b|c|ls|t F IH|t F IH|k t Fk IHk F IH|ts F IH|op ts F IH N|t md F IH|m' s b t Q L F IH];
      intros C n g e R; subst; rewrite resolve_eq in R; try discriminate R.
    - inversion C; subst. destruct (resolve E m n g t) eqn:X; [discriminate R|]. injection R as <-. eapply IH; eauto.
    - inversion C; subst. destruct (resolve E m n g t) eqn:X; [discriminate R|]. injection R as <-. eapply IH; eauto.
    - inversion C; subst. destruct (resolve E m n g k) eqn:X; [|injection R as <-; eapply IHk; eauto].
      cbn [bind] in R. destruct (resolve E m n g t) eqn:Y; [discriminate R|]. injection R as <-. eapply IH; eauto.
    - inversion C as [| | | | |? CT| | | | | |]; subst. rewrite Forall_forall in CT. destruct (mapM (resolve E m n g) ts) eqn:X; [discriminate R|]. injection R as <-.
      eapply MM; [|exact X]. intros t e' I. exact (IH t I (CT t I) n g e').
    - inversion C as [| | | | | |? ? CL CN CT| | | | |]; subst. rewrite Forall_forall in CT. destruct (mapM (resolve E m n g) ts) as [ts'|] eqn:X.
      + cbn [bind] in R. exfalso. apply mapM_ok in X.
        assert (CT' : forall t', In t' ts' -> canonical t').
        { intros t' I'. destruct (Forall2_in_r _ _ _ _ _ _ X I') as (t & I & Q). eapply resolve_canonical; [intros; eapply (ce_refs E CE); eassumption | apply (CT t I) | exact Q]. }
        unfold mk_union in R. destruct (dedup [] (flatten_union ts')) as [|a [|a' r]] eqn:D; [|discriminate R|discriminate R].
        destruct ts' as [|t' ts']; [inversion X; subst; cbn in CL; lia|].
        assert (exists u, In u (flatten_union (t' :: ts'))) as (u & U).
        { specialize (CT' t' (or_introl eq_refl)). destruct t' as [| | | | | |o us| | | | |]; try (eexists; left; reflexivity).
          inversion CT' as [| | | | | |? ? CL' _ _| | | | |]; subst. destruct us as [|u us]; [cbn in CL'; lia|]. exists u. left. reflexivity. }
        destruct (in_dedup (flatten_union (t' :: ts')) [] u U) as [[]|J]. rewrite D in J. destruct J.
      + injection R as <-. eapply MM; [|exact X]. intros t e' I. exact (IH t I (proj1 (CT t I)) n g e').
    - inversion C; subst. destruct (resolve E m n g t) eqn:X; [discriminate R|]. injection R as <-. eapply IH; eauto.
    - injection Q as <-. destruct (mem_str s g); [discriminate R|]. rewrite L in R. destruct n as [|n]; [injection R as <-; reflexivity|].
      eapply IH; [eapply (ce_refs E CE); eassumption | exact R].
  Qed.

  Lemma analysable_properties : forall c cl, get_class E c = Some cl -> (forall x t, In (x, t) (raw_fields (c_kind cl)) -> finite E (Some (c_module cl)) t) ->
    exists fs, class_properties E cl = Ok fs.
  Proof.
    intros c cl G F. assert (H : exists hs, hints E cl = Ok hs).
    { unfold hints. apply mapM_total. intros [x t] I. destruct (resolve_hint E (c_module cl) t) as [t'|e] eqn:R; [eexists; reflexivity|].
      exfalso. assert (e = ERecursion) by (eapply finite_resolves; [eapply F; exact I | eapply (ce_fields E CE); eassumption | exact R]).
      subst e. eapply resolve_hint_total. exact R. }
    unfold class_properties. destruct (c_kind cl); eauto.
  Qed.

  (** What is finite after evaluation was so before. *)
  Lemma resolve_finite_back : forall m n g t t', canonical t -> resolve E m n g t = Ok t' -> finite E (Some m) t' -> finite E (Some m) t.
  Proof.
    intros m. induction n as [n IHn] using (well_founded_induction lt_wf). intros g t.
    induction t as [k|b|u IH|u IH|k u IHk IH|ts IH|op ts IH|ls|u md IH|c|s|] using typ_induct; intros t' C R F; rewrite resolve_eq in R.
    all: try (injection R as <-; exact F).
    - inversion C; subst. apply bind_ok in R. destruct R as (u' & R & Q). injection Q as <-. inversion F; subst. constructor. eapply IH; eauto.
    - inversion C; subst. apply bind_ok in R. destruct R as (u' & R & Q). injection Q as <-. inversion F; subst. constructor. eapply IH; eauto.
    - inversion C; subst. apply bind_ok in R. destruct R as (k' & Rk & R). apply bind_ok in R. destruct R as (u' & R & Q). injection Q as <-. inversion F; subst.
      constructor; [eapply IHk; eauto | eapply IH; eauto].
    - inversion C as [| | | | |? CT| | | | | |]; subst. rewrite Forall_forall in CT, IH. apply bind_ok in R. destruct R as (ts' & M & Q). injection Q as <-.
      apply mapM_ok in M. inversion F as [| | | | | | |? FT| | |]; subst. constructor. intros t I. destruct (Forall2_in_l _ _ _ _ _ _ M I) as (t' & I' & Q).
      eapply IH; eauto.
    - inversion C as [| | | | | |? ? CL CN CT| | | | |]; subst. rewrite Forall_forall in CT, IH. apply bind_ok in R. destruct R as (ts' & M & Q).
      apply mapM_ok in M. constructor; [|exact (two_members _ CL CN)].
      assert (FF : forall v, In v (flatten_union ts') -> finite E (Some m) v).
      { unfold mk_union in Q. intros v V. destruct (in_dedup (flatten_union ts') [] v V) as [[]|J].
        destruct (dedup [] (flatten_union ts')) as [|a [|a' r]]; [destruct J | injection Q as <-; destruct J as [<-|[]]; exact F |].
        injection Q as <-. inversion F; subst. auto. }
      intros t I. destruct (Forall2_in_l _ _ _ _ _ _ M I) as (w' & I' & Q'). eapply IH; [exact I | apply (CT t I) | exact Q' |].
      assert (CN' : canonical w') by (eapply resolve_canonical; [intros; eapply (ce_refs E CE); eassumption | apply (CT t I) | exact Q']).
      assert (SUB : forall v, In v (match w' with TUnion _ us => us | _ => [w'] end) -> finite E (Some m) v).
      { intros v V. apply FF. apply in_flat_map. exists w'. auto. }
      destruct w' as [| | | | | |o us| | | | |]; try (apply SUB; left; reflexivity).
      inversion CN' as [| | | | | |? ? CL' CN'' _| | | | |]; subst. constructor; [exact SUB | exact (two_members _ CL' CN'')].
    - inversion C; subst. apply bind_ok in R. destruct R as (u' & R & Q). injection Q as <-. constructor. eapply IH; eauto.
      unfold mk_annot in F. destruct u'; inversion F; subst; auto. constructor. auto.
    - destruct (mem_str s g); [injection R as <-; exact F|]. destruct (lookup E m s) as [[b t1]|] eqn:L; [|discriminate R].
      destruct n as [|n]; [discriminate R|]. econstructor; [reflexivity | exact L |]. eapply IHn; [apply Nat.lt_succ_diag_r | eapply (ce_refs E CE); eassumption | exact R | exact F].
  Qed.

  Lemma properties_finite_back : forall c cl fs, get_class E c = Some cl -> class_properties E cl = Ok fs ->
    (forall t, In t (map snd fs) -> finite E (Some (c_module cl)) t) -> analysable E c.
  Proof.
    intros c cl fs G H F. exists cl. split; [exact G|]. intros x t I.
    assert (HH : hints E cl = Ok fs \/ fs = raw_fields (c_kind cl)).
    { unfold class_properties in H. destruct (c_kind cl); try (left; exact H). right. injection H as <-. reflexivity. }
    destruct HH as [HH| ->]; [|apply F; apply in_map_iff; exists (x, t); auto]. unfold hints in HH. apply mapM_ok in HH.
    destruct (Forall2_in_l _ _ _ _ _ _ HH I) as ([f' u'] & J & R). apply bind_ok in R. destruct R as (w & R & Q). injection Q as -> ->.
    eapply resolve_finite_back; [eapply (ce_fields E CE); eassumption | exact R |]. apply F. apply in_map_iff. exists (f', u'). auto.
  Qed.

  (** *** Successful runs *)

  Lemma run_finite : forall n t a m g g', canonical t -> run E n t a m g = Ok g' ->
    finite E m t /\ forall c, In (NType (TClass c)) (keys g') -> In (NType (TClass c)) (keys g) \/ analysable E c.
  Proof.
    induction n as [|n IH]; intros t a m g g' C R; [discriminate R|].
    assert (ALL : forall ts a m g g', Forall canonical ts -> run_list E n ts a m g = Ok g' ->
      (forall t, In t ts -> finite E m t) /\ forall c, In (NType (TClass c)) (keys g') -> In (NType (TClass c)) (keys g) \/ analysable E c).
    { clear - IH. induction ts as [|u r IHr]; intros a m g g' C R; cbn in R.
      - injection R as <-. split; [intros t [] | auto].
      - inversion C; subst. apply bind_ok in R. destruct R as (g1 & R1 & R2). destruct (IH _ _ _ _ _ H1 R1) as (F1 & K1).
        destruct (IHr _ _ _ _ H2 R2) as (F2 & K2). split; [intros t [<-|I]; auto|]. intros c I. destruct (K2 c I) as [J|J]; auto. }
    rewrite run_S in R. cbv zeta in R. rewrite ?run_list_eq in R.
    assert (LEAF : forall t : typ, (match t with TClass _ => False | _ => True end) ->
      (if has_key (add_edge g a (NType t)) (NType t) then Ok (add_edge g a (NType t)) else Ok (add_edge g a (NType t) ++ [(NType t, [])])) = Ok g' ->
      forall c, In (NType (TClass c)) (keys g') -> In (NType (TClass c)) (keys g) \/ analysable E c).
    { intros u NC Q c I. destruct (has_key (add_edge g a (NType u)) (NType u)); injection Q as <-; rewrite ?keys_app, add_edge_keys in I; [auto|].
      apply in_app_or in I. destruct I as [I|[I|[]]]; [auto|]. assert (X : u = TClass c) by (cbn in I; congruence); rewrite X in NC; destruct NC. }
    destruct t as [k|b|u|u|k u|ts|op ts|ls|u md|c|s|].
    - split; [constructor|]. destruct k; first [exact (LEAF (TScalar _) Logic.I R) | injection R as <-; auto].
    - split; [constructor|]. exact (LEAF (TBare b) Logic.I R).
    - inversion C; subst. destruct (ALL [u] a m g g' (Forall_cons _ H0 (Forall_nil _)) R) as (F & K). split; [constructor; apply F; left; reflexivity | exact K].
    - inversion C; subst. destruct (ALL [u] a m g g' (Forall_cons _ H0 (Forall_nil _)) R) as (F & K). split; [constructor; apply F; left; reflexivity | exact K].
    - inversion C; subst. destruct (ALL [k; u] a m g g' (Forall_cons _ H1 (Forall_cons _ H2 (Forall_nil _))) R) as (F & K).
      split; [constructor; apply F; [left | right; left]; reflexivity | exact K].
    - inversion C as [| | | | |? CT| | | | | |]; subst. rewrite run_list_eq in R. destruct (ALL ts a m g g' CT R) as (F & K). split; [constructor; exact F | exact K].
    - inversion C as [| | | | | |? ? CL CN CT| | | | |]; subst.
      assert (CT' : Forall canonical ts) by (eapply Forall_impl; [|exact CT]; cbn; tauto).
      destruct op.
      + destruct (is_type_optional (TUnion true ts)).
        * apply bind_ok in R. destruct R as (u & U & R). apply (proj1 (unwrap_inner_spec true ts u C)) in U. destruct U as (us & W & U).
          assert (SUB : Forall canonical us) by (eapply without_none_sub; eassumption).
          assert (FU : (forall t, In t us -> finite E m t) /\ forall c, In (NType (TClass c)) (keys g') -> In (NType (TClass c)) (keys g) \/ analysable E c).
          { inversion U as [t Q1 Q2|t t2 ts2 Q1 Q2]; subst.
            - inversion SUB; subst. destruct (IH _ _ _ _ _ H1 R) as (F & K). split; [intros t [<-|[]]; exact F | exact K].
            - assert (CU : canonical (TUnion false (t :: t2 :: ts2))).
              { constructor; [cbn; lia | eapply without_none_nodup; eassumption | eapply without_none_sub; eassumption]. }
              destruct (IH _ _ _ _ _ CU R) as (F & K). split; [|exact K]. inversion F; subst. assumption. }
          destruct FU as (F & K). split; [|exact K]. constructor; [|exact (two_members _ CL CN)]. intros t I.
          destruct (typ_eqb (TScalar KNone) t) eqn:Q; [apply typ_eqb_iff in Q; subst; constructor|]. apply F. apply (without_none_in _ _ t W).
          split; [exact I|]. intros ->. rewrite typ_eqb_refl in Q. discriminate Q.
        * rewrite run_list_eq in R. destruct (ALL ts a m g g' CT' R) as (F & K). split; [constructor; [exact F | exact (two_members _ CL CN)] | exact K].
      + rewrite run_list_eq in R. destruct (ALL ts a m g g' CT' R) as (F & K). split; [constructor; [exact F | exact (two_members _ CL CN)] | exact K].
    - injection R as <-. split; [constructor | auto].
    - inversion C; subst. destruct (IH _ _ _ _ _ H1 R) as (F & K). split; [constructor; exact F | exact K].
    - split; [constructor|]. destruct (has_key (add_edge g a (NType (TClass c))) (NType (TClass c))).
      { injection R as <-. rewrite add_edge_keys. auto. }
      destruct (get_class E c) as [cl|] eqn:G; [|discriminate R]. apply bind_ok in R. destruct R as (fs & F & R). rewrite run_list_eq in R.
      apply ALL in R; [|apply Forall_forall; intros t I; apply in_map_iff in I; destruct I as ([x u] & <- & I); eapply properties_canonical; eassumption].
      destruct R as (FF & K). intros d I. destruct (K d I) as [J|J]; [|auto]. rewrite keys_app, add_edge_keys in J. apply in_app_or in J.
      destruct J as [J|[J|[]]]; [auto|]. cbn in J. injection J as <-. right. eapply properties_finite_back; eassumption.
    - destruct m as [m'|]; [|discriminate R]. destruct (lookup E m' s) as [[b u]|] eqn:L; [|discriminate R].
      destruct (IH _ _ _ _ _ (ce_refs E CE _ _ _ _ L) R) as (F & K). split; [econstructor; eauto | exact K].
    - discriminate R.
  Qed.

  (** *** Success *)

  Variable P : nat -> Prop.
  Hypothesis PA : forall c, P c -> analysable E c.
  Hypothesis PC : forall c d, P c -> refers E (TClass c) (TClass d) -> P d.

  Lemma runs_exist : forall B m ts, (forall t, In t ts -> canonical t -> (forall d, mentions E m t (TClass d) -> P d) ->
      forall a g, unentered E g < B -> NoDup (keys g) -> In a (keys g) -> exists n g', run E n t a m g = Ok g') ->
    Forall canonical ts -> (forall t d, In t ts -> mentions E m t (TClass d) -> P d) ->
    forall a g, unentered E g < B -> NoDup (keys g) -> In a (keys g) -> exists n g', run_list E n ts a m g = Ok g'.
  Proof.
    intros B m. induction ts as [|t r IHr]; intros H C M a g U ND A; [exists 0, g; reflexivity|]. inversion C; subst.
    destruct (H t (or_introl eq_refl) H2 (fun d => M t d (or_introl eq_refl)) a g U ND A) as (n1 & g1 & R1).
    pose proof (run_post E _ _ _ _ _ _ R1 ND A) as PS. pose proof (post_incl E _ _ _ _ PS) as I. pose proof (unentered_le E _ _ I).
    destruct (IHr (fun t' I' => H t' (or_intror I')) H3 (fun t' d I' => M t' d (or_intror I')) a g1) as (n2 & g2 & R2);
      [lia | apply (ps_nodup E _ _ _ _ PS) | apply I; exact A|].
    exists (n1 + n2), g2. cbn. rewrite (run_mono E _ _ _ _ _ _ R1 (n1 + n2)) by lia. cbn.
    clear - R2. assert (Q : forall ts a g g', run_list E n2 ts a m g = Ok g' -> run_list E (n1 + n2) ts a m g = Ok g').
    { induction ts as [|u ts IH]; intros b h h' X; cbn in X |- *; [exact X|]. apply bind_ok in X. destruct X as (h1 & X1 & X2).
      rewrite (run_mono E _ _ _ _ _ _ X1 (n1 + n2)) by lia. cbn. apply IH. exact X2. }
    apply Q. exact R2.
  Qed.

  Theorem run_exists : forall k m t, finite E m t -> canonical t -> (forall d, mentions E m t (TClass d) -> P d) ->
    forall a g, unentered E g < k -> NoDup (keys g) -> In a (keys g) -> exists n g', run E n t a m g = Ok g'.
  Proof.
    induction k as [|k IHk]; [intros; lia|]. intros m t F.
    induction F as [s|b|c|ls|t F IH|t F IH|kt t Fk IHkt F IH|ts F IH|op ts F IH N|t md F IH|m' s b t Q L F IH]; intros C M a g U ND A.
    - exists 1. rewrite run_S. cbv zeta. destruct s; try (eexists; reflexivity); destruct (has_key _ _); eexists; reflexivity.
    - exists 1. rewrite run_S. cbv zeta. destruct (has_key _ _); eexists; reflexivity.
    - destruct (has_key (add_edge g a (NType (TClass c))) (NType (TClass c))) eqn:HK.
      { exists 1. rewrite run_S. cbv zeta. rewrite HK. eexists; reflexivity. }
      assert (T : ~ In (NType (TClass c)) (keys g)).
      { intros T. rewrite <- (add_edge_keys g a (NType (TClass c))) in T. apply has_key_iff in T. congruence. }
      assert (PCc : P c) by (apply M; constructor; constructor). destruct (PA c PCc) as (cl & G & RF).
      destruct (analysable_properties c cl G RF) as (fs & FS).
      set (g1 := add_edge g a (NType (TClass c)) ++ [(NType (TClass c), [])]).
      assert (U1 : unentered E g1 < unentered E g).
      { apply unentered_lt with c; [|congruence|exact T|]; unfold g1; rewrite keys_app, add_edge_keys; [apply incl_appl, incl_refl | apply in_or_app; right; left; reflexivity]. }
      destruct (runs_exist k (Some (c_module cl)) (map snd fs)) with (a := NType (TClass c)) (g := g1) as (n & g' & R).
      + intros t I. apply IHk. eapply properties_finite; [exact FS | exact RF | exact I].
      + apply Forall_forall. intros t I. apply in_map_iff in I. destruct I as ([x u] & <- & I). eapply properties_canonical; eassumption.
      + intros t d I MT. eapply PC; [exact PCc|]. apply (refers_class E c cl fs (TClass d) G FS). eauto.
      + lia.
      + unfold g1. rewrite keys_app, add_edge_keys. apply nodup_snoc; assumption.
      + unfold g1. rewrite keys_app. apply in_or_app. right. left. reflexivity.
      + exists (Datatypes.S n), g'. rewrite run_S. cbv zeta. rewrite HK, G, FS. cbn [bind]. rewrite run_list_eq. exact R.
    - exists 1, g. reflexivity.
    - inversion C; subst. destruct (IH H0 (fun d X => M d (me_list _ _ _ _ X)) a g U ND A) as (n & g' & R).
      exists (Datatypes.S n), g'. rewrite run_S. cbv zeta. change (run_list E n [t] a m g = Ok g'). cbn [run_list]. rewrite R. reflexivity.
    - inversion C; subst. destruct (IH H0 (fun d X => M d (me_set _ _ _ _ X)) a g U ND A) as (n & g' & R).
      exists (Datatypes.S n), g'. rewrite run_S. cbv zeta. change (run_list E n [t] a m g = Ok g'). cbn [run_list]. rewrite R. reflexivity.
    - inversion C; subst. destruct (runs_exist (Datatypes.S k) m [kt; t]) with (a := a) (g := g) as (n & g' & R); try assumption.
      + intros u [<-|[<-|[]]]; assumption.
      + repeat constructor; assumption.
      + intros u d [<-|[<-|[]]] X; apply M; [apply me_key | apply me_value]; exact X.
      + exists (Datatypes.S n), g'. rewrite run_S. cbv zeta. exact R.
    - inversion C as [| | | | |? CT| | | | | |]; subst. destruct (runs_exist (Datatypes.S k) m ts) with (a := a) (g := g) as (n & g' & R); try assumption.
      + intros t d I X. apply M. econstructor; eassumption.
      + exists (Datatypes.S n), g'. rewrite run_S. cbv zeta. rewrite run_list_eq. exact R.
    - inversion C as [| | | | | |? ? CL CN CT| | | | |]; subst.
      assert (CT' : Forall canonical ts) by (eapply Forall_impl; [|exact CT]; cbn; tauto).
      assert (SOME : forall us, (forall t, In t us -> In t ts) -> Forall canonical us -> exists n g', run_list E n us a m g = Ok g').
      { intros us S C'. apply (runs_exist (Datatypes.S k)); try assumption.
        - intros t I. apply IH. apply S. exact I.
        - intros t d I X. apply M. econstructor; [apply S|]; eassumption. }
      destruct op.
      + destruct (is_type_optional (TUnion true ts)) eqn:OP.
        * pose proof (none_filter ts) as W. set (us := filter (fun u => negb (typ_eqb (TScalar KNone) u)) ts) in W.
          destruct (SOME us) as (n & g' & R); [intros t I; apply (without_none_in _ _ t W) in I; tauto | eapply without_none_sub; eassumption|].
          assert (exists u, union_of us u) as (u & UO).
          { destruct us as [|x [|y us]]; [|eexists; constructor|eexists; constructor]. destruct N as (t & I & NN). destruct (proj2 (without_none_in _ _ t W) (conj I NN)). }
          assert (UW : unwrap_optional (TUnion true ts) = Ok u) by (apply (proj2 (unwrap_inner_spec true ts u C)); exists us; auto).
          exists (Datatypes.S (Datatypes.S n)). rewrite run_S. cbv zeta. rewrite OP, UW. cbn [bind]. inversion UO as [t Q1 Q2|t t2 ts2 Q1 Q2].
          -- rewrite <- Q1 in R. cbn in R. apply bind_ok in R. destruct R as (g2 & R & Q3). subst t. exists g2.
             eapply run_mono; [exact R | lia].
          -- exists g'. rewrite run_S. cbv zeta. rewrite run_list_eq. rewrite Q1. exact R.
        * destruct (SOME ts) as (n & g' & R); auto. exists (Datatypes.S n), g'. rewrite run_S. cbv zeta. rewrite OP, run_list_eq. exact R.
      + destruct (SOME ts) as (n & g' & R); auto. exists (Datatypes.S n), g'. rewrite run_S. cbv zeta. rewrite run_list_eq. exact R.
    - inversion C; subst. destruct (IH H1 (fun d X => M d (me_annot _ _ _ _ _ X)) a g U ND A) as (n & g' & R).
      exists (Datatypes.S n), g'. rewrite run_S. cbv zeta. exact R.
    - subst m. destruct (IH (ce_refs E CE _ _ _ _ L) (fun d X => M d (me_ref _ _ _ _ _ _ _ eq_refl L X)) a g U ND A) as (n & g' & R).
      exists (Datatypes.S n), g'. rewrite run_S. cbv zeta. rewrite L. exact R.
  Qed.
End Exact.

Theorem referenced_exact : forall E t m, canonical_env E -> canonical t ->
  ((exists N refs, forall n, N <= n -> get_referenced_types E n t m = Ok refs) <->
   finite E m t /\ forall c, reachable E m t (TClass c) -> analysable E c) /\
  ((forall n refs, get_referenced_types E n t m <> Ok refs) <->
   ~ (finite E m t /\ forall c, reachable E m t (TClass c) -> analysable E c)).
Proof.
  intros E t m CE C. destruct new_keys as [ND A].
  assert (FW : forall n refs, get_referenced_types E n t m = Ok refs -> finite E m t /\ forall c, reachable E m t (TClass c) -> analysable E c).
  { intros n refs H. unfold get_referenced_types in H. apply bind_ok in H. destruct H as (g & R & _).
    destruct (run_finite E CE _ _ _ _ _ _ C R) as (F & K). split; [exact F|]. intros c RE.
    pose proof (run_post E _ _ _ _ _ _ R ND A) as PS.
    assert (IN : forall x, reachable E m t x -> In (NType x) (keys g)).
    { intros x X. induction X as [x X|x y X IX RF]; [exact (ps_mentioned E _ _ _ _ PS x X)|].
      destruct (ps_keys E _ _ _ _ PS) as (new & Q & NEW). rewrite Q in IX. apply in_app_or in IX. destruct IX as [[IX|[]]|IX]; [discriminate IX|].
      destruct (NEW _ IX) as (x' & Q' & _ & _ & Y). injection Q' as <-. apply Y. exact RF. }
    destruct (K c (IN _ RE)) as [[J|[]]|J]; [discriminate J | exact J]. }
  assert (BW : finite E m t -> (forall c, reachable E m t (TClass c) -> analysable E c) -> exists N refs, forall n, N <= n -> get_referenced_types E n t m = Ok refs).
  { intros F AN. destruct (run_exists E CE (fun c => reachable E m t (TClass c)) AN (fun c d RC RF => re_step E m t _ _ RC RF) _ m t F C (fun d X => re_mention E m t _ X) NRoot new_collector (Nat.lt_succ_diag_r _) ND A) as (N & g & R).
    exists N, (references g). intros n L. unfold get_referenced_types. rewrite (run_mono E _ _ _ _ _ _ R n L). reflexivity. }
  split; split.
  - intros (N & refs & H). exact (FW N refs (H N (le_n N))).
  - intros (F & AN). exact (BW F AN).
  - intros H (F & AN). destruct (BW F AN) as (N & refs & X). exact (H N refs (X N (le_n N))).
  - intros H n refs X. exact (H (FW n refs X)).
Qed.

(** *** Recursive aliases *)

Lemma finite_part : forall E m t u, finite E m t -> part E m t u -> finite E m u.
Proof.
  intros E m t u F P. destruct P as [t|t|k t|k t|ts t I|op ts t I|t md|m' s b t Q L]; inversion F; subst; auto.
  match goal with H1 : Some _ = Some _, H2 : lookup _ _ _ = Some _ |- _ => injection H1 as <-; rewrite L in H2; injection H2 as <- <- end. assumption.
Qed.

Lemma finite_acc : forall E m t, finite E m t -> Acc (fun u t => part E m t u) t.
Proof.
  intros E m t F. induction F as [k|b|c|ls|t F IH|t F IH|k t Fk IHk F IH|ts F IH|op ts F IH N|t md F IH|m' s b t Q L F IH]; constructor; intros u P;
    inversion P; subst; auto.
  match goal with H1 : Some _ = Some _, H2 : lookup _ _ _ = Some _ |- _ => injection H1 as <-; rewrite L in H2; injection H2 as <- <- end. assumption.
Qed.

Lemma acc_trans_irrefl : forall {A} (R : A -> A -> Prop) x, Acc (fun b a => R a b) x -> ~ clos_trans A R x x.
Proof.
  intros A R x AC. induction AC as [x _ IH]. intros T.
  assert (X : exists y, R x y /\ clos_trans A R y y).
  { assert (G : forall a b, clos_trans A R a b -> exists y, R a y /\ (y = b \/ clos_trans A R y b)).
    { intros a b Z. induction Z as [a b S|a b c Z1 IH1 Z2 IH2]; [eauto|]. destruct IH1 as (y & S & [Q|Y]); exists y; (split; [exact S|]); right; [rewrite Q; exact Z2 | eapply t_trans; eassumption]. }
    destruct (G x x T) as (y & S & [->|Y]); [exists x; auto|]. exists y. split; [exact S|]. eapply t_trans; [exact Y|]. apply t_step. exact S. }
  destruct X as (y & S & Y). exact (IH y S Y).
Qed.

Theorem referenced_endless : forall E t m u, canonical_env E -> canonical t -> clos_refl_trans typ (part E m) t u -> clos_trans typ (part E m) u u ->
  forall n refs, get_referenced_types E n t m <> Ok refs.
Proof.
  intros E t m u CE C TU UU. apply (proj2 (referenced_exact E t m CE C)). intros (F & _).
  assert (FU : finite E m u). { clear - F TU. induction TU; eauto using finite_part. }
  exact (acc_trans_irrefl _ _ (finite_acc E m u FU) UU).
Qed.

(** The same below a class. *)
Theorem class_endless : forall E t m c cl x w u, canonical_env E -> canonical t -> reachable E m t (TClass c) -> get_class E c = Some cl ->
  In (x, w) (raw_fields (c_kind cl)) -> clos_refl_trans typ (part E (Some (c_module cl))) w u -> clos_trans typ (part E (Some (c_module cl))) u u ->
  forall n refs, get_referenced_types E n t m <> Ok refs.
Proof.
  intros E t m c cl x w u CE C RE G I TU UU. apply (proj2 (referenced_exact E t m CE C)). intros (_ & AN).
  destruct (AN c RE) as (cl' & G' & FF). rewrite G in G'. injection G' as <-. specialize (FF x w I).
  assert (FU : finite E (Some (c_module cl)) u). { clear - FF TU. induction TU; eauto using finite_part. }
  exact (acc_trans_irrefl _ _ (finite_acc E _ u FU) UU).
Qed.
