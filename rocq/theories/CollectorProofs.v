(** Proofs about the collection of referenced types. *)
From Coq Require Import String List NArith ZArith Bool Lia Arith Permutation Relations.
From Verif Require Import Base Lists Json PyTypes TypingFacts TypeAlgebraProofs Topological SpecTopological TopologicalProofs CatalogProofs Collector SpecCollector.
Import ListNotations.
Open Scope list_scope.
Open Scope nat_scope.

Section Mentions.
  Variable E : env.

  Lemma mentions_flatten : forall m ts x,
    (exists t, In t (flatten_union ts) /\ mentions E m t x) <-> (exists t, In t ts /\ mentions E m t x).
  Proof.
    intros m ts x. unfold flatten_union. split.
    - intros (t & I & H). apply in_flat_map in I. destruct I as (u & Iu & I). exists u. split; [exact Iu|].
      destruct u; try (destruct I as [<-|[]]; exact H). econstructor; eassumption.
    - intros (t & I & H).
      assert (D : (exists op us, t = TUnion op us) \/ In t (match t with TUnion _ us => us | _ => [t] end)).
      { destruct t; try (right; left; reflexivity). left. eauto. }
      destruct D as [(op & us & ->)|D].
      + inversion H as [y C| | | | | |? ? u ? Iu Mu| |]; subst; [inversion C|]. exists u. split; [|exact Mu].
        apply in_flat_map. exists (TUnion op us). auto.
      + exists t. split; [|exact H]. apply in_flat_map. exists t. auto.
  Qed.

  Lemma mentions_union_iff : forall m op ts x, mentions E m (TUnion op ts) x <-> exists t, In t ts /\ mentions E m t x.
  Proof.
    intros m op ts x. split.
    - intros H. inversion H as [y C| | | | | |? ? u ? Iu Mu| |]; subst; [inversion C|]. exists u. auto.
    - intros (t & I & M). econstructor; eassumption.
  Qed.

  Lemma mentions_mk_union : forall m op ts t x, mk_union op ts = Ok t ->
    (mentions E m t x <-> exists u, In u ts /\ mentions E m u x).
  Proof.
    intros m op ts t x H. rewrite <- mentions_flatten. unfold mk_union in H.
    assert (D : (exists u, In u (dedup [] (flatten_union ts)) /\ mentions E m u x) <->
                (exists u, In u (flatten_union ts) /\ mentions E m u x)).
    { split; intros (u & I & Hu); exists u; (split; [|exact Hu]).
      - eapply dedup_in. exact I.
      - destruct (in_dedup (flatten_union ts) [] u I) as [[]|J]. exact J. }
    rewrite <- D. destruct (dedup [] (flatten_union ts)) as [|u [|u' us]].
    - discriminate.
    - injection H as <-. split.
      + intros Hu. exists u. split; [left; reflexivity | exact Hu].
      + intros (w & [<-|[]] & Hw). exact Hw.
    - injection H as <-. apply mentions_union_iff.
  Qed.

  Lemma mentions_annot_iff : forall m t md x, mentions E m (TAnnot t md) x <-> mentions E m t x.
  Proof. intros m t md x. split; [intros H; inversion H as [y C| | | | | | | |]; subst; [inversion C|assumption]|apply me_annot]. Qed.

  Lemma mentions_mk_annot : forall m t md x, mentions E m (mk_annot t md) x <-> mentions E m t x.
  Proof. intros m t md x. destruct t; cbn [mk_annot]; rewrite ?mentions_annot_iff; tauto. Qed.

  Lemma mentions_list_iff : forall m t x, mentions E m (TList t) x <-> mentions E m t x.
  Proof. intros m t x. split; [intros H; inversion H as [y C| | | | | | | |]; subst; [inversion C|assumption]|apply me_list]. Qed.
  Lemma mentions_set_iff : forall m t x, mentions E m (TSet t) x <-> mentions E m t x.
  Proof. intros m t x. split; [intros H; inversion H as [y C| | | | | | | |]; subst; [inversion C|assumption]|apply me_set]. Qed.
  Lemma mentions_dict_iff : forall m k t x, mentions E m (TDict k t) x <-> mentions E m k x \/ mentions E m t x.
  Proof.
    intros m k t x. split; [intros H; inversion H as [y C| | | | | | | |]; subst; [inversion C|auto|auto]|].
    intros [H|H]; [apply me_key|apply me_value]; exact H.
  Qed.
  Lemma mentions_tuple_iff : forall m ts x, mentions E m (TTuple ts) x <-> exists t, In t ts /\ mentions E m t x.
  Proof.
    intros m ts x. split.
    - intros H. inversion H as [y C| | | | |? u ? Iu Mu| | |]; subst; [inversion C|]. exists u. auto.
    - intros (t & I & M). econstructor; eassumption.
  Qed.
  Lemma mentions_ref_iff : forall m s x, mentions E m (TRef s) x <-> exists m' b t, m = Some m' /\ lookup E m' s = Some (b, t) /\ mentions E m t x.
  Proof.
    intros m s x. split.
    - intros H. inversion H as [y C| | | | | | | |]; subst; [inversion C|]. eexists _, _, _. eauto.
    - intros (m' & b & t & -> & L & M). econstructor; eauto.
  Qed.
  Lemma mentions_leaf_iff : forall m t x, match t with TScalar _ | TBare _ | TClass _ | TLiteral _ | TForm => True | _ => False end ->
    (mentions E m t x <-> x = t /\ classlike t).
  Proof.
    intros m t x L. split.
    - intros H. destruct H; try contradiction. auto.
    - intros [-> C]. constructor. exact C.
  Qed.

  Lemma resolve_mentions : forall m n g t t', resolve E m n g t = Ok t' ->
    forall x, mentions E (Some m) t' x <-> mentions E (Some m) t x.
  Proof.
    intros m. induction n as [|n IHn]; intros g t.
    all: induction t using typ_induct; intros t' R x; rewrite resolve_eq in R.
    all: try (injection R as <-; tauto).
    all: try (apply bind_ok in R; destruct R as (u' & R1 & R2)).
    all: try (injection R2 as <-).
    all: try (apply bind_ok in R2; destruct R2 as (w' & R2 & R3); injection R3 as <-).
    all: try (match goal with
      | |- mentions _ _ (TList _) _ <-> _ => rewrite !mentions_list_iff; apply (IHt _ R1)
      | |- mentions _ _ (TSet _) _ <-> _ => rewrite !mentions_set_iff; apply (IHt _ R1)
      | |- mentions _ _ (TDict _ _) _ <-> _ => rewrite !mentions_dict_iff, (IHt1 _ R1), (IHt2 _ R2); tauto
      | |- mentions _ _ (mk_annot _ _) _ <-> _ => rewrite mentions_mk_annot, mentions_annot_iff; apply (IHt _ R1)
      end).
    all: try (match type of R1 with mapM _ _ = Ok _ => apply mapM_ok in R1 end).
    all: try (rewrite Forall_forall in H).
    all: try (match goal with
      | |- mentions _ _ (TTuple _) _ <-> _ =>
          rewrite !mentions_tuple_iff; split;
          [ intros (u & I & Hu); destruct (Forall2_in_r _ _ _ _ _ _ R1 I) as (y & J & Hx);
            exists y; split; [exact J | apply (H y J _ Hx); exact Hu]
          | intros (u & I & Hu); destruct (Forall2_in_l _ _ _ _ _ _ R1 I) as (y & J & Hx);
            exists y; split; [exact J | apply (H u I _ Hx); exact Hu] ]
      | |- _ <-> mentions _ _ (TUnion _ _) _ =>
          rewrite (mentions_mk_union _ _ _ _ _ R2), mentions_union_iff; split;
          [ intros (u & I & Hu); destruct (Forall2_in_r _ _ _ _ _ _ R1 I) as (y & J & Hx);
            exists y; split; [exact J | apply (H y J _ Hx); exact Hu]
          | intros (u & I & Hu); destruct (Forall2_in_l _ _ _ _ _ _ R1 I) as (y & J & Hx);
            exists y; split; [exact J | apply (H u I _ Hx); exact Hu] ]
      end).
    all: destruct (mem_str s g); [injection R as <-; tauto|].
    all: destruct (lookup E m s) as [[a u]|] eqn:L; [|discriminate]; try discriminate.
    rewrite (IHn _ _ _ R x), mentions_ref_iff. split.
    - intros H. eexists _, _, _. eauto.
    - intros (m' & a' & u' & Q & L' & H). injection Q as <-. rewrite L in L'. injection L' as <- <-. exact H.
  Qed.

  Lemma mk_union_members : forall op ts u, mk_union op ts = Ok u ->
    In u (flatten_union ts) \/ exists us, u = TUnion op us /\ (forall t, In t us -> In t (flatten_union ts)) /\ exists t, In t us /\ t <> TScalar KNone.
  Proof.
    intros op ts u H. unfold mk_union in H. pose proof (nodup_dedup (flatten_union ts) []) as [ND _].
    assert (D : forall t, In t (dedup [] (flatten_union ts)) -> In t (flatten_union ts)) by (intros t; apply dedup_in).
    destruct (dedup [] (flatten_union ts)) as [|a [|b us]]; [discriminate H| |]; injection H as <-.
    - left. apply D. left. reflexivity.
    - right. exists (a :: b :: us). split; [reflexivity|]. split; [exact D|].
      destruct (CatalogProofs.typ_dec a (TScalar KNone)) as [->|N].
      + exists b. split; [right; left; reflexivity|]. intros ->. inversion ND as [|? ? NI _]; subst. apply NI. left. reflexivity.
      + exists a. split; [left; reflexivity|exact N].
  Qed.

  Lemma finite_flatten : forall m ts, (forall t, In t ts -> finite E m t) -> forall t, In t (flatten_union ts) -> finite E m t.
  Proof.
    intros m ts F t I. unfold flatten_union in I. apply in_flat_map in I. destruct I as (u & Iu & I). specialize (F u Iu).
    destruct u; try (destruct I as [<-|[]]; exact F). inversion F; subst. auto.
  Qed.

  Lemma finite_mk_union : forall m op ts u, (forall t, In t ts -> finite E m t) -> mk_union op ts = Ok u -> finite E m u.
  Proof.
    intros m op ts u F H. pose proof (finite_flatten m ts F) as FF. destruct (mk_union_members op ts u H) as [I|(us & -> & I & N)].
    - apply FF. exact I.
    - constructor; [auto|exact N].
  Qed.

  Lemma finite_mk_annot : forall m t md, finite E m t -> finite E m (mk_annot t md).
  Proof. intros m t md F. destruct t; cbn; try (constructor; exact F). inversion F; subst. constructor. assumption. Qed.

  Lemma resolve_finite : forall m t, finite E (Some m) t -> forall n g t', resolve E m n g t = Ok t' -> finite E (Some m) t'.
  Proof.
    intros m t F.
    induction F as [k|b|c|ls|t F IH|t F IH|k t Fk IHk F IH|ts F IH|op ts F IH N|t md F IH|m' s b t Q L F IH]; intros n g t' R;
      rewrite resolve_eq in R; try (injection R as <-; constructor).
    - apply bind_ok in R. destruct R as (u' & R1 & R2). injection R2 as <-. constructor. eauto.
    - apply bind_ok in R. destruct R as (u' & R1 & R2). injection R2 as <-. constructor. eauto.
    - apply bind_ok in R. destruct R as (u' & R1 & R2). apply bind_ok in R2. destruct R2 as (w' & R2 & R3). injection R3 as <-. constructor; eauto.
    - apply bind_ok in R. destruct R as (ts' & R1 & R2). injection R2 as <-. apply mapM_ok in R1. constructor. intros u U.
      destruct (Forall2_in_r _ _ _ _ _ _ R1 U) as (y & J & Hx). eapply IH; eassumption.
    - apply bind_ok in R. destruct R as (ts' & R1 & R2). apply mapM_ok in R1. eapply finite_mk_union; [|exact R2]. intros u U.
      destruct (Forall2_in_r _ _ _ _ _ _ R1 U) as (y & J & Hx). eapply IH; eassumption.
    - apply bind_ok in R. destruct R as (u' & R1 & R2). injection R2 as <-. apply finite_mk_annot. eauto.
    - injection Q as <-. destruct (mem_str s g); [injection R as <-; econstructor; [reflexivity|exact L|exact F]|].
      rewrite L in R. destruct n as [|n]; [discriminate R|]. eapply IH. exact R.
  Qed.

  (** The field types seen by the collector mention what the annotations mention. *)
  Lemma properties_mention : forall cl fs, class_properties E cl = Ok fs -> forall y,
    (exists t, In t (map snd fs) /\ mentions E (Some (c_module cl)) t y) <->
    (exists f u, In (f, u) (raw_fields (c_kind cl)) /\ mentions E (Some (c_module cl)) u y).
  Proof.
    assert (RAW : forall cl y, (exists t, In t (map snd (raw_fields (c_kind cl))) /\ mentions E (Some (c_module cl)) t y) <->
      (exists f u, In (f, u) (raw_fields (c_kind cl)) /\ mentions E (Some (c_module cl)) u y)).
    { intros cl y. split.
      - intros (t & I & M). apply in_map_iff in I. destruct I as ([f u] & <- & I). exists f, u. auto.
      - intros (f & u & I & M). exists u. split; [|exact M]. apply in_map_iff. exists (f, u). auto. }
    assert (HINT : forall cl fs, hints E cl = Ok fs -> forall y, (exists t, In t (map snd fs) /\ mentions E (Some (c_module cl)) t y) <->
      (exists f u, In (f, u) (raw_fields (c_kind cl)) /\ mentions E (Some (c_module cl)) u y)).
    { intros cl fs H y. unfold hints in H. apply mapM_ok in H. split.
      - intros (t & I & M). apply in_map_iff in I. destruct I as ([f u] & <- & I). destruct (Forall2_in_r _ _ _ _ _ _ H I) as ([f' u'] & J & R).
        apply bind_ok in R. destruct R as (w & R & Q). injection Q as -> ->. exists f, u'. split; [exact J|]. apply (resolve_mentions _ _ _ _ _ R). exact M.
      - intros (f & u & I & M). destruct (Forall2_in_l _ _ _ _ _ _ H I) as ([f' u'] & J & R).
        apply bind_ok in R. destruct R as (w & R & Q). injection Q as -> ->. exists u'. split; [apply in_map_iff; exists (f', u'); auto|].
        apply (resolve_mentions _ _ _ _ _ R). exact M. }
    intros cl fs H y. unfold class_properties in H. destruct (c_kind cl) eqn:K; try (rewrite <- K; apply HINT; exact H).
    injection H as <-. specialize (RAW cl y). rewrite K in RAW. exact RAW.
  Qed.

  Lemma properties_finite : forall cl fs, class_properties E cl = Ok fs ->
    (forall x t, In (x, t) (raw_fields (c_kind cl)) -> finite E (Some (c_module cl)) t) ->
    forall t, In t (map snd fs) -> finite E (Some (c_module cl)) t.
  Proof.
    intros cl fs H F t I. apply in_map_iff in I. destruct I as ([x u] & <- & I). cbn.
    assert (HH : hints E cl = Ok fs \/ fs = raw_fields (c_kind cl)).
    { unfold class_properties in H. destruct (c_kind cl); try (left; exact H). right. injection H as <-. reflexivity. }
    destruct HH as [HH| ->]; [|eapply F; exact I]. unfold hints in HH. apply mapM_ok in HH.
    destruct (Forall2_in_r _ _ _ _ _ _ HH I) as ([f' u'] & J & R). apply bind_ok in R. destruct R as (w & R & Q). injection Q as -> ->.
    eapply resolve_finite; [eapply F; exact J|exact R].
  Qed.
End Mentions.

Lemma node_eqb_iff : forall a b, node_eqb a b = true <-> a = b.
Proof.
  intros [|t] [|u]; cbn; try (split; [discriminate|intros Q; discriminate Q]).
  - tauto.
  - rewrite typ_eqb_iff. split; [intros ->; reflexivity|intros Q; injection Q as ->; reflexivity].
Qed.

Definition keys (g : tgraph) : list node := map fst g.
Definition link (g : tgraph) (k b : node) : Prop := exists ms, In (k, ms) g /\ In b ms.

Lemma set_add_in : forall l x y, In y (set_add l x) <-> In y l \/ y = x.
Proof.
  intros l x y. unfold set_add. destruct (existsb (node_eqb x) l) eqn:X.
  - apply existsb_exists in X. destruct X as (z & Z & Q). apply node_eqb_iff in Q. subst z. split; [auto|intros [I| ->]; assumption].
  - rewrite in_app_iff. cbn. split; [intros [I|[<-|[]]]; auto|intros [I| ->]; auto].
Qed.

Lemma add_edge_keys : forall g a b, keys (add_edge g a b) = keys g.
Proof.
  induction g as [|[k ms] g IH]; intros a b; cbn; [reflexivity|]. destruct (node_eqb k a); cbn; [reflexivity|]. f_equal. apply IH.
Qed.

Lemma has_key_iff : forall g a, has_key g a = true <-> In a (keys g).
Proof.
  intros g a. unfold has_key, keys. rewrite existsb_exists, in_map_iff. split.
  - intros (p & P & Q). apply node_eqb_iff in Q. exists p. auto.
  - intros (p & Q & P). exists p. split; [exact P|]. apply node_eqb_iff. exact Q.
Qed.

Lemma link_cons : forall k ms g a b, link ((k, ms) :: g) a b <-> (k = a /\ In b ms) \/ link g a b.
Proof.
  intros k ms g a b. unfold link. split.
  - intros (ms' & [Q|I] & B); [apply pair_equal_spec in Q as [-> ->]; auto|right; exists ms'; auto].
  - intros [(-> & B)|(ms' & I & B)]; [exists ms; split; [left; reflexivity|exact B]|exists ms'; split; [right; exact I|exact B]].
Qed.

Lemma link_key : forall g a b, link g a b -> In a (keys g).
Proof. intros g a b (ms & I & _). apply in_map_iff. exists (a, ms). auto. Qed.

Lemma add_edge_link : forall g a b k x, NoDup (keys g) -> In a (keys g) ->
  (link (add_edge g a b) k x <-> link g k x \/ (k = a /\ x = b)).
Proof.
  induction g as [|[k' ms] g IH]; intros a b k x ND I; [destruct I|]. cbn [keys map fst] in ND, I. inversion ND as [|? ? NI ND']; subst.
  cbn [add_edge]. destruct (node_eqb k' a) eqn:Q.
  - apply node_eqb_iff in Q. subst k'. rewrite !link_cons, set_add_in. intuition.
  - assert (N : k' <> a) by (intros ->; rewrite (proj2 (node_eqb_iff a a) eq_refl) in Q; discriminate Q).
    destruct I as [I|I]; [contradiction|]. rewrite !link_cons, (IH a b k x ND' I). tauto.
Qed.

Lemma link_fresh : forall g n a b, link (g ++ [(n, [])]) a b <-> link g a b.
Proof.
  induction g as [|[k ms] g IH]; intros n a b; cbn [app].
  - split; [intros (ms & [Q|[]] & B); apply pair_equal_spec in Q as [<- <-]; destruct B|intros (ms & [] & _)].
  - rewrite !link_cons, IH. tauto.
Qed.

Lemma keys_app : forall g h, keys (g ++ h) = keys g ++ keys h.
Proof. intros g h. apply map_app. Qed.

Section Post.
  Variable E : env.

  (** What is reached from a set of types through classes. *)
  Inductive grown (M : typ -> Prop) : typ -> Prop :=
  | gr_start : forall x, M x -> grown M x
  | gr_step : forall x y, grown M x -> refers E x y -> grown M y.

  Lemma grown_mono : forall (M M' : typ -> Prop) x, grown M x -> (forall y, M y -> grown M' y) -> grown M' x.
  Proof. intros M M' x G H. induction G; [auto|eapply gr_step; eassumption]. Qed.

  Record post (g : tgraph) (a : node) (M : typ -> Prop) (g' : tgraph) : Prop := {
    ps_nodup : NoDup (keys g');
    ps_keys : exists new, keys g' = keys g ++ new /\
      forall k, In k new -> exists x, k = NType x /\ grown M x
        /\ (forall b, link g' k b <-> exists y, b = NType y /\ refers E x y)
        /\ (forall y, refers E x y -> In (NType y) (keys g'));
    ps_old : forall k b, In k (keys g) -> (link g' k b <-> link g k b \/ (k = a /\ exists x, b = NType x /\ M x));
    ps_mentioned : forall x, M x -> In (NType x) (keys g')
  }.

  Lemma post_incl : forall g a M g', post g a M g' -> incl (keys g) (keys g').
  Proof. intros g a M g' P. destruct (ps_keys _ _ _ _ P) as (new & Q & _). rewrite Q. intros x X. apply in_or_app. left. exact X. Qed.

  Lemma post_nil : forall g a M, NoDup (keys g) -> (forall x, ~ M x) -> post g a M g.
  Proof.
    intros g a M ND N. constructor.
    - exact ND.
    - exists []. split; [rewrite app_nil_r; reflexivity|intros k []].
    - intros k b _. split; [auto|]. intros [L|(_ & x & _ & X)]; [exact L|destruct (N x X)].
    - intros x X. destruct (N x X).
  Qed.

  Lemma post_ext : forall g a M M' g', (forall x, M x <-> M' x) -> post g a M g' -> post g a M' g'.
  Proof.
    intros g a M M' g' Q [ND K O S]. constructor.
    - exact ND.
    - destruct K as (new & Kq & K). exists new. split; [exact Kq|]. intros k I. destruct (K k I) as (x & -> & G & R).
      exists x. split; [reflexivity|]. split; [|exact R]. eapply grown_mono; [exact G|]. intros y Y. constructor. apply Q. exact Y.
    - intros k b I. rewrite (O k b I). split; intros [L|(-> & x & -> & X)]; auto; right; (split; [reflexivity|]); exists x; (split; [reflexivity|]); apply Q; exact X.
    - intros x X. apply S. apply Q. exact X.
  Qed.

  Lemma post_trans : forall g a M1 g1 M2 g2, In a (keys g) -> post g a M1 g1 -> post g1 a M2 g2 ->
    post g a (fun x => M1 x \/ M2 x) g2.
  Proof.
    intros g a M1 g1 M2 g2 A P1 P2. pose proof (post_incl _ _ _ _ P1) as I1. pose proof (post_incl _ _ _ _ P2) as I2.
    destruct P1 as [ND1 (new1 & K1 & N1) O1 S1]. destruct P2 as [ND2 (new2 & K2 & N2) O2 S2]. constructor.
    - exact ND2.
    - exists (new1 ++ new2). split; [rewrite K2, K1, app_assoc; reflexivity|]. intros k I. apply in_app_or in I. destruct I as [I|I].
      + destruct (N1 k I) as (x & -> & G & L & C). exists x. split; [reflexivity|]. split; [eapply grown_mono; [exact G|]; intros y Y; constructor; auto|].
        split; [|intros y Y; apply I2; apply C; exact Y].
        assert (KK : In (NType x) (keys g1)) by (rewrite K1; apply in_or_app; right; exact I).
        assert (NA : NType x <> a).
        { intros Q. rewrite K1 in ND1. rewrite Q in I. clear - ND1 A I. revert A I. induction (keys g) as [|h t IH]; intros A I; [destruct A|].
          inversion ND1 as [|? ? NI ND]; subst. destruct A as [->|A]; [apply NI; apply in_or_app; right; exact I|apply IH; assumption]. }
        intros b. rewrite (O2 _ b KK). rewrite (L b). split; [intros [H|(Q & _)]; [exact H|contradiction]|auto].
      + destruct (N2 k I) as (x & -> & G & L & C). exists x. split; [reflexivity|]. split; [eapply grown_mono; [exact G|]; intros y Y; constructor; auto|].
        split; assumption.
    - intros k b K. rewrite (O2 k b (I1 k K)), (O1 k b K). split.
      + intros [[L|(-> & x & -> & X)]|(-> & x & -> & X)]; auto; right; (split; [reflexivity|]); exists x; auto.
      + intros [L|(-> & x & -> & [X|X])]; [auto|left; right|right]; (split; [reflexivity|]); exists x; auto.
    - intros x [X|X]; [apply I2; apply S1; exact X|apply S2; exact X].
  Qed.

  Lemma post_known : forall g a t, NoDup (keys g) -> In a (keys g) -> In (NType t) (keys g) ->
    post g a (fun x => x = t) (add_edge g a (NType t)).
  Proof.
    intros g a t ND A T. constructor.
    - rewrite add_edge_keys. exact ND.
    - exists []. rewrite app_nil_r. split; [apply add_edge_keys|intros k []].
    - intros k b _. rewrite (add_edge_link g a (NType t) k b ND A). split; intros [L|H]; auto; right.
      + destruct H as [-> ->]. split; [reflexivity|]. exists t. auto.
      + destruct H as (-> & x & -> & ->). auto.
    - intros x ->. rewrite add_edge_keys. exact T.
  Qed.

  Lemma nodup_snoc : forall (l : list node) x, NoDup l -> ~ In x l -> NoDup (l ++ [x]).
  Proof.
    intros l x ND N. apply Permutation_NoDup with (x :: l); [|constructor; assumption]. apply Permutation_cons_append.
  Qed.

  Lemma post_enter : forall g a t g3, NoDup (keys g) -> In a (keys g) -> ~ In (NType t) (keys g) ->
    post (add_edge g a (NType t) ++ [(NType t, [])]) (NType t) (refers E t) g3 ->
    post g a (fun x => x = t) g3.
  Proof.
    intros g a t g3 ND A T P. pose proof (post_incl _ _ _ _ P) as I3. destruct P as [ND3 (new & K & N) O S].
    rewrite keys_app, add_edge_keys in K, I3. cbn [keys map fst] in K, I3. constructor.
    - exact ND3.
    - exists (NType t :: new). split; [rewrite K, <- app_assoc; reflexivity|]. intros k [<-|I].
      + exists t. split; [reflexivity|]. split; [constructor; reflexivity|]. split; [|exact S].
        assert (KK : In (NType t) (keys (add_edge g a (NType t) ++ [(NType t, [])]))).
        { rewrite keys_app. apply in_or_app. right. left. reflexivity. }
        intros b. rewrite (O _ b KK), link_fresh, (add_edge_link g a (NType t) _ b ND A). split.
        * intros [[L|[Q ->]]|(_ & H)]; [destruct T; eapply link_key; exact L|destruct T; rewrite Q; exact A|exact H].
        * intros H. right. auto.
      + destruct (N k I) as (x & -> & G & R). exists x. split; [reflexivity|]. split; [|exact R].
        eapply grown_mono; [exact G|]. intros y Y. eapply gr_step; [constructor; reflexivity|exact Y].
    - intros k b KG. assert (KK : In k (keys (add_edge g a (NType t) ++ [(NType t, [])]))).
      { rewrite keys_app, add_edge_keys. apply in_or_app. left. exact KG. }
      rewrite (O k b KK), link_fresh, (add_edge_link g a (NType t) k b ND A). split.
      + intros [[L|[-> ->]]|(-> & _)]; [auto| |contradiction]. right. split; [reflexivity|]. exists t. auto.
      + intros [L|(-> & x & -> & ->)]; auto.
    - intros x ->. apply I3. apply in_or_app. right. left. reflexivity.
  Qed.

  Lemma run_S : forall n t a m g, run E (S n) t a m g =
    let run_all := fix run_all (ts : list typ) (a : node) (m : option nat) (g : tgraph) : res tgraph :=
      match ts with
      | [] => Ok g
      | u :: r => do g' <- run E n u a m g; run_all r a m g'
      end in
    match t with
    | TScalar KNone => Ok g
    | TScalar _ | TBare _ =>
        let g1 := add_edge g a (NType t) in
        if has_key g1 (NType t) then Ok g1 else Ok (g1 ++ [(NType t, [])])
    | TClass c =>
        let g1 := add_edge g a (NType t) in
        if has_key g1 (NType t) then Ok g1
        else match get_class E c with
             | None => Err EUnmodelled
             | Some cl =>
                 do fs <- class_properties E cl;
                 run_all (map snd fs) (NType t) (Some (c_module cl)) (g1 ++ [(NType t, [])])
             end
    | TAnnot u _ => run E n u a m g
    | TRef s =>
        match m with
        | None => Err EValue
        | Some m' =>
            match lookup E m' s with
            | None => Err EName
            | Some (_, u) => run E n u a m g
            end
        end
    | TList u | TSet u => run_all [u] a m g
    | TDict k u => run_all [k; u] a m g
    | TTuple ts | TUnion false ts => run_all ts a m g
    | TLiteral _ => Ok g
    | TUnion true ts =>
        if is_type_optional t then do u <- unwrap_optional t; run E n u a m g
        else run_all ts a m g
    | TForm => Err EType
    end.
  Proof. reflexivity. Qed.

  Fixpoint run_list (n : nat) (ts : list typ) (a : node) (m : option nat) (g : tgraph) : res tgraph :=
    match ts with
    | [] => Ok g
    | u :: r => do g' <- run E n u a m g; run_list n r a m g'
    end.

  Lemma run_list_eq : forall n ts a m g, (fix run_all (ts : list typ) (a : node) (m : option nat) (g : tgraph) : res tgraph :=
      match ts with
      | [] => Ok g
      | u :: r => do g' <- run E n u a m g; run_all r a m g'
      end) ts a m g = run_list n ts a m g.
  Proof. induction ts as [|u r IH]; intros a m g; cbn; [reflexivity|]. destruct (run E n u a m g); cbn; [apply IH|reflexivity]. Qed.

  Lemma filter_none_mentions : forall m ts x,
    (exists t, In t (filter (fun u => negb (typ_eqb (TScalar KNone) u)) ts) /\ mentions E m t x) <-> (exists t, In t ts /\ mentions E m t x).
  Proof.
    intros m ts x. split; intros (t & I & M).
    - apply filter_In in I. destruct I as [I _]. exists t. auto.
    - exists t. split; [|exact M]. apply filter_In. split; [exact I|]. destruct (typ_eqb (TScalar KNone) t) eqn:Q; [|reflexivity].
      apply typ_eqb_iff in Q. subst t. inversion M as [? C| | | | | | | |]; subst. inversion C; subst. congruence.
  Qed.

  Lemma refers_class : forall c cl fs y, get_class E c = Some cl -> class_properties E cl = Ok fs ->
    (refers E (TClass c) y <-> exists t, In t (map snd fs) /\ mentions E (Some (c_module cl)) t y).
  Proof.
    intros c cl fs y G P. rewrite (properties_mention E cl fs P y). split.
    - intros (c' & cl' & f & u & Q & G' & I & M). injection Q as <-. rewrite G in G'. injection G' as <-. exists f, u. auto.
    - intros (f & u & I & M). exists c, cl, f, u. auto.
  Qed.

  Theorem run_post : forall n t a m g g', run E n t a m g = Ok g' -> NoDup (keys g) -> In a (keys g) ->
    post g a (mentions E m t) g'.
  Proof.
    induction n as [|n IH]; intros t a m g g' R ND A; [discriminate R|].
    assert (ALL : forall ts a m g g', run_list n ts a m g = Ok g' -> NoDup (keys g) -> In a (keys g) ->
      post g a (fun x => exists t, In t ts /\ mentions E m t x) g').
    { clear - IH. induction ts as [|u r IHr]; intros a m g g' R ND A; cbn in R.
      - injection R as <-. apply post_nil; [exact ND|]. intros x (t & [] & _).
      - apply bind_ok in R. destruct R as (g1 & R1 & R2). pose proof (IH _ _ _ _ _ R1 ND A) as P1.
        pose proof (IHr _ _ _ _ R2 (ps_nodup _ _ _ _ P1) (post_incl _ _ _ _ P1 _ A)) as P2.
        pose proof (post_trans _ _ _ _ _ _ A P1 P2) as P. eapply post_ext; [|exact P]. intros x. cbn. split.
        + intros [M|(t & I & M)]; [exists u; auto|exists t; auto].
        + intros (t & [<-|I] & M); [auto|right; exists t; auto]. }
    assert (LEAF : forall t, classlike t -> (forall y, ~ refers E t y) ->
      (if has_key (add_edge g a (NType t)) (NType t) then Ok (add_edge g a (NType t)) else Ok (add_edge g a (NType t) ++ [(NType t, [])])) = Ok g' ->
      post g a (mentions E m t) g').
    { intros u C NR Q. apply post_ext with (fun x => x = u).
      { intros x. rewrite mentions_leaf_iff by (inversion C; exact Logic.I). split; [intros ->; auto|intros [-> _]; reflexivity]. }
      destruct (has_key (add_edge g a (NType u)) (NType u)) eqn:HK.
      - injection Q as <-. apply has_key_iff in HK. rewrite add_edge_keys in HK. apply post_known; assumption.
      - injection Q as <-. assert (T : ~ In (NType u) (keys g)).
        { intros T. rewrite <- (add_edge_keys g a (NType u)) in T. apply has_key_iff in T. congruence. }
        apply post_enter; try assumption. apply post_nil; [|exact NR]. rewrite keys_app, add_edge_keys. apply nodup_snoc; assumption. }
    rewrite run_S in R. cbv zeta in R. rewrite ?run_list_eq in R.
    destruct t as [k|b|u|u|k u|ts|op ts|ls|u md|c|s|].
    - destruct k; try (apply LEAF; [constructor; discriminate|intros y (c & cl & f & w & Q & _); discriminate Q|exact R]).
      injection R as <-. apply post_nil; [exact ND|]. intros x M. apply mentions_leaf_iff in M; [|exact Logic.I]. destruct M as [_ M]. inversion M; subst; congruence.
    - apply LEAF; [constructor|intros y (c & cl & f & w & Q & _); discriminate Q|exact R].
    - eapply post_ext; [|apply (ALL [u]); [exact R|exact ND|exact A]]. intros x. rewrite mentions_list_iff. cbn. split; [intros (t & [<-|[]] & M); exact M|intros M; exists u; auto].
    - eapply post_ext; [|apply (ALL [u]); [exact R|exact ND|exact A]]. intros x. rewrite mentions_set_iff. cbn. split; [intros (t & [<-|[]] & M); exact M|intros M; exists u; auto].
    - eapply post_ext; [|apply (ALL [k; u]); [exact R|exact ND|exact A]]. intros x. rewrite mentions_dict_iff. cbn. split.
      + intros (t & [<-|[<-|[]]] & M); auto.
      + intros [M|M]; [exists k|exists u]; auto.
    - rewrite run_list_eq in R. eapply post_ext; [|apply ALL; [exact R|exact ND|exact A]]. intros x. cbn. symmetry. apply mentions_tuple_iff.
    - destruct op.
      + destruct (is_type_optional (TUnion true ts)).
        * apply bind_ok in R. destruct R as (u & U & R). apply (IH _ _ _ _ _ R ND) in A. eapply post_ext; [|exact A]. intros x.
          cbn in U. rewrite (mentions_mk_union E m false _ u x U), filter_none_mentions. symmetry. apply mentions_union_iff.
        * rewrite run_list_eq in R. eapply post_ext; [|apply ALL; [exact R|exact ND|exact A]]. intros x. cbn. symmetry. apply mentions_union_iff.
      + rewrite run_list_eq in R. eapply post_ext; [|apply ALL; [exact R|exact ND|exact A]]. intros x. cbn. symmetry. apply mentions_union_iff.
    - injection R as <-. apply post_nil; [exact ND|]. intros x M. apply mentions_leaf_iff in M; [|exact Logic.I]. destruct M as [_ M]. inversion M.
    - eapply post_ext; [|apply IH; eassumption]. intros x. symmetry. apply mentions_annot_iff.
    - apply post_ext with (fun x => x = TClass c).
      { intros x. rewrite mentions_leaf_iff by exact Logic.I. split; [intros ->; split; [reflexivity|constructor]|intros [-> _]; reflexivity]. }
      destruct (has_key (add_edge g a (NType (TClass c))) (NType (TClass c))) eqn:HK.
      { injection R as <-. apply has_key_iff in HK. rewrite add_edge_keys in HK. apply post_known; assumption. }
      assert (T : ~ In (NType (TClass c)) (keys g)).
      { intros T. rewrite <- (add_edge_keys g a (NType (TClass c))) in T. apply has_key_iff in T. congruence. }
      destruct (get_class E c) as [cl|] eqn:G; [|discriminate R]. apply bind_ok in R. destruct R as (fs & F & R).
      rewrite run_list_eq in R. apply post_enter; try assumption. eapply post_ext; [|apply ALL; [exact R| |]].
      + intros x. symmetry. apply refers_class; assumption.
      + rewrite keys_app, add_edge_keys. apply nodup_snoc; assumption.
      + rewrite keys_app. apply in_or_app. right. left. reflexivity.
    - destruct m as [m'|]; [|discriminate R]. destruct (lookup E m' s) as [[b u]|] eqn:L; [|discriminate R].
      eapply post_ext; [|apply IH; eassumption]. intros x. rewrite mentions_ref_iff. split.
      + intros M. exists m', b, u. auto.
      + intros (m2 & b2 & t2 & Q & L2 & M). injection Q as <-. rewrite L in L2. injection L2 as <- <-. exact M.
    - discriminate R.
  Qed.

  Lemma grown_reachable : forall m t x, grown (mentions E m t) x <-> reachable E m t x.
  Proof.
    intros m t x. split; intros H; induction H; [constructor; assumption|eapply re_step; eassumption|constructor; assumption|eapply gr_step; eassumption].
  Qed.

  Lemma new_keys : NoDup (keys new_collector) /\ In NRoot (keys new_collector).
  Proof. split; [repeat constructor; intros []|left; reflexivity]. Qed.

  Lemma post_graph : forall M g, post new_collector NRoot M g ->
    NoDup (keys g) /\ (forall k, In k (keys g) <-> k = NRoot \/ exists x, k = NType x /\ grown M x)
    /\ (forall k b, link g k b <-> exists y, b = NType y /\ ((k = NRoot /\ M y) \/ exists x, k = NType x /\ grown M x /\ refers E x y)).
  Proof.
    intros M g P. destruct P as [ND (new & K & N) O S]. cbn [keys map fst new_collector] in K.
    assert (KEY : forall x, grown M x -> In (NType x) (keys g)).
    { intros x G. induction G as [x X|x y G IG R]; [apply S; exact X|].
      rewrite K in IG. destruct IG as [Q|I]; [discriminate Q|]. destruct (N _ I) as (x' & Q & _ & _ & C). injection Q as <-. apply C. exact R. }
    split; [exact ND|]. split.
    - intros k. split.
      + rewrite K. intros [<-|I]; [auto|]. destruct (N k I) as (x & -> & G & _). right. exists x. auto.
      + intros [->|(x & -> & G)]; [rewrite K; left; reflexivity|apply KEY; exact G].
    - intros k b. split.
      + intros L. pose proof (link_key _ _ _ L) as I. rewrite K in I. destruct I as [<-|I].
        * apply O in L; [|left; reflexivity]. destruct L as [(ms & [Q|[]] & B)|(_ & x & -> & X)].
          -- apply pair_equal_spec in Q as [_ <-]. destruct B.
          -- exists x. split; [reflexivity|]. left. auto.
        * destruct (N k I) as (x & -> & G & LL & _). apply LL in L. destruct L as (y & -> & R). exists y. split; [reflexivity|]. right. exists x. auto.
      + intros (y & -> & [(-> & X)|(x & -> & G & R)]).
        * apply O; [left; reflexivity|]. right. split; [reflexivity|]. exists y. auto.
        * pose proof (KEY x G) as I. rewrite K in I. destruct I as [Q|I]; [discriminate Q|]. destruct (N _ I) as (x' & Q & _ & LL & _). injection Q as <-.
          apply LL. exists y. auto.
  Qed.

  Theorem referenced_spec : forall n t m refs, get_referenced_types E n t m = Ok refs ->
    forall b, In b refs <-> exists x, b = NType x /\ reachable E m t x.
  Proof.
    intros n t m refs H b. unfold get_referenced_types in H. apply bind_ok in H. destruct H as (g & R & Q). injection Q as <-.
    destruct new_keys as [ND A]. pose proof (run_post _ _ _ _ _ _ R ND A) as P. destruct (post_graph _ _ P) as (_ & _ & L).
    assert (I : In b (references g) <-> exists k, link g k b).
    { unfold references. rewrite in_flat_map. split.
      - intros ([k ms] & I & B). exists k, ms. auto.
      - intros (k & ms & I & B). exists (k, ms). auto. }
    rewrite I. split.
    - intros (k & LK). apply L in LK. destruct LK as (y & -> & [(-> & X)|(x & -> & G & RF)]); exists y; (split; [reflexivity|]).
      + constructor. exact X.
      + eapply re_step; [apply grown_reachable; exact G|exact RF].
    - intros (x & -> & RE). inversion RE as [y M|y z RY RF]; subst.
      + exists NRoot. apply L. exists x. split; [reflexivity|]. left. auto.
      + exists (NType y). apply L. exists x. split; [reflexivity|]. right. exists y. split; [reflexivity|]. split; [apply grown_reachable; exact RY|exact RF].
  Qed.
End Post.

Section Total.
  Variable E : env.

  (** Depth of recursion until classes are met. *)
  Inductive deep (m : option nat) : nat -> typ -> Prop :=
  | dp_scalar : forall h k, deep m (S h) (TScalar k)
  | dp_bare : forall h b, deep m (S h) (TBare b)
  | dp_class : forall h c, deep m (S h) (TClass c)
  | dp_literal : forall h ls, deep m (S h) (TLiteral ls)
  | dp_list : forall h t, deep m h t -> deep m (S h) (TList t)
  | dp_set : forall h t, deep m h t -> deep m (S h) (TSet t)
  | dp_dict : forall h k t, deep m h k -> deep m h t -> deep m (S h) (TDict k t)
  | dp_tuple : forall h ts, (forall t, In t ts -> deep m h t) -> deep m (S h) (TTuple ts)
  | dp_union : forall h ts, (forall t, In t ts -> deep m h t) -> (exists t, In t ts /\ t <> TScalar KNone) -> deep m (S h) (TUnion false ts)
  | dp_either : forall h ts, (forall t, In t ts -> deep m h t) -> (exists t, In t ts /\ t <> TScalar KNone) -> deep m (S (S h)) (TUnion true ts)
  | dp_annot : forall h t md, deep m h t -> deep m (S h) (TAnnot t md)
  | dp_ref : forall h m' s b t, m = Some m' -> lookup E m' s = Some (b, t) -> deep m h t -> deep m (S h) (TRef s).

  Lemma deep_le : forall m h t, deep m h t -> forall h', h <= h' -> deep m h' t.
  Proof.
    intros m h t D. induction D; intros h' L; (destruct h' as [|h']; [lia|]); try (constructor; auto; fail).
    - constructor; [apply IHD; lia].
    - constructor; [apply IHD; lia].
    - constructor; [apply IHD1; lia|apply IHD2; lia].
    - constructor. intros u U. apply (H0 u U). lia.
    - constructor; [|assumption]. intros u U. apply (H0 u U). lia.
    - destruct h' as [|h']; [lia|]. constructor; [|assumption]. intros u U. apply (H0 u U). lia.
    - constructor. apply IHD. lia.
    - econstructor; [eassumption|eassumption|]. apply IHD. lia.
  Qed.

  Lemma deep_bound : forall m ts, (forall t, In t ts -> exists h, deep m h t) -> exists h, forall t, In t ts -> deep m h t.
  Proof.
    induction ts as [|t ts IH]; intros H.
    - exists 0. intros t [].
    - destruct (H t (or_introl eq_refl)) as (h1 & D1). destruct IH as (h2 & D2); [intros u U; apply H; right; exact U|].
      exists (h1 + h2). intros u [<-|U]; [apply (deep_le _ _ _ D1); lia|apply (deep_le _ _ _ (D2 u U)); lia].
  Qed.

  Lemma finite_deep : forall m t, finite E m t -> exists h, deep m h t.
  Proof.
    intros m t F. induction F as [k|b|c|ls|t F IH|t F IH|k t Fk IHk F IH|ts F IH|op ts F IH N|t md F IH|m' s b t Q L F IH].
    1-4: exists 1; constructor.
    - destruct IH as (h & D). exists (S h). constructor. exact D.
    - destruct IH as (h & D). exists (S h). constructor. exact D.
    - destruct IH as (h & D). destruct IHk as (h2 & D2). exists (S (h + h2)).
      constructor; [apply (deep_le _ _ _ D2); lia|apply (deep_le _ _ _ D); lia].
    - destruct (deep_bound m ts IH) as (h & D). exists (S h). constructor. exact D.
    - destruct (deep_bound m ts IH) as (h & D). exists (S (S h)). destruct op.
      + constructor; assumption.
      + constructor; [|assumption]. intros t T. apply (deep_le _ _ _ (D t T)). lia.
    - destruct IH as (h & D). exists (S h). constructor. exact D.
    - destruct IH as (h & D). exists (S h). econstructor; eassumption.
  Qed.

  Lemma deep_flatten : forall m h ts, (forall t, In t ts -> deep m h t) -> forall t, In t (flatten_union ts) -> deep m h t.
  Proof.
    intros m h ts F t I. unfold flatten_union in I. apply in_flat_map in I. destruct I as (u & Iu & I). specialize (F u Iu).
    destruct u; try (destruct I as [<-|[]]; exact F). inversion F; subst.
    - apply deep_le with h0; [auto|lia].
    - apply deep_le with h0; [auto|lia].
  Qed.

  Lemma unwrap_deep : forall m h ts, (forall t, In t ts -> deep m h t) -> (exists t, In t ts /\ t <> TScalar KNone) ->
    exists u, unwrap_optional (TUnion true ts) = Ok u /\ deep m (S h) u.
  Proof.
    intros m h ts D (t & T & N). unfold unwrap_optional, unwrap_optional_inner. set (fs := filter (fun u => negb (typ_eqb (TScalar KNone) u)) ts).
    assert (FT : In t fs).
    { apply filter_In. split; [exact T|]. destruct (typ_eqb (TScalar KNone) t) eqn:Q; [|reflexivity]. apply typ_eqb_iff in Q. congruence. }
    assert (DF : forall u, In u fs -> deep m h u) by (intros u U; apply filter_In in U; apply D; apply U).
    assert (NE : exists u, In u (flatten_union fs)).
    { pose proof (DF t FT) as DT. destruct t; try (eexists; apply in_flat_map; eexists; split; [exact FT|left; reflexivity]).
      assert (exists u, In u ts0) as (u & U) by (inversion DT; subst; match goal with H : exists t, _ |- _ => destruct H as (u & U & _); exists u; exact U end).
      exists u. apply in_flat_map. eexists. split; [exact FT|exact U]. }
    destruct (mk_union false fs) as [u|e] eqn:MK.
    - exists u. split; [reflexivity|]. pose proof (deep_flatten m h fs DF) as DD. destruct (mk_union_members false fs u MK) as [I|(us & -> & I & X)].
      + apply deep_le with h; [apply DD; exact I|lia].
      + constructor; [|exact X]. intros v V. apply DD. apply I. exact V.
    - exfalso. unfold mk_union in MK. destruct NE as (u & U). destruct (in_dedup (flatten_union fs) [] u U) as [[]|J].
      destruct (dedup [] (flatten_union fs)) as [|a [|b us]]; [destruct J|discriminate MK|discriminate MK].
  Qed.

  (** Classes not yet entered. *)
  Definition unentered (g : tgraph) : nat :=
    length (filter (fun c => negb (has_key g (NType (TClass c)))) (seq 0 (length (e_classes E)))).

  Lemma filter_length_le : forall {A} (p q : A -> bool) l, (forall x, In x l -> p x = true -> q x = true) -> length (filter p l) <= length (filter q l).
  Proof.
    intros A p q l. induction l as [|x l IH]; intros H; cbn; [lia|].
    assert (IH' : length (filter p l) <= length (filter q l)) by (apply IH; intros y Y; apply H; right; exact Y).
    pose proof (H x (or_introl eq_refl)) as HX. destruct (p x); [rewrite HX by reflexivity; cbn; lia|]. destruct (q x); cbn; lia.
  Qed.
  Lemma filter_length_lt : forall {A} (p q : A -> bool) l z, (forall x, In x l -> p x = true -> q x = true) ->
    In z l -> p z = false -> q z = true -> length (filter p l) < length (filter q l).
  Proof.
    intros A p q l z. induction l as [|x l IH]; intros H Z P Q; [destruct Z|]. cbn.
    assert (LE : length (filter p l) <= length (filter q l)) by (apply filter_length_le; intros y Y; apply H; right; exact Y).
    destruct Z as [->|Z].
    - rewrite P, Q. cbn. lia.
    - assert (LT : length (filter p l) < length (filter q l)) by (apply IH; auto; intros y Y; apply H; right; exact Y).
      pose proof (H x (or_introl eq_refl)) as HX. destruct (p x); [rewrite HX by reflexivity; cbn; lia|]. destruct (q x); cbn; lia.
  Qed.

  Lemma unentered_le : forall g g', incl (keys g) (keys g') -> unentered g' <= unentered g.
  Proof.
    intros g g' I. apply filter_length_le. intros c _ H. apply negb_true_iff in H. apply negb_true_iff.
    destruct (has_key g (NType (TClass c))) eqn:K; [|reflexivity]. apply has_key_iff in K. apply I in K. apply has_key_iff in K. congruence.
  Qed.
  Lemma unentered_lt : forall g g' c, incl (keys g) (keys g') -> get_class E c <> None ->
    ~ In (NType (TClass c)) (keys g) -> In (NType (TClass c)) (keys g') -> unentered g' < unentered g.
  Proof.
    intros g g' c I G N Y. apply filter_length_lt with c.
    - intros d _ H. apply negb_true_iff in H. apply negb_true_iff.
      destruct (has_key g (NType (TClass d))) eqn:K; [|reflexivity]. apply has_key_iff in K. apply I in K. apply has_key_iff in K. congruence.
    - apply in_seq. apply nth_error_Some in G. lia.
    - apply negb_false_iff. apply has_key_iff. exact Y.
    - apply negb_true_iff. destruct (has_key g (NType (TClass c))) eqn:K; [|reflexivity]. apply has_key_iff in K. contradiction.
  Qed.

  Variable H : nat.
  Hypothesis FIELDS : forall c cl, get_class E c = Some cl -> exists fs, class_properties E cl = Ok fs
    /\ (forall t, In t (map snd fs) -> deep (Some (c_module cl)) H t)
    /\ (forall t d, In t (map snd fs) -> mentions E (Some (c_module cl)) t (TClass d) -> get_class E d <> None).

  Theorem run_ok : forall n t a m g h, deep m h t -> (forall d, mentions E m t (TClass d) -> get_class E d <> None) ->
    NoDup (keys g) -> In a (keys g) -> h + unentered g * S H <= n -> exists g', run E n t a m g = Ok g'.
  Proof.
    induction n as [|n IH]; intros t a m g h D X ND A L.
    { inversion D; subst; lia. }
    assert (ALL : forall ts a m g h, (forall t, In t ts -> deep m h t) -> (forall t d, In t ts -> mentions E m t (TClass d) -> get_class E d <> None) ->
      NoDup (keys g) -> In a (keys g) -> h + unentered g * S H <= n -> exists g', run_list E n ts a m g = Ok g').
    { clear - IH. induction ts as [|u r IHr]; intros a m g h D X ND A L; cbn; [eexists; reflexivity|].
      destruct (IH u a m g h) as (g1 & R1); [apply D; left; reflexivity|intros d; apply X; left; reflexivity|assumption|assumption|assumption|].
      rewrite R1. cbn. pose proof (run_post E _ _ _ _ _ _ R1 ND A) as P. pose proof (post_incl E _ _ _ _ P) as I.
      apply IHr with h; [intros t T; apply D; right; exact T|intros t d T; apply X; right; exact T|apply (ps_nodup E _ _ _ _ P)|apply I; exact A|].
      pose proof (unentered_le _ _ I). nia. }
    rewrite run_S. cbv zeta.
    destruct D as [h k|h b|h c|h ls|h t D|h t D|h k t D1 D2|h ts D|h ts D N|h ts D N|h t md D|h m' s b t Q LK D]; rewrite ?run_list_eq.
    - destruct k; try (eexists; reflexivity); destruct (has_key _ _); eexists; reflexivity.
    - destruct (has_key _ _); eexists; reflexivity.
    - destruct (has_key (add_edge g a (NType (TClass c))) (NType (TClass c))) eqn:HK; [eexists; reflexivity|].
      assert (T : ~ In (NType (TClass c)) (keys g)).
      { intros T. rewrite <- (add_edge_keys g a (NType (TClass c))) in T. apply has_key_iff in T. congruence. }
      assert (XC : get_class E c <> None) by (apply X; constructor; constructor).
      destruct (get_class E c) as [cl|] eqn:G; [|congruence]. destruct (FIELDS c cl G) as (fs & F & DF & XF). rewrite F. cbn [bind].
      rewrite ?run_list_eq. apply ALL with H; try assumption.
      + rewrite keys_app, add_edge_keys. apply nodup_snoc; assumption.
      + rewrite keys_app. apply in_or_app. right. left. reflexivity.
      + assert (U : unentered (add_edge g a (NType (TClass c)) ++ [(NType (TClass c), [])]) < unentered g).
        { apply unentered_lt with c; [|congruence|exact T|].
          - rewrite keys_app, add_edge_keys. apply incl_appl. apply incl_refl.
          - rewrite keys_app. apply in_or_app. right. left. reflexivity. }
        nia.
    - eexists; reflexivity.
    - destruct (ALL [t] a m g h) as (g' & R); try assumption; [intros u [<-|[]]; exact D|intros u d [<-|[]] M; apply X; constructor; exact M|lia|].
      exists g'. exact R.
    - destruct (ALL [t] a m g h) as (g' & R); try assumption; [intros u [<-|[]]; exact D|intros u d [<-|[]] M; apply X; constructor; exact M|lia|].
      exists g'. exact R.
    - destruct (ALL [k; t] a m g h) as (g' & R); try assumption; [intros u [<-|[<-|[]]]; assumption| |lia|].
      { intros u d [<-|[<-|[]]] M; apply X; [apply me_key|apply me_value]; exact M. }
      exists g'. exact R.
    - rewrite ?run_list_eq. apply ALL with h; try assumption; [|lia]. intros t d T M. apply X. econstructor; eassumption.
    - rewrite ?run_list_eq. apply ALL with h; try assumption; [|lia]. intros t d T M. apply X. econstructor; eassumption.
    - destruct (is_type_optional (TUnion true ts)).
      + destruct (unwrap_deep m h ts D N) as (u & U & DU). rewrite U. cbn [bind]. apply IH with (S h); try assumption; [|lia].
        intros d M. apply X. cbn in U. apply mentions_union_iff. apply filter_none_mentions. apply (mentions_mk_union E m false _ u _ U). exact M.
      + rewrite ?run_list_eq. apply ALL with h; try assumption; [|lia]. intros t d T M. apply X. econstructor; eassumption.
    - apply IH with h; try assumption; [|lia]. intros d M. apply X. constructor. exact M.
    - subst m. rewrite LK. apply IH with h; try assumption; [|lia]. intros d M. apply X. econstructor; [reflexivity|eassumption|exact M].
  Qed.
End Total.

Lemma trans_first : forall {A} (R : A -> A -> Prop) a b, clos_trans A R a b -> exists c, R a c.
Proof. intros A R a b T. induction T; eauto. Qed.
Lemma trans_last : forall {A} (R : A -> A -> Prop) a b, clos_trans A R a b -> exists c, R c b.
Proof. intros A R a b T. induction T; eauto. Qed.

Section Sort.
  Variable E : env.

  Lemma run_mono : forall n t a m g g', run E n t a m g = Ok g' -> forall n', n <= n' -> run E n' t a m g = Ok g'.
  Proof.
    induction n as [|n IH]; intros t a m g g' R n' L; [discriminate R|]. destruct n' as [|n']; [lia|]. apply le_S_n in L.
    assert (ALL : forall ts a m g g', run_list E n ts a m g = Ok g' -> run_list E n' ts a m g = Ok g').
    { induction ts as [|u r IHr]; intros b m' g0 g1 Q; cbn in Q |- *; [exact Q|]. apply bind_ok in Q. destruct Q as (g2 & Q1 & Q2).
      rewrite (IH _ _ _ _ _ Q1 n' L). cbn. apply IHr. exact Q2. }
    rewrite run_S in R. rewrite run_S. cbv zeta in R |- *.
    destruct t as [k|b|u|u|k u|ts|op ts|ls|u md|c|s|]; try exact R.
    - exact (ALL [u] _ _ _ _ R).
    - exact (ALL [u] _ _ _ _ R).
    - exact (ALL [k; u] _ _ _ _ R).
    - rewrite run_list_eq in R. rewrite run_list_eq. apply ALL. exact R.
    - destruct op.
      + destruct (is_type_optional (TUnion true ts)).
        * apply bind_ok in R. destruct R as (u & U & R). rewrite U. cbn [bind]. eapply IH; eassumption.
        * rewrite run_list_eq in R. rewrite run_list_eq. apply ALL. exact R.
      + rewrite run_list_eq in R. rewrite run_list_eq. apply ALL. exact R.
    - eapply IH; eassumption.
    - destruct (has_key _ _); [exact R|]. destruct (get_class E c) as [cl|]; [|exact R].
      apply bind_ok in R. destruct R as (fs & F & R). rewrite F. cbn [bind]. rewrite run_list_eq in R. rewrite run_list_eq. apply ALL. exact R.
    - destruct m as [m'|]; [|exact R]. destruct (lookup E m' s) as [[b u]|]; [|exact R]. eapply IH; eassumption.
  Qed.

  Lemma fields_bound : program_ok E -> exists H, forall c cl, get_class E c = Some cl -> exists fs, class_properties E cl = Ok fs
    /\ (forall t, In t (map snd fs) -> deep E (Some (c_module cl)) H t)
    /\ (forall t d, In t (map snd fs) -> mentions E (Some (c_module cl)) t (TClass d) -> get_class E d <> None).
  Proof.
    intros [PF PC PH].
    assert (EACH : forall c cl, get_class E c = Some cl -> exists H fs, class_properties E cl = Ok fs
      /\ (forall t, In t (map snd fs) -> deep E (Some (c_module cl)) H t)
      /\ (forall t d, In t (map snd fs) -> mentions E (Some (c_module cl)) t (TClass d) -> get_class E d <> None)).
    { intros c cl G. destruct (PH c cl G) as (hs & HH).
      assert (exists fs, class_properties E cl = Ok fs) as (fs & F).
      { unfold class_properties. destruct (c_kind cl); eauto. }
      pose proof (properties_finite E cl fs F (fun x t => PF c cl x t G)) as FIN.
      destruct (deep_bound E (Some (c_module cl)) (map snd fs)) as (h & D).
      { intros t T. apply finite_deep. apply FIN. exact T. }
      exists h, fs. split; [exact F|]. split; [exact D|]. intros t d T M.
      destruct (proj1 (properties_mention E cl fs F (TClass d)) (ex_intro _ t (conj T M))) as (f & u & I & MU). eapply PC; eassumption. }
    assert (UP : forall l : list class, (forall cl, In cl l -> exists c, get_class E c = Some cl) -> exists H, forall cl, In cl l -> exists fs, class_properties E cl = Ok fs
      /\ (forall t, In t (map snd fs) -> deep E (Some (c_module cl)) H t)
      /\ (forall t d, In t (map snd fs) -> mentions E (Some (c_module cl)) t (TClass d) -> get_class E d <> None)).
    { induction l as [|cl l IH]; intros IN.
      - exists 0. intros cl [].
      - destruct (IN cl (or_introl eq_refl)) as (c & G). destruct (EACH c cl G) as (h1 & fs & F & D & X).
        destruct IH as (h2 & R); [intros cl' I; apply IN; right; exact I|]. exists (h1 + h2). intros cl' [<-|I].
        + exists fs. split; [exact F|]. split; [|exact X]. intros t T. apply (deep_le E _ _ _ (D t T)). lia.
        + destruct (R cl' I) as (fs' & F' & D' & X'). exists fs'. split; [exact F'|]. split; [|exact X']. intros t T. apply (deep_le E _ _ _ (D' t T)). lia. }
    destruct (UP (e_classes E)) as (H & R).
    { intros cl I. apply In_nth_error in I. destruct I as (c & I). exists c. exact I. }
    exists H. intros c cl G. apply R. eapply nth_error_In. exact G.
  Qed.

  Theorem referenced_total : program_ok E -> forall t m, finite E m t -> (forall d, mentions E m t (TClass d) -> get_class E d <> None) ->
    exists N refs, forall n, N <= n -> get_referenced_types E n t m = Ok refs.
  Proof.
    intros PO t m F X. destruct (fields_bound PO) as (H & FB). destruct (finite_deep E m t F) as (h & D). destruct new_keys as [ND A].
    set (N := h + unentered E new_collector * S H).
    destruct (run_ok E H FB N t NRoot m new_collector h D X ND A (le_n _)) as (g & R).
    exists N, (references g). intros n L. unfold get_referenced_types. rewrite (run_mono _ _ _ _ _ _ R n L). reflexivity.
  Qed.

  (** * Sorting *)

  Definition inputs (ts : list typ) (x : typ) : Prop := exists t, In t ts /\ mentions E (module_of E t) t x.

  Lemma traverse_post : forall n ts g g', traverse_all E n ts g = Ok g' -> NoDup (keys g) -> In NRoot (keys g) ->
    post E g NRoot (inputs ts) g'.
  Proof.
    intros n. induction ts as [|t r IH]; intros g g' R ND A; cbn in R.
    - injection R as <-. apply post_nil; [exact ND|]. intros x (t & [] & _).
    - apply bind_ok in R. destruct R as (g1 & R1 & R2). pose proof (run_post E _ _ _ _ _ _ R1 ND A) as P1.
      pose proof (IH _ _ R2 (ps_nodup E _ _ _ _ P1) (post_incl E _ _ _ _ P1 _ A)) as P2.
      pose proof (post_trans E _ _ _ _ _ _ A P1 P2) as P. eapply post_ext; [|exact P]. intros x. unfold inputs. cbn. split.
      + intros [M|(u & I & M)]; [exists t; auto|exists u; auto].
      + intros (u & [<-|I] & M); [auto|right; exists u; auto].
  Qed.

  Lemma traverse_ok : program_ok E -> forall ts, (forall t, In t ts -> finite E (module_of E t) t) ->
    (forall t d, In t ts -> mentions E (module_of E t) t (TClass d) -> get_class E d <> None) ->
    exists N g, forall n, N <= n -> traverse_all E n ts new_collector = Ok g.
  Proof.
    intros PO ts F X. destruct (fields_bound PO) as (H & FB). destruct new_keys as [ND A]. revert ND A. generalize new_collector. induction ts as [|t r IH]; intros g ND A.
    - exists 0, g. intros n _. reflexivity.
    - destruct (finite_deep E _ t (F t (or_introl eq_refl))) as (h & D). set (N := h + unentered E g * S H).
      destruct (run_ok E H FB N t NRoot (module_of E t) g h D (fun d => X t d (or_introl eq_refl)) ND A (le_n _)) as (g1 & R).
      pose proof (run_post E _ _ _ _ _ _ R ND A) as P.
      destruct (IH (fun u U => F u (or_intror U)) (fun u d U => X u d (or_intror U)) g1 (ps_nodup E _ _ _ _ P) (post_incl E _ _ _ _ P _ A)) as (N2 & g2 & R2).
      exists (N + N2), g2. intros n L. cbn. rewrite (run_mono _ _ _ _ _ _ R n) by lia. cbn [bind]. apply R2. lia.
  Qed.

  Lemma grown_needed : forall ts, forallb is_class ts = true -> forall x, grown E (inputs ts) x <-> needed E ts x.
  Proof.
    intros ts C. assert (IN : forall x, inputs ts x <-> In x ts /\ classlike x).
    { intros x. split.
      - intros (t & T & M). rewrite forallb_forall in C. specialize (C t T). apply mentions_leaf_iff in M; [|destruct t; try discriminate C; exact Logic.I].
        destruct M as [-> CL]. auto.
      - intros [T CL]. exists x. split; [exact T|]. constructor. exact CL. }
    intros x. split; intros H; induction H.
    - apply IN in H. destruct H. constructor; assumption.
    - eapply nd_step; eassumption.
    - constructor. apply IN. auto.
    - eapply gr_step; eassumption.
  Qed.

  Variable order : list node -> list node.
  Hypothesis ORDER : forall l, Permutation (order l) l.

  Definition ordered (g : tgraph) : tgraph := map (fun p => (fst p, order (snd p))) g.

  Lemma ordered_keys : forall g, map fst (ordered g) = keys g.
  Proof. intros g. unfold ordered, keys. rewrite map_map. reflexivity. Qed.

  Lemma ordered_edge : forall g a b, edge (ordered g) a b <-> link g a b /\ a <> b.
  Proof.
    intros g a b. unfold edge, link, ordered. split.
    - intros (ms & I & B & N). apply in_map_iff in I. destruct I as ([k ms'] & Q & I). apply pair_equal_spec in Q as [<- <-]. cbn in *.
      split; [|exact N]. exists ms'. split; [exact I|]. eapply Permutation_in; [apply ORDER|exact B].
    - intros ((ms & I & B) & N). exists (order ms). split; [apply in_map_iff; exists (a, ms); auto|]. split; [|exact N].
      eapply Permutation_in; [apply Permutation_sym; apply ORDER|exact B].
  Qed.

  Lemma sort_graph : forall n ts g, forallb is_class ts = true -> traverse_all E n ts new_collector = Ok g ->
    NoDup (keys g) /\ (forall k, In k (keys g) <-> k = NRoot \/ exists x, k = NType x /\ needed E ts x)
    /\ (forall k b, link g k b <-> exists y, b = NType y /\ ((k = NRoot /\ In y ts /\ classlike y) \/ exists x, k = NType x /\ needed E ts x /\ refers E x y)).
  Proof.
    intros n ts g C R. destruct new_keys as [ND A]. pose proof (traverse_post n ts _ _ R ND A) as P. destruct (post_graph E _ _ P) as (ND' & K & L).
    split; [exact ND'|]. split.
    - intros k. rewrite K. split; intros [->|(x & -> & G)]; auto; right; exists x; (split; [reflexivity|]); apply (grown_needed ts C); exact G.
    - intros k b. rewrite L. split; intros (y & -> & [(-> & M)|(x & -> & G & RF)]); exists y; (split; [reflexivity|]).
      + left. split; [reflexivity|]. destruct M as (t & T & M). rewrite forallb_forall in C. specialize (C t T). apply mentions_leaf_iff in M; [|destruct t; try discriminate C; exact Logic.I].
        destruct M as [-> CL]. auto.
      + right. exists x. split; [reflexivity|]. split; [apply (grown_needed ts C); exact G|exact RF].
      + left. split; [reflexivity|]. destruct M as [T CL]. exists y. split; [exact T|]. constructor. exact CL.
      + right. exists x. split; [reflexivity|]. split; [apply (grown_needed ts C); exact G|exact RF].
  Qed.

  Theorem type_sort_spec : forall n ts l, type_topological_sort E n order ts None = Ok l ->
    NoDup l /\ (forall k, In k l <-> k = NRoot \/ exists x, k = NType x /\ needed E ts x)
    /\ (forall x y, needed E ts x -> refers E x y -> x <> y -> before (NType y) (NType x) l)
    /\ (forall x, In x ts -> classlike x -> before (NType x) NRoot l).
  Proof.
    intros n ts l H. unfold type_topological_sort in H. destruct (forallb is_class ts) eqn:C; [|discriminate H].
    apply bind_ok in H. destruct H as (g & R & H). destruct (sort_graph n ts g C R) as (ND & K & L). change (topological_sort node_eqb (ordered g) = Ok l) in H.
    rewrite <- (ordered_keys g) in ND. destruct (sort_sound node_eqb node_eqb_iff (ordered g) ND l H) as (P & B).
    rewrite ordered_keys in P, ND. split; [eapply Permutation_NoDup; [apply Permutation_sym; exact P|exact ND]|]. split; [|split].
    - intros k. rewrite <- K. split; apply Permutation_in; [exact P|apply Permutation_sym; exact P].
    - intros x y N RF NE. apply B. apply ordered_edge. split; [|congruence]. apply L. exists y. split; [reflexivity|]. right. exists x. auto.
    - intros x X CL. apply B. apply ordered_edge. split; [|discriminate]. apply L. exists x. split; [reflexivity|]. left. auto.
  Qed.

  Theorem type_sort_total : program_ok E -> forall ts, forallb is_class ts = true -> (forall c, In (TClass c) ts -> get_class E c <> None) ->
    exists N, forall n, N <= n ->
      (circular E ts -> type_topological_sort E n order ts None = Err ERuntime) /\
      (~ circular E ts -> exists l, type_topological_sort E n order ts None = Ok l).
  Proof.
    intros PO ts C X. destruct (traverse_ok PO ts) as (N & g & R).
    { intros t T. rewrite forallb_forall in C. specialize (C t T). destruct t; try discriminate C; constructor. }
    { intros t d T M. rewrite forallb_forall in C. specialize (C t T). apply mentions_leaf_iff in M; [|destruct t; try discriminate C; exact Logic.I].
      destruct M as [<- _]. apply X. exact T. }
    exists N. intros n LN. specialize (R n LN). destruct (sort_graph n ts g C R) as (ND & K & L).
    unfold type_topological_sort. rewrite C, R. cbn [bind]. change (map (fun p => (fst p, order (snd p))) g) with (ordered g).
    assert (ND' : NoDup (map fst (ordered g))) by (rewrite ordered_keys; exact ND).
    assert (CLOSED : closed (ordered g)).
    { intros a b Eab. rewrite ordered_keys. apply ordered_edge in Eab. destruct Eab as (LK & _). apply L in LK. destruct LK as (y & -> & [(-> & T & CL)|(x & -> & NX & RF)]); apply K; right; exists y; (split; [reflexivity|]).
      - constructor; assumption.
      - eapply nd_step; eassumption. }
    assert (PATH : forall a b, clos_trans node (edge (ordered g)) a b -> forall x, a = NType x -> needed E ts x ->
      exists y, b = NType y /\ needed E ts y /\ clos_trans typ (fun a b => refers E a b /\ a <> b) x y).
    { intros a b T. induction T as [a b S|a b c T1 IH1 T2 IH2]; intros x -> NX.
      - apply ordered_edge in S. destruct S as (LK & NE). apply L in LK. destruct LK as (y & -> & [(Q & _)|(x' & Q & _ & RF)]); [discriminate Q|].
        injection Q as <-. exists y. split; [reflexivity|]. split; [eapply nd_step; eassumption|]. apply t_step. split; [exact RF|congruence].
      - destruct (IH1 x eq_refl NX) as (y & -> & NY & T). destruct (IH2 y eq_refl NY) as (z & -> & NZ & T'). exists z. split; [reflexivity|]. split; [exact NZ|].
        eapply t_trans; eassumption. }
    assert (HTAP : forall x y, clos_trans typ (fun a b => refers E a b /\ a <> b) x y -> needed E ts x ->
      needed E ts y /\ clos_trans node (edge (ordered g)) (NType x) (NType y)).
    { intros x y T. induction T as [x y [RF NE]|x y z T1 IH1 T2 IH2]; intros NX.
      - split; [eapply nd_step; eassumption|]. apply t_step. apply ordered_edge. split; [|congruence]. apply L. exists y. split; [reflexivity|]. right. exists x. auto.
      - destruct (IH1 NX) as (NY & T). destruct (IH2 NY) as (NZ & T'). split; [exact NZ|]. eapply t_trans; eassumption. }
    assert (CYC : cyclic (ordered g) <-> circular E ts).
    { split.
      - intros (a & T).
        assert (A : exists x, a = NType x /\ needed E ts x).
        { destruct (trans_last _ _ _ T) as (b & S). apply ordered_edge in S. destruct S as (LK & _). apply L in LK. destruct LK as (y & -> & _).
          assert (D : In (NType y) (keys g)).
          { destruct (trans_first _ _ _ T) as (b' & O). apply ordered_edge in O. destruct O as (O & _). eapply link_key. exact O. }
          apply K in D. destruct D as [Q|(x & Q & NX)]; [discriminate Q|]. exists x. auto. }
        destruct A as (x & -> & NX). destruct (PATH _ _ T x eq_refl NX) as (y & Q & _ & T'). injection Q as <-. exists x. auto.
      - intros (x & NX & T). exists (NType x). apply HTAP; assumption. }
    split.
    - intros CI. apply CYC in CI. destruct (topological_sort node_eqb (ordered g)) as [l|e] eqn:Q.
      + exfalso. apply (sort_not_cyclic node_eqb node_eqb_iff (ordered g) ND' l Q). exact CI.
      + destruct (sort_errors node_eqb node_eqb_iff (ordered g) ND' e Q) as [(-> & _)|(_ & NC)]; [reflexivity|contradiction].
    - intros NC. apply (sort_complete node_eqb node_eqb_iff (ordered g) ND' CLOSED). intros CC. apply NC. apply CYC. exact CC.
  Qed.

  Lemma reset_keys : forall g a k, In k (keys (reset_node g a)) <-> In k (keys g) \/ k = a.
  Proof.
    induction g as [|[k' ms] g IH]; intros a k; cbn [reset_node keys map fst].
    - cbn. intuition.
    - destruct (node_eqb k' a) eqn:Q; cbn [keys map fst].
      + apply node_eqb_iff in Q. subst k'. cbn. intuition.
      + cbn. pose proof (IH a k) as J. unfold keys in J. rewrite J. tauto.
  Qed.

  Lemma reset_nodup : forall g a, NoDup (keys g) -> NoDup (keys (reset_node g a)).
  Proof.
    induction g as [|[k' ms] g IH]; intros a ND; cbn [reset_node].
    - repeat constructor. intros [].
    - destruct (node_eqb k' a) eqn:Q; [exact ND|]. cbn [keys map fst] in ND |- *. inversion ND as [|? ? NI ND']; subst.
      constructor; [|apply IH; exact ND']. intros I. apply reset_keys in I. destruct I as [I| ->]; [contradiction|].
      rewrite (proj2 (node_eqb_iff a a) eq_refl) in Q. discriminate Q.
  Qed.

  Lemma reset_link : forall g a k b, NoDup (keys g) -> (link (reset_node g a) k b <-> link g k b /\ k <> a).
  Proof.
    induction g as [|[k' ms] g IH]; intros a k b ND; cbn [reset_node].
    - split; [intros (ms & [Q|[]] & B); apply pair_equal_spec in Q as [_ <-]; destruct B|intros [(ms & [] & _) _]].
    - cbn [keys map fst] in ND. inversion ND as [|? ? NI ND']; subst. destruct (node_eqb k' a) eqn:Q.
      + apply node_eqb_iff in Q. subst k'. rewrite !link_cons. split.
        * intros [(_ & [])|L]. split; [right; exact L|]. intros ->. apply NI. eapply link_key. exact L.
        * intros [[(<- & _)|L] N]; [contradiction|right; exact L].
      + rewrite !link_cons, (IH a k b ND'). assert (k' <> a) by (intros ->; rewrite (proj2 (node_eqb_iff a a) eq_refl) in Q; discriminate Q).
        split; [intros [(<- & B)|[L N]]; auto|intros [[(<- & B)|L] N]; auto].
  Qed.

  Lemma resets : forall new g, NoDup (keys g) ->
    NoDup (keys (fold_left reset_node new g)) /\ (forall k, In k (keys (fold_left reset_node new g)) <-> In k (keys g) \/ In k new)
    /\ (forall k b, link (fold_left reset_node new g) k b <-> link g k b /\ ~ In k new).
  Proof.
    induction new as [|a new IH]; intros g ND; cbn [fold_left].
    - split; [exact ND|]. split; [intros k; cbn; tauto|intros k b; cbn; tauto].
    - destruct (IH (reset_node g a) (reset_nodup g a ND)) as (ND' & K & L). split; [exact ND'|]. split.
      + intros k. rewrite K, reset_keys. cbn. intuition.
      + intros k b. rewrite L, (reset_link g a k b ND). cbn. intuition.
  Qed.

  Lemma set_adds : forall l s x, In x (fold_left set_add l s) <-> In x s \/ In x l.
  Proof. induction l as [|a l IH]; intros s x; cbn [fold_left]; [cbn; tauto|]. rewrite IH, set_add_in. cbn. intuition. Qed.

  Lemma dependencies_graph : forall dep g, NoDup (keys g) ->
    let added k := exists k0 y, In k0 (keys g) /\ In y (dep k0) /\ k = NType y in
    NoDup (keys (add_dependencies dep g)) /\ (forall k, In k (keys (add_dependencies dep g)) <-> In k (keys g) \/ added k)
    /\ (forall k b, link (add_dependencies dep g) k b <-> (link g k b \/ (In k (keys g) /\ exists y, In y (dep k) /\ b = NType y)) /\ ~ added k).
  Proof.
    intros dep g ND added. unfold add_dependencies.
    set (g1 := map (fun p => (fst p, fold_left set_add (map NType (dep (fst p))) (snd p))) g).
    set (new := flat_map (fun p => map NType (dep (fst p))) g).
    assert (K1 : keys g1 = keys g) by (unfold g1, keys; rewrite map_map; reflexivity).
    assert (NEW : forall k, In k new <-> added k).
    { intros k. unfold new, added. rewrite in_flat_map. split.
      - intros ([k0 ms] & I & J). apply in_map_iff in J. destruct J as (y & <- & Y). exists k0, y. split; [apply in_map_iff; exists (k0, ms); auto|]. auto.
      - intros (k0 & y & I & Y & ->). apply in_map_iff in I. destruct I as ([k' ms] & <- & I). exists (k', ms). split; [exact I|]. apply in_map. exact Y. }
    assert (L1 : forall k b, link g1 k b <-> link g k b \/ (In k (keys g) /\ exists y, In y (dep k) /\ b = NType y)).
    { intros k b. unfold link, g1. split.
      - intros (ms & I & B). apply in_map_iff in I. destruct I as ([k0 ms0] & Q & I). apply pair_equal_spec in Q as [<- <-]. cbn in *. apply set_adds in B.
        destruct B as [B|B]; [left; exists ms0; auto|]. right. apply in_map_iff in B. destruct B as (y & <- & Y). split; [apply in_map_iff; exists (k0, ms0); auto|]. exists y. auto.
      - intros [(ms & I & B)|(I & y & Y & ->)].
        + eexists. split; [apply in_map_iff; exists (k, ms); split; [reflexivity|exact I]|]. apply set_adds. left. exact B.
        + apply in_map_iff in I. destruct I as ([k' ms] & <- & I). eexists. split; [apply in_map_iff; exists (k', ms); split; [reflexivity|exact I]|].
          apply set_adds. right. apply in_map. exact Y. }
    rewrite <- K1 in ND. destruct (resets new g1 ND) as (ND' & K & L). split; [exact ND'|]. split.
    - intros k. rewrite K, K1, NEW. tauto.
    - intros k b. rewrite L, L1, NEW. tauto.
  Qed.

  Theorem type_sort_dependencies : forall n ts dep l, type_topological_sort E n order ts (Some dep) = Ok l ->
    let given k := k = NRoot \/ exists x, k = NType x /\ needed E ts x in
    let added k := exists k0 y, given k0 /\ In y (dep k0) /\ k = NType y in
    NoDup l /\ (forall k, In k l <-> given k \/ added k)
    /\ (forall x y, needed E ts x -> refers E x y -> x <> y -> ~ added (NType x) -> before (NType y) (NType x) l)
    /\ (forall k y, given k -> In y (dep k) -> k <> NType y -> ~ added k -> before (NType y) k l).
  Proof.
    intros n ts dep l H given added. unfold type_topological_sort in H. destruct (forallb is_class ts) eqn:C; [|discriminate H].
    apply bind_ok in H. destruct H as (g & R & H). destruct (sort_graph n ts g C R) as (ND & K & L).
    change (topological_sort node_eqb (ordered (add_dependencies dep g)) = Ok l) in H.
    destruct (dependencies_graph dep g ND) as (ND' & K' & L').
    assert (AD : forall k, (exists k0 y, In k0 (keys g) /\ In y (dep k0) /\ k = NType y) <-> added k).
    { intros k. unfold added, given. split; intros (k0 & y & I & Y & ->); exists k0, y; (split; [apply K; exact I|auto]). }
    rewrite <- (ordered_keys (add_dependencies dep g)) in ND'. destruct (sort_sound node_eqb node_eqb_iff _ ND' l H) as (P & B).
    rewrite ordered_keys in P, ND'. split; [eapply Permutation_NoDup; [apply Permutation_sym; exact P|exact ND']|]. split; [|split].
    - intros k. rewrite <- AD. unfold given. rewrite <- K, <- K'. split; apply Permutation_in; [exact P|apply Permutation_sym; exact P].
    - intros x y NX RF NE NA. apply B. apply ordered_edge. split; [|congruence]. apply L'. split; [|rewrite AD; exact NA]. left.
      apply L. exists y. split; [reflexivity|]. right. exists x. auto.
    - intros k y G Y NE NA. apply B. apply ordered_edge. split; [|exact NE]. apply L'. split; [|rewrite AD; exact NA]. right.
      split; [apply K; exact G|]. exists y. auto.
  Qed.
End Sort.
