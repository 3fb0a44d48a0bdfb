(** Proofs about programs and their later versions. *)
From Coq Require Import String List NArith ZArith Bool Lia Permutation.
From Verif Require Import Base Json PyTypes Mapping Deser Lists TypingFacts SpecTyping SpecRecursion DeserFuel DeserBuild DeserUnfold DeserSound SpecTypes SpecDeser DeserFacts
  TypeAlgebra TypeAlgebraProofs SpecFields FieldProofs SpecTagged TaggedProofs ExactProofs SpecEvolve.
Import ListNotations.
Open Scope list_scope.
Open Scope nat_scope.

Lemma inserted_in : forall A (P : A -> Prop) l l' x, inserted P l l' -> In x l -> In x l'.
Proof. intros A P l l' x H. induction H as [|y l l' _ IH|y l l' _ _ IH]; intros I; [exact I | destruct I as [<-|I]; [left; reflexivity | right; auto] | right; auto]. Qed.

(** * Values without objects *)

Inductive flat : value -> Prop :=
| fl_leaf : forall v, (match v with VList _ | VTuple _ | VSet _ | VDict _ | VObj _ _ => False | _ => True end) -> flat v
| fl_tuple : forall vs, Forall flat vs -> flat (VTuple vs).

Lemma flat_hashable : forall E E' v, flat v -> hashable E v = hashable E' v.
Proof.
  intros E E'. apply (value_induct (fun v => flat v -> hashable E v = hashable E' v)).
  1: intros v; destruct v; try exact Logic.I; intros; reflexivity.
  1,3,4,5: intros; match goal with F : flat _ |- _ => inversion F; subst; contradiction end.
  - intros vs IH F. cbn [hashable]. inversion F as [? X|? X]; subst; [contradiction|]. clear F. induction X as [|v vs Fv _ IHX]; [reflexivity|].
    inversion IH as [|? ? Hv IH']; subst. cbn [forallb]. rewrite (Hv Fv), (IHX IH'). reflexivity.
Qed.

Lemma flat_eq : forall E E' a b, flat a -> flat b -> py_eq E a b = py_eq E' a b.
Proof.
  intros E E'. apply (value_induct (fun a => forall b, flat a -> flat b -> py_eq E a b = py_eq E' a b)).
  1: intros a; destruct a; try exact Logic.I; intros b' _ F; inversion F as [? X|? X]; subst; try (destruct b'; try contradiction; reflexivity); reflexivity.
  1: intros vs _ b F; inversion F; subst; contradiction.
  2: intros vs _ b F; inversion F; subst; contradiction.
  2: intros vs _ b F; inversion F; subst; contradiction.
  2: intros c vs _ b F; inversion F; subst; contradiction.
  - intros vs IH b F F'. inversion F as [? X|? X]; subst; [contradiction|]. clear F. inversion F' as [? Y|us Y]; subst; [destruct b; try contradiction; reflexivity|].
    cbn [py_eq value_number]. clear F'. revert us Y. induction X as [|v vs Fv _ IHX]; intros us Y; destruct us as [|u us]; try reflexivity.
    inversion IH as [|? ? Hv IH']; subst. inversion Y as [|? ? Fu Y']; subst. cbn [list_eqb]. rewrite (Hv u Fv Fu), (IHX IH' us Y'). reflexivity.
Qed.

Lemma flat_set : forall E E' vs acc, Forall flat vs -> Forall flat acc -> set_of E acc vs = set_of E' acc vs.
Proof.
  intros E E'. induction vs as [|v vs IH]; intros acc F A; [reflexivity|]. inversion F as [|? ? Fv F']; subst. cbn [set_of].
  assert (Q : existsb (fun u => py_eq E u v) acc = existsb (fun u => py_eq E' u v) acc).
  { clear - A Fv. induction A as [|u acc Fu _ IH]; [reflexivity|]. cbn [existsb]. rewrite (flat_eq E E' u v Fu Fv), IH. reflexivity. }
  rewrite Q. clear Q. destruct (existsb _ acc); apply IH; try assumption. constructor; assumption.
Qed.

Lemma literal_eq : forall E E' l v, py_eq E (lit_value l) v = py_eq E' (lit_value l) v.
Proof. intros E E' l v. destruct l; cbn [lit_value]; destruct v; reflexivity. Qed.

Section Evolve.
  Variables E E' : env.
  Hypothesis EV : evolved E E'.
  Hypothesis OK : env_ok E.
  Hypothesis OK' : env_ok E'.
  Hypothesis CE : canonical_env E.
  Hypothesis CE' : canonical_env E'.
  Hypothesis GE : guarded_env E.
  Hypothesis GE' : guarded_env E'.
  Hypothesis CALM : calm E.
  Hypothesis CALM' : calm E'.
  Hypothesis ORD : shuffles (e_order E).

  Lemma class_kept : forall c cl, get_class E c = Some cl -> exists cl', get_class E' c = Some cl' /\ renewed E E' cl cl'.
  Proof. exact (ev_class _ _ EV). Qed.

  Lemma enum_kept : forall c cl ms, get_class E c = Some cl -> c_kind cl = CEnum ms -> exists cl', get_class E' c = Some cl' /\ c_kind cl' = CEnum ms.
  Proof.
    intros c cl ms G K. destruct (class_kept c cl G) as (cl' & G' & R). exists cl'. split; [exact G'|]. pose proof (rn_kind _ _ _ _ R) as X. rewrite K in X.
    destruct (c_kind cl'); try contradiction. exact (proj1 X).
  Qed.

  (** * Tags *)

  Definition is_literal (f : pystr * typ) : bool := match literal_values (snd f) with Some _ => true | None => false end.

  Lemma inserted_literals : forall ps ps', inserted (fun f => literal_values (snd f) = None) ps ps' -> filter is_literal ps' = filter is_literal ps.
  Proof.
    intros ps ps' H. induction H as [|x l l' _ IH|x l l' N _ IH]; [reflexivity | |]; cbn [filter].
    - rewrite IH. reflexivity.
    - unfold is_literal at 1. rewrite N. exact IH.
  Qed.

  Lemma literals_kept : forall t ps ps', literal_properties E t = Ok ps -> literal_properties E' t = Ok ps' -> ps' = ps.
  Proof.
    intros t ps ps' H H'. destruct t; cbn [literal_properties] in *; try congruence.
    destruct (get_class E c) as [cl|] eqn:G; [|discriminate]. destruct (class_kept c cl G) as (cl' & G' & R). rewrite G' in H'.
    apply bind_ok in H, H'. destruct H as (l & C & H). destruct H' as (l' & C' & H'). injection H as <-. injection H' as <-.
    f_equal. apply inserted_literals. exact (rn_literals _ _ _ _ R _ _ C C').
  Qed.

  Lemma common_kept : forall ts qs ps ps', common_properties E qs ts = Ok ps -> common_properties E' qs ts = Ok ps' -> ps' = ps.
  Proof.
    induction ts as [|t ts IH]; intros qs ps ps' H H'; cbn [common_properties] in *; [congruence|].
    apply bind_ok in H, H'. destruct H as (l & C & H). destruct H' as (l' & C' & H'). rewrite (literals_kept _ _ _ C C') in H'. eapply IH; eassumption.
  Qed.

  Lemma discriminating_kept : forall ts ps ps', discriminating_properties E ts = Ok ps -> discriminating_properties E' ts = Ok ps' -> ps' = ps.
  Proof.
    intros [|t ts] ps ps' H H'; cbn [discriminating_properties] in *; [congruence|]. destruct (forallb is_class_type (t :: ts)); [|congruence].
    apply bind_ok in H, H'. destruct H as (l & C & H). destruct H' as (l' & C' & H'). rewrite (literals_kept _ _ _ C C') in H'. eapply common_kept; eassumption.
  Qed.

  Lemma properties_distinct : forall F c cl ps, env_ok F -> get_class F c = Some cl -> class_properties F cl = Ok ps -> NoDup (map fst ps).
  Proof.
    intros F c cl ps O G C. pose proof (ok_names _ _ _ (O c cl G)) as N. unfold class_properties in C.
    destruct (c_kind cl) eqn:K; try (apply hints_names in C; rewrite C, K; exact N). injection C as <-. exact N.
  Qed.

  Lemma tag_values_kept : forall ts ps p t ls ls', discriminating_properties E ts = Ok ps -> In p ps -> In t ts ->
    tag_values E t p = Ok ls -> tag_values E' t p = Ok ls' -> ls' = ls.
  Proof.
    intros ts ps p t ls ls' D I It H H'. apply (discriminating_spec E ts ps p D) in I. destruct I as (_ & F). rewrite Forall_forall in F.
    destruct (F t It) as (c & vs & -> & cl & u & qs & G & C & Iu & LV). destruct (class_kept c cl G) as (cl' & G' & R).
    cbn [tag_values] in H, H'. rewrite G in H. rewrite G' in H'. apply bind_ok in H, H'. destruct H as (l & Cl & H). destruct H' as (l' & Cl' & H').
    rewrite C in Cl. injection Cl as <-. pose proof (rn_literals _ _ _ _ R _ _ C Cl') as IN.
    rewrite (dict_get_nodup _ _ _ (properties_distinct _ _ _ _ OK G C) Iu) in H.
    rewrite (dict_get_nodup _ _ _ (properties_distinct _ _ _ _ OK' G' Cl') (inserted_in _ _ _ _ _ IN Iu)) in H'. rewrite LV in H, H'. congruence.
  Qed.

  Lemma mapM_agree : forall A B (f g : A -> res B) l r r', (forall x a b, In x l -> f x = Ok a -> g x = Ok b -> b = a) -> mapM f l = Ok r -> mapM g l = Ok r' -> r' = r.
  Proof.
    intros A B f g l r r' H Hf Hg. apply mapM_ok in Hf, Hg. revert r' Hg H. induction Hf as [|x a l r Q _ IH]; intros r' Hg H; inversion Hg as [|? b ? r1 Q' Hg']; subst; [reflexivity|].
    f_equal; [eapply H; [left; reflexivity | eassumption | eassumption] | apply IH; [exact Hg' | intros y a' b' I; apply H; right; exact I]].
  Qed.

  Lemma table_kept : forall ts ps tbl tbl', discriminating_properties E ts = Ok ps -> tag_table E (e_order E ps) ts = Ok tbl -> tag_table E' (e_order E ps) ts = Ok tbl' -> tbl' = tbl.
  Proof.
    intros ts ps tbl tbl' D H H'. unfold tag_table in *. apply bind_ok in H, H'. destruct H as (rs & H & Q). destruct H' as (rs' & H' & Q'). injection Q as <-. injection Q' as <-.
    f_equal. eapply mapM_agree; [|exact H | exact H']. intros t a b It A B. unfold tag_row in *. apply bind_ok in A, B. destruct A as (xs & A & Q). destruct B as (ys & B & Q').
    injection Q as <-. injection Q' as <-. f_equal. eapply mapM_agree; [|exact A | exact B]. intros p u w Ip U W. cbn beta in U, W. apply bind_ok in U, W.
    destruct U as (ls & U & Q). destruct W as (ls' & W & Q'). injection Q as <-. injection Q' as <-. f_equal.
    eapply tag_values_kept; try eassumption. eapply Permutation_in; [apply ORD | exact Ip].
  Qed.

  (** * Types without objects *)

  Lemma rigid_same : forall skip n m t j, rigid E m t -> parse E skip n m t j = parse E' skip n m t j.
  Proof.
    intros skip. induction n as [|n IH]; intros m t j R; [reflexivity|].
    inversion R as [k|c cl ms G K|ls L|ts L|u md U|s a u L U]; subst; cbn [parse].
    - reflexivity.
    - destruct (enum_kept c cl ms G K) as (cl' & G' & K'). rewrite G, G', K, K'. reflexivity.
    - destruct (literal_type ls) as [u|] eqn:LT; [|reflexivity]. cbn [bind].
      assert (U : rigid E m u) by (destruct ls as [|l ls]; [discriminate LT|]; rewrite <- (literal_type_all _ _ LT l (or_introl eq_refl)); apply L; left; reflexivity).
      rewrite (IH m u j U). destruct (parse E' skip n m u j) as [v|]; [|reflexivity]. cbn [bind].
      assert (Q : existsb (fun l => py_eq E (lit_value l) v) ls = existsb (fun l => py_eq E' (lit_value l) v) ls).
      { clear. induction ls as [|l ls IH]; [reflexivity|]. cbn [existsb]. rewrite IH, (literal_eq E E'). reflexivity. }
      rewrite Q. reflexivity.
    - destruct j; try reflexivity. destruct (Nat.eqb (length l) (length ts)); [|reflexivity].
      rewrite (zip_parse_ext (parse E skip n m) (parse E' skip n m)); [reflexivity|]. intros t x I _. apply IH. apply L. exact I.
    - destruct u; try reflexivity; apply IH; exact U.
    - rewrite L, (ev_names _ _ EV _ _ _ L). change (unwrap_annotated u) with (deref u) in U. destruct (deref u); try reflexivity; apply IH; exact U.
  Qed.

  Lemma rigid_flat : forall skip n m t j v, rigid E m t -> parse E skip n m t j = Ok v -> flat v.
  Proof.
    intros skip. induction n as [|n IH]; intros m t j v R H; [discriminate H|].
    inversion R as [k|c cl ms G K|ls L|ts L|u md U|s a u L U]; subst; cbn [parse] in H.
    - apply fl_leaf. destruct k, j; try discriminate H; cbn [parse_scalar] in H; try (injection H as <-; exact Logic.I);
        apply bind_ok in H; destruct H as (x & _ & H); injection H as <-; exact Logic.I.
    - rewrite G, K in H. apply parse_enum_out in H. destruct H as (x & ->). apply fl_leaf. exact Logic.I.
    - apply bind_ok in H. destruct H as (u & LT & H). apply bind_ok in H. destruct H as (w & P & H). destruct (existsb _ ls); [|discriminate H]. injection H as ->.
      eapply IH; [|exact P]. destruct ls as [|l ls]; [discriminate LT|]. rewrite <- (literal_type_all _ _ LT l (or_introl eq_refl)). apply L. left. reflexivity.
    - destruct j as [| | | | |js|]; try discriminate H. destruct (Nat.eqb (length js) (length ts)); [|discriminate H]. apply bind_ok in H. destruct H as (vs & Z & H). injection H as <-.
      apply fl_tuple. clear R. revert js vs Z. induction ts as [|t ts IHt]; intros js vs Z; [injection Z as <-; constructor|]. destruct js as [|j js]; [injection Z as <-; constructor|].
      cbn [zip_parse] in Z. destruct (parse E skip n m t j) as [w|] eqn:P; [|discriminate Z]. destruct (zip_parse _ ts js) as [ws|] eqn:Z'; [|discriminate Z]. injection Z as <-.
      constructor; [eapply IH; [apply L; left; reflexivity | exact P] | eapply IHt; [|exact Z']; intros; apply L; right; assumption].
    - destruct u; try discriminate H; eapply IH; eassumption.
    - rewrite L in H. change (unwrap_annotated u) with (deref u) in U. destruct (deref u); try discriminate H; eapply IH; eassumption.
  Qed.

  (** * Documents of other kinds *)

  Lemma ready_tags : forall F m op ts, ready F m (TUnion op ts) -> exists ps, discriminating_properties F ts = Ok ps /\
    (ps = [] \/ exists tbl, tag_table F (e_order F ps) ts = Ok tbl).
  Proof.
    intros F m op ts R. destruct (ready_static F m _ R) as (vis & _ & SO). inversion SO as [| | | | |? ? ps D T _| | | | | |]; subst. exists ps. split; [exact D|].
    destruct T as [T|(tbl & T & _)]; eauto.
  Qed.

  (** What both versions make of the tags of a union. *)
  Lemma tags_kept : forall m op ts, ready E m (TUnion op ts) -> ready E' m (TUnion op ts) ->
    exists ps, discriminating_properties E ts = Ok ps /\ discriminating_properties E' ts = Ok ps /\
    (ps = [] \/ exists tbl, tag_table E (e_order E ps) ts = Ok tbl /\ tag_table E' (e_order E' ps) ts = Ok tbl).
  Proof.
    intros m op ts R R'. destruct (ready_tags E m op ts R) as (ps & D & T). destruct (ready_tags E' m op ts R') as (ps' & D' & T').
    pose proof (discriminating_kept _ _ _ D D') as Q. subst ps'. exists ps. split; [exact D|]. split; [exact D'|].
    destruct T as [T|(tbl & T)]; [left; exact T|]. destruct T' as [T'|(tbl' & T')]; [left; exact T'|]. right. exists tbl. split; [exact T|].
    rewrite (ev_order _ _ EV) in T' |- *. rewrite T'. f_equal. eapply table_kept; eassumption.
  Qed.

  Lemma fields_kept : forall cl cl', renewed E E' cl cl' -> by_fields cl -> by_fields cl'.
  Proof.
    intros cl cl' R B. pose proof (rn_kind _ _ _ _ R) as K. pose proof (rn_hook _ _ _ _ R) as H. unfold by_fields in *.
    destruct (c_kind cl), (c_kind cl'); try contradiction; try rewrite H; first [exact Logic.I | exact B].
  Qed.

  Lemma by_fields_fieldwise : forall cl, by_fields cl -> fieldwise cl.
  Proof. intros cl B. unfold by_fields, fieldwise in *. destruct (c_kind cl), (c_from_json cl); try contradiction; try exact Logic.I; reflexivity. Qed.

  Lemma alien_same : forall skip n m t j, ~ admits E m t (kind_of j) -> ready E m t -> ready E' m t -> parse E skip n m t j = parse E' skip n m t j.
  Proof.
    intros skip. induction n as [|n IH]; intros m t j N R R'; [reflexivity|].
    destruct t as [k|b|w|w|k w|ts|op ts|ls|w md|c|s|]; cbn [parse]; try reflexivity.
    - destruct j; try reflexivity. destruct N. apply ad_list.
    - destruct j; try reflexivity. destruct N. apply ad_set.
    - destruct j; try reflexivity. destruct N. apply ad_dict.
    - destruct j; try reflexivity. destruct N. apply ad_tuple.
    - destruct (tags_kept m op ts R R') as (ps & D & D' & T). rewrite D, D'. cbn [bind]. pose proof (ready_union E GE m op ts R) as F. pose proof (ready_union E' GE' m op ts R') as F'.
      rewrite Forall_forall in F, F'.
      assert (X : forall t, In t ts -> parse E skip n m t j = parse E' skip n m t j).
      { intros t I. apply IH; auto. intros A. apply N. eapply ad_union; eassumption. }
      destruct ps as [|p ps]; [apply union_try_ext; exact X|]. destruct T as [T|(tbl & T & T')]; [discriminate T|]. cbv zeta. rewrite T, T', (ev_order _ _ EV). cbn [bind].
      destruct j as [| | | | | |o]; try reflexivity. destruct (tag_select tbl (e_order E (p :: ps)) o) as [u|] eqn:SEL; [|reflexivity]. cbn [bind].
      apply tag_select_in in SEL. destruct SEL as (p' & l' & x & _ & I & _). apply (tag_table_in _ _ _ _ _ _ _ T) in I. apply X. tauto.
    - destruct (ready_literal E GE m ls R) as (u & LT & RU). destruct (ready_literal E' GE' m ls R') as (u' & LT' & RU'). rewrite LT in LT'. injection LT' as <-. rewrite LT. cbn [bind].
      assert (NU : ~ admits E m u (kind_of j)).
      { intros A. apply N. destruct ls as [|l ls]; [discriminate LT|]. eapply ad_literal; [left; reflexivity|]. rewrite (literal_type_all _ _ LT l (or_introl eq_refl)). exact A. }
      rewrite (IH m u j NU RU RU'). destruct (parse E' skip n m u j) as [v|]; [|reflexivity]. cbn [bind].
      assert (Q : existsb (fun l => py_eq E (lit_value l) v) ls = existsb (fun l => py_eq E' (lit_value l) v) ls).
      { clear. induction ls as [|l ls IH]; [reflexivity|]. cbn [existsb]. rewrite IH, (literal_eq E E'). reflexivity. }
      rewrite Q. reflexivity.
    - destruct (ready_annot E GE m w md R) as (RW & NR). destruct (ready_annot E' GE' m w md R') as (RW' & _).
      assert (X : parse E skip n m w j = parse E' skip n m w j) by (apply IH; try assumption; intros A; apply N; apply ad_annot; exact A).
      destruct w; try reflexivity; exact X.
    - destruct (ready_class E GE m c R) as (cl & G & B). destruct (ready_class E' GE' m c R') as (cl' & G' & B').
      destruct (class_kept c cl G) as (cl2 & G2 & RN). rewrite G' in G2. injection G2 as <-. rewrite G, G'.
      pose proof (rn_kind _ _ _ _ RN) as K. pose proof (rn_hook _ _ _ _ RN) as H. rewrite H.
      assert (X : by_fields cl -> (do fps <- field_parsers E cl; parse_object (parse E skip n (c_module cl)) skip c cl fps j) =
        (do fps <- field_parsers E' cl'; parse_object (parse E' skip n (c_module cl')) skip c cl' fps j)).
      { intros BF. destruct (B BF) as (fps & F & _). destruct (B' (fields_kept _ _ RN BF)) as (fps' & F' & _). rewrite F, F'. cbn [bind].
        destruct j; try reflexivity. destruct N. eapply ad_object; [exact G|]. unfold by_fields in BF. destruct (c_kind cl); [contradiction BF | exact Logic.I ..]. }
      unfold by_fields in X. destruct (c_kind cl) as [ms|hs|xs|fr fs|hs] eqn:KC, (c_kind cl') as [ms'|hs'|xs'|fr' fs'|hs'] eqn:KC'; try contradiction K;
        destruct (c_from_json cl) as [h|] eqn:HC; try (apply X; exact Logic.I).
      1,2: destruct K as (K & _); injection K as ->; reflexivity.
      1,2: destruct N; eapply ad_hook; [exact G | rewrite KC; exact Logic.I | exact HC].
    - destruct (ready_ref E GE m s R) as (a & u & L & NR & RU). destruct (ready_ref E' GE' m s R') as (a' & u' & L' & _ & RU').
      pose proof (ev_names _ _ EV _ _ _ L) as L2. rewrite L' in L2. injection L2 as -> ->. rewrite L, L'.
      assert (X : parse E skip n m (deref u) j = parse E' skip n m (deref u) j).
      { apply IH; try assumption. intros A. apply N. eapply ad_ref; [exact L|]. destruct u; try exact A. apply ad_annot. exact A. }
      destruct (deref u); try reflexivity; exact X.
  Qed.

  (** Kinds of documents do not change. *)
  Lemma admits_kept : forall m t jk, admits E' m t jk -> ready E m t \/ (exists w md, t = TAnnot w md /\ ready E m w) -> admits E m t jk.
  Proof.
    intros m t jk A. induction A as [k jk S|t|t|ts|k t|op ts t jk I _ IH|ls l jk I _ IH|t md jk _ IH|s a t jk L _ IH|c cl ms x w jk G K I MK|c cl G NE|c cl h jk G K H]; intros R;
      try (constructor; fail).
    - apply ad_scalar. exact S.
    - destruct R as [R|(w & md & Q & _)]; [|discriminate Q]. eapply ad_union; [exact I|]. apply IH. left. pose proof (ready_union E GE m op ts R) as F. rewrite Forall_forall in F. apply F. exact I.
    - destruct R as [R|(w & md & Q & _)]; [|discriminate Q].
      eapply ad_literal; [exact I|]. apply IH. left. destruct (ready_literal E GE m ls R) as (u & LT & RU). rewrite (literal_type_all _ _ LT l I). exact RU.
    - apply ad_annot. apply IH. left. destruct R as [R|(w & md' & Q & R)]; [exact (proj1 (ready_annot E GE m t md R))|]. injection Q as -> _. exact R.
    - destruct R as [R|(w & md & Q & _)]; [|discriminate Q].
      destruct (ready_ref E GE m s R) as (a' & u & L' & NR & RU). pose proof (ev_names _ _ EV _ _ _ L') as L2. rewrite L in L2. injection L2 as -> ->.
      eapply ad_ref; [exact L'|]. apply IH. destruct u as [k|b|w|w|k w|ts|op ts|ls|w md|c|s2|]; try (left; exact RU). right. eauto.
    - destruct R as [R|(w0 & md & Q & _)]; [|discriminate Q].
      destruct (ready_class E GE m c R) as (cl0 & G0 & _). destruct (class_kept c cl0 G0) as (cl2 & G2 & RN). rewrite G in G2. injection G2 as <-.
      pose proof (rn_kind _ _ _ _ RN) as K2. rewrite K in K2. destruct (c_kind cl0) as [ms0|hs|xs|fr fs|hs] eqn:K0; try contradiction K2. destruct K2 as (K2 & _). injection K2 as ->.
      eapply ad_enum; eassumption.
    - destruct R as [R|(w0 & md & Q & _)]; [|discriminate Q].
      destruct (ready_class E GE m c R) as (cl0 & G0 & _). destruct (class_kept c cl0 G0) as (cl2 & G2 & RN). rewrite G in G2. injection G2 as <-.
      pose proof (rn_kind _ _ _ _ RN) as K2. eapply ad_object; [exact G0|]. destruct (c_kind cl0), (c_kind cl); try contradiction; exact Logic.I.
    - destruct R as [R|(w0 & md & Q & _)]; [|discriminate Q].
      destruct (ready_class E GE m c R) as (cl0 & G0 & _). destruct (class_kept c cl0 G0) as (cl2 & G2 & RN). rewrite G in G2. injection G2 as <-.
      pose proof (rn_kind _ _ _ _ RN) as K2. rewrite (rn_hook _ _ _ _ RN) in H. eapply ad_hook; [exact G0| |exact H]. destruct (c_kind cl0), (c_kind cl); try contradiction; exact Logic.I.
  Qed.

  (** * Fields *)

  Lemma inserted_refl : forall A (P : A -> Prop) l, inserted P l l.
  Proof. intros A P. induction l; constructor; assumption. Qed.

  Lemma inserted_apart : forall A B (P : A -> Prop) (f : A -> B) l l' pre, inserted P l l' -> NoDup (pre ++ map f l') ->
    inserted (fun x => P x /\ ~ In (f x) (pre ++ map f l)) l l'.
  Proof.
    intros A B P f l l' pre H. revert pre. induction H as [|x l l' H IH|x l l' Px H IH]; intros pre ND; [constructor|..]; cbn [map] in ND.
    - apply in_keep. specialize (IH (pre ++ [f x])). rewrite <- !app_assoc in IH. cbn [app] in IH. specialize (IH ND). cbn [map]. exact IH.
    - apply NoDup_remove in ND. destruct ND as (ND & NI). apply in_new; [|apply IH; exact ND]. split; [exact Px|]. intros I. apply NI. apply in_app_or in I. apply in_or_app.
      destruct I as [I|I]; [left; exact I|]. right. apply in_map_iff in I. destruct I as (y & <- & I). apply in_map. eapply inserted_in; eassumption.
  Qed.

  (** The parsers of fields that were added. *)
  Definition added (cl : class) (fp : fparser) : Prop := exists L t d, layout E' cl L /\ In (fp_name fp, t, d) L /\
    ((exists v, d = Some (Ok v) /\ fp_mode fp = FDefault (Ok v)) \/ (d = None /\ fp_mode fp = FOptional)).

  Lemma parsers_inserted : forall cl L0 L L' fps fps', layout E' cl L0 -> incl L' L0 -> inserted spare L L' ->
    mapM (fun '((x, t), d) => field_parser x t d) L = Ok fps -> mapM (fun '((x, t), d) => field_parser x t d) L' = Ok fps' -> inserted (added cl) fps fps'.
  Proof.
    intros cl L0 L L' fps fps' LA IN H. revert fps fps'. induction H as [|[[x t] d] l l' _ IH|[[x t] d] l l' S _ IH]; intros fps fps' F F'.
    - cbn [mapM] in F, F'. injection F as <-. injection F' as <-. constructor.
    - cbn [mapM] in F, F'. destruct (field_parser x t d) as [fp|]; [|discriminate F].
      destruct (mapM _ l) as [r|] eqn:M; [|discriminate F]. destruct (mapM _ l') as [r'|] eqn:M'; [|discriminate F']. cbn [bind] in F, F'. injection F as <-. injection F' as <-.
      apply in_keep. apply IH; [intros z I; apply IN; right; exact I | reflexivity | reflexivity].
    - cbn [mapM] in F'. destruct (field_parser x t d) as [fp|] eqn:FP; [|discriminate F'].
      destruct (mapM _ l') as [r'|] eqn:M'; [|discriminate F']. cbn [bind] in F'. injection F' as <-.
      apply in_new; [|apply IH; [intros z I; apply IN; right; exact I | exact F | reflexivity]].
      unfold field_parser in FP. destruct (if is_type_optional t then unwrap_optional t else Ok t) as [u|]; [|discriminate FP]. cbn [bind] in FP. injection FP as <-.
      exists L0, t, d. split; [exact LA|]. split; [apply IN; left; reflexivity|]. cbn [fp_mode]. destruct S as [(v & ->)|(-> & O)]; [left; eauto|]. right. split; [reflexivity|].
      apply is_type_optional_spec in O. rewrite O. reflexivity.
  Qed.

  Lemma parsers_distinct : forall cl L fps, (match c_kind cl with CTuple _ => False | _ => True end) -> told_by_name cl L ->
    mapM (fun '((x, t), d) => field_parser x t d) L = Ok fps -> NoDup (map fp_prop fps).
  Proof.
    intros cl L fps K T. revert fps. induction T as [|[[x t] d] l A _ IH]; intros fps F; cbn [mapM] in F; [injection F as <-; constructor|].
    destruct (field_parser x t d) as [fp|] eqn:FP; [|discriminate F]. destruct (mapM _ l) as [r|] eqn:M; [|discriminate F]. cbn [bind] in F. injection F as <-.
    cbn [map]. constructor; [|apply IH; reflexivity]. intros I. apply in_map_iff in I. destruct I as (fq & Q & I).
    apply mapM_ok in M. destruct (Forall2_in_r _ _ _ _ _ _ M I) as ([[y u] e] & Iy & FQ). rewrite Forall_forall in A. specialize (A _ Iy (fp_prop fp)). cbn [fst snd] in A.
    assert (X : forall z w g fz, field_parser z w g = Ok fz -> json_name cl z w (fp_prop fz)).
    { intros z w g fz Z. unfold field_parser in Z. destruct (if is_type_optional w then unwrap_optional w else Ok w); [|discriminate Z]. cbn [bind] in Z. injection Z as <-.
      cbn [fp_prop]. unfold json_name. destruct (c_kind cl); try contradiction K; apply json_property_spec; reflexivity. }
    apply A; [eapply X; exact FP|]. rewrite <- Q. eapply X. exact FQ.
  Qed.

  Lemma parsers_kept : forall c cl cl' fps fps', get_class E c = Some cl -> get_class E' c = Some cl' -> renewed E E' cl cl' -> by_fields cl ->
    field_parsers E cl = Ok fps -> field_parsers E' cl' = Ok fps' -> inserted (fun fp => added cl' fp /\ ~ In (fp_prop fp) (map fp_prop fps)) fps fps'.
  Proof.
    intros c cl cl' fps fps' G G' RN BF F F'. pose proof (rn_kind _ _ _ _ RN) as K. pose proof (rn_hook _ _ _ _ RN) as H.
    assert (X : ordinary cl -> ordinary cl' -> inserted (fun fp => added cl' fp /\ ~ In (fp_prop fp) (map fp_prop fps)) fps fps').
    { intros O O'. destruct (hints E cl) as [hs|e] eqn:HS; [|unfold field_parsers in F; rewrite HS in F; discriminate F].
      destruct (hints E' cl') as [hs'|e] eqn:HS'; [|unfold field_parsers in F'; rewrite HS' in F'; discriminate F'].
      destruct (layout_any E cl hs HS) as (L & LA). destruct (layout_any E' cl' hs' HS') as (L' & LA').
      rewrite (layout_parsers E c cl L G O LA) in F. rewrite (layout_parsers E' c cl' L' G' O' LA') in F'.
      apply (inserted_apart _ _ _ fp_prop _ _ []).
      - eapply parsers_inserted; [exact LA' | apply incl_refl | exact (rn_fields _ _ _ _ RN _ _ LA LA') | exact F | exact F'].
      - cbn [app]. eapply parsers_distinct; [|exact (rn_names _ _ _ _ RN _ LA') | exact F']. unfold ordinary in O'. destruct (c_kind cl'); try contradiction O'; exact Logic.I. }
    unfold ordinary in X. unfold by_fields in BF. destruct (c_kind cl) as [ms|hs|xs|fr fs|hs] eqn:KC, (c_kind cl') as [ms'|hs'|xs'|fr' fs'|hs'] eqn:KC'; try contradiction;
      destruct (c_from_json cl) eqn:HC; try contradiction; try (apply X; [reflexivity | exact H]).
    all: destruct K as (K & HQ); unfold field_parsers in F, F'; rewrite KC in F; rewrite KC', HQ in F'; destruct (hints E cl) as [hh|]; [|discriminate F];
      cbn [bind] in F, F'; injection F as <-; injection F' as <-; apply inserted_refl.
  Qed.

  Lemma fields_backward : forall (N : nat -> pystr -> value -> Prop) (p p' : typ -> json -> res value) o c (P : fparser -> Prop) fps fps' vals, inserted P fps fps' ->
    (forall fp j v, In fp fps -> p (fp_type fp) j = Ok v -> exists v', p' (fp_type fp) j = Ok v' /\ grown N v v') ->
    (forall fp, P fp -> exists w, parse_field p' fp o = Ok w /\ N c (fp_name fp) w) ->
    mapM (fun fp => do v <- parse_field p fp o; Ok (fp_name fp, v)) fps = Ok vals ->
    exists vals', mapM (fun fp => do v <- parse_field p' fp o; Ok (fp_name fp, v)) fps' = Ok vals' /\ grown_attrs N c vals vals'.
  Proof.
    intros N p p' o c P fps fps' vals H. revert vals. induction H as [|fp l l' _ IH|fp l l' Pf _ IH]; intros vals SIM NEW M.
    - cbn [mapM] in M |- *. injection M as <-. exists []. split; [reflexivity | constructor].
    - cbn [mapM] in M |- *. destruct (parse_field p fp o) as [v|] eqn:PF; [|discriminate M]. cbn [bind] in M.
      destruct (mapM _ l) as [r|] eqn:ML; [|discriminate M]. cbn [bind] in M. injection M as <-.
      destruct (IH r (fun fq j w I => SIM fq j w (or_intror I)) NEW eq_refl) as (r' & M' & GR).
      assert (X : exists v', parse_field p' fp o = Ok v' /\ grown N v v').
      { pose proof (fun j w => SIM fp j w (or_introl eq_refl)) as SF. unfold parse_field in PF |- *.
        destruct (fp_mode fp) as [| |d]; destruct (dict_get o (fp_prop fp)) as [j|]; try discriminate PF; try (exists v; split; [exact PF | constructor]);
          destruct j; try discriminate PF; first [apply SF; exact PF | exists v; split; [exact PF | constructor]]. }
      destruct X as (v' & PF' & GV). exists ((fp_name fp, v') :: r'). rewrite PF'. cbn [bind]. rewrite M'. split; [reflexivity|]. apply ga_keep; assumption.
    - destruct (NEW fp Pf) as (w & PW & NW). destruct (IH vals SIM NEW M) as (r' & M' & GR). exists ((fp_name fp, w) :: r'). cbn [mapM]. rewrite PW. cbn [bind]. rewrite M'.
      split; [reflexivity|]. apply ga_new; assumption.
  Qed.

  Lemma fields_forward : forall (N : nat -> pystr -> value -> Prop) (p p' : typ -> json -> res value) o c (P : fparser -> Prop) fps fps' vals', (forall x v, N c x v) -> inserted P fps fps' ->
    (forall fp j v', In fp fps -> p' (fp_type fp) j = Ok v' -> exists v, p (fp_type fp) j = Ok v /\ grown N v v') ->
    mapM (fun fp => do v <- parse_field p' fp o; Ok (fp_name fp, v)) fps' = Ok vals' ->
    exists vals, mapM (fun fp => do v <- parse_field p fp o; Ok (fp_name fp, v)) fps = Ok vals /\ grown_attrs N c vals vals'.
  Proof.
    intros N p p' o c P fps fps' vals' NN H. revert vals'. induction H as [|fp l l' _ IH|fp l l' Pf _ IH]; intros vals' SIM M.
    - cbn [mapM] in M |- *. injection M as <-. exists []. split; [reflexivity | constructor].
    - cbn [mapM] in M |- *. destruct (parse_field p' fp o) as [v|] eqn:PF; [|discriminate M]. cbn [bind] in M.
      destruct (mapM _ l') as [r|] eqn:ML; [|discriminate M]. cbn [bind] in M. injection M as <-.
      destruct (IH r (fun fq j w I => SIM fq j w (or_intror I)) eq_refl) as (r' & M' & GR).
      assert (X : exists v', parse_field p fp o = Ok v' /\ grown N v' v).
      { pose proof (fun j w => SIM fp j w (or_introl eq_refl)) as SF. unfold parse_field in PF |- *.
        destruct (fp_mode fp) as [| |d]; destruct (dict_get o (fp_prop fp)) as [j|]; try discriminate PF; try (exists v; split; [exact PF | constructor]);
          destruct j; try discriminate PF; first [apply SF; exact PF | exists v; split; [exact PF | constructor]]. }
      destruct X as (v' & PF' & GV). exists ((fp_name fp, v') :: r'). rewrite PF'. cbn [bind]. rewrite M'. split; [reflexivity|]. apply ga_keep; assumption.
    - cbn [mapM] in M. destruct (parse_field p' fp o) as [v|] eqn:PF; [|discriminate M]. cbn [bind] in M.
      destruct (mapM _ l') as [r|] eqn:ML; [|discriminate M]. cbn [bind] in M. injection M as <-. destruct (IH r SIM eq_refl) as (r' & M' & GR). exists r'. split; [exact M'|].
      apply ga_new; [apply NN | exact GR].
  Qed.

  (** * Documents *)

  Definition lasting (m : nat) (t : typ) : Prop := ready E m t /\ ready E' m t /\ durable E m t.

  Lemma durable_reach : forall m t m' t', reach E m t m' t' -> durable E m t -> durable E m' t'.
  Proof.
    intros m t m' t' RE [S L U]. split.
    - intros m2 u X. eapply S. eapply reach_trans; eassumption.
    - intros m2 ls X. eapply L. eapply reach_trans; eassumption.
    - intros m2 op ts ts1 a ts2 b X. eapply U. eapply reach_trans; eassumption.
  Qed.

  Lemma keys_kept : forall k s, check_key_type E k = Ok tt -> parse_key E k s = parse_key E' k s.
  Proof.
    intros k s C. destruct k as [k|b|w|w|k w|ts|op ts|ls|w md|c|r|]; try reflexivity. cbn [check_key_type] in C. cbn [parse_key].
    destruct (get_class E c) as [cl|] eqn:G; [|discriminate C]. destruct (c_kind cl) as [ms|hs|xs|fr fs|hs] eqn:K; try discriminate C.
    destruct (enum_kept c cl ms G K) as (cl' & G' & K'). rewrite G', K'. reflexivity.
  Qed.

  Section Sim.
    Variables A B : env.
    Variable skip : bool.
    Variable R : value -> value -> Prop.
    Hypothesis AB : (A = E /\ B = E') \/ (A = E' /\ B = E).
    Hypothesis R_same : forall v, R v v.
    Hypothesis R_list : forall vs vs', Forall2 R vs vs' -> R (VList vs) (VList vs').
    Hypothesis R_tuple : forall vs vs', Forall2 R vs vs' -> R (VTuple vs) (VTuple vs').
    Hypothesis R_dict : forall kvs kvs', Forall2 (fun a b : value * value => fst a = fst b) kvs kvs' -> Forall2 (fun a b : value * value => R (snd a) (snd b)) kvs kvs' ->
      R (VDict kvs) (VDict kvs').

    Definition simulated (n : nat) : Prop := forall m t j v, lasting m t -> parse A skip n m t j = Ok v -> exists w, parse B skip n m t j = Ok w /\ R v w.

    Hypothesis R_class : forall n, simulated n -> forall c cl cl' fps fps' o v, get_class E c = Some cl -> get_class E' c = Some cl' -> renewed E E' cl cl' ->
      field_parsers E cl = Ok fps -> field_parsers E' cl' = Ok fps' -> inserted (fun fp => added cl' fp /\ ~ In (fp_prop fp) (map fp_prop fps)) fps fps' ->
      (forall fp, In fp fps -> lasting (c_module cl) (fp_type fp)) ->
      forall clA clB fpsA fpsB, get_class A c = Some clA -> get_class B c = Some clB -> field_parsers A clA = Ok fpsA -> field_parsers B clB = Ok fpsB ->
      parse_object (parse A skip n (c_module clA)) skip c clA fpsA (JObj o) = Ok v ->
      exists w, parse_object (parse B skip n (c_module clB)) skip c clB fpsB (JObj o) = Ok w /\ R v w.

    Lemma steady_same : forall n m t j, lasting m t -> rigid E m t \/ ~ admits E m t (kind_of j) -> parse A skip n m t j = parse B skip n m t j.
    Proof.
      intros n m t j (RE & RE' & _) S. destruct AB as [[-> ->] | [-> ->]]; [|symmetry]; (destruct S as [S|S]; [apply rigid_same; exact S | apply alien_same; assumption]).
    Qed.

    Lemma source_admits : forall n m t j v, lasting m t -> parse A skip n m t j = Ok v -> admits E m t (kind_of j).
    Proof.
      intros n m t j v (RE & _) H. apply parse_admits in H. destruct AB as [[-> ->] | [-> ->]]; [exact H|]. apply admits_kept; [exact H | left; exact RE].
    Qed.

    Lemma same_items : forall n m u js vs, lasting m u -> simulated n -> mapM (parse A skip n m u) js = Ok vs -> exists ws, mapM (parse B skip n m u) js = Ok ws /\ Forall2 R vs ws.
    Proof.
      intros n m u js vs LA SIM H. apply mapM_ok in H. induction H as [|j v js vs Q _ IH]; [exists []; split; [reflexivity | constructor]|].
      destruct IH as (ws & M & F). destruct (SIM m u j v LA Q) as (w & Q' & Rw). exists (w :: ws). cbn [mapM]. rewrite Q'. cbn [bind]. rewrite M. split; [reflexivity | constructor; assumption].
    Qed.

    Theorem simulation : forall n, simulated n.
    Proof.
      induction n as [|n IH]; intros m t j v LA H; [discriminate H|]. pose proof LA as (RE & RE' & DU).
      destruct t as [k|b|w|w|k w|ts|op ts|ls|w md|c|s|]; cbn [parse] in H |- *; try discriminate H.
      - exists v. split; [exact H | apply R_same].
      - destruct j as [| | | | |js|]; try discriminate H. apply bind_ok in H. destruct H as (vs & M & Q). injection Q as <-.
        assert (LW : lasting m w). { split; [apply ready_list; assumption|]. split; [apply ready_list; assumption|]. eapply durable_reach; [|exact DU]. apply re_list. apply re_refl. }
        destruct (same_items n m w js vs LW IH M) as (ws & M' & F). exists (VList ws). rewrite M'. split; [reflexivity | apply R_list; exact F].
      - destruct j as [| | | | |js|]; try discriminate H. exists v. split; [|apply R_same]. rewrite <- H. 
        assert (LW : lasting m w). { split; [apply ready_set; assumption|]. split; [apply ready_set; assumption|]. eapply durable_reach; [|exact DU]. apply re_set. apply re_refl. }
        pose proof (du_set _ _ _ DU m w (re_refl _ _ _)) as RG.
        assert (X : forall u x, parse A skip n m w u = Ok x -> flat x).
        { intros u x P. destruct AB as [[Q1 Q2] | [Q1 Q2]]; [|rewrite steady_same in P; [|exact LW | left; exact RG]]; rewrite ?Q1, ?Q2 in P; eapply rigid_flat; eassumption. }
        assert (Y : forall js', mapM (fun x => do v0 <- parse B skip n m w x; if hashable B v0 then Ok v0 else Err EType) js' =
                     mapM (fun x => do v0 <- parse A skip n m w x; if hashable A v0 then Ok v0 else Err EType) js').
        { intros js'. apply mapM_ext. intros x _. rewrite <- (steady_same n m w x LW (or_introl RG)). destruct (parse A skip n m w x) as [y|] eqn:P; [|reflexivity]. cbn [bind].
          rewrite (flat_hashable B A y); [reflexivity|]. eapply X. exact P. }
        rewrite Y. destruct (mapM _ js) as [vs|] eqn:M; [|reflexivity]. cbn [bind]. f_equal. f_equal. apply flat_set; [|constructor].
        apply mapM_ok in M. rewrite Forall_forall. intros y I. destruct (Forall2_in_r _ _ _ _ _ _ M I) as (x & _ & P). apply bind_ok in P. destruct P as (z & P & Q).
        destruct (hashable A z); [|discriminate Q]. injection Q as <-. eapply X. exact P.
      - destruct j as [| | | | | |o]; try discriminate H. apply bind_ok in H. destruct H as (kvs & M & Q). injection Q as <-.
        destruct (ready_dict E GE m k w RE) as (RW & KC). destruct (ready_dict E' GE' m k w RE') as (RW' & _).
        assert (LW : lasting m w). { split; [assumption|]. split; [assumption|]. eapply durable_reach; [|exact DU]. apply re_dict. apply re_refl. }
        assert (KQ : forall s, parse_key A k s = parse_key B k s) by (intros s; destruct AB as [[-> ->] | [-> ->]]; [|symmetry]; apply keys_kept; exact KC).
        assert (X : exists kvs', mapM (fun '(s, x) => do kv <- parse_key B k s; do v <- parse B skip n m w x; Ok (kv, v)) o = Ok kvs' /\
          Forall2 (fun a b : value * value => fst a = fst b) kvs kvs' /\ Forall2 (fun a b : value * value => R (snd a) (snd b)) kvs kvs').
        { apply mapM_ok in M. induction M as [|[s x] kv o kvs Q _ IHM]; [exists []; repeat split; constructor|]. destruct IHM as (kvs' & M' & F1 & F2).
          apply bind_ok in Q. destruct Q as (kk & PK & Q). apply bind_ok in Q. destruct Q as (y & PY & Q). injection Q as <-.
          destruct (IH m w x y LW PY) as (z & PZ & Rz). exists ((kk, z) :: kvs'). cbn [mapM]. rewrite <- KQ, PK. cbn [bind]. rewrite PZ. cbn [bind]. rewrite M'. cbn [bind].
          repeat split; constructor; try assumption; reflexivity. }
        destruct X as (kvs' & M' & F1 & F2). exists (VDict kvs'). rewrite M'. split; [reflexivity | apply R_dict; assumption].
      - destruct j as [| | | | |js|]; try discriminate H. destruct (Nat.eqb (length js) (length ts)) eqn:LEN; [|discriminate H].
        apply bind_ok in H. destruct H as (vs & M & Q). injection Q as <-.
        pose proof (ready_tuple E GE m ts RE) as F. pose proof (ready_tuple E' GE' m ts RE') as F'. rewrite Forall_forall in F, F'.
        assert (LT : forall t, In t ts -> lasting m t). { intros t I. split; [auto|]. split; [auto|]. eapply durable_reach; [|exact DU]. eapply re_tuple; [exact I | apply re_refl]. }
        assert (X : exists ws, zip_parse (parse B skip n m) ts js = Ok ws /\ Forall2 R vs ws).
        { clear - IH LT M. revert js vs M. induction ts as [|t ts IHt]; intros js vs M; [cbn [zip_parse] in *; injection M as <-; exists []; split; [reflexivity | constructor]|].
          destruct js as [|j js]; [cbn [zip_parse] in *; injection M as <-; exists []; split; [reflexivity | constructor]|]. cbn [zip_parse] in *.
          destruct (parse A skip n m t j) as [y|] eqn:PY; [|discriminate M]. destruct (zip_parse (parse A skip n m) ts js) as [ys|] eqn:Z; [|discriminate M]. injection M as <-.
          destruct (IH m t j y (LT t (or_introl eq_refl)) PY) as (z & PZ & Rz). destruct (IHt (fun t I => LT t (or_intror I)) js ys Z) as (ws & W & FW).
          exists (z :: ws). rewrite PZ, W. split; [reflexivity | constructor; assumption]. }
        destruct X as (ws & W & FW). exists (VTuple ws). rewrite W. split; [reflexivity | apply R_tuple; exact FW].
      - destruct (tags_kept m op ts RE RE') as (ps & D & D' & T).
        pose proof (ready_union E GE m op ts RE) as F. pose proof (ready_union E' GE' m op ts RE') as F'. rewrite Forall_forall in F, F'.
        assert (LT : forall t, In t ts -> lasting m t). { intros t I. split; [auto|]. split; [auto|]. eapply durable_reach; [|exact DU]. eapply re_union; [exact I | apply re_refl]. }
        assert (DA : discriminating_properties A ts = Ok ps) by (destruct AB as [[-> ->] | [-> ->]]; assumption).
        assert (DB : discriminating_properties B ts = Ok ps) by (destruct AB as [[-> ->] | [-> ->]]; assumption).
        rewrite DA in H. rewrite DB. cbn [bind] in H |- *. destruct ps as [|p ps].
        + apply union_try_spec in H. destruct H as (ts1 & a & ts2 & Q & P & S). assert (Ia : In a ts) by (rewrite Q; apply in_or_app; right; left; reflexivity).
          destruct (IH m a j v (LT a Ia) P) as (w & PW & RW). exists w. split; [|exact RW]. apply union_try_spec. exists ts1, a, ts2. split; [exact Q|]. split; [exact PW|].
          rewrite Forall_forall in S |- *. intros u Iu. destruct (S u Iu) as (e & PE & SO). exists e. split; [|exact SO]. rewrite <- PE. symmetry. apply in_split in Iu. destruct Iu as (l1 & l2 & ->).
          apply steady_same; [apply LT; rewrite Q; apply in_or_app; left; apply in_or_app; right; left; reflexivity|].
          assert (U : untagged E ts) by (apply (untagged_iff E ts [] D); reflexivity).
          assert (Qs : ts = l1 ++ u :: l2 ++ a :: ts2) by (rewrite Q, <- app_assoc; reflexivity).
          destruct (du_union _ _ _ DU m op ts l1 u (l2 ++ a :: ts2) a (re_refl _ _ _) U Qs) as [K|K]; [apply in_or_app; right; left; reflexivity | left; exact K|].
          right. apply K. eapply source_admits; [apply LT; exact Ia | exact P].
        + destruct T as [T|(tbl & T & T')]; [discriminate T|]. cbv zeta in H |- *.
          assert (O : e_order A (p :: ps) = e_order B (p :: ps)) by (destruct AB as [[-> ->] | [-> ->]]; rewrite (ev_order _ _ EV); reflexivity).
          assert (TA : tag_table A (e_order A (p :: ps)) ts = Ok tbl) by (destruct AB as [[-> ->] | [-> ->]]; assumption).
          assert (TB : tag_table B (e_order B (p :: ps)) ts = Ok tbl) by (destruct AB as [[-> ->] | [-> ->]]; assumption).
          rewrite TA in H. rewrite TB. cbn [bind] in H |- *. rewrite <- O. destruct j as [| | | | | |o]; try discriminate H.
          destruct (tag_select tbl (e_order A (p :: ps)) o) as [u|] eqn:SEL; [|discriminate H]. cbn [bind] in H |- *.
          apply IH; [|exact H]. apply LT. apply tag_select_in in SEL. destruct SEL as (p' & l' & x & _ & I & _). apply (tag_table_in _ _ _ _ _ _ _ T) in I. tauto.
      - exists v. split; [|apply R_same]. pose proof (steady_same (S n) m (TLiteral ls) j LA (or_introl (du_literal _ _ _ DU m ls (re_refl _ _ _)))) as Q. cbn [parse] in Q. rewrite <- Q. exact H.
      - destruct (ready_annot E GE m w md RE) as (RW & NR). destruct (ready_annot E' GE' m w md RE') as (RW' & _).
        assert (LW : lasting m w). { split; [assumption|]. split; [assumption|]. eapply durable_reach; [|exact DU]. apply re_annot. apply re_refl. }
        destruct w; try (apply IH; assumption). discriminate H.
      - destruct (ready_class E GE m c RE) as (cl & G & BC). destruct (ready_class E' GE' m c RE') as (cl' & G' & BC').
        destruct (class_kept c cl G) as (cl2 & G2 & RN). rewrite G' in G2. injection G2 as <-.
        pose proof (rn_kind _ _ _ _ RN) as K. pose proof (rn_hook _ _ _ _ RN) as HK. pose proof (rn_module _ _ _ _ RN) as MO.
        assert (X : exists clA clB, get_class A c = Some clA /\ get_class B c = Some clB /\ c_from_json clA = c_from_json cl /\ c_from_json clB = c_from_json cl /\
          (clA = cl /\ clB = cl' \/ clA = cl' /\ clB = cl) /\
          (by_fields cl -> exists fps fps' fpsA fpsB, field_parsers E cl = Ok fps /\ field_parsers E' cl' = Ok fps' /\ field_parsers A clA = Ok fpsA /\ field_parsers B clB = Ok fpsB /\
            forall fp, In fp fps -> lasting (c_module cl) (fp_type fp))).
        { assert (Z : by_fields cl -> exists fps fps', field_parsers E cl = Ok fps /\ field_parsers E' cl' = Ok fps' /\ forall fp, In fp fps -> lasting (c_module cl) (fp_type fp)).
          { intros BF. destruct (BC BF) as (fps & F & RF). destruct (BC' (fields_kept _ _ RN BF)) as (fps' & F' & RF'). exists fps, fps'. split; [exact F|]. split; [exact F'|].
            intros fp I. rewrite Forall_forall in RF, RF'. split; [apply RF; exact I|]. split.
            - rewrite <- MO. apply RF'. eapply inserted_in; [|exact I]. eapply parsers_kept; eassumption.
            - eapply durable_reach; [|exact DU]. eapply field_types; try eassumption. apply by_fields_fieldwise. exact BF. }
          destruct AB as [[-> ->] | [-> ->]]; [exists cl, cl' | exists cl', cl]; (split; [assumption|]; split; [assumption|]; split; [congruence|]; split; [congruence|]; split; [tauto|]);
            intros BF; destruct (Z BF) as (fps & fps' & Z1 & Z2 & Z3); exists fps, fps'; eauto 10. }
        destruct X as (clA & clB & GA & GB & HA & HB & EQ & X). rewrite GA in H. rewrite GB. rewrite HA in H. rewrite HB.
        assert (Y : by_fields cl -> (do fps <- field_parsers A clA; parse_object (parse A skip n (c_module clA)) skip c clA fps j) = Ok v ->
          exists w, (do fps <- field_parsers B clB; parse_object (parse B skip n (c_module clB)) skip c clB fps j) = Ok w /\ R v w).
        { intros BF P. destruct (X BF) as (fps & fps' & fpsA & fpsB & F & F' & FA & FB & LF). rewrite FA in P. rewrite FB. cbn [bind] in P |- *.
          destruct j as [| | | | | |o]; try discriminate P. pose proof (parsers_kept c cl cl' fps fps' G G' RN BF F F') as INS.
          eapply (R_class n IH c cl cl' fps fps'); eassumption. }
        assert (EN : forall ms, c_kind cl = CEnum ms -> c_kind clA = CEnum ms /\ c_kind clB = CEnum ms).
        { intros ms Q. rewrite Q in K. destruct (c_kind cl') as [ms'|hs'|xs'|fr' fs'|hs'] eqn:KC'; try contradiction K. destruct K as (K & _).
          destruct EQ as [[-> ->] | [-> ->]]; rewrite Q, KC', K; split; reflexivity. }
        destruct (c_kind cl) as [ms|hs|xs|fr fs|hs] eqn:KC.
        + destruct (EN ms eq_refl) as (KA & KB). rewrite KA in H. rewrite KB. exists v. split; [exact H | apply R_same].
        + assert (KA : c_kind clA = CTuple hs /\ c_kind clB = CTuple hs).
          { destruct (c_kind cl') as [ms'|hs'|xs'|fr' fs'|hs'] eqn:KC'; try contradiction K. destruct K as (K & _). destruct EQ as [[-> ->] | [-> ->]]; rewrite KC, KC', K; split; reflexivity. }
          destruct KA as (KA & KB). rewrite KA in H. rewrite KB. apply Y; [unfold by_fields; rewrite KC; exact Logic.I | exact H].
        + assert (KA : c_kind clA = CRawTuple xs /\ c_kind clB = CRawTuple xs).
          { destruct (c_kind cl') as [ms'|hs'|xs'|fr' fs'|hs'] eqn:KC'; try contradiction K. destruct K as (K & _). destruct EQ as [[-> ->] | [-> ->]]; rewrite KC, KC', K; split; reflexivity. }
          destruct KA as (KA & KB). rewrite KA in H. rewrite KB. apply Y; [unfold by_fields; rewrite KC; exact Logic.I | exact H].
        + assert (KA : (exists a b, c_kind clA = CData a b) /\ exists a b, c_kind clB = CData a b).
          { destruct (c_kind cl') as [ms'|hs'|xs'|fr' fs'|hs'] eqn:KC'; try contradiction K. destruct EQ as [[-> ->] | [-> ->]]; rewrite KC, KC'; split; eauto. }
          destruct KA as ((a & b & KA) & (a' & b' & KB)). rewrite KA in H. rewrite KB. destruct (c_from_json cl) as [h|] eqn:HC; [exists v; split; [exact H | apply R_same]|].
          apply Y; [unfold by_fields; rewrite KC, HC; exact Logic.I | exact H].
        + assert (KA : (exists b, c_kind clA = CPlain b) /\ exists b, c_kind clB = CPlain b).
          { destruct (c_kind cl') as [ms'|hs'|xs'|fr' fs'|hs'] eqn:KC'; try contradiction K. destruct EQ as [[-> ->] | [-> ->]]; rewrite KC, KC'; split; eauto. }
          destruct KA as ((b & KA) & (b' & KB)). rewrite KA in H. rewrite KB. destruct (c_from_json cl) as [h|] eqn:HC; [exists v; split; [exact H | apply R_same]|].
          apply Y; [unfold by_fields; rewrite KC, HC; exact Logic.I | exact H].
      - destruct (ready_ref E GE m s RE) as (a & u & L & NR & RU). destruct (ready_ref E' GE' m s RE') as (a' & u' & L' & _ & RU').
        pose proof (ev_names _ _ EV _ _ _ L) as L2. rewrite L' in L2. injection L2 as -> ->.
        assert (LA1 : lookup A m s = Some (a, u)) by (destruct AB as [[-> ->] | [-> ->]]; assumption).
        assert (LB1 : lookup B m s = Some (a, u)) by (destruct AB as [[-> ->] | [-> ->]]; assumption).
        rewrite LA1 in H. rewrite LB1.
        assert (LW : lasting m (deref u)). { split; [assumption|]. split; [assumption|]. eapply durable_reach; [|exact DU]. eapply re_ref; [exact L | apply re_refl]. }
        destruct (deref u); try (apply IH; assumption). discriminate H.
    Qed.
  End Sim.

  Lemma object_kinds : forall cl cl', renewed E E' cl cl' -> forall c (vals : list (pystr * value)) v,
    (match c_kind cl with CRawTuple (_ :: _) => Err EType | _ => Ok (VObj c vals) end) = Ok v -> v = VObj c vals /\
    forall vals', (match c_kind cl' with CRawTuple (_ :: _) => Err EType | _ => Ok (VObj c vals') end) = Ok (VObj c vals').
  Proof.
    intros cl cl' RN c vals v H. pose proof (rn_kind _ _ _ _ RN) as K. destruct (c_kind cl) as [ms|hs|xs|fr fs|hs], (c_kind cl') as [ms'|hs'|xs'|fr' fs'|hs']; try contradiction K;
      try (injection H as <-; split; reflexivity). destruct K as (K & _). injection K as ->. destruct xs; [|discriminate H]. injection H as <-. split; reflexivity.
  Qed.

  Lemma object_kinds_back : forall cl cl', renewed E E' cl cl' -> forall c (vals : list (pystr * value)) v,
    (match c_kind cl' with CRawTuple (_ :: _) => Err EType | _ => Ok (VObj c vals) end) = Ok v -> v = VObj c vals /\
    forall vals', (match c_kind cl with CRawTuple (_ :: _) => Err EType | _ => Ok (VObj c vals') end) = Ok (VObj c vals').
  Proof.
    intros cl cl' RN c vals v H. pose proof (rn_kind _ _ _ _ RN) as K. destruct (c_kind cl) as [ms|hs|xs|fr fs|hs], (c_kind cl') as [ms'|hs'|xs'|fr' fs'|hs']; try contradiction K;
      try (injection H as <-; split; reflexivity). destruct K as (K & _). injection K as ->. destruct xs; [|discriminate H]. injection H as <-. split; reflexivity.
  Qed.

  Lemma backward : forall n m t j v, lasting m t -> parse E false n m t j = Ok v -> exists v', parse E' false n m t j = Ok v' /\ grown (defaulted E') v v'.
  Proof.
    intros n. apply (simulation E E' false (grown (defaulted E'))).
    - left. split; reflexivity.
    - apply gr_same.
    - intros vs vs' F. apply gr_list. exact F.
    - intros vs vs' F. apply gr_tuple. exact F.
    - intros kvs kvs' F1 F2. apply gr_dict; assumption.
    - clear n. intros n SIM c cl cl' fps fps' o v G G' RN F F' INS LF clA clB fpsA fpsB GA GB FA FB P.
      rewrite G in GA. injection GA as <-. rewrite G' in GB. injection GB as <-. rewrite F in FA. injection FA as <-. rewrite F' in FB. injection FB as <-.
      rewrite (rn_module _ _ _ _ RN). cbn [parse_object orb] in P |- *. apply bind_ok in P. destruct P as (vals & M & P).
      destruct (forallb _ o) eqn:KO; [|discriminate P]. destruct (object_kinds _ _ RN _ _ _ P) as (-> & OK2).
      assert (KI : forall p, In p (map fst o) -> In p (map fp_prop fps)).
      { intros p I. apply in_map_iff in I. destruct I as (kv & <- & I). rewrite forallb_forall in KO. specialize (KO kv I). cbn beta in KO. apply mem_str_in. exact KO. }
      destruct (fields_backward (defaulted E') (parse E false n (c_module cl)) (parse E' false n (c_module cl)) o c _ fps fps' vals INS) as (vals' & M' & GR).
      + intros fp j v I Q. apply SIM; [apply LF; exact I | exact Q].
      + intros fp ((L & t & d & LA & I & MD) & NI).
        assert (AB : dict_get o (fp_prop fp) = None).
        { destruct (dict_get o (fp_prop fp)) as [x|] eqn:Q; [|reflexivity]. destruct NI. apply KI. apply dict_get_in in Q. apply (in_map fst) in Q. exact Q. }
        unfold parse_field. destruct MD as [(x & -> & ->)|(-> & ->)]; rewrite AB; [exists x | exists VNone]; (split; [reflexivity|]); exists cl', L, t; eauto 10.
      + exact M.
      + rewrite M'. cbn [bind]. assert (KO' : forallb (fun kv => mem_str (fst kv) (map fp_prop fps')) o = true).
        { apply forallb_forall. intros kv I. apply mem_str_in. assert (J : In (fst kv) (map fp_prop fps)) by (apply KI; apply in_map; exact I).
          apply in_map_iff in J. destruct J as (fp & <- & J). apply in_map. eapply inserted_in; eassumption. }
        rewrite KO'. exists (VObj c vals'). split; [apply OK2 | apply gr_object; exact GR].
  Qed.

  Lemma forward : forall n m t j v', lasting m t -> parse E' true n m t j = Ok v' -> exists v, parse E true n m t j = Ok v /\ grown (fun _ _ _ => True) v v'.
  Proof.
    intros n. apply (simulation E' E true (fun a b => grown (fun _ _ _ => True) b a)).
    - right. split; reflexivity.
    - apply gr_same.
    - intros vs vs' F. apply gr_list. apply Forall2_flip. exact F.
    - intros vs vs' F. apply gr_tuple. apply Forall2_flip. exact F.
    - intros kvs kvs' F1 F2. apply gr_dict; [|apply Forall2_flip; exact F2]. clear F2. induction F1; constructor; auto.
    - clear n. intros n SIM c cl cl' fps fps' o v G G' RN F F' INS LF clA clB fpsA fpsB GA GB FA FB P.
      rewrite G in GB. injection GB as <-. rewrite G' in GA. injection GA as <-. rewrite F in FB. injection FB as <-. rewrite F' in FA. injection FA as <-.
      rewrite (rn_module _ _ _ _ RN) in P. cbn [parse_object orb] in P |- *. apply bind_ok in P. destruct P as (vals & M & P).
      destruct (object_kinds_back _ _ RN _ _ _ P) as (-> & OK2).
      destruct (fields_forward (fun _ _ _ => True) (parse E true n (c_module cl)) (parse E' true n (c_module cl)) o c _ fps fps' vals (fun _ _ => Logic.I) INS) as (vals' & M' & GR).
      + intros fp j v I Q. apply SIM; [apply LF; exact I | exact Q].
      + exact M.
      + rewrite M'. cbn [bind]. exists (VObj c vals'). split; [apply OK2 | apply gr_object; exact GR].
  Qed.

  (** Reading with each version. *)
  Lemma both_fuels : forall skip m t j, ready E m t -> ready E' m t -> exists n, json_to_object E skip m t j = parse E skip n m t j /\ json_to_object E' skip m t j = parse E' skip n m t j.
  Proof.
    intros skip m t j (P & C) (P' & C'). exists (parse_fuel E t j + parse_fuel E' t j). split; symmetry.
    - apply (jto_parse E GE CALM); [exact P | lia | exact C].
    - apply (jto_parse E' GE' CALM'); [exact P' | lia | exact C'].
  Qed.

  Theorem reads_backward : forall m t j v, lasting m t -> json_to_object E false m t j = Ok v ->
    exists v', json_to_object E' false m t j = Ok v' /\ grown (defaulted E') v v'.
  Proof. intros m t j v L H. destruct (both_fuels false m t j (proj1 L) (proj1 (proj2 L))) as (n & Q & Q'). rewrite Q in H. rewrite Q'. apply backward; assumption. Qed.

  Theorem reads_forward : forall m t j v', lasting m t -> json_to_object E' true m t j = Ok v' ->
    exists v, json_to_object E true m t j = Ok v /\ grown (fun _ _ _ => True) v v'.
  Proof. intros m t j v' L H. destruct (both_fuels true m t j (proj1 L) (proj1 (proj2 L))) as (n & Q & Q'). rewrite Q' in H. rewrite Q. apply forward; assumption. Qed.
End Evolve.
