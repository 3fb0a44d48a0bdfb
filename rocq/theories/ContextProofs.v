(** Where the texts of a type are looked up. *)
From Coq Require Import String List NArith ZArith Bool Lia.
From Verif Require Import Base Json Lists PyTypes Mapping Deser Ser DeserSound DeserFuel SpecContext Context.
Import ListNotations.
Open Scope list_scope.
Open Scope nat_scope.

Definition textless (t : typ) : Prop := forall s, ~ mentions s t.

Lemma textless_lit : forall l, textless (lit_type l).
Proof. intros l s H. destruct l; cbn in H; inversion H. Qed.

Lemma literal_textless : forall ls u, literal_type ls = Ok u -> textless u.
Proof.
  intros ls u H. destruct (literal_type_cases ls) as [(l & Q)|Q]; rewrite Q in H; [|discriminate].
  injection H as <-. apply textless_lit.
Qed.

Lemma textless_list : forall u, textless (TList u) -> textless u.
Proof. intros u H s M. apply (H s). constructor. exact M. Qed.
Lemma textless_set : forall u, textless (TSet u) -> textless u.
Proof. intros u H s M. apply (H s). constructor. exact M. Qed.
Lemma textless_value : forall k u, textless (TDict k u) -> textless u.
Proof. intros k u H s M. apply (H s). apply me_value. exact M. Qed.
Lemma textless_tuple : forall ts u, textless (TTuple ts) -> In u ts -> textless u.
Proof. intros ts u H I s M. apply (H s). eapply me_tuple; eassumption. Qed.
Lemma textless_union : forall op ts u, textless (TUnion op ts) -> In u ts -> textless u.
Proof. intros op ts u H I s M. apply (H s). eapply me_union; eassumption. Qed.
Lemma textless_annot : forall u md, textless (TAnnot u md) -> textless u.
Proof. intros u md H s M. apply (H s). constructor. exact M. Qed.

Lemma mapM_ext_in : forall A B (f g : A -> res B) l, (forall x, In x l -> f x = g x) -> mapM f l = mapM g l.
Proof.
  intros A B f g l. induction l as [|x l IH]; intros H; cbn [mapM]; [reflexivity|].
  rewrite (H x (or_introl eq_refl)), IH; [reflexivity|]. intros y I. apply H. right. exact I.
Qed.

Lemma fold_build_ext : forall A (f g : A -> list ckey -> res (list ckey)) l vis,
  (forall x v, In x l -> f x v = g x v) -> fold_build f l vis = fold_build g l vis.
Proof.
  intros A f g l. induction l as [|x l IH]; intros vis H; cbn [fold_build]; [reflexivity|].
  rewrite (H x vis (or_introl eq_refl)). destruct (g x vis); [|reflexivity].
  apply IH. intros y v I. apply H. right. exact I.
Qed.

Lemma zip_parse_ext : forall (f g : typ -> json -> res value) ts js,
  (forall t j, In t ts -> f t j = g t j) -> zip_parse f ts js = zip_parse g ts js.
Proof.
  intros f g ts. induction ts as [|t ts IH]; intros [|j js] H; cbn [zip_parse]; try reflexivity.
  rewrite (H t j (or_introl eq_refl)), IH; [reflexivity|]. intros u x I. apply H. right. exact I.
Qed.

Lemma union_try_ext : forall (f g : typ -> res value) ts,
  (forall t, In t ts -> f t = g t) -> union_try f ts = union_try g ts.
Proof.
  intros f g ts. induction ts as [|t ts IH]; intros H; cbn [union_try]; [reflexivity|].
  rewrite (H t (or_introl eq_refl)), IH; [reflexivity|]. intros u I. apply H. right. exact I.
Qed.

Section Context.
  Variable E : env.

  (** The outcome for types without texts does not depend on the module. *)
  Lemma build_textless : forall n t m m' vis, textless t -> build E n m t vis = build E n m' t vis.
  Proof.
    induction n as [|n IH]; intros t m m' vis F; cbn [build]; [reflexivity|].
    destruct t as [k|b|u|u|k u|ts|op ts|ls|u md|c|s|].
    - reflexivity.
    - reflexivity.
    - apply IH. apply textless_list. exact F.
    - apply IH. apply textless_set. exact F.
    - destruct (check_key_type E k); cbn [bind]; [|reflexivity]. apply IH. apply textless_value in F. exact F.
    - apply fold_build_ext. intros x v I. apply IH. eapply textless_tuple; eassumption.
    - destruct (discriminating_properties E ts) as [ps|]; cbn [bind]; [|reflexivity].
      assert (FB : fold_build (build E n m) ts vis = fold_build (build E n m') ts vis).
      { apply fold_build_ext. intros x v I. apply IH. eapply textless_union; eassumption. }
      destruct ps; [exact FB|]. destruct (tag_table _ _ _); cbn [bind]; [|reflexivity].
      destruct (tags_distinct _ _); [exact FB | reflexivity].
    - destruct (literal_type ls) as [u|] eqn:L; cbn [bind]; [|reflexivity].
      apply IH. eapply literal_textless. exact L.
    - apply textless_annot in F. destruct u; try (apply IH; exact F). reflexivity.
    - reflexivity.
    - exfalso. apply (F s). constructor.
    - reflexivity.
  Qed.

  Lemma parse_textless : forall skip n t m m' j, textless t -> parse E skip n m t j = parse E skip n m' t j.
  Proof.
    intros skip. induction n as [|n IH]; intros t m m' j F; cbn [parse]; [reflexivity|].
    destruct t as [k|b|u|u|k u|ts|op ts|ls|u md|c|s|].
    - reflexivity.
    - reflexivity.
    - destruct j; try reflexivity. erewrite mapM_ext_in; [reflexivity|].
      intros x _. apply IH. apply textless_list. exact F.
    - destruct j; try reflexivity. erewrite mapM_ext_in; [reflexivity|].
      intros x _. cbn beta. rewrite (IH u m m' x); [reflexivity|]. apply textless_set. exact F.
    - destruct j; try reflexivity. erewrite mapM_ext_in; [reflexivity|].
      intros [s x] _. cbn beta iota. rewrite (IH u m m' x); [reflexivity|]. apply textless_value in F. exact F.
    - destruct j; try reflexivity. destruct (Nat.eqb _ _); [|reflexivity].
      erewrite zip_parse_ext; [reflexivity|]. intros t j I. apply IH. eapply textless_tuple; eassumption.
    - destruct (discriminating_properties E ts) as [ps|]; cbn [bind]; [|reflexivity].
      destruct ps as [|p ps].
      + apply union_try_ext. intros t I. apply IH. eapply textless_union; eassumption.
      + cbv zeta. destruct (tag_table _ _ _) as [tbl|] eqn:T; cbn [bind]; [|reflexivity].
        destruct j as [| | | | |a|o]; try reflexivity. destruct (tag_select _ _ _) as [u|] eqn:Q; cbn [bind]; [|reflexivity].
        apply IH. apply tag_select_in in Q. destruct Q as (q & l & x & _ & I & _).
        apply (tag_table_in _ _ _ _ _ _ _ T) in I. eapply textless_union; [exact F | apply I].
    - destruct (literal_type ls) as [u|] eqn:L; cbn [bind]; [|reflexivity].
      rewrite (IH u m m' j); [reflexivity|]. eapply literal_textless. exact L.
    - apply textless_annot in F. destruct u; try (apply IH; exact F). reflexivity.
    - reflexivity.
    - exfalso. apply (F s). constructor.
    - reflexivity.
  Qed.

  Lemma mkser_textless : forall n t c c', textless t -> mkser E n c t = mkser E n c' t.
  Proof.
    induction n as [|n IH]; intros t c c' F; cbn [mkser]; [reflexivity|].
    destruct t as [k|b|u|u|k u|ts|op ts|ls|u md|x|s|]; try reflexivity.
    - rewrite (IH u c c'); [reflexivity|]. apply textless_list. exact F.
    - rewrite (IH u c c'); [reflexivity|]. apply textless_set. exact F.
    - apply textless_value in F. destruct k as [[]| | | | | | | | |y| |]; try reflexivity.
      + rewrite (IH u c c' F). reflexivity.
      + destruct (get_class E y) as [cl|]; [|reflexivity]. destruct (c_kind cl); try reflexivity.
        rewrite (IH u c c' F). reflexivity.
    - erewrite mapM_ext_in; [reflexivity|]. intros u I. apply IH. eapply textless_tuple; eassumption.
    - destruct (literal_type ls) as [u|] eqn:L; cbn [bind]; [|reflexivity].
      rewrite (IH u c c'); [reflexivity|]. eapply literal_textless. exact L.
    - exfalso. apply (F s). constructor.
  Qed.

  (** A type that is built while none of its texts has a meaning has no text. *)
  Lemma fold_build_each : forall A (f : A -> list ckey -> res (list ckey)) l vis vis',
    fold_build f l vis = Ok vis' -> forall x, In x l -> exists v v', f x v = Ok v'.
  Proof.
    intros A f. induction l as [|y l IH]; intros vis vis' H x I; [destruct I|].
    cbn [fold_build] in H. destruct (f y vis) as [v'|] eqn:Q; [|discriminate].
    destruct I as [<-|I]; [exists vis, v'; exact Q | exact (IH _ _ H x I)].
  Qed.

  Lemma build_unknown : forall m n t vis vis', build E n m t vis = Ok vis' ->
    (forall s, mentions s t -> lookup E m s = None) -> textless t.
  Proof.
    intros m. induction n as [|n IH]; intros t vis vis' B U; cbn [build] in B; [discriminate|].
    destruct t as [k|b|u|u|k u|ts|op ts|ls|u md|c|s|]; intros x M; inversion M; subst;
      try match goal with H : mentions x ?v |- _ => lazymatch v with TRef _ => fail | _ => rename H into Hm end end;
      try match goal with H : In _ _ |- _ => rename H into Hi end.
    - apply (IH _ _ _ B) in Hm; [exact Hm|]. intros s M'. apply U. constructor. exact M'.
    - apply (IH _ _ _ B) in Hm; [exact Hm|]. intros s M'. apply U. constructor. exact M'.
    - apply bind_ok in B. destruct B as (q & K & _). destruct k; cbn [check_key_type] in K; try discriminate; inversion Hm.
    - apply bind_ok in B. destruct B as (q & _ & B).
      apply (IH _ _ _ B) in Hm; [exact Hm|]. intros s M'. apply U. apply me_value. exact M'.
    - destruct (fold_build_each _ _ _ _ _ B _ Hi) as (v & v' & Q).
      apply (IH _ _ _ Q) in Hm; [exact Hm|]. intros s M'. apply U. eapply me_tuple; eassumption.
    - assert (FB : fold_build (build E n m) ts vis = Ok vis').
      { apply bind_ok in B. destruct B as (ps & _ & B). destruct ps; [exact B|].
        apply bind_ok in B. destruct B as (tbl & _ & B). destruct (tags_distinct _ _); [exact B | discriminate]. }
      destruct (fold_build_each _ _ _ _ _ FB _ Hi) as (v & v' & Q).
      apply (IH _ _ _ Q) in Hm; [exact Hm|]. intros s M'. apply U. eapply me_union; eassumption.
    - assert (B' : build E n m u vis = Ok vis') by (destruct u; try exact B; discriminate).
      apply (IH _ _ _ B') in Hm; [exact Hm|]. intros s M'. apply U. constructor. exact M'.
    - rewrite (U _ (me_ref _)) in B. discriminate.
  Qed.

  Lemma object_textless : forall skip m m' t j, textless t ->
    Deser.json_to_object E skip m t j = Deser.json_to_object E skip m' t j.
  Proof.
    intros skip m m' t j F. unfold Deser.json_to_object, create_deserializer.
    rewrite (build_textless _ t m m' _ F), (parse_textless skip _ t m m' j F). reflexivity.
  Qed.

  Lemma object_unknown : forall skip m t j s, mentions s t ->
    (forall s, mentions s t -> lookup E m s = None) -> exists e, Deser.json_to_object E skip m t j = Err e.
  Proof.
    intros skip m t j s M U. unfold Deser.json_to_object, create_deserializer.
    destruct (build _ _ _ _ _) as [vis|e] eqn:B; cbn [bind]; [|exists e; reflexivity].
    exfalso. exact (build_unknown _ _ _ _ _ B U s M).
  Qed.
End Context.
