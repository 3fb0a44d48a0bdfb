(** Proofs about [is_generic_instance] and [check_recursive]. *)
From Coq Require Import String List NArith ZArith Bool Lia Arith.
From Verif Require Import Base Lists Json PyTypes Ser RoundTrip Inspect SpecInspect.
Import ListNotations.
Open Scope list_scope.
Open Scope nat_scope.

Section AllAny.
  Context {A : Type}.
  Lemma allM_total : forall (f : A -> res bool) l, (forall x, In x l -> exists b, f x = Ok b) ->
    exists b, allM f l = Ok b /\ (b = true <-> forall x, In x l -> f x = Ok true).
  Proof.
    induction l as [|x r IH]; intros H.
    - exists true. split; [reflexivity|]. split; [intros _ y []|reflexivity].
    - destruct (H x (or_introl eq_refl)) as ([|] & F); cbn; rewrite F.
      + destruct IH as (b & E & Q); [intros y Y; apply H; right; exact Y|]. exists b. split; [exact E|].
        rewrite Q. split.
        * intros K y [<-|Y]; [exact F|apply K; exact Y].
        * intros K y Y. apply K. right. exact Y.
      + exists false. split; [reflexivity|]. split; [discriminate|]. intros K. rewrite (K x (or_introl eq_refl)) in F. discriminate F.
  Qed.
  Lemma allM_false : forall (f : A -> res bool) l, (forall x, In x l -> exists b, f x = Ok b) ->
    exists b, allM f l = Ok b /\ (b = false <-> exists x, In x l /\ f x = Ok false).
  Proof.
    induction l as [|x r IH]; intros H.
    - exists true. split; [reflexivity|]. split; [discriminate|intros (y & [] & _)].
    - destruct (H x (or_introl eq_refl)) as ([|] & F); cbn; rewrite F.
      + destruct IH as (b & E & Q); [intros y Y; apply H; right; exact Y|]. exists b. split; [exact E|].
        rewrite Q. split.
        * intros (y & Y & K). exists y. split; [right; exact Y|exact K].
        * intros (y & [<-|Y] & K); [rewrite F in K; discriminate K|]. exists y. split; assumption.
      + exists false. split; [reflexivity|]. split; [intros _; exists x; split; [left; reflexivity|exact F]|reflexivity].
  Qed.
  Lemma anyM_total : forall (f : A -> res bool) l, (forall x, In x l -> exists b, f x = Ok b) ->
    exists b, anyM f l = Ok b /\ (b = true <-> exists x, In x l /\ f x = Ok true).
  Proof.
    induction l as [|x r IH]; intros H.
    - exists false. split; [reflexivity|]. split; [discriminate|intros (y & [] & _)].
    - destruct (H x (or_introl eq_refl)) as ([|] & F); cbn; rewrite F.
      + exists true. split; [reflexivity|]. split; [intros _; exists x; split; [left; reflexivity|exact F]|reflexivity].
      + destruct IH as (b & E & Q); [intros y Y; apply H; right; exact Y|]. exists b. split; [exact E|].
        rewrite Q. split.
        * intros (y & Y & K). exists y. split; [right; exact Y|exact K].
        * intros (y & [<-|Y] & K); [rewrite F in K; discriminate K|]. exists y. split; assumption.
  Qed.
End AllAny.

Section Instances.
  Variable E : env.

  Lemma items_spec : forall v vs, tuple_items E v = Some vs <-> items E v vs.
  Proof.
    intros v vs. split.
    - destruct v; cbn; try discriminate.
      + intros Q. injection Q as <-. constructor.
      + unfold is_tuple_class. destruct (get_class E c) as [cl|] eqn:G; [|discriminate].
        destruct (c_kind cl) eqn:K; try discriminate; intros Q; injection Q as <-; [eapply it_named|eapply it_raw]; eassumption.
    - intros [ws|c cl fs attrs G K|c cl xs attrs G K]; cbn; unfold is_tuple_class; try rewrite G, K; reflexivity.
  Qed.

  Lemma isinstance_spec : forall v t,
    match t with TScalar _ | TBare _ | TClass _ => True | _ => False end ->
    isinstance E v t = true <-> instance E v t.
  Proof.
    intros v t HT. split.
    - destruct t as [k|[]| | | | | | | |c| |]; try contradiction; cbn.
      + intros Q. constructor. destruct k, v; try discriminate Q; constructor.
      + destruct v; try discriminate; constructor.
      + destruct v; try discriminate; constructor.
      + destruct v; try discriminate; constructor.
      + destruct (tuple_items E v) as [vs|] eqn:Q; [|discriminate]. apply items_spec in Q. intros _. econstructor; exact Q.
      + destruct v; try discriminate; intros Q; apply Nat.eqb_eq in Q; subst; constructor.
    - intros H. destruct H; try contradiction; cbn; try reflexivity.
      + destruct H; reflexivity.
      + apply items_spec in H. rewrite H. reflexivity.
      + apply Nat.eqb_refl.
      + apply Nat.eqb_refl.
  Qed.

  Lemma loosely_class : forall v t, match t with TScalar _ | TBare _ | TClass _ => True | _ => False end ->
    (loosely E v t <-> instance E v t).
  Proof.
    intros v t HT. split.
    - intros H. destruct H; try contradiction; [constructor; assumption|assumption|assumption].
    - intros H. destruct t; try contradiction; inversion H; subst; try (constructor; assumption).
  Qed.

  Theorem is_generic_instance_spec : forall t v, plain t ->
    exists b, is_generic_instance E v t = Ok b /\ (b = true <-> loosely E v t).
  Proof.
    assert (NO : forall v t, ~ loosely E v t -> exists b, Ok false = Ok b /\ (b = true <-> loosely E v t)).
    { intros v t N. exists false. split; [reflexivity|]. split; [discriminate|contradiction]. }
    induction t as [k|b|u IH|u IH|k u IHk IHu|ts IH|op ts IH|ls|u md IH|c|s|] using typ_induct; intros v P;
      try (inversion P; fail).
    - exists (isinstance E v (TScalar k)). split; [reflexivity|]. rewrite loosely_class by exact Logic.I. apply isinstance_spec. exact Logic.I.
    - exists (isinstance E v (TBare b)). split; [reflexivity|]. rewrite loosely_class by exact Logic.I. apply isinstance_spec. exact Logic.I.
    - inversion P; subst. destruct v; cbn; try (apply NO; intros N; inversion N; fail).
      destruct (allM_total (fun x => is_generic_instance E x u) vs) as (b & Q & K).
      { intros x _. destruct (IH x H0) as (b & Q & _). exists b. exact Q. }
      exists b. split; [exact Q|]. rewrite K. split.
      + intros J. constructor. intros x X. specialize (J x X). cbn in J. destruct (IH x H0) as (b' & Q' & K'). rewrite Q' in J. injection J as ->. apply K'. reflexivity.
      + intros J x X. inversion J; subst. destruct (IH x H0) as (b' & Q' & K'). cbn. rewrite Q'. f_equal. apply K'. auto.
    - inversion P; subst. destruct v; cbn; try (apply NO; intros N; inversion N; fail).
      destruct (allM_total (fun x => is_generic_instance E x u) vs) as (b & Q & K).
      { intros x _. destruct (IH x H0) as (b & Q & _). exists b. exact Q. }
      exists b. split; [exact Q|]. rewrite K. split.
      + intros J. constructor. intros x X. specialize (J x X). cbn in J. destruct (IH x H0) as (b' & Q' & K'). rewrite Q' in J. injection J as ->. apply K'. reflexivity.
      + intros J x X. inversion J; subst. destruct (IH x H0) as (b' & Q' & K'). cbn. rewrite Q'. f_equal. apply K'. auto.
    - inversion P; subst. destruct v; cbn; try (apply NO; intros N; inversion N; fail).
      assert (PAIR : forall a w, exists b,
        match is_generic_instance E a k with Ok true => is_generic_instance E w u | r => r end = Ok b
        /\ (b = true <-> loosely E a k /\ loosely E w u)).
      { intros a w. destruct (IHk a H1) as ([|] & Q1 & K1); destruct (IHu w H2) as (b2 & Q2 & K2); rewrite Q1.
        - exists b2. split; [exact Q2|]. rewrite K2. tauto.
        - exists false. split; [reflexivity|]. split; [discriminate|]. intros (J & _). apply K1 in J. discriminate J. }
      destruct (allM_total (fun kv : value * value => match is_generic_instance E (fst kv) k with
                                     | Ok true => is_generic_instance E (snd kv) u
                                     | r => r
                                     end) kvs) as (b & Q & K).
      { intros [a w] _. destruct (PAIR a w) as (b & Q & _). exists b. exact Q. }
      exists b. split; [exact Q|]. rewrite K. split.
      + intros J. constructor. intros a w X. specialize (J _ X). cbn in J. destruct (PAIR a w) as (b' & Q' & K'). rewrite Q' in J. injection J as ->. apply K'. reflexivity.
      + intros J [a w] X. inversion J; subst. destruct (PAIR a w) as (b' & Q' & K'). cbn. rewrite Q'. f_equal. apply K'. auto.
    - inversion P; subst. cbn. destruct (tuple_items E v) as [vs|] eqn:T.
      2: { apply NO. intros N. inversion N; subst. apply items_spec in H1. rewrite H1 in T. discriminate T. }
      assert (Z : exists b, (fix zip (ts : list typ) (vs : list value) : res bool :=
             match ts, vs with
             | t :: ts', x :: vs' =>
                 match is_generic_instance E x t with Err e => Err e | Ok false => Ok false | Ok true => zip ts' vs' end
             | _, _ => Ok true
             end) ts vs = Ok b /\ (b = true <-> forall i x t, nth_error vs i = Some x -> nth_error ts i = Some t -> loosely E x t)).
      { clear T P. revert vs. induction ts as [|t ts IHts]; intros vs.
        - exists true. split; [destruct vs; reflexivity|]. split; [|reflexivity]. intros _ [|i] x t _ Q; discriminate Q.
        - destruct vs as [|x vs].
          + exists true. split; [reflexivity|]. split; [|reflexivity]. intros _ [|i] y t' Q; discriminate Q.
          + pose proof (Forall_inv IH) as IH1. pose proof (Forall_inv_tail IH) as IH2.
            destruct (IH1 x (H0 t (or_introl eq_refl))) as ([|] & Q & K); rewrite Q.
            * destruct (IHts IH2) with (vs := vs) as (b & Q' & K').
              { intros t' T. apply H0. right. exact T. }
              exists b. split; [exact Q'|]. rewrite K'. split.
              -- intros J [|i] y t' A B; cbn in A, B.
                 ++ injection A as <-. injection B as <-. apply K. reflexivity.
                 ++ eapply J; eassumption.
              -- intros J i y t' A B. apply (J (Datatypes.S i) y t'); assumption.
            * exists false. split; [reflexivity|]. split; [discriminate|]. intros J. apply K. apply (J 0 x t); reflexivity. }
      destruct Z as (b & Q & K). exists b. split; [exact Q|]. rewrite K. apply items_spec in T. split.
      + intros J. econstructor; eassumption.
      + intros J. inversion J; subst. apply items_spec in H1. apply items_spec in T. rewrite T in H1. injection H1 as <-. assumption.
    - inversion P; subst. cbn. rewrite Forall_forall in IH.
      destruct (anyM_total (is_generic_instance E v) ts) as (b & Q & K).
      { intros t T. destruct (IH t T v (H0 t T)) as (b & Q & _). exists b. exact Q. }
      exists b. split; [exact Q|]. rewrite K. split.
      + intros (t & T & J). destruct (IH t T v (H0 t T)) as (b' & Q' & K'). rewrite Q' in J. injection J as ->.
        econstructor; [exact T|apply K'; reflexivity].
      + intros J. inversion J; subst. exists t. split; [assumption|]. destruct (IH t H1 v (H0 t H1)) as (b' & Q' & K').
        rewrite Q'. f_equal. apply K'. assumption.
    - exists (isinstance E v (TClass c)). split; [reflexivity|]. rewrite loosely_class by exact Logic.I. apply isinstance_spec. exact Logic.I.
  Qed.

  Lemma Forall2_nth : forall {A B} (R : A -> B -> Prop) l m, Forall2 R l m ->
    forall i x y, nth_error l i = Some x -> nth_error m i = Some y -> R x y.
  Proof.
    induction 1; intros [|i] a b P Q; cbn in P, Q; try discriminate.
    - injection P as <-. injection Q as <-. assumption.
    - eapply IHForall2; eassumption.
  Qed.

  Lemma instance_loosely : forall t v, plain t -> instance E v t -> loosely E v t.
  Proof.
    induction t as [k|b|u IH|u IH|k u IHk IHu|ts IH|op ts IH|ls|u md IH|c|s|] using typ_induct; intros v P H;
      try (inversion P; fail); inversion P; subst.
    - inversion H; subst. constructor. assumption.
    - constructor. assumption.
    - inversion H; subst. constructor. auto.
    - inversion H; subst. constructor. auto.
    - inversion H; subst. constructor. intros a w X. match goal with H : forall a b, In (a, b) kvs -> _ |- _ => destruct (H a w X); auto end.
    - inversion H; subst. econstructor; [eassumption|]. intros i x t A B. rewrite Forall_forall in IH.
      apply IH; [eapply nth_error_In; exact B|apply H1; eapply nth_error_In; exact B|]. eapply Forall2_nth; eassumption.
    - inversion H; subst. rewrite Forall_forall in IH. econstructor; [eassumption|]. apply IH; auto.
    - apply loosely_class; [exact Logic.I|assumption].
  Qed.

  Lemma loosely_instance : forall t v, tuple_free t -> loosely E v t -> instance E v t.
  Proof.
    induction t as [k|b|u IH|u IH|k u IHk IHu|ts IH|op ts IH|ls|u md IH|c|s|] using typ_induct; intros v P H;
      try (inversion P; fail); inversion P; subst; inversion H; subst; try assumption.
    - constructor. assumption.
    - constructor. auto.
    - constructor. auto.
    - constructor. intros a w X. match goal with H : forall a b, In (a, b) kvs -> _ |- _ => destruct (H a w X); auto end.
    - rewrite Forall_forall in IH. econstructor; [eassumption|]. apply IH; auto.
  Qed.
End Instances.

Section Checks.
  Variable E : env.
  Variable pred : typ -> value -> bool.

  Lemma mapM_map : forall {A B} (f : A -> res B) l l', Forall2 (fun a b => f a = Ok b) l l' -> mapM f l = Ok l'.
  Proof. induction 1; cbn; [reflexivity|]. rewrite H, IHForall2. reflexivity. Qed.
  Lemma mapM_forall2 : forall {A B} (f : A -> res B) l l', mapM f l = Ok l' -> Forall2 (fun a b => f a = Ok b) l l'.
  Proof.
    induction l as [|a l IH]; intros l' Q; cbn in Q.
    - injection Q as <-. constructor.
    - destruct (f a) as [b|] eqn:F; [|discriminate Q]. cbn in Q. destruct (mapM f l) as [bs|] eqn:M; [|discriminate Q].
      injection Q as <-. constructor; [exact F|apply IH; reflexivity].
  Qed.

  Lemma strip_spec : forall t t', strip_annotations t = Ok t' <-> stripped t t'.
  Proof.
    induction t as [k|b|u IH|u IH|k u IHk IHu|ts IH|op ts IH|ls|u md IH|c|s|] using typ_induct; intros t'; cbn.
    - split; [intros Q; injection Q as <-; constructor|intros H; inversion H; reflexivity].
    - split; [intros Q; injection Q as <-; constructor|intros H; inversion H; reflexivity].
    - split.
      + intros Q. destruct (strip_annotations u) as [u'|] eqn:S; [|discriminate Q]. injection Q as <-. constructor. apply IH. reflexivity.
      + intros H. inversion H; subst. apply IH in H1. rewrite H1. reflexivity.
    - split.
      + intros Q. destruct (strip_annotations u) as [u'|] eqn:S; [|discriminate Q]. injection Q as <-. constructor. apply IH. reflexivity.
      + intros H. inversion H; subst. apply IH in H1. rewrite H1. reflexivity.
    - split.
      + intros Q. destruct (strip_annotations k) as [k'|] eqn:S1; [|discriminate Q]. cbn in Q.
        destruct (strip_annotations u) as [u'|] eqn:S; [|discriminate Q]. injection Q as <-. constructor; [apply IHk|apply IHu]; reflexivity.
      + intros H. inversion H; subst. apply IHk in H2. apply IHu in H4. rewrite H2. cbn. rewrite H4. reflexivity.
    - assert (L : forall ts', mapM strip_annotations ts = Ok ts' <-> Forall2 stripped ts ts').
      { intros ts'. split.
        - intros Q. apply mapM_forall2 in Q. revert IH. induction Q; intros IH; constructor; inversion IH; subst; [apply H2; exact H|apply IHQ; assumption].
        - intros Q. apply mapM_map. revert IH. induction Q; intros IH; constructor; inversion IH; subst; [apply H2; exact H|apply IHQ; assumption]. }
      split.
      + intros Q. destruct (mapM strip_annotations ts) as [ts'|] eqn:M; [|discriminate Q]. injection Q as <-. constructor. apply L. reflexivity.
      + intros H. inversion H; subst. apply L in H1. rewrite H1. reflexivity.
    - assert (L : forall ts', mapM strip_annotations ts = Ok ts' <-> Forall2 stripped ts ts').
      { intros ts'. split.
        - intros Q. apply mapM_forall2 in Q. revert IH. induction Q; intros IH; constructor; inversion IH; subst; [apply H2; exact H|apply IHQ; assumption].
        - intros Q. apply mapM_map. revert IH. induction Q; intros IH; constructor; inversion IH; subst; [apply H2; exact H|apply IHQ; assumption]. }
      split.
      + intros Q. destruct (mapM strip_annotations ts) as [ts'|] eqn:M; [|discriminate Q]. econstructor; [apply L; reflexivity|exact Q].
      + intros H. inversion H; subst. match goal with F : Forall2 _ _ _ |- _ => apply L in F; rewrite F end. assumption.
    - split; [intros Q; injection Q as <-; constructor|intros H; inversion H; reflexivity].
    - split; [intros Q; constructor; apply IH; exact Q|intros H; inversion H; subst; apply IH; assumption].
    - split; [intros Q; injection Q as <-; constructor|intros H; inversion H; reflexivity].
    - split; [intros Q; injection Q as <-; constructor|intros H; inversion H; reflexivity].
    - split; [intros Q; injection Q as <-; constructor|intros H; inversion H; reflexivity].
  Qed.

  Lemma fields_ok : forall cl hs, hints E cl = Ok hs -> (forall x u, In (x, u) hs -> exists t, field_as cl u t) ->
    exists fs, checked_fields E cl = Ok fs
      /\ (forall x t, In (x, t) fs -> exists u, In (x, u) hs /\ field_as cl u t)
      /\ (forall x u, In (x, u) hs -> exists t, In (x, t) fs /\ field_as cl u t).
  Proof.
    intros cl hs H K.
    assert (NT : (forall u t, field_as cl u t <-> stripped u t) \/ (forall u t, field_as cl u t <-> t = u)).
    { unfold field_as. destruct (c_kind cl); [right|left|left|right|right]; tauto. }
    assert (TUP : (forall u t, field_as cl u t <-> stripped u t) ->
      exists fs, mapM (fun '(x, t) => do t' <- strip_annotations t; Ok (x, t')) hs = Ok fs
      /\ (forall x t, In (x, t) fs -> exists u, In (x, u) hs /\ field_as cl u t)
      /\ (forall x u, In (x, u) hs -> exists t, In (x, t) fs /\ field_as cl u t)).
    { intros FA. clear H NT. induction hs as [|[x u] hs IH].
      - exists []. split; [reflexivity|]. split; intros ? ? [].
      - destruct (K x u (or_introl eq_refl)) as (t & F). destruct IH as (fs & M & A & B).
        { intros y w W. apply K with y. right. exact W. }
        exists ((x, t) :: fs). split.
        + cbn. apply FA in F. apply strip_spec in F. rewrite F. cbn. rewrite M. reflexivity.
        + split.
          * intros y w [Q|W]; [apply pair_equal_spec in Q as [<- <-]; exists u; split; [left; reflexivity|exact F]|].
            destruct (A y w W) as (u' & U & G). exists u'. split; [right; exact U|exact G].
          * intros y w [Q|W]; [apply pair_equal_spec in Q as [<- <-]; exists t; split; [left; reflexivity|exact F]|].
            destruct (B y w W) as (u' & U & G). exists u'. split; [right; exact U|exact G]. }
    assert (ID : (forall u t, field_as cl u t <-> t = u) ->
      exists fs, Ok hs = Ok fs
      /\ (forall x t, In (x, t) fs -> exists u, In (x, u) hs /\ field_as cl u t)
      /\ (forall x u, In (x, u) hs -> exists t, In (x, t) fs /\ field_as cl u t)).
    { intros FA. exists hs. split; [reflexivity|]. split; intros x t I; exists t; (split; [exact I|apply FA; reflexivity]). }
    unfold checked_fields. rewrite H. cbn. unfold field_as in TUP, ID |- *. destruct (c_kind cl).
    - apply ID; tauto.
    - apply TUP; tauto.
    - apply TUP; tauto.
    - apply ID; tauto.
    - apply ID; tauto.
  Qed.

  Lemma field_as_fun : forall cl u t t', field_as cl u t -> field_as cl u t' -> t = t'.
  Proof.
    intros cl u t t'. unfold field_as. destruct (c_kind cl); try congruence; intros A B; apply strip_spec in A, B; congruence.
  Qed.

  Definition violated t v := exists t' v', visited E t v t' v' /\ pred t' v' = false.

  Lemma leaf_violated : forall t v, leaf E t -> (forall t' v', visited E t v t' v' -> t' = t /\ v' = v) ->
    exists b, Ok (pred t v) = Ok b /\ (b = false <-> violated t v).
  Proof.
    intros t v L U. exists (pred t v). split; [reflexivity|]. split.
    - intros Q. exists t, v. split; [constructor; exact L|exact Q].
    - intros (t' & v' & V & Q). destruct (U _ _ V) as [-> ->]. exact Q.
  Qed.

  Lemma nothing_violated : forall t v, (forall t' v', ~ visited E t v t' v') -> exists b, Ok true = Ok b /\ (b = false <-> violated t v).
  Proof.
    intros t v N. exists true. split; [reflexivity|]. split; [discriminate|]. intros (t' & v' & V & _). destruct (N _ _ V).
  Qed.

  Lemma all_violated : forall {A} (f : A -> res bool) l (T : A -> typ) (W : A -> value) t v,
    (forall x, In x l -> exists b, f x = Ok b /\ (b = false <-> violated (T x) (W x))) ->
    (forall t' v', visited E t v t' v' <-> exists x, In x l /\ visited E (T x) (W x) t' v') ->
    exists b, allM f l = Ok b /\ (b = false <-> violated t v).
  Proof.
    intros A f l T W t v H V. destruct (allM_false f l) as (b & Q & K).
    { intros x X. destruct (H x X) as (b & Q & _). exists b. exact Q. }
    exists b. split; [exact Q|]. rewrite K. split.
    - intros (x & X & F). destruct (H x X) as (b' & Q' & K'). rewrite F in Q'. injection Q' as <-.
      destruct (proj1 K' eq_refl) as (t' & v' & V' & N). exists t', v'. split; [|exact N]. apply V. exists x. split; assumption.
    - intros (t' & v' & V' & N). apply V in V'. destruct V' as (x & X & V'). exists x. split; [exact X|].
      destruct (H x X) as (b' & Q' & K'). rewrite Q'. f_equal. apply K'. exists t', v'. split; assumption.
  Qed.

  Lemma items_depth : forall v vs x, items E v vs -> In x vs -> vdepth x < vdepth v.
  Proof.
    intros v vs x [ws|c cl fs attrs G K|c cl xs attrs G K] I.
    - apply vdepth_tuple. exact I.
    - apply in_map_iff in I. destruct I as ([a y] & <- & I). eapply vdepth_obj. exact I.
    - apply in_map_iff in I. destruct I as ([a y] & <- & I). eapply vdepth_obj. exact I.
  Qed.

  Lemma combine_nth : forall {A B} (l : list A) (m : list B) x y,
    In (x, y) (combine l m) <-> exists i, nth_error l i = Some x /\ nth_error m i = Some y.
  Proof.
    induction l as [|a l IH]; intros m x y.
    - split; [intros []|intros (i & Q & _); destruct i; discriminate Q].
    - destruct m as [|b m]; cbn.
      + split; [intros []|intros (i & _ & Q); destruct i; discriminate Q].
      + rewrite IH. split.
        * intros [Q|(i & P & Q)]; [apply pair_equal_spec in Q as [<- <-]; exists 0; split; reflexivity|exists (Datatypes.S i); split; assumption].
        * intros ([|i] & P & Q); cbn in P, Q.
          -- injection P as <-. injection Q as <-. left. reflexivity.
          -- right. exists i. split; assumption.
  Qed.

  Theorem check_spec : forall n t v, vdepth v < n -> checkable E t v ->
    exists b, check E pred n t v = Ok b /\ (b = false <-> violated t v).
  Proof.
    induction n as [|n IH]; intros t v D C; [lia|].
    destruct C as [k v N4 N6|k v K S|b v I|t vs C|t vs C|k t kvs C|ts v vs I C|ts v|c cl ms d x G K|c cl hs attrs G K H C]; cbn.
    - assert (L : leaf E (TScalar k)) by (constructor; assumption).
      destruct k; try congruence; apply leaf_violated; try exact L; intros t' v' V; inversion V; subst; split; reflexivity.
    - assert (Q : isinstance E v (TScalar k) = true) by (apply isinstance_spec; [exact Logic.I|constructor; exact S]).
      assert (N : forall t' v', ~ visited E (TScalar k) v t' v').
      { intros t' v' V. inversion V; subst. inversion H; subst. destruct K; congruence. }
      destruct K; subst k; cbn in Q; rewrite Q; apply nothing_violated; exact N.
    - assert (Q : isinstance E v (TBare b) = true) by (apply isinstance_spec; [exact Logic.I|exact I]).
      cbn in Q. rewrite Q. apply nothing_violated. intros t' v' V. inversion V; subst. inversion H.
    - apply all_violated with (T := fun _ => t) (W := fun x => x).
      + intros x X. apply IH; [|apply C; exact X]. apply vdepth_list in X. lia.
      + intros t' v'. split.
        * intros V. inversion V; subst; [inversion H|]. eexists; split; eassumption.
        * intros (x & X & V). econstructor; eassumption.
    - apply all_violated with (T := fun _ => t) (W := fun x => x).
      + intros x X. apply IH; [|apply C; exact X]. apply vdepth_set in X. lia.
      + intros t' v'. split.
        * intros V. inversion V; subst; [inversion H|]. eexists; split; eassumption.
        * intros (x & X & V). econstructor; eassumption.
    - apply all_violated with (T := fun _ => t) (W := snd).
      + intros [a x] X. apply IH; [|eapply C; exact X]. apply vdepth_dict in X. cbn. lia.
      + intros t' v'. split.
        * intros V. inversion V; subst; [inversion H|]. eexists; split; [eassumption|assumption].
        * intros ([a x] & X & V). econstructor; eassumption.
    - rewrite (proj2 (items_spec E v vs) I).
      apply all_violated with (T := fst) (W := snd).
      + intros [t x] X. apply combine_nth in X. destruct X as (i & P & Q). apply IH.
        * cbn. apply nth_error_In in Q. pose proof (items_depth v vs x I Q). lia.
        * eapply C; eassumption.
      + intros t' v'. split.
        * intros V. inversion V; subst; [inversion H|]. match goal with J : items E v _ |- _ => lazymatch J with I => fail | _ => apply items_spec in J, I; rewrite I in J; injection J as <- end end.
          exists (t, x). split; [|assumption]. apply combine_nth. exists i. split; assumption.
        * intros ([t x] & X & V). apply combine_nth in X. destruct X as (i & P & Q). econstructor; eassumption.
    - apply leaf_violated; [constructor|]. intros t' v' V. inversion V; subst. split; reflexivity.
    - rewrite G, K. apply leaf_violated; [econstructor; eassumption|]. intros t' v' V. inversion V; subst. split; reflexivity.
    - rewrite G.
      assert (EX : forall x u, In (x, u) hs -> exists t, field_as cl u t).
      { intros x u U. destruct (C x u U) as (t & w & F & _). exists t. exact F. }
      destruct (fields_ok cl hs H EX) as (fs & CF & A & B).
      assert (INST : match c_kind cl with
                     | CTuple _ | CRawTuple _ => match tuple_items E (VObj c attrs) with Some _ => true | None => false end
                     | _ => isinstance E (VObj c attrs) (TClass c)
                     end = true).
      { cbn. unfold is_tuple_class. rewrite G, Nat.eqb_refl. destruct (c_kind cl); reflexivity. }
      assert (R : exists b, allM (fun f : pystr * typ => match dict_get attrs (fst f) with Some x => check E pred n (snd f) x | None => Err EAttribute end) fs = Ok b
                  /\ (b = false <-> violated (TClass c) (VObj c attrs))).
      { apply all_violated with (T := snd) (W := fun f => match dict_get attrs (fst f) with Some w => w | None => VNone end).
        - intros [x t] X. cbn. destruct (A x t X) as (u & U & F). destruct (C x u U) as (t' & w & F' & W & CK).
          rewrite W. rewrite (field_as_fun _ _ _ _ F F') in *. apply IH; [|exact CK].
          apply dict_get_in in W. apply vdepth_obj with (c := c) in W. lia.
        - intros t' v'. split.
          + intros V. inversion V; subst.
            * inversion H0; subst. rewrite G in H2. injection H2 as <-. destruct (K _ H3).
            * rewrite G in H2. injection H2 as <-. rewrite H in H4. injection H4 as <-.
              destruct (B _ _ H5) as (t2 & I2 & F2). rewrite (field_as_fun _ _ _ _ H6 F2) in *.
              exists (x, t2). split; [exact I2|]. cbn. rewrite H7. assumption.
          + intros ([x t] & X & V). cbn in V. destruct (A x t X) as (u & U & F). destruct (C x u U) as (t2 & w & F' & W & CK).
            rewrite W in V. apply (vi_field E c cl hs attrs x u t w); try assumption. }
      destruct R as (b & Q & Z). exists b. split; [|exact Z]. rewrite CF. cbn in INST |- *.
      destruct (c_kind cl) eqn:KK; [destruct (K _ eq_refl)| | | |]; rewrite INST; exact Q.
  Qed.

  Theorem check_recursive_pred : forall v, checkable E (typeof v) v ->
    exists b, check_recursive E v (Some pred) None None = Ok b /\ (b = false <-> violated (typeof v) v).
  Proof. intros v C. apply check_spec; [lia|exact C]. Qed.
End Checks.

Theorem check_recursive_value : forall E q v, checkable E (typeof v) v ->
  exists b, check_recursive E v None None (Some q) = Ok b
    /\ (b = false <-> exists t' v', visited E (typeof v) v t' v' /\ q v' = false).
Proof. intros E q v C. destruct (check_spec E (fun _ x => q x) (S (vdepth v)) (typeof v) v) as (b & Q & K); [lia|exact C|]. exists b. split; [exact Q|exact K]. Qed.

Theorem check_recursive_typed : forall E p q v, checkable E (typeof v) v ->
  exists b, check_recursive E v None (Some p) (Some q) = Ok b
    /\ (b = false <-> exists t' v', visited E (typeof v) v t' v' /\ p t' = true /\ q v' = false).
Proof.
  intros E p q v C. destruct (check_spec E (fun t x => negb (p t) || q x) (S (vdepth v)) (typeof v) v) as (b & Q & K); [lia|exact C|].
  exists b. split; [exact Q|]. rewrite K. unfold violated. split; intros (t' & v' & V & R); exists t', v'; (split; [exact V|]).
  - apply orb_false_iff in R. destruct R as [R1 R2]. apply negb_false_iff in R1. split; assumption.
  - destruct R as [R1 R2]. rewrite R1, R2. reflexivity.
Qed.

Lemma items_part : forall E v vs x w, items E v vs -> In x vs -> part_of w x -> part_of w v.
Proof.
  intros E v vs x w I X P. destruct I as [vs|c cl fs attrs _ _|c cl xs attrs _ _].
  - eapply po_tuple; eassumption.
  - apply in_map_iff in X. destruct X as ([a y] & Y & X). cbn in Y. subst. eapply po_obj; eassumption.
  - apply in_map_iff in X. destruct X as ([a y] & Y & X). cbn in Y. subst. eapply po_obj; eassumption.
Qed.

Lemma visited_part : forall E t v t' v', visited E t v t' v' -> part_of v' v /\ leaf E t'.
Proof.
  induction 1 as [t v L|t vs v t' v' I V [IH L]|t vs v t' v' I V [IH L]|k t kvs a v t' v' I V [IH L]|ts v vs i x t t' v' I A B V [IH L]
    |c cl hs attrs x u t w t' v' G K H I F D V [IH L]]; split; try assumption.
  - constructor.
  - eapply po_list; eassumption.
  - eapply po_set; eassumption.
  - eapply po_dict; eassumption.
  - eapply items_part; [exact I|eapply nth_error_In; exact A|exact IH].
  - eapply po_obj; [apply dict_get_in; exact D|exact IH].
Qed.

Theorem check_recursive_arguments : forall E v p q r,
  check_recursive E v (Some p) None (Some q) = Err EType /\
  check_recursive E v (Some p) (Some r) (Some q) = Err EType /\
  check_recursive E v None (Some r) None = Err EType /\
  check_recursive E v (Some p) (Some r) None = Err EType.
Proof. intros. repeat apply conj; reflexivity. Qed.

Theorem check_recursive_none : forall E v, checkable E (typeof v) v -> check_recursive E v None None None = Ok true.
Proof.
  intros E v C. destruct (check_spec E (fun _ _ => true) (S (vdepth v)) (typeof v) v) as ([|] & Q & K); [lia|exact C|exact Q|].
  destruct (proj1 K eq_refl) as (t' & v' & _ & N). discriminate N.
Qed.
