(** Proofs about the outcomes of [check_recursive]. *)
From Coq Require Import String List NArith ZArith Bool Lia.
From Verif Require Import Base Lists Json PyTypes Ser RoundTrip Inspect SpecInspect SpecOutcome SpecChecks InspectProofs.
Import ListNotations.
Open Scope list_scope.
Open Scope nat_scope.

Lemma turns_spec : forall {A} (P : A -> res bool -> Prop) f l,
  (forall x, In x l -> forall o, o <> Err EUnmodelled -> (P x o <-> f x = o)) -> forall o, o <> Err EUnmodelled -> (turns P l o <-> allM f l = o).
Proof.
  intros A P f l H o U. split.
  - intros K. induction K as [|x l o X K IH|x l o X N]; cbn [allM].
    + reflexivity.
    + rewrite (proj1 (H x (or_introl eq_refl) (Ok true) ltac:(discriminate)) X). apply IH; [|exact U]. intros y Y. apply H. right. exact Y.
    + rewrite (proj1 (H x (or_introl eq_refl) _ U) X). destruct o as [[|]|]; [destruct (N eq_refl)| |]; reflexivity.
  - induction l as [|x l IH]; cbn [allM]; intros Q; [subst o; constructor|].
    pose proof (H x (or_introl eq_refl)) as X. destruct (f x) as [[|]|e] eqn:F.
    + apply tu_next; [apply X; [discriminate | reflexivity]|]. apply IH; [intros y Y; apply H; right; exact Y | exact Q].
    + subst o. apply tu_stop; [apply X; [exact U | reflexivity] | discriminate].
    + subst o. apply tu_stop; [apply X; [exact U | reflexivity] | discriminate].
Qed.

Section Checks.
  Variable E : env.
  Variable p : typ -> value -> bool.
  Hypothesis AN : annotated E.

  Lemma properties_fields : forall cl fs, properties E cl fs -> checked_fields E cl = Ok fs.
  Proof.
    intros cl fs (hs & H & F). unfold checked_fields. rewrite H. cbn [bind].
    assert (ID : (forall u t, field_as cl u t -> t = u) -> hs = fs).
    { intros I. clear H. induction F as [|[x u] [y t] hs fs (Q & K) F IH]; [reflexivity|]. cbn in Q, K. subst y. rewrite (I _ _ K), IH. reflexivity. }
    assert (ST : (forall u t, field_as cl u t -> strip_annotations u = Ok t) -> mapM (fun '(x, t) => do t' <- strip_annotations t; Ok (x, t')) hs = Ok fs).
    { intros I. clear H ID. induction F as [|[x u] [y t] hs fs (Q & K) F IH]; [reflexivity|]. cbn in Q, K. subst y. cbn [mapM]. rewrite (I _ _ K). cbn [bind]. rewrite IH. reflexivity. }
    unfold field_as in ID, ST. destruct (c_kind cl).
    2,3: apply ST; intros u t S; apply strip_spec; exact S.
    all: f_equal; apply ID; intros u t S; exact S.
  Qed.

  Lemma fields_properties : forall cl fs, checked_fields E cl = Ok fs -> properties E cl fs.
  Proof.
    intros cl fs H. unfold checked_fields in H. apply bind_ok in H. destruct H as (hs & Q & H). exists hs. split; [exact Q|]. clear Q.
    assert (ID : (forall u, field_as cl u u) -> hs = fs -> Forall2 (fun h f => fst f = fst h /\ field_as cl (snd h) (snd f)) hs fs).
    { clear H. intros R ->. induction fs as [|[x t] fs IH]; constructor; [split; [reflexivity | apply R] | exact IH]. }
    assert (ST : (forall u t, strip_annotations u = Ok t -> field_as cl u t) -> mapM (fun '(x, t) => do t' <- strip_annotations t; Ok (x, t')) hs = Ok fs ->
      Forall2 (fun h f => fst f = fst h /\ field_as cl (snd h) (snd f)) hs fs).
    { clear H ID. intros R. revert fs. induction hs as [|[x u] hs IH]; intros fs H; [injection H as <-; constructor|].
      cbn [mapM] in H. apply bind_ok in H. destruct H as (y & Y & H). apply bind_ok in Y. destruct Y as (t & T & Y). injection Y as <-.
      apply bind_ok in H. destruct H as (ys & Z & H). injection H as <-. constructor; [split; [reflexivity | apply R; exact T] | apply IH; exact Z]. }
    unfold field_as in *. destruct (c_kind cl).
    2,3: apply ST; [intros u t T; apply strip_spec; exact T | exact H].
    all: apply ID; [reflexivity | injection H as ->; reflexivity].
  Qed.

  Lemma properties_fun : forall cl fs fs', properties E cl fs -> properties E cl fs' -> fs = fs'.
  Proof. intros cl fs fs' A B. apply properties_fields in A, B. rewrite A in B. injection B as ->. reflexivity. Qed.

  Ltac odd := match goal with
    | O : opaque _ |- _ => destruct O as [O|[O|(? & O)]]; discriminate O
    | U : unsupported _ \/ _ |- _ => destruct U as [[(? & U)|[(? & ? & U)|[(? & U)|U]]]|(? & U)]; discriminate U
    end.

  Lemma opaque_spec : forall n t v o, opaque t -> (checks E p t v o <-> check E p (Datatypes.S n) t v = o).
  Proof.
    intros n t v o OP. assert (K : isinstance E v t = true <-> instance E v t).
    { apply isinstance_spec. destruct OP as [->|[->|(b & ->)]]; exact Logic.I. }
    assert (Q : check E p (Datatypes.S n) t v = if isinstance E v t then Ok true else Err EType) by (destruct OP as [->|[->|(b & ->)]]; reflexivity).
    rewrite Q. split.
    - intros H. assert (X : (instance E v t /\ o = Ok true) \/ (~ instance E v t /\ o = Err EType)).
      { destruct OP as [->|[->|(b & ->)]]; inversion H; subst; try odd; auto; congruence. }
      destruct (isinstance E v t); destruct X as [(I & ->)|(I & ->)]; try reflexivity; [destruct (I (proj1 K eq_refl)) | discriminate (proj2 K I)].
    - intros <-. destruct (isinstance E v t); [apply cs_opaque; [exact OP | apply K; reflexivity] | apply cs_no_opaque; [exact OP | intros I; discriminate (proj2 K I)]].
  Qed.

  Lemma admitted_spec : forall c cl v, admitted E c cl v <->
    match c_kind cl with
    | CTuple _ | CRawTuple _ => match tuple_items E v with Some _ => true | None => false end
    | _ => isinstance E v (TClass c)
    end = true.
  Proof.
    intros c cl v. unfold admitted. assert (T : (exists vs, items E v vs) <-> match tuple_items E v with Some _ => true | None => false end = true).
    { split; [intros (vs & I); apply items_spec in I; rewrite I; reflexivity|]. destruct (tuple_items E v) as [vs|] eqn:Q; [|discriminate]. intros _. exists vs. apply items_spec. exact Q. }
    assert (I : instance E v (TClass c) <-> isinstance E v (TClass c) = true) by (symmetry; apply isinstance_spec; exact Logic.I).
    destruct (c_kind cl); assumption.
  Qed.

  Theorem checks_spec : forall n t v, vdepth v < n -> forall o, o <> Err EUnmodelled -> (checks E p t v o <-> check E p n t v = o).
  Proof.
    induction n as [|n IH]; intros t v D o U; [lia|].
    destruct t as [k|b|w|w|k w|ts|op ts|ls|w md|c|s|].
    - assert (X : k <> KIPv4 -> k <> KIPv6 -> (checks E p (TScalar k) v o <-> Ok (p (TScalar k) v) = o)).
      { intros N4 N6. split; [intros H; inversion H; subst; try odd; try reflexivity; match goal with O : opaque _ |- _ => destruct O as [O|[O|(? & O)]]; [injection O as O; destruct (N4 O) | injection O as O; destruct (N6 O) | discriminate O] end|].
        intros <-. apply cs_scalar; assumption. }
      destruct k; try (apply X; discriminate); apply opaque_spec; [left; reflexivity | right; left; reflexivity].
    - apply opaque_spec. right. right. exists b. reflexivity.
    - assert (X : forall vs, v = VList vs -> (checks E p (TList w) v o <-> allM (check E p n w) vs = o)).
      { intros vs ->. rewrite <- (turns_spec (fun x => checks E p w x) (check E p n w)); [| |exact U].
        - split; [intros H; inversion H; subst; try odd; [assumption|]; match goal with N : forall vs, _ <> _ |- _ => destruct (N _ eq_refl) end | apply cs_list].
        - intros x I o' U'. apply IH; [apply vdepth_list in I; lia | exact U']. }
      cbn [check]. destruct v; try (apply X; reflexivity).
      all: split; [intros H; inversion H; subst; try odd; reflexivity | intros <-; apply cs_no_list; discriminate].
    - assert (X : forall vs, v = VSet vs -> (checks E p (TSet w) v o <-> allM (check E p n w) vs = o)).
      { intros vs ->. rewrite <- (turns_spec (fun x => checks E p w x) (check E p n w)); [| |exact U].
        - split; [intros H; inversion H; subst; try odd; [assumption|]; match goal with N : forall vs, _ <> _ |- _ => destruct (N _ eq_refl) end | apply cs_set].
        - intros x I o' U'. apply IH; [apply vdepth_set in I; lia | exact U']. }
      cbn [check]. destruct v; try (apply X; reflexivity).
      all: split; [intros H; inversion H; subst; try odd; reflexivity | intros <-; apply cs_no_set; discriminate].
    - assert (X : forall kvs, v = VDict kvs -> (checks E p (TDict k w) v o <-> allM (fun kv => check E p n w (snd kv)) kvs = o)).
      { intros kvs ->. rewrite <- (turns_spec (fun kv => checks E p w (snd kv)) (fun kv => check E p n w (snd kv))); [| |exact U].
        - split; [intros H; inversion H; subst; try odd; [assumption|]; match goal with N : forall vs, _ <> _ |- _ => destruct (N _ eq_refl) end | apply cs_dict].
        - intros [a x] I o' U'. apply IH; [apply vdepth_dict in I; cbn [snd]; lia | exact U']. }
      cbn [check]. destruct v; try (apply X; reflexivity).
      all: split; [intros H; inversion H; subst; try odd; reflexivity | intros <-; apply cs_no_dict; discriminate].
    - cbn [check]. destruct (tuple_items E v) as [vs|] eqn:T.
      + apply items_spec in T. rewrite <- (turns_spec (fun tx => checks E p (fst tx) (snd tx)) (fun tx => check E p n (fst tx) (snd tx))); [| |exact U].
        * split; [intros H; inversion H as [| | | | | | | | | | | |? ? vs' ? T' K|? ? N| | |]; subst; try odd|].
          -- apply items_spec in T, T'. rewrite T in T'. injection T' as <-. exact K.
          -- destruct (N _ T).
          -- intros K. eapply cs_tuple; eassumption.
        * intros [t x] I o' U'. apply in_combine_r in I. cbn [fst snd]. apply IH; [pose proof (items_depth E v vs x T I); lia | exact U'].
      + split; [intros H; inversion H as [| | | | | | | | | | | |? ? vs' ? T' K|? ? N| | |]; subst; try odd; [|reflexivity]|].
        * apply items_spec in T'. rewrite T' in T. discriminate T.
        * intros <-. apply cs_no_tuple. intros vs I. apply items_spec in I. rewrite I in T. discriminate T.
    - destruct op; cbn [check].
      + split; [intros H; inversion H; subst; try odd; reflexivity | intros <-; apply cs_unsupported; left; right; right; left; eexists; reflexivity].
      + split; [intros H; inversion H; subst; try odd; reflexivity | intros <-; apply cs_union].
    - split; [intros H; inversion H; subst; try odd; reflexivity | intros <-; apply cs_unsupported; left; left; eexists; reflexivity].
    - split; [intros H; inversion H; subst; try odd; reflexivity | intros <-; apply cs_unsupported; left; right; left; eexists; eexists; reflexivity].
    - cbn [check]. destruct (get_class E c) as [cl|] eqn:G.
      2: { split; [intros H; inversion H; subst; try odd; congruence | intros <-; destruct (U eq_refl)]. }
      destruct (AN c cl G) as (fs & PR). pose proof (properties_fields cl fs PR) as CF.
      assert (EN : forall ms, c_kind cl = CEnum ms -> (checks E p (TClass c) v o <-> match v with VEnum _ _ => Ok (p (TClass c) v) | _ => Err EType end = o)).
      { intros ms K. split.
        - intros H; inversion H; subst; try odd; match goal with Q : get_class E c = Some _ |- _ => rewrite G in Q; injection Q as <- end;
            try match goal with N : forall ms, c_kind cl <> _ |- _ => destruct (N _ K) end.
          + reflexivity.
          + destruct v; try reflexivity. match goal with N : forall d x, _ <> _ |- _ => destruct (N _ _ eq_refl) end.
        - intros <-. destruct v; try (eapply cs_no_enum; [exact G | exact K | discriminate]). eapply cs_enum; eassumption. }
      assert (OB : (forall ms, c_kind cl <> CEnum ms) -> forall i, (admitted E c cl v <-> i = true) -> (checks E p (TClass c) v o <->
        (if i then do fs <- checked_fields E cl;
                    allM (fun f => match v with
                                   | VObj _ attrs => match dict_get attrs (fst f) with
                                                     | Some x => check E p n (snd f) x
                                                     | None => Err EAttribute
                                                     end
                                   | _ => Err EAttribute
                                   end) fs
         else Err EType) = o)).
      { intros K i AD. rewrite CF. cbn [bind].
        match goal with |- _ <-> (if i then allM ?f fs else _) = o => set (F := f) end.
        set (PP := fun (f : pystr * typ) (o' : res bool) => (exists w, attribute v (fst f) w /\ checks E p (snd f) w o') \/ ((forall w, ~ attribute v (fst f) w) /\ o' = Err EAttribute)).
        assert (T : turns PP fs o <-> allM F fs = o).
        { apply turns_spec; [|exact U]. intros [x t] I o' U'. unfold PP, F. cbn [fst snd]. clear I.
          assert (NO : (forall w, ~ attribute v x w) -> ((exists w, attribute v x w /\ checks E p t w o') \/ ((forall w, ~ attribute v x w) /\ o' = Err EAttribute) <-> Err EAttribute = o')).
          { intros N. split; [intros [(w & A & _)|(_ & Q)]; [destruct (N w A) | symmetry; exact Q] | intros <-; right; split; [exact N | reflexivity]]. }
          destruct v; try (apply NO; intros w (c' & attrs & Q & _); discriminate Q).
          match goal with |- context [dict_get ?l x] => destruct (dict_get l x) as [w|] eqn:W end; [|apply NO; intros w (c' & at2 & Q & Y); injection Q as <- <-; rewrite W in Y; discriminate Y].
          rewrite <- (IH t w); [| |exact U'].
          - split.
            + intros [(w' & (c' & at2 & Q & Y) & H)|(N & _)].
              * injection Q as <- <-. rewrite W in Y. injection Y as <-. exact H.
              * destruct (N w). eexists; eexists; split; [reflexivity | exact W].
            + intros H. left. exists w. split; [|exact H]. eexists; eexists; split; [reflexivity | exact W].
          - match goal with D : vdepth (VObj ?c0 _) < _ |- _ => apply dict_get_in in W; apply vdepth_obj with (c := c0) in W; lia end. }
        destruct i.
        - rewrite <- T. split.
          + intros H; inversion H; subst; try odd; match goal with Q : get_class E c = Some _ |- _ => rewrite G in Q; injection Q as <- end;
              try match goal with N : c_kind cl = CEnum _ |- _ => destruct (K _ N) end.
            * match goal with P' : properties E cl ?gs |- _ => lazymatch P' with PR => fail | _ => rewrite (properties_fun _ _ _ PR P') end end. assumption.
            * match goal with N : ~ admitted _ _ _ _ |- _ => destruct (N (proj2 AD eq_refl)) end.
          + intros H. eapply cs_object; [exact G | exact K | apply AD; reflexivity | exact PR | exact H].
        - assert (NA : ~ admitted E c cl v) by (intros A; discriminate (proj1 AD A)). split.
          + intros H; inversion H; subst; try odd; match goal with Q : get_class E c = Some _ |- _ => rewrite G in Q; injection Q as <- end;
              try match goal with N : c_kind cl = CEnum _ |- _ => destruct (K _ N) end; [contradiction | reflexivity].
          + intros <-. eapply cs_no_object; [exact G | exact K | exact NA]. }
      pose proof (admitted_spec c cl v) as AS.
      destruct (c_kind cl) eqn:KK; [eapply EN; reflexivity | | | |]; (apply OB; [discriminate | exact AS]).
    - split; [intros H; inversion H; subst; try odd; reflexivity | intros <-; apply cs_unsupported; right; eexists; reflexivity].
    - split; [intros H; inversion H; subst; try odd; reflexivity | intros <-; apply cs_unsupported; left; right; right; right; reflexivity].
  Qed.
End Checks.
