(** Proofs about the outcomes of [is_generic_instance]. *)
From Coq Require Import String List NArith ZArith Bool Lia.
From Verif Require Import Base Lists Json PyTypes RoundTrip Inspect SpecInspect SpecOutcome InspectProofs.
Import ListNotations.
Open Scope list_scope.
Open Scope nat_scope.

Definition res_of (o : option bool) : res bool := match o with Some b => Ok b | None => Err EType end.

Lemma res_of_inj : forall a b, res_of a = res_of b -> a = b.
Proof. intros [a|] [b|] H; cbn in H; try discriminate H; [injection H as ->|]; reflexivity. Qed.

Section Lists.
  Context {A : Type}.
  Lemma all_of_spec : forall (P : A -> option bool -> Prop) f l, (forall x, In x l -> forall o, P x o <-> f x = res_of o) -> forall o, all_of P l o <-> allM f l = res_of o.
  Proof.
    intros P f l H o. split.
    - intros K. induction K as [|x l o X K IH|x l o X N]; cbn [allM].
      + reflexivity.
      + rewrite (proj1 (H x (or_introl eq_refl) _) X). apply IH. intros y Y. apply H. right. exact Y.
      + rewrite (proj1 (H x (or_introl eq_refl) _) X). destruct o as [[|]|]; [destruct (N eq_refl)| |]; reflexivity.
    - induction l as [|x l IH]; cbn [allM]; intros Q; [apply (res_of_inj (Some true)) in Q; subst o; constructor|].
      pose proof (H x (or_introl eq_refl)) as X. destruct (f x) as [[|]|e] eqn:F.
      + apply al_next; [apply X; reflexivity|]. apply IH; [intros y Y; apply H; right; exact Y | exact Q].
      + apply (res_of_inj (Some false)) in Q. subst o. apply al_stop; [apply X; reflexivity | discriminate].
      + destruct o as [b|]; [discriminate Q|]. apply al_stop; [apply X; exact Q | discriminate].
  Qed.

  Lemma any_of_spec : forall (P : A -> option bool -> Prop) f l, (forall x, In x l -> forall o, P x o <-> f x = res_of o) -> forall o, any_of P l o <-> anyM f l = res_of o.
  Proof.
    intros P f l H o. split.
    - intros K. induction K as [|x l o X K IH|x l o X N]; cbn [anyM].
      + reflexivity.
      + rewrite (proj1 (H x (or_introl eq_refl) _) X). apply IH. intros y Y. apply H. right. exact Y.
      + rewrite (proj1 (H x (or_introl eq_refl) _) X). destruct o as [[|]|]; [|destruct (N eq_refl)|]; reflexivity.
    - induction l as [|x l IH]; cbn [anyM]; intros Q; [apply (res_of_inj (Some false)) in Q; subst o; constructor|].
      pose proof (H x (or_introl eq_refl)) as X. destruct (f x) as [[|]|e] eqn:F.
      + apply (res_of_inj (Some true)) in Q. subst o. apply an_stop; [apply X; reflexivity | discriminate].
      + apply an_next; [apply X; reflexivity|]. apply IH; [intros y Y; apply H; right; exact Y | exact Q].
      + destruct o as [b|]; [discriminate Q|]. apply an_stop; [apply X; exact Q | discriminate].
  Qed.

  Lemma all_total : forall (f : A -> res bool) l, (forall x, In x l -> exists o, f x = res_of o) -> exists o, allM f l = res_of o.
  Proof.
    intros f l. induction l as [|x l IH]; intros H; cbn [allM]; [exists (Some true); reflexivity|].
    destruct (H x (or_introl eq_refl)) as ([[|]|] & ->); cbn [res_of]; [apply IH; intros y Y; apply H; right; exact Y | exists (Some false); reflexivity | exists None; reflexivity].
  Qed.
  Lemma any_total : forall (f : A -> res bool) l, (forall x, In x l -> exists o, f x = res_of o) -> exists o, anyM f l = res_of o.
  Proof.
    intros f l. induction l as [|x l IH]; intros H; cbn [anyM]; [exists (Some false); reflexivity|].
    destruct (H x (or_introl eq_refl)) as ([[|]|] & ->); cbn [res_of]; [exists (Some true); reflexivity | apply IH; intros y Y; apply H; right; exact Y | exists None; reflexivity].
  Qed.
End Lists.

Section Outcome.
  Variable E : env.

  Definition item (xt : value * typ) : res bool := is_generic_instance E (fst xt) (snd xt).

  Lemma tuple_zip : forall ts vs, (fix zip (ts : list typ) (vs : list value) : res bool :=
             match ts, vs with
             | t :: ts', x :: vs' =>
                 match is_generic_instance E x t with Err e => Err e | Ok false => Ok false | Ok true => zip ts' vs' end
             | _, _ => Ok true
             end) ts vs = allM item (combine vs ts).
  Proof.
    induction ts as [|t ts IH]; intros [|x vs]; try reflexivity. cbn [combine allM]. unfold item at 1. cbn [fst snd]. rewrite IH.
    destruct (is_generic_instance E x t) as [[|]|e]; reflexivity.
  Qed.

  Lemma simple_spec : forall v t o, simple t -> is_generic_instance E v t = Ok (isinstance E v t) -> (outcome E v t o <-> is_generic_instance E v t = res_of o).
  Proof.
    intros v t o SI Q. rewrite Q. assert (K : isinstance E v t = true <-> instance E v t).
    { apply isinstance_spec. destruct SI as [(k & ->)|[(b & ->)|(c & ->)]]; exact Logic.I. }
    split.
    - intros H. assert (X : (instance E v t /\ o = Some true) \/ (~ instance E v t /\ o = Some false)).
      { destruct SI as [(k & ->)|[(b & ->)|(c & ->)]]; inversion H; subst; auto;
          match goal with U : unsupported _ |- _ => destruct U as [(? & U)|[(? & ? & U)|[(? & U)|U]]]; discriminate U end. }
      destruct X as [(I & ->)|(I & ->)]; cbn [res_of]; f_equal; [apply K; exact I|]. destruct (isinstance E v t); [destruct (I (proj1 K eq_refl)) | reflexivity].
    - intros H. destruct (isinstance E v t).
      + apply (res_of_inj (Some true)) in H. subst o. apply ou_is; [exact SI | apply K; reflexivity].
      + apply (res_of_inj (Some false)) in H. subst o. apply ou_is_not; [exact SI|]. intros I. discriminate (proj2 K I).
  Qed.

  Lemma unsupported_spec : forall v t o, unsupported t -> (outcome E v t o <-> is_generic_instance E v t = res_of o).
  Proof.
    intros v t o U. assert (Q : is_generic_instance E v t = Err EType) by (destruct U as [(ls & ->)|[(u & md & ->)|[(ts & ->)| ->]]]; reflexivity).
    rewrite Q. split.
    - intros H. destruct U as [(ls & ->)|[(u & md & ->)|[(ts & ->)| ->]]]; inversion H; subst; try reflexivity;
        match goal with S : simple _ |- _ => destruct S as [(? & S)|[(? & S)|(? & S)]]; discriminate S end.
    - intros H. apply (res_of_inj None) in H. subst o. apply ou_unsupported. exact U.
  Qed.

  Ltac odd := match goal with
    | S : simple _ |- _ => destruct S as [(? & S)|[(? & S)|(? & S)]]; discriminate S
    | U : unsupported _ |- _ => destruct U as [(? & U)|[(? & ? & U)|[(? & U)|U]]]; discriminate U
    end.

  Theorem outcome_spec : forall t v o, outcome E v t o <-> is_generic_instance E v t = res_of o.
  Proof.
    induction t as [k|b|u IH|u IH|k u IHk IHu|ts IH|op ts IH|ls|u md IH|c|s|] using typ_induct; intros v o.
    - apply simple_spec; [left; eexists; reflexivity | reflexivity].
    - apply simple_spec; [right; left; eexists; reflexivity | reflexivity].
    - assert (X : forall vs, outcome E (VList vs) (TList u) o <-> allM (fun x => is_generic_instance E x u) vs = res_of o).
      { intros vs. rewrite <- (all_of_spec (fun x => outcome E x u) (fun x => is_generic_instance E x u) vs (fun x _ => IH x)).
        split; [intros H; inversion H; subst; try odd; [assumption|]; match goal with N : forall vs, _ <> _ |- _ => destruct (N _ eq_refl) end | apply ou_list]. }
      destruct v; try exact (X _); cbn [is_generic_instance].
      all: split; [intros H; inversion H; subst; try odd; reflexivity | intros H; apply (res_of_inj (Some false)) in H; subst o; apply ou_no_list; discriminate].
    - assert (X : forall vs, outcome E (VSet vs) (TSet u) o <-> allM (fun x => is_generic_instance E x u) vs = res_of o).
      { intros vs. rewrite <- (all_of_spec (fun x => outcome E x u) (fun x => is_generic_instance E x u) vs (fun x _ => IH x)).
        split; [intros H; inversion H; subst; try odd; [assumption|]; match goal with N : forall vs, _ <> _ |- _ => destruct (N _ eq_refl) end | apply ou_set]. }
      destruct v; try exact (X _); cbn [is_generic_instance].
      all: split; [intros H; inversion H; subst; try odd; reflexivity | intros H; apply (res_of_inj (Some false)) in H; subst o; apply ou_no_set; discriminate].
    - assert (PAIR : forall p o, all_of (fun xt => outcome E (fst xt) (snd xt)) [(fst p, k); (snd p, u)] o <->
        match is_generic_instance E (fst p) k with Ok true => is_generic_instance E (snd p) u | r => r end = res_of o).
      { intros p o'. rewrite (all_of_spec (fun xt => outcome E (fst xt) (snd xt)) item).
        - cbn [allM]. unfold item. cbn [fst snd]. destruct (is_generic_instance E (fst p) k) as [[|]|e]; [|reflexivity | reflexivity].
          destruct (is_generic_instance E (snd p) u) as [[|]|e]; reflexivity.
        - intros [x t] [Q|[Q|[]]] o''; injection Q as <- <-; unfold item; cbn [fst snd]; [apply IHk | apply IHu]. }
      assert (X : forall kvs, outcome E (VDict kvs) (TDict k u) o <->
        allM (fun kv => match is_generic_instance E (fst kv) k with Ok true => is_generic_instance E (snd kv) u | r => r end) kvs = res_of o).
      { intros kvs. rewrite <- (all_of_spec (fun p => all_of (fun xt => outcome E (fst xt) (snd xt)) [(fst p, k); (snd p, u)]) _ kvs (fun p _ => PAIR p)).
        split; [intros H; inversion H; subst; try odd; [assumption|]; match goal with N : forall vs, _ <> _ |- _ => destruct (N _ eq_refl) end | apply ou_dict]. }
      destruct v; try exact (X _); cbn [is_generic_instance].
      all: split; [intros H; inversion H; subst; try odd; reflexivity | intros H; apply (res_of_inj (Some false)) in H; subst o; apply ou_no_dict; discriminate].
    - cbn [is_generic_instance]. destruct (tuple_items E v) as [vs|] eqn:T.
      + apply items_spec in T. rewrite tuple_zip. rewrite <- (all_of_spec (fun xt => outcome E (fst xt) (snd xt)) item).
        * split; [intros H; inversion H as [| | | | | | | | |? vs' ? ? T' K|? ? N|]; subst; try odd|].
          -- apply items_spec in T, T'. rewrite T in T'. injection T' as <-. exact K.
          -- destruct (N _ T).
          -- intros K. eapply ou_tuple; eassumption.
        * intros [x t] I o'. apply in_combine_r in I. rewrite Forall_forall in IH. unfold item. cbn [fst snd]. apply (IH t I).
      + split; [intros H; inversion H as [| | | | | | | | |? vs' ? ? T' K|? ? N|]; subst; try odd; [|reflexivity]|].
        * apply items_spec in T'. rewrite T' in T. discriminate T.
        * intros H. apply (res_of_inj (Some false)) in H. subst o. apply ou_no_tuple. intros vs I. apply items_spec in I. rewrite I in T. discriminate T.
    - destruct op; [apply unsupported_spec; right; right; left; eexists; reflexivity|]. cbn [is_generic_instance]. rewrite Forall_forall in IH.
      rewrite <- (any_of_spec (fun t => outcome E v t) (is_generic_instance E v) ts (fun t I => IH t I v)).
      split; [intros H; inversion H; subst; try odd; assumption | apply ou_union].
    - apply unsupported_spec. left. eexists. reflexivity.
    - apply unsupported_spec. right. left. eexists. eexists. reflexivity.
    - apply simple_spec; [right; right; eexists; reflexivity | reflexivity].
    - cbn [is_generic_instance]. split; [intros H; inversion H; subst; odd | destruct o; discriminate].
    - apply unsupported_spec. right. right. right. reflexivity.
  Qed.

  Theorem outcome_total : forall t v, no_ref t -> exists o, outcome E v t o.
  Proof.
    intros t v N. cut (exists o, is_generic_instance E v t = res_of o); [intros (o & Q); exists o; apply outcome_spec; exact Q|]. revert v N.
    induction t as [k|b|u IH|u IH|k u IHk IHu|ts IH|op ts IH|ls|u md IH|c|s|] using typ_induct; intros v N; cbn [is_generic_instance].
    1,2,10: match goal with |- exists o, Ok ?b = _ => exists (Some b); reflexivity end.
    6,7,9: exists None; reflexivity.
    - inversion N; subst; try odd. destruct v; try (exists (Some false); reflexivity). apply all_total. auto.
    - inversion N; subst; try odd. destruct v; try (exists (Some false); reflexivity). apply all_total. auto.
    - inversion N; subst; try odd. destruct v; try (exists (Some false); reflexivity). apply all_total. intros p _.
      destruct (IHk (fst p) ltac:(assumption)) as ([[|]|] & ->); cbn [res_of]; [apply IHu; assumption | exists (Some false); reflexivity | exists None; reflexivity].
    - inversion N; subst; try odd. destruct (tuple_items E v) as [vs|]; [|exists (Some false); reflexivity]. rewrite tuple_zip. apply all_total.
      intros [x t] I. apply in_combine_r in I. rewrite Forall_forall in IH. apply (IH t I). auto.
    - destruct op; [exists None; reflexivity|]. inversion N; subst; try odd. apply any_total. rewrite Forall_forall in IH. intros t I. apply (IH t I). auto.
    - inversion N; subst; odd.
  Qed.
End Outcome.
