(** Unions, optional and annotated types. *)
From Coq Require Import String List NArith ZArith Bool Lia.
From Verif Require Import Base Json PyTypes TypeAlgebra Lists TypingFacts SpecTypes.
Import ListNotations.
Open Scope list_scope.
Open Scope nat_scope.

Lemma typ_eqb_iff : forall a b, typ_eqb a b = true <-> a = b.
Proof. intros a b. split; [apply typ_eqb_eq | intros ->; apply typ_eqb_refl]. Qed.

Lemma typ_eqb_neq : forall a b, typ_eqb a b = false <-> a <> b.
Proof.
  intros a b. split.
  - intros H ->. rewrite typ_eqb_refl in H. discriminate.
  - intros H. destruct (typ_eqb a b) eqn:Q; [apply typ_eqb_eq in Q; contradiction | reflexivity].
Qed.

Lemma none_filter : forall ts, without_none ts (filter (fun u => negb (typ_eqb (TScalar KNone) u)) ts).
Proof.
  induction ts as [|t ts IH]; cbn [filter]; [constructor|].
  destruct (typ_eqb (TScalar KNone) t) eqn:Q; cbn [negb].
  - apply typ_eqb_eq in Q. subst t. constructor. exact IH.
  - apply typ_eqb_neq in Q. constructor; [intros X; apply Q; symmetry; exact X | exact IH].
Qed.

Lemma without_none_fun : forall ts us, without_none ts us -> forall ws, without_none ts ws -> us = ws.
Proof.
  induction 1 as [|ts us H IH|t ts us NE H IH]; intros ws W; inversion W; subst; auto; try contradiction.
  f_equal. auto.
Qed.

Lemma without_none_in : forall ts us t, without_none ts us -> (In t us <-> In t ts /\ t <> none_type).
Proof.
  induction 1 as [|ts us H IH|u ts us NE H IH]; cbn [In].
  - tauto.
  - rewrite IH. split; [tauto|]. intros [[Q|I] N]; [subst; contradiction | tauto].
  - rewrite IH. split; [|tauto]. intros [<-|[I N]]; tauto.
Qed.

Lemma flatten_none : forall ts, Forall (fun t => ~ is_union t) ts -> flatten_union ts = ts.
Proof.
  induction 1 as [|t ts N H IH]; [reflexivity|]. unfold flatten_union in *. cbn [flat_map]. rewrite IH.
  destruct t; try reflexivity. destruct N. exact I.
Qed.

Lemma dedup_nodup : forall ts seen, NoDup ts -> (forall t, In t ts -> ~ In t seen) -> dedup seen ts = ts.
Proof.
  induction ts as [|t ts IH]; intros seen N D; cbn [dedup]; [reflexivity|].
  inversion N as [|? ? NI N']; subst.
  destruct (existsb (typ_eqb t) seen) eqn:X.
  - apply existsb_exists in X. destruct X as (u & I & Q). apply typ_eqb_eq in Q. subst u.
    exfalso. apply (D t); [left; reflexivity | exact I].
  - f_equal. apply IH; [exact N'|]. intros u I [<-|J]; [contradiction | apply (D u); [right; exact I | exact J]].
Qed.

Lemma nodup_dedup : forall ts seen, NoDup (dedup seen ts) /\ forall t, In t (dedup seen ts) -> ~ In t seen.
Proof.
  induction ts as [|t ts IH]; intros seen; cbn [dedup].
  - split; [constructor | intros t []].
  - destruct (existsb (typ_eqb t) seen) eqn:X; [apply IH|]. destruct (IH (t :: seen)) as [A B]. split.
    + constructor; [|exact A]. intros I. apply (B _ I). left. reflexivity.
    + intros u [<-|I].
      * intros J. assert (existsb (typ_eqb t) seen = true) by (apply existsb_exists; exists t; split; [exact J | apply typ_eqb_refl]).
        congruence.
      * intros J. apply (B _ I). right. exact J.
Qed.

Lemma mk_union_canonical : forall op ts t, Forall canonical ts -> mk_union op ts = Ok t -> canonical t.
Proof.
  intros op ts t F H. unfold mk_union in H.
  assert (M : Forall (fun t => canonical t /\ ~ is_union t) (dedup [] (flatten_union ts))).
  { apply Forall_forall. intros u I. apply dedup_in in I. unfold flatten_union in I. apply in_flat_map in I.
    destruct I as (w & Iw & I). rewrite Forall_forall in F. specialize (F _ Iw).
    destruct w; try (destruct I as [<-|[]]; split; [exact F | intros []]).
    inversion F as [| | | | | |? ? ? ? A| | | | |]; subst. rewrite Forall_forall in A. apply A. exact I. }
  destruct (nodup_dedup (flatten_union ts) []) as [N _].
  destruct (dedup [] (flatten_union ts)) as [|a [|b r]]; [discriminate| |].
  - injection H as <-. inversion M; subst. tauto.
  - injection H as <-. constructor; [cbn; lia | exact N | exact M].
Qed.

Lemma mk_annot_canonical : forall t md, canonical t -> canonical (mk_annot t md).
Proof.
  intros t md C. destruct t; cbn [mk_annot]; try (constructor; [exact C | intros []]).
  inversion C; subst. constructor; assumption.
Qed.

(** Annotations evaluated by [get_type_hints] are canonical. *)
Lemma resolve_canonical : forall E m n g t t',
  (forall m s a u, lookup E m s = Some (a, u) -> canonical u) -> canonical t ->
  resolve E m n g t = Ok t' -> canonical t'.
Proof.
  intros E m n. induction n as [|n IHn].
  all: intros g t t' CE; revert t'; induction t as [k|b|t IH|t IH|k v IHk IHv|ts IH|op ts IH|ls|t md IH|c|s|] using typ_induct;
    intros t' C H; rewrite resolve_eq in H; inversion C; subst; try (injection H as <-; assumption).
  all: try (apply bind_ok in H; destruct H as (u & A & B); injection B as <-; apply mk_annot_canonical; eauto; fail).
  all: try (apply bind_ok in H; destruct H as (u & A & B); injection B as <-; constructor; eauto; fail).
  all: try (apply bind_ok in H; destruct H as (u & A & B); apply bind_ok in B; destruct B as (w & B & D);
    injection D as <-; constructor; eauto; fail).
  all: try (destruct (mem_str s g); [injection H as <-; constructor|];
    destruct (lookup E m s) as [[a u]|] eqn:L; [|discriminate]; try discriminate; exact (IHn _ _ _ CE (CE _ _ _ _ L) H)).
  all: apply bind_ok in H; destruct H as (us & A & B); apply mapM_ok in A.
  all: assert (F : Forall canonical us) by
    (apply Forall_forall; intros u I; eapply Forall2_in_r in I; [|exact A]; destruct I as (w & Iw & Q);
     rewrite Forall_forall in IH; eapply IH; [exact Iw | | exact Q];
     match goal with X : Forall _ ?l, Y : In w ?l |- _ => rewrite Forall_forall in X; specialize (X _ Iw); tauto end).
  all: try (injection B as <-; constructor; exact F).
  all: eapply mk_union_canonical; eassumption.
Qed.

(** * Removal of None *)

Lemma without_none_sub : forall (P : typ -> Prop) ts us, without_none ts us -> Forall P ts -> Forall P us.
Proof. induction 1; intros F; inversion F; subst; auto. Qed.

Lemma without_none_nodup : forall ts us, without_none ts us -> NoDup ts -> NoDup us.
Proof.
  induction 1 as [|ts us W IH|t ts us NE W IH]; intros N; [constructor| |]; inversion N as [|? ? NI N']; subst.
  - auto.
  - constructor; [|auto]. intros I. apply NI. apply (without_none_in _ _ t W) in I. tauto.
Qed.

Lemma mk_union_of : forall us, Forall (fun t => ~ is_union t) us -> NoDup us ->
  mk_union false us = match us with [] => Err EType | [t] => Ok t | _ => Ok (TUnion false us) end.
Proof.
  intros us F N. unfold mk_union. rewrite flatten_none by exact F.
  rewrite dedup_nodup; [|exact N | intros t _ []]. destruct us as [|a [|b r]]; reflexivity.
Qed.

Lemma unwrap_inner_spec : forall op ts u, canonical (TUnion op ts) ->
  (unwrap_optional_inner (TUnion op ts) = Ok u <-> exists us, without_none ts us /\ union_of us u).
Proof.
  intros op ts u C. inversion C as [| | | | | |? ? _ N F| | | | |]; subst. cbn [unwrap_optional_inner].
  pose proof (none_filter ts) as W. set (us := filter _ ts) in *.
  assert (F' : Forall (fun t => ~ is_union t) us).
  { eapply without_none_sub; [exact W|]. eapply Forall_impl; [|exact F]. cbn. tauto. }
  rewrite mk_union_of; [|exact F' | eapply without_none_nodup; eassumption]. split.
  - intros H. exists us. split; [exact W|]. destruct us as [|a [|b r]]; try discriminate; injection H as <-; constructor.
  - intros (us' & W' & U). rewrite (without_none_fun _ _ W _ W'). inversion U; subst; reflexivity.
Qed.

Lemma unwrap_inner_err : forall t e, unwrap_optional_inner t = Err e -> e = EType.
Proof.
  intros t e H. destruct t; try (injection H as <-; reflexivity). cbn in H. unfold mk_union in H.
  destruct (dedup _ _) as [|a [|b r]]; try discriminate. injection H as <-. reflexivity.
Qed.

Lemma mk_annot_carrying : forall u md w, carrying u md w <-> w = mk_annot u md.
Proof.
  intros u md w. split.
  - intros H. inversion H as [? ? N|]; subst; [|reflexivity]. destruct u; try reflexivity. destruct N. exact I.
  - intros ->. destruct u; cbn [mk_annot]; try (constructor; intros []).
Qed.

Theorem unwrap_optional_spec : forall t u, canonical t -> (unwrap_optional t = Ok u <-> drops_none t u).
Proof.
  intros t u C. split.
  - intros H. destruct t; try discriminate.
    + apply (unwrap_inner_spec _ _ _ C) in H. destruct H as (us & W & U). econstructor; eassumption.
    + cbn [unwrap_optional] in H. apply bind_ok in H. destruct H as (w & A & B). injection B as <-.
      destruct t; try discriminate. inversion C as [| | | | | | | |? ? C' _| | |]; subst.
      apply (unwrap_inner_spec _ _ _ C') in A. destruct A as (us & W & U).
      econstructor; [exact W | exact U | apply mk_annot_carrying; reflexivity].
  - intros H. inversion H as [op ts us u' W U|op ts us u' md w W U K]; subst.
    + cbn [unwrap_optional]. apply unwrap_inner_spec; eauto.
    + cbn [unwrap_optional]. inversion C as [| | | | | | | |? ? C' _| | |]; subst.
      assert (A : unwrap_optional_inner (TUnion op ts) = Ok u') by (apply unwrap_inner_spec; eauto).
      rewrite A. cbn [bind]. apply mk_annot_carrying in K. subst. reflexivity.
Qed.

Theorem unwrap_optional_fails : forall t e, unwrap_optional t = Err e -> e = EType.
Proof.
  intros t e H. destruct t; try (injection H as <-; reflexivity).
  - exact (unwrap_inner_err _ _ H).
  - cbn [unwrap_optional] in H. apply bind_err in H. destruct H as [H|(u & _ & H)]; [|discriminate].
    apply unwrap_inner_err in H. exact H.
Qed.

Theorem is_type_optional_spec : forall t, is_type_optional t = true <-> optional t.
Proof.
  intros t. unfold is_type_optional, optional. split.
  - intros H. destruct t; try discriminate; cbn [unwrap_annotated] in H.
    + apply none_member in H. eauto 6.
    + destruct t; try discriminate. apply none_member in H. eauto 8.
  - intros (op & ts & I & [->|(md & ->)]); cbn [unwrap_annotated]; apply none_member; exact I.
Qed.

Lemma get_alias_spec : forall t a, get_alias t = Some a <-> has_alias t a.
Proof.
  intros t a. unfold has_alias. split.
  - destruct t; try discriminate. cbn [get_alias].
    assert (X : forall md, (fix go l := match l with [] => None | AAlias b :: _ => Some b | _ :: r => go r end) md = Some a ->
      exists md1 md2, md = md1 ++ AAlias a :: md2 /\ forall b, ~ In (AAlias b) md1).
    { clear md. induction md as [|x r IH]; intros H; [discriminate H|].
      destruct x; try (destruct (IH H) as (m1 & m2 & -> & N); eexists (_ :: m1); exists m2; split; [reflexivity|];
        intros z [Q|I]; [discriminate | exact (N _ I)]).
      injection H as ->. exists [], r. split; [reflexivity | intros b []]. }
    intros H. destruct (X _ H) as (m1 & m2 & -> & N). eauto.
  - intros (u & m1 & m2 & -> & N). cbn [get_alias]. induction m1 as [|x r IH]; [reflexivity|].
    destruct x; try (apply IH; intros z I; apply (N z); right; exact I).
    exfalso. apply (N name). left. reflexivity.
Qed.

Lemma get_alias_none : forall t, get_alias t = None <-> no_alias t.
Proof.
  intros t. unfold no_alias. split.
  - intros H a X. apply get_alias_spec in X. congruence.
  - intros H. destruct (get_alias t) as [a|] eqn:Q; [|reflexivity]. apply get_alias_spec in Q. destruct (H a Q).
Qed.
