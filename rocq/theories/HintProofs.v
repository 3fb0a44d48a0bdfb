(** When annotations can be evaluated. *)
From Coq Require Import String List Bool Lia Wf_nat.
From Verif Require Import Base Json PyTypes Lists SpecTyping TypingFacts SpecDeser SpecTypes SpecFields TypeAlgebra TypeAlgebraProofs DeserFuel SpecHints.
Import ListNotations.
Open Scope list_scope.
Open Scope nat_scope.

Section Hints.
  Variable E : env.
  Hypothesis CE : canonical_env E.

  Lemma mk_union_nonempty : forall op ts e, ts <> [] -> Forall canonical ts -> mk_union op ts = Err e -> False.
  Proof.
    intros op ts e N F R. unfold mk_union in R. destruct (dedup [] (flatten_union ts)) as [|a [|a' r]] eqn:D; [|discriminate R|discriminate R].
    destruct ts as [|t ts]; [exact (N eq_refl)|]. inversion F as [|? ? C _]; subst.
    assert (exists u, In u (flatten_union (t :: ts))) as (u & U).
    { destruct t as [| | | | | |o us| | | | |]; try (eexists; left; reflexivity).
      inversion C as [| | | | | |? ? CL' _ _| | | | |]; subst. destruct us as [|u us]; [cbn in CL'; lia|]. exists u. left. reflexivity. }
    destruct (in_dedup (flatten_union (t :: ts)) [] u U) as [[]|J]. rewrite D in J. destruct J.
  Qed.

  Lemma part_undefined : forall m t u, part t u -> mentions_undefined E m t -> mentions_undefined E m u.
  Proof. intros m t u P (k & K). exists (S k). eapply uw_part; eassumption. Qed.

  Lemma resolve_fails : forall m n g t e, canonical t -> resolve E m n g t = Err e -> e <> ERecursion ->
    e = EName /\ mentions_undefined E m t.
  Proof.
    intros m. induction n as [|n IHn]; intros g t.
    all: induction t as [k|b|t IH|t IH|k v IHk IHv|ts IH|op ts IH|ls|t md IH|c|s|] using typ_induct;
      intros e C R N; rewrite resolve_eq in R; inversion C; subst; try discriminate R.
    all: try (apply bind_err in R; destruct R as [R|(a & A & R)]; [|try discriminate R]).
    all: try (apply bind_err in R; destruct R as [R|(b & B & R)]; [|discriminate R]).
    all: try (match goal with IH : forall e, canonical ?t -> resolve _ _ _ _ ?t = Err e -> _, R : resolve _ _ _ _ ?t = Err _ |- _ =>
      destruct (IH _ ltac:(assumption) R N) as [? M]; split; [assumption | eapply part_undefined; [|exact M]; constructor] end).
    all: try (match goal with R : mapM _ ?l = Err _, IH : Forall _ ?l |- _ =>
      apply mapM_err in R; destruct R as (x & I & R); rewrite Forall_forall in IH;
      assert (Cx : canonical x) by
        (match goal with X : Forall canonical l |- _ => rewrite Forall_forall in X; exact (X x I)
         | X : Forall (fun t => canonical t /\ _) l |- _ => rewrite Forall_forall in X; exact (proj1 (X x I)) end);
      destruct (IH x I e Cx R N) as [? M];
      split; [assumption | eapply part_undefined; [|exact M]; constructor; exact I] end).
    all: try (destruct (mem_str s g); [discriminate R|]; destruct (lookup E m s) as [[a u]|] eqn:L;
      [|injection R as <-; split; [reflexivity | exists 0; constructor; exact L]];
      first [injection R as <-; destruct (N eq_refl) |
        destruct (IHn _ _ _ (ce_refs E CE _ _ _ _ L) R N) as [? (j & K)]; split; [assumption | exists (S j); eapply uw_def; eassumption]]).
    all: exfalso; apply mapM_ok in A; eapply mk_union_nonempty; [| |exact R].
    all: try (intros ->; inversion A; subst; match goal with X : 2 <= length [] |- _ => cbn in X; lia end).
    all: apply Forall_forall; intros u I; destruct (Forall2_in_r _ _ _ _ _ _ A I) as (w & J & Q);
      eapply resolve_canonical; [intros; eapply (ce_refs E CE); eassumption | | exact Q];
      match goal with X : Forall (fun t => canonical t /\ _) _ |- _ => rewrite Forall_forall in X; exact (proj1 (X _ J)) end.
  Qed.

  Lemma resolve_defined : forall m n g t t', resolve E m n g t = Ok t' -> forall k, undefined_within E m k t ->
    exists s k', In s g /\ k' <= k /\ undefined_within E m k' (TRef s).
  Proof.
    intros m. induction n as [|n IHn]; intros g t.
    all: induction t as [k|b|t IH|t IH|k v IHk IHv|ts IH|op ts IH|ls|t md IH|c|s|] using typ_induct;
      intros t' R k0 U; rewrite resolve_eq in R.
    all: try (destruct (mem_str s g) eqn:M;
      [exists s, k0; split; [apply mem_str_in; exact M | split; [lia | exact U]]|];
      destruct (lookup E m s) as [[a u]|] eqn:L; [|discriminate R]; try discriminate R).
    all: try (inversion U as [|j x y P U'|]; subst; inversion P; subst).
    all: try (apply bind_ok in R; destruct R as (a & A & R)).
    all: try (apply bind_ok in R; destruct R as (b & B & R)).
    all: try (match goal with IH : forall t', resolve _ _ _ _ ?t = Ok t' -> _, U' : undefined_within _ _ _ ?t |- _ =>
      edestruct IH as (s & k' & I & Q & D); [eassumption | exact U' | exists s, k'; split; [exact I | split; [lia | exact D]]] end).
    all: try (match goal with I : In ?x ?l, IH : Forall _ ?l |- _ =>
      apply mapM_ok in A; destruct (Forall2_in_l _ _ _ _ _ _ A I) as (w & _ & Q); rewrite Forall_forall in IH;
      destruct (IH x I _ Q _ U') as (s & k' & J & W & D); exists s, k'; split; [exact J | split; [lia | exact D]] end).
    assert (X : forall j, undefined_within E m j u -> exists s0 k', In s0 g /\ k' <= j /\ undefined_within E m k' (TRef s0)).
    { intros j. induction j as [j IHj] using lt_wf_ind. intros D.
      destruct (IHn _ _ _ R _ D) as (s' & k' & [<-|I] & Q & D').
      - inversion D' as [? ? L'|? ? ? P|i ? a' u' L' D'']; subst; [congruence | inversion P|].
        rewrite L in L'. injection L' as <- <-. destruct (IHj i ltac:(lia) D'') as (s0 & k0' & J & W & D0).
        exists s0, k0'. split; [exact J | split; [lia | exact D0]].
      - exists s', k'. split; [exact I | split; [exact Q | exact D']]. }
    inversion U as [? ? L'|? ? ? P|i ? a' u' L' D'']; subst; [congruence | inversion P|].
    rewrite L in L'. injection L' as <- <-. destruct (X _ D'') as (s0 & k' & J & W & D).
    exists s0, k'. split; [exact J | split; [lia | exact D]].
  Qed.

  Lemma resolve_hint_fails : forall m t e, canonical t -> (resolve_hint E m t = Err e <-> e = EName /\ mentions_undefined E m t).
  Proof.
    intros m t e C. split.
    - intros R. eapply resolve_fails; [exact C | exact R|]. intros ->. exact (resolve_hint_total E m t R).
    - intros (-> & k & K). destruct (resolve_hint E m t) as [t'|e] eqn:R.
      + destruct (resolve_defined _ _ _ _ _ R _ K) as (s & k' & [] & _).
      + f_equal. eapply (resolve_fails m _ _ t e C R). intros ->. exact (resolve_hint_total E m t R).
  Qed.

  Lemma hints_fails : forall c cl e, get_class E c = Some cl ->
    (hints E cl = Err e <-> e = EName /\ exists x t, In (x, t) (raw_fields (c_kind cl)) /\ mentions_undefined E (c_module cl) t).
  Proof.
    intros c cl e G.
    assert (F : forall e, hints E cl = Err e -> e = EName /\ exists x t, In (x, t) (raw_fields (c_kind cl)) /\ mentions_undefined E (c_module cl) t).
    { clear e. intros e H. apply mapM_err in H. destruct H as ([x t] & I & H). apply bind_err in H. destruct H as [H|(a & _ & H)]; [|discriminate].
      apply resolve_hint_fails in H; [|eapply (ce_fields E CE); eassumption]. destruct H as [-> M]. split; [reflexivity | eauto]. }
    split; [apply F|]. intros (-> & x & t & I & M). destruct (hints E cl) as [hs|e] eqn:H.
    - exfalso. apply mapM_ok in H. destruct (Forall2_in_l _ _ _ _ _ _ H I) as (h & _ & R).
      apply bind_ok in R. destruct R as (t' & R & _).
      rewrite (proj2 (resolve_hint_fails (c_module cl) t EName ltac:(eapply (ce_fields E CE); eassumption)) (conj eq_refl M)) in R. discriminate.
    - f_equal. exact (proj1 (F e eq_refl)).
  Qed.

  Lemma written_union : forall op ts t s, mk_union op ts = Ok t -> written s t -> exists u, In u ts /\ written s u.
  Proof.
    intros op ts t s M W.
    assert (X : forall u, In u (dedup [] (flatten_union ts)) -> written s u -> exists u, In u ts /\ written s u).
    { intros u I Wu. apply dedup_in in I. unfold flatten_union in I. apply in_flat_map in I. destruct I as (w & J & I).
      destruct w; try (destruct I as [<-|[]]; eauto; fail). exists (TUnion op0 ts0). split; [exact J|].
      eapply wr_part; [apply pt_union; exact I | exact Wu]. }
    unfold mk_union in M. destruct (dedup [] (flatten_union ts)) as [|a [|b r]]; [discriminate| |].
    - injection M as <-. apply (X a); [left; reflexivity | exact W].
    - injection M as <-. inversion W as [|w ? P Ww]; subst. inversion P; subst. eapply X; eassumption.
  Qed.

  Lemma written_annot : forall t md s, written s (mk_annot t md) -> written s t.
  Proof.
    intros t md s W. destruct t; cbn [mk_annot] in W; inversion W as [|w ? P Ww]; subst; inversion P; subst; try exact Ww.
    eapply wr_part; [constructor | exact Ww].
  Qed.

  Lemma resolve_written : forall m n g t t' s, resolve E m n g t = Ok t' -> written s t' ->
    (In s g /\ leads E m s t) \/ recursive_name E m s.
  Proof.
    intros m. induction n as [|n IHn]; intros g t.
    all: induction t as [k|b|t IH|t IH|k v IHk IHv|ts IH|op ts IH|ls|t md IH|c|s0|] using typ_induct;
      intros t' s R W; rewrite resolve_eq in R.
    all: try (injection R as <-; inversion W as [|w ? P Ww]; subst; inversion P; fail).
    all: try (destruct (mem_str s0 g) eqn:M;
      [injection R as <-; inversion W as [|w ? P Ww]; subst; [|inversion P]; left; split; [apply mem_str_in; exact M | constructor]|];
      destruct (lookup E m s0) as [[a u]|] eqn:L; [|discriminate R]; try discriminate R).
    all: try (apply bind_ok in R; destruct R as (a & A & R)).
    all: try (apply bind_ok in R; destruct R as (b & B & R)).
    all: try (apply (written_union _ _ _ _ R) in W; destruct W as (x & P & Ww)).
    all: try (injection R as <-; first [apply written_annot in W | inversion W as [|w ? P Ww]; subst; inversion P; subst]).
    all: try (match goal with IH : forall t' s, resolve _ _ _ _ ?t = Ok t' -> _, A : resolve _ _ _ _ ?t = Ok ?a, W : written _ ?a |- _ =>
      destruct (IH _ _ A W) as [[I Q]|Q]; [left; split; [exact I | eapply ld_part; [|exact Q]; constructor] | right; exact Q] end).
    all: try (match goal with A : mapM _ ?l = Ok ?us, IH : Forall _ ?l, I : In ?x ?us, W : written _ ?x |- _ =>
      apply mapM_ok in A; destruct (Forall2_in_r _ _ _ _ _ _ A I) as (w' & J & Q); rewrite Forall_forall in IH;
      destruct (IH w' J _ _ Q W) as [[K D]|D]; [left; split; [exact K | eapply ld_part; [constructor; exact J | exact D]] | right; exact D] end).
    destruct (IHn _ _ _ _ R W) as [[[<-|I] D]|D]; [right; exists a, u; split; assumption | left | right; exact D].
    split; [exact I | eapply ld_def; eassumption].
  Qed.

  Lemma hints_written : forall cl hs x t s, hints E cl = Ok hs -> In (x, t) hs -> written s t -> recursive_name E (c_module cl) s.
  Proof.
    intros cl hs x t s H I W. apply mapM_ok in H. destruct (Forall2_in_r _ _ _ _ _ _ H I) as ([y u] & _ & R).
    apply bind_ok in R. destruct R as (t' & R & Q). injection Q as -> ->.
    destruct (resolve_written _ _ _ _ _ _ R W) as [[[] _]|Q]. exact Q.
  Qed.
End Hints.
