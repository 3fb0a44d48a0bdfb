(** Recursion budgets: more budget never changes an outcome, and the budget of
    [json_to_object] is sufficient. *)
From Coq Require Import String List NArith ZArith Bool Lia.
From Verif Require Base64Proofs IsoTimeProofs TimeDeltaProofs AddressesProofs DeserSound.
From Verif Require Import Base Json PyTypes Mapping Deser Lists TypingFacts SpecRecursion.
Import ListNotations.
Open Scope list_scope.
Open Scope nat_scope.

(** * Monotonicity *)

Definition below {A} (a b : res A) : Prop := a = Err ERecursion \/ a = b.

Lemma below_refl : forall A (a : res A), below a a.
Proof. right. reflexivity. Qed.

Lemma below_bind : forall A B (x y : res A) (f g : A -> res B),
  below x y -> (forall a, x = Ok a -> below (f a) (g a)) -> below (bind x f) (bind y g).
Proof.
  intros A B x y f g [->| ->] H; [left; reflexivity|].
  destruct y; cbn [bind]; [apply H; reflexivity | right; reflexivity].
Qed.

Lemma below_mapM : forall A B (f g : A -> res B) l,
  (forall x, below (f x) (g x)) -> below (mapM f l) (mapM g l).
Proof.
  intros A B f g l H. induction l as [|x l IH]; cbn [mapM]; [apply below_refl|].
  destruct (H x) as [->| ->]; [left; reflexivity|]. destruct (g x); [|right; reflexivity].
  destruct IH as [->| ->]; [left; reflexivity | right; reflexivity].
Qed.

Lemma below_zip : forall f g ts js,
  (forall t j, below (f t j) (g t j)) -> below (zip_parse f ts js) (zip_parse g ts js).
Proof.
  intros f g ts js H. revert js. induction ts as [|t ts IH]; intros [|j js]; cbn [zip_parse];
    try apply below_refl.
  destruct (H t j) as [->| ->]; [left; reflexivity|]. destruct (g t j); [|right; reflexivity].
  destruct (IH js) as [->| ->]; [left; reflexivity | right; reflexivity].
Qed.

Lemma below_union : forall f g ts,
  (forall t, below (f t) (g t)) -> below (union_try f ts) (union_try g ts).
Proof.
  intros f g ts H. induction ts as [|t ts IH]; cbn [union_try]; [apply below_refl|].
  destruct (H t) as [->| ->]; [left; reflexivity|].
  destruct (g t) as [v|e]; [right; reflexivity|].
  destruct e; try (right; reflexivity); exact IH.
Qed.

Lemma below_field : forall f g fp o,
  (forall t j, below (f t j) (g t j)) -> below (parse_field f fp o) (parse_field g fp o).
Proof.
  intros f g fp o H. unfold parse_field.
  destruct (fp_mode fp); destruct (dict_get o (fp_prop fp)) as [j|]; try apply below_refl;
    destruct j; try apply below_refl; apply H.
Qed.

Lemma below_object : forall f g skip c cl fps j,
  (forall t j, below (f t j) (g t j)) ->
  below (parse_object f skip c cl fps j) (parse_object g skip c cl fps j).
Proof.
  intros f g skip c cl fps j H. destruct j; try apply below_refl. cbn [parse_object].
  apply below_bind; [|intros; apply below_refl].
  apply below_mapM. intros fp. apply below_bind; [|intros; apply below_refl].
  apply below_field. exact H.
Qed.

Lemma parse_below : forall E skip n m t j, below (parse E skip n m t j) (parse E skip (S n) m t j).
Proof.
  intros E skip. induction n as [|n IH]; intros m t j; [left; reflexivity|].
  change (parse E skip (S n) m t j) with
    (parse E skip (S n) m t j). remember (S n) as n1 eqn:Q. rewrite Q at 1.
  destruct t; cbn [parse]; try apply below_refl; subst n1.
  - destruct j; try apply below_refl. apply below_bind; [|intros; apply below_refl].
    apply below_mapM. intros x. apply IH.
  - destruct j; try apply below_refl. apply below_bind; [|intros; apply below_refl].
    apply below_mapM. intros x. apply below_bind; [apply IH | intros; apply below_refl].
  - destruct j; try apply below_refl. apply below_bind; [|intros; apply below_refl].
    apply below_mapM. intros [s x]. apply below_bind; [apply below_refl|]. intros k _.
    apply below_bind; [apply IH | intros; apply below_refl].
  - destruct j; try apply below_refl. destruct (Nat.eqb _ _); [|apply below_refl].
    apply below_bind; [|intros; apply below_refl]. apply below_zip. intros; apply IH.
  - apply below_bind; [apply below_refl|]. intros ps _. destruct ps as [|p ps].
    + apply below_union. intros; apply IH.
    + apply below_bind; [apply below_refl|]. intros tbl _. destruct j; try apply below_refl.
      apply below_bind; [apply below_refl|]. intros; apply IH.
  - apply below_bind; [apply below_refl|]. intros u _. apply below_bind; [apply IH|].
    intros; apply below_refl.
  - destruct t; try apply below_refl; apply IH.
  - destruct (get_class E c) as [cl|]; [|apply below_refl].
    assert (B : below (do fps <- field_parsers E cl; parse_object (parse E skip n (c_module cl)) skip c cl fps j)
                      (do fps <- field_parsers E cl; parse_object (parse E skip (S n) (c_module cl)) skip c cl fps j)).
    { apply below_bind; [apply below_refl|]. intros fps _. apply below_object. intros; apply IH. }
    destruct (c_kind cl), (c_from_json cl); try apply below_refl; exact B.
  - destruct (lookup E m s) as [[a u]|]; [|apply below_refl].
    destruct (deref u); try apply below_refl; apply IH.
Qed.

Theorem parse_mono : forall E skip n n' m t j, n <= n' -> parse E skip n m t j <> Err ERecursion ->
  parse E skip n' m t j = parse E skip n m t j.
Proof.
  intros E skip n n' m t j L H. induction L as [|n' L IH]; [reflexivity|].
  destruct (parse_below E skip n' m t j) as [X|X]; [|congruence].
  rewrite X in IH. congruence.
Qed.

(** * Resolution *)

Definition not_guarded_ref (m : nat) (g : list pystr) (r : nat * pystr * (bool * typ)) : bool :=
  Nat.eqb (fst (fst r)) m && negb (mem_str (snd (fst r)) g).

(** Number and total height of the references of module [m] outside [g]. *)
Fixpoint ref_count (rs : list (nat * pystr * (bool * typ))) (m : nat) (g : list pystr) : nat :=
  match rs with
  | [] => 0
  | r :: rest => (if not_guarded_ref m g r then 1 else 0) + ref_count rest m g
  end.

Fixpoint ref_weight (rs : list (nat * pystr * (bool * typ))) (m : nat) (g : list pystr) : nat :=
  match rs with
  | [] => 0
  | r :: rest => (if not_guarded_ref m g r then S (theight (snd (snd r))) else 0) + ref_weight rest m g
  end.

Lemma guard_cons : forall m g s r, not_guarded_ref m (s :: g) r = true -> not_guarded_ref m g r = true.
Proof.
  intros m g s [[m' s'] r]. unfold not_guarded_ref. cbn [fst snd]. intros H.
  apply andb_true_iff in H. destruct H as [H1 H2]. rewrite H1. cbn [andb].
  apply negb_true_iff in H2. apply mem_str_not_in in H2. apply negb_true_iff, mem_str_not_in.
  intros I. apply H2. right. exact I.
Qed.

Lemma ref_mono : forall rs m g s,
  ref_count rs m (s :: g) <= ref_count rs m g /\ ref_weight rs m (s :: g) <= ref_weight rs m g.
Proof.
  induction rs as [|r rs IH]; intros m g s; cbn [ref_count ref_weight]; [lia|].
  destruct (IH m g s). pose proof (guard_cons m g s r).
  destruct (not_guarded_ref m (s :: g) r); [rewrite H1 by reflexivity; lia|].
  destruct (not_guarded_ref m g r); lia.
Qed.

Lemma ref_step : forall rs m g s a t, find_ref rs m s = Some (a, t) -> mem_str s g = false ->
  S (ref_count rs m (s :: g)) <= ref_count rs m g /\
  S (theight t) + ref_weight rs m (s :: g) <= ref_weight rs m g.
Proof.
  induction rs as [|[[m' s'] r] rs IH]; intros m g s a t; cbn [find_ref ref_count ref_weight]; [discriminate|].
  intros F N. destruct (Nat.eqb m' m && pystr_eqb s' s) eqn:X.
  - injection F as ->. apply andb_true_iff in X. destruct X as [X1 X2]. apply pystr_eqb_eq in X2. subst s'.
    destruct (ref_mono rs m g s). unfold not_guarded_ref. cbn [fst snd]. rewrite X1, N.
    replace (mem_str s (s :: g)) with true
      by (symmetry; apply mem_str_in; left; reflexivity). cbn [negb andb]. lia.
  - destruct (IH _ g _ _ _ F N). pose proof (guard_cons m g s ((m', s'), r)) as GC.
    destruct (not_guarded_ref m (s :: g) (m', s', r)); [rewrite GC by reflexivity; lia|].
    destruct (not_guarded_ref m g (m', s', r)); lia.
Qed.

Lemma ref_bounds : forall rs m g, ref_count rs m g <= length rs /\ ref_weight rs m g <= refs_height rs.
Proof.
  induction rs as [|r rs IH]; intros m g; cbn [ref_count ref_weight length refs_height fold_right]; [lia|].
  destruct (IH m g) as [H1 H2]. unfold refs_height in H2. destruct (not_guarded_ref m g r); lia.
Qed.

Definition lheight (ts : list typ) : nat := fold_right (fun u a => Nat.max (theight u) a) 0 ts.

Lemma lheight_in : forall ts t, In t ts -> theight t <= lheight ts.
Proof.
  induction ts as [|u ts IH]; intros t []; cbn [lheight fold_right].
  - subst. lia.
  - apply IH in H. unfold lheight in H. lia.
Qed.

Lemma lheight_le : forall ts h, (forall t, In t ts -> theight t <= h) -> lheight ts <= h.
Proof.
  induction ts as [|u ts IH]; intros h H; cbn [lheight fold_right]; [lia|].
  pose proof (H u (or_introl eq_refl)). specialize (IH h (fun t I => H t (or_intror I))).
  unfold lheight in IH. lia.
Qed.

Lemma mk_union_height : forall op ts t, mk_union op ts = Ok t -> theight t <= S (lheight ts).
Proof.
  intros op ts t H. unfold mk_union in H.
  assert (D : lheight (dedup [] (flatten_union ts)) <= lheight ts).
  { apply lheight_le. intros u I. apply dedup_in in I. unfold flatten_union in I.
    apply in_flat_map in I. destruct I as (w & Iw & I). pose proof (lheight_in _ _ Iw) as L.
    destruct w; try (destruct I as [<-|[]]; exact L). apply lheight_in in I.
    cbn [theight] in L. change (fold_right _ 0 ts0) with (lheight ts0) in L. lia. }
  destruct (dedup [] (flatten_union ts)) as [|u [|u' us]].
  - discriminate.
  - injection H as <-. cbn [lheight fold_right] in D. lia.
  - injection H as <-. cbn [theight]. change (fold_right _ 0 (u :: u' :: us)) with (lheight (u :: u' :: us)). lia.
Qed.

Lemma mk_annot_height : forall t md, theight (mk_annot t md) <= S (theight t).
Proof. intros t md. destruct t; cbn [mk_annot theight]; lia. Qed.

Section Resolve.
  Variable E : env.

  Lemma resolve_height : forall m n g t t', resolve E m n g t = Ok t' ->
    theight t' <= theight t + ref_weight (e_refs E) m g.
  Proof.
    intros m. induction n as [|n IHn]; intros g t.
    all: induction t using typ_induct; intros t' R; rewrite resolve_eq in R.
    all: try (injection R as <-; lia).
    all: try (apply bind_ok in R; destruct R as (u' & R1 & R2)).
    all: try (injection R2 as <-; specialize (IHt _ R1);
              try pose proof (mk_annot_height u' md); cbn [theight]; lia).
    all: try (apply bind_ok in R2; destruct R2 as (w' & R2 & R3); injection R3 as <-;
              specialize (IHt1 _ R1); specialize (IHt2 _ R2); cbn [theight]; lia).
    all: try (match type of R1 with mapM _ _ = Ok _ =>
      apply mapM_ok in R1;
      assert (LH : lheight u' <= lheight ts + ref_weight (e_refs E) m g);
      [ apply lheight_le; intros x I; destruct (Forall2_in_r _ _ _ _ _ _ R1 I) as (y & J & Hy);
        rewrite Forall_forall in H; specialize (H _ J _ Hy); apply lheight_in in J; lia | ] end).
    all: try (injection R2 as <-; cbn [theight]; change (fold_right _ 0 ?l) with (lheight l); lia).
    all: try (apply mk_union_height in R2; cbn [theight]; change (fold_right _ 0 ts) with (lheight ts); lia).
    all: destruct (mem_str s g) eqn:M; [injection R as <-; lia|].
    all: destruct (lookup E m s) as [[a u]|] eqn:L; [|discriminate]; try discriminate.
    apply IHn in R. destruct (ref_step _ _ _ _ _ _ L M). cbn [theight]. lia.
  Qed.

  Lemma resolve_total : forall m n g t, ref_count (e_refs E) m g < n -> resolve E m n g t <> Err ERecursion.
  Proof.
    intros m. induction n as [|n IHn]; intros g t; [lia|]. intros C.
    induction t using typ_induct; rewrite resolve_eq; try discriminate.
    - intros R. apply bind_err in R. destruct R as [R|(a & _ & R)]; [exact (IHt R) | discriminate].
    - intros R. apply bind_err in R. destruct R as [R|(a & _ & R)]; [exact (IHt R) | discriminate].
    - intros R. apply bind_err in R. destruct R as [R|(a & _ & R)]; [exact (IHt1 R)|].
      apply bind_err in R. destruct R as [R|(b & _ & R)]; [exact (IHt2 R) | discriminate].
    - intros R. apply bind_err in R. destruct R as [R|(a & _ & R)]; [|discriminate].
      apply mapM_err in R. destruct R as (x & I & R). rewrite Forall_forall in H. exact (H _ I R).
    - intros R. apply bind_err in R. destruct R as [R|(a & _ & R)].
      + apply mapM_err in R. destruct R as (x & I & R). rewrite Forall_forall in H. exact (H _ I R).
      + unfold mk_union in R. destruct (dedup _ _) as [|? [|? ?]]; discriminate.
    - intros R. apply bind_err in R. destruct R as [R|(a & _ & R)]; [exact (IHt R) | discriminate].
    - destruct (mem_str s g) eqn:M; [discriminate|].
      destruct (lookup E m s) as [[a u]|] eqn:L; [|discriminate].
      destruct (ref_step _ _ _ _ _ _ L M). apply IHn. lia.
  Qed.

  Lemma resolve_hint_height : forall m t t', resolve_hint E m t = Ok t' ->
    theight t' <= theight t + refs_height (e_refs E).
  Proof.
    intros m t t' R. apply resolve_height in R. destruct (ref_bounds (e_refs E) m []). lia.
  Qed.

  Lemma resolve_hint_total : forall m t, resolve_hint E m t <> Err ERecursion.
  Proof. intros m t. apply resolve_total. destruct (ref_bounds (e_refs E) m []). lia. Qed.

  Lemma hints_total : forall cl, hints E cl <> Err ERecursion.
  Proof.
    intros cl H. apply mapM_err in H. destruct H as ([x t] & _ & H).
    apply bind_err in H. destruct H as [H|(a & _ & H)]; [exact (resolve_hint_total _ _ H) | discriminate].
  Qed.

  Lemma class_properties_total : forall cl, class_properties E cl <> Err ERecursion.
  Proof. intros cl. unfold class_properties. destruct (c_kind cl); try discriminate; apply hints_total. Qed.

  Lemma mk_union_total : forall op ts, mk_union op ts <> Err ERecursion.
  Proof. intros op ts. unfold mk_union. destruct (dedup _ _) as [|? [|? ?]]; discriminate. Qed.

  Lemma unwrap_optional_total : forall t, unwrap_optional t <> Err ERecursion.
  Proof.
    assert (I : forall t, unwrap_optional_inner t <> Err ERecursion).
    { intros []; try discriminate. apply mk_union_total. }
    intros t H. destruct t; try exact (I _ H). cbn [unwrap_optional] in H.
    apply bind_err in H. destruct H as [H|(a & _ & H)]; [exact (I _ H) | discriminate].
  Qed.

  Lemma field_parser_total : forall x t d, field_parser x t d <> Err ERecursion.
  Proof.
    intros x t d H. unfold field_parser in H. apply bind_err in H.
    destruct H as [H|(a & _ & H)]; [|discriminate].
    destruct (is_type_optional t); [exact (unwrap_optional_total _ H) | discriminate].
  Qed.

  Lemma field_parsers_total : forall cl, field_parsers E cl <> Err ERecursion.
  Proof.
    intros cl H. unfold field_parsers in H. apply bind_err in H.
    destruct H as [H|(hs & _ & H)]; [exact (hints_total _ H)|].
    destruct (c_kind cl); try discriminate; apply mapM_err in H.
    - destruct H as ([f [x t]] & _ & H). exact (field_parser_total _ _ _ H).
    - destruct H as ([x t] & _ & H). exact (field_parser_total _ _ _ H).
  Qed.

  Lemma literal_properties_total : forall t, literal_properties E t <> Err ERecursion.
  Proof.
    intros [] H; try discriminate. cbn [literal_properties] in H. destruct (get_class E c) as [cl|]; [|discriminate].
    apply bind_err in H. destruct H as [H|(a & _ & H)]; [exact (class_properties_total _ H) | discriminate].
  Qed.

  Lemma common_properties_total : forall ts ps, common_properties E ps ts <> Err ERecursion.
  Proof.
    induction ts as [|t ts IH]; intros ps H; cbn [common_properties] in H; [discriminate|].
    apply bind_err in H. destruct H as [H|(a & _ & H)]; [exact (literal_properties_total _ H) | exact (IH _ H)].
  Qed.

  Lemma discriminating_total : forall ts, discriminating_properties E ts <> Err ERecursion.
  Proof.
    intros [|t ts] H; cbn [discriminating_properties] in H; [discriminate|].
    destruct (forallb is_class_type (t :: ts)); [|discriminate].
    apply bind_err in H. destruct H as [H|(a & _ & H)];
      [exact (literal_properties_total _ H) | exact (common_properties_total _ _ H)].
  Qed.

  Lemma tag_table_total : forall ps ts, tag_table E ps ts <> Err ERecursion.
  Proof.
    intros ps ts H. unfold tag_table in H. apply bind_err in H. destruct H as [H|(a & _ & H)]; [|discriminate].
    apply mapM_err in H. destruct H as (t & _ & H). unfold tag_row in H.
    apply bind_err in H. destruct H as [H|(a & _ & H)]; [|discriminate].
    apply mapM_err in H. destruct H as (p & _ & H).
    apply bind_err in H. destruct H as [H|(a & _ & H)]; [|discriminate].
    destruct t; try discriminate. cbn [tag_values] in H. destruct (get_class E c) as [cl|]; [|discriminate].
    apply bind_err in H. destruct H as [H|(a & _ & H)]; [exact (class_properties_total _ H)|].
    destruct (dict_get a p) as [t'|]; [|discriminate]. destruct (literal_values t'); discriminate.
  Qed.

  Lemma tag_select_total : forall tbl ps o, tag_select tbl ps o <> Err ERecursion.
  Proof.
    intros tbl. induction ps as [|p ps IH]; intros o H; cbn [tag_select] in H; [discriminate|].
    destruct (dict_get o p) as [j|]; [|exact (IH _ H)].
    destruct j; try discriminate; try (exact (IH _ H)); destruct (tag_find _ _ _); discriminate.
  Qed.

  Lemma literal_type_cases : forall ls, (exists l, literal_type ls = Ok (lit_type l)) \/ literal_type ls = Err EType.
  Proof.
    intros [|l ls]; cbn [literal_type]; [right; reflexivity|].
    destruct (forallb _ ls); [left; exists l; reflexivity | right; reflexivity].
  Qed.

  (** * Guarded types *)

  (** [n] rounds of expansion suffice at the top of [t]. *)
  Fixpoint level (n : nat) (m : nat) (t : typ) : Prop :=
    match n with
    | O => False
    | S n' =>
        match t with
        | TUnion _ ts => Forall (level n' m) ts
        | TAnnot u _ => level n' m u
        | TRef s => match lookup E m s with Some (_, u) => level n' m u | None => True end
        | TLiteral _ => n' <> O
        | _ => True
        end
    end.

  Lemma level_S : forall n m t, level n m t -> level (S n) m t.
  Proof.
    induction n as [|n IH]; intros m t H; [destruct H|].
    remember (S n) as n1 eqn:Q. destruct t; cbn [level]; try exact I; rewrite Q in H; cbn [level] in H; subst n1.
    - eapply Forall_impl; [|exact H]. intros u. apply IH.
    - lia.
    - apply IH. exact H.
    - destruct (lookup E m s) as [[a u]|]; [apply IH; exact H | exact I].
  Qed.

  Lemma level_le : forall n n' m t, n <= n' -> level n m t -> level n' m t.
  Proof. intros n n' m t L H. induction L; [exact H | apply level_S; assumption]. Qed.

  Lemma level_dec : forall n m t, level n m t \/ ~ level n m t.
  Proof.
    induction n as [|n IH]; intros m t; [right; intros []|].
    destruct t; cbn [level]; try (left; exact I).
    - assert (D : forall l, Forall (level n m) l \/ ~ Forall (level n m) l); [|apply D].
      induction l as [|u l IHl]; [left; constructor|].
      destruct (IH m u) as [H|H]; [|right; intros F; inversion F; auto].
      destruct IHl as [H'|H']; [left; constructor; assumption | right; intros F; inversion F; auto].
    - lia.
    - apply IH.
    - destruct (lookup E m s) as [[a u]|]; [apply IH | left; exact I].
  Qed.

  Lemma guarded_level : forall m t, guarded E m t -> exists n, level n m t.
  Proof.
    intros m. fix IH 2. intros t G. destruct G as [t L|op ts F|t md G|s F].
    - exists 2. destruct t; try destruct L; cbn [level]; auto.
    - assert (D : exists n, Forall (level n m) ts).
      { induction F as [|u ts Gu F IHF]; [exists 0; constructor|].
        destruct (IH u Gu) as (a & Ha). destruct IHF as (b & Hb). exists (Nat.max a b). constructor.
        - apply (level_le a); [lia | exact Ha].
        - eapply Forall_impl; [|exact Hb]. intros w. apply level_le. lia. }
      destruct D as (n & D). exists (S n). exact D.
    - destruct (IH t G) as (n & H). exists (S n). exact H.
    - destruct (lookup E m s) as [[a u]|] eqn:L.
      + destruct (IH u (F a u eq_refl)) as (n & H). exists (S n). cbn [level]. rewrite L. exact H.
      + exists 1. cbn [level]. rewrite L. exact I.
  Qed.

  (** An expansion that ends at all never meets a reference twice. *)
  Lemma level_bounded : forall n m t vis, level n m t ->
    (forall s, In s vis -> ~ level n m (TRef s)) ->
    level (theight t + ref_weight (e_refs E) m vis) m t.
  Proof.
    induction n as [|n IH]; intros m t vis L V; [destruct L|].
    assert (V' : forall s, In s vis -> ~ level n m (TRef s)).
    { intros s I H. apply (V s I). apply level_S. exact H. }
    destruct t; try exact I.
    - cbn [level] in L. cbn [theight]. change (fold_right _ 0 ts) with (lheight ts).
      cbn [plus level]. rewrite Forall_forall in L. apply Forall_forall. intros u I.
      apply (level_le (theight u + ref_weight (e_refs E) m vis)); [pose proof (lheight_in _ _ I); lia|].
      apply IH; [apply L; exact I | exact V'].
    - cbn [theight plus level]. lia.
    - cbn [level] in L. cbn [theight plus level]. apply IH; assumption.
    - destruct (level_dec n m (TRef s)) as [H|H]; [apply IH; assumption|].
      pose proof L as L'. cbn [level] in L. cbn [theight plus level].
      destruct (lookup E m s) as [[a u]|] eqn:F; [|exact I].
      assert (M : mem_str s vis = false).
      { apply mem_str_not_in. intros I. exact (V s I L'). }
      destruct (ref_step _ _ _ _ _ _ F M) as [_ R].
      apply (level_le (theight u + ref_weight (e_refs E) m (s :: vis))); [lia|].
      apply IH; [exact L|]. intros s' [<-|I]; [exact H | apply V'; exact I].
  Qed.

  Lemma guarded_bound : forall m t, guarded E m t ->
    level (theight t + refs_height (e_refs E)) m t.
  Proof.
    intros m t G. destruct (guarded_level m t G) as (n & L).
    apply (level_le (theight t + ref_weight (e_refs E) m [])).
    - destruct (ref_bounds (e_refs E) m []). lia.
    - apply (level_bounded n); [exact L|]. intros s [].
  Qed.

  Lemma every_part_top : forall P t, every_part P t -> P t.
  Proof. intros P t H. destruct t; exact (proj1 H). Qed.

  Lemma every_part_list : forall P ts,
    fold_right (fun u a => every_part P u /\ a) True ts <-> Forall (every_part P) ts.
  Proof.
    intros P. induction ts as [|t ts IH]; cbn [fold_right]; split; intros H; auto.
    - destruct H. constructor; [assumption | apply IH; assumption].
    - inversion H; subst. split; [assumption | apply IH; assumption].
  Qed.

  Lemma every_part_union : forall P op ts, every_part P (TUnion op ts) -> Forall (every_part P) ts.
  Proof. intros P op ts H. apply every_part_list. exact (proj2 H). Qed.

  Lemma mk_union_parts : forall m op ts t, Forall (every_part (guarded E m)) ts ->
    mk_union op ts = Ok t -> every_part (guarded E m) t.
  Proof.
    intros m op ts t F H. unfold mk_union in H. rewrite Forall_forall in F.
    assert (D : Forall (every_part (guarded E m)) (dedup [] (flatten_union ts))).
    { apply Forall_forall. intros u I. apply dedup_in in I. apply in_flat_map in I.
      destruct I as (w & Iw & I). specialize (F _ Iw).
      destruct w; try (destruct I as [<-|[]]; exact F).
      apply every_part_union in F. rewrite Forall_forall in F. apply F. exact I. }
    destruct (dedup [] (flatten_union ts)) as [|u [|u' us]].
    - discriminate.
    - injection H as <-. inversion D; assumption.
    - injection H as <-. split; [|apply every_part_list; exact D].
      apply g_union. eapply Forall_impl; [|exact D]. intros w. apply every_part_top.
  Qed.

  Lemma mk_annot_parts : forall m t md, every_part (guarded E m) t -> every_part (guarded E m) (mk_annot t md).
  Proof.
    intros m t md H. destruct t; cbn [mk_annot].
    9: { cbn [every_part] in *. destruct H as [H1 H2]. split; [|exact H2].
         inversion H1; subst; [contradiction|]. apply g_annot. assumption. }
    all: split; [apply g_annot; apply every_part_top; exact H | exact H].
  Qed.

  Hypothesis GE : guarded_env E.

  Lemma resolve_parts : forall m n g t t', every_part (guarded E m) t -> resolve E m n g t = Ok t' ->
    every_part (guarded E m) t'.
  Proof.
    intros m. induction n as [|n IHn]; intros g t.
    all: induction t using typ_induct; intros t' P R; rewrite resolve_eq in R.
    all: try (injection R as <-; exact P).
    all: try (apply bind_ok in R; destruct R as (u' & R1 & R2)).
    all: try (destruct P as [P1 P2]).
    all: try (apply every_part_list in P2).
    all: try (injection R2 as <-).
    all: try (apply bind_ok in R2; destruct R2 as (w' & R2 & R3); injection R3 as <-).
    all: try (split; [apply g_leaf; exact I|]; apply (IHt _ P2 R1)).
    all: try (split; [apply g_leaf; exact I|]; destruct P2 as [Pk Pv]; split;
              [apply (IHt1 _ Pk R1) | apply (IHt2 _ Pv R2)]).
    all: try (apply mk_annot_parts; apply (IHt _ P2 R1)).
    all: try (match type of R1 with mapM _ _ = Ok _ =>
      apply mapM_ok in R1; rewrite Forall_forall in H, P2;
      assert (F : Forall (every_part (guarded E m)) u');
      [ apply Forall_forall; intros x I; destruct (Forall2_in_r _ _ _ _ _ _ R1 I) as (y & J & Hy);
        apply (H _ J _ (P2 _ J) Hy) | ] end).
    all: try (split; [apply g_leaf; exact I | apply every_part_list; exact F]).
    all: try (exact (mk_union_parts _ _ _ _ F R2)).
    all: destruct (mem_str s g) eqn:M; [injection R as <-; split; assumption|].
    all: destruct (lookup E m s) as [[a u]|] eqn:L; [|discriminate]; try discriminate.
    apply (IHn _ _ _ (ge_refs _ GE _ _ _ _ L) R).
  Qed.

  Lemma unwrap_optional_parts : forall m t t', every_part (guarded E m) t -> unwrap_optional t = Ok t' ->
    every_part (guarded E m) t' /\ theight t' <= theight t.
  Proof.
    assert (A : forall m t t', every_part (guarded E m) t -> unwrap_optional_inner t = Ok t' ->
      every_part (guarded E m) t' /\ theight t' <= theight t).
    { intros m t t' P H. destruct t; try discriminate. cbn [unwrap_optional_inner] in H.
      apply every_part_union in P. rewrite Forall_forall in P. split.
      - eapply mk_union_parts; [|exact H]. apply Forall_forall. intros u I. apply filter_In in I. apply P, I.
      - apply mk_union_height in H. cbn [theight]. change (fold_right _ 0 ts) with (lheight ts).
        assert (lheight (filter (fun u => negb (typ_eqb (TScalar KNone) u)) ts) <= lheight ts); [|lia].
        apply lheight_le. intros u I. apply filter_In in I. apply lheight_in, I. }
    intros m t t' P H. destruct t; try (apply A; assumption).
    cbn [unwrap_optional] in H. apply bind_ok in H. destruct H as (u & H & Q). injection Q as <-.
    destruct P as [P1 P2]. destruct (A _ _ _ P2 H) as [B1 B2]. split; [apply mk_annot_parts; exact B1|].
    pose proof (mk_annot_height u md). cbn [theight]. lia.
  Qed.

  (** The types of field parsers are guarded and not too high. *)
  Lemma field_parsers_parts : forall c cl fps fp, get_class E c = Some cl ->
    field_parsers E cl = Ok fps -> In fp fps ->
    every_part (guarded E (c_module cl)) (fp_type fp) /\
    theight (fp_type fp) <= fields_height (raw_fields (c_kind cl)) + refs_height (e_refs E).
  Proof.
    intros c cl fps fp G H I. unfold field_parsers in H. apply bind_ok in H. destruct H as (hs & Hh & H).
    unfold hints in Hh. apply mapM_ok in Hh.
    assert (A : forall x t, In (x, t) hs -> every_part (guarded E (c_module cl)) t /\
      theight t <= fields_height (raw_fields (c_kind cl)) + refs_height (e_refs E)).
    { intros x t J. destruct (Forall2_in_r _ _ _ _ _ _ Hh J) as ([y u] & Iy & R).
      apply bind_ok in R. destruct R as (t' & R & Q). injection Q as -> ->.
      pose proof (ge_fields _ GE _ _ _ _ G Iy) as P. split; [eapply resolve_parts; eassumption|].
      apply resolve_hint_height in R.
      assert (theight u <= fields_height (raw_fields (c_kind cl))); [|lia].
      clear - Iy. unfold fields_height. induction (raw_fields (c_kind cl)) as [|f l IH]; [destruct Iy|].
      cbn [fold_right]. destruct Iy as [->|Iy]; [cbn [snd]; lia | apply IH in Iy; lia]. }
    assert (B : forall x t d fp, field_parser x t d = Ok fp -> In (x, t) hs ->
      every_part (guarded E (c_module cl)) (fp_type fp) /\
      theight (fp_type fp) <= fields_height (raw_fields (c_kind cl)) + refs_height (e_refs E)).
    { clear fp I. intros x t d fp F J. destruct (A _ _ J) as [A1 A2]. unfold field_parser in F.
      apply bind_ok in F. destruct F as (u & U & Q). injection Q as <-. cbn [fp_type].
      destruct (is_type_optional t); [|injection U as <-; auto].
      destruct (unwrap_optional_parts _ _ _ A1 U). split; [assumption | lia]. }
    destruct (c_kind cl) as [ms|ths|xs|fr fs|phs].
    - injection H as <-. destruct I.
    - injection H as <-. apply in_map_iff in I. destruct I as ([x t] & <- & J). apply (A _ _ J).
    - injection H as <-. destruct I.
    - apply mapM_ok in H. destruct (Forall2_in_r _ _ _ _ _ _ H I) as ([f [x t]] & J & F).
      apply (B _ _ _ _ F). apply in_combine_r in J. exact J.
    - apply mapM_ok in H. destruct (Forall2_in_r _ _ _ _ _ _ H I) as ([x t] & J & F).
      apply (B _ _ _ _ F J).
  Qed.

  Lemma class_height : forall c cl, get_class E c = Some cl ->
    fields_height (raw_fields (c_kind cl)) <= classes_height (e_classes E).
  Proof.
    intros c cl G. apply nth_error_In in G. revert G. unfold classes_height.
    induction (e_classes E) as [|d l IH]; intros []; cbn [fold_right].
    - subst. lia.
    - apply IH in H. lia.
  Qed.

  (** * Parsing *)

  Hypothesis CALM : calm E.
  Variable skip : bool.
  (** bound on the height of every type that occurs *)
  Variable H : nat.
  Hypothesis HB : env_size E <= H.

  Definition K : nat := S (H + refs_height (e_refs E)).

  Definition good (m : nat) (t : typ) : Prop := every_part (guarded E m) t /\ theight t <= H.

  Lemma good_level : forall m t, good m t -> level K m t.
  Proof.
    intros m t [P L]. apply (level_le (theight t + refs_height (e_refs E))); [unfold K; lia|].
    apply guarded_bound. apply every_part_top. exact P.
  Qed.

  Lemma parse_scalar_total : forall k j, parse_scalar k j <> Err ERecursion.
  Proof.
    assert (ITF : forall z, int_to_float z <> Err ERecursion).
    { intros z. unfold int_to_float. destruct (_ <=? _)%N; discriminate. }
    intros k j. destruct k, j; cbn [parse_scalar]; try discriminate; intros Q;
      apply bind_err in Q; destruct Q as [Q|(x & _ & Q)]; try discriminate; try exact (ITF _ Q).
    - apply Base64Proofs.parse_errors in Q. discriminate.
    - apply IsoTimeProofs.datetime_errors in Q. destruct Q; discriminate.
    - apply IsoTimeProofs.date_errors in Q. discriminate.
    - apply IsoTimeProofs.time_errors in Q. discriminate.
    - apply TimeDeltaProofs.parse_errors in Q. destruct Q as [Q|[Q|Q]]; discriminate.
    - apply AddressesProofs.uuid_errors in Q. discriminate.
    - apply AddressesProofs.ipv4_errors in Q. discriminate.
    - apply AddressesProofs.ipv6_errors in Q. discriminate.
  Qed.

  Lemma jdepth_arr : forall l x, In x l -> S (jdepth x) <= jdepth (JArr l).
  Proof.
    intros l x I. cbn [jdepth]. induction l as [|y l IH]; [destruct I|]. cbn [fold_right].
    destruct I as [->|I]; [lia | apply IH in I; lia].
  Qed.

  Lemma jdepth_obj : forall o k x, In (k, x) o -> S (jdepth x) <= jdepth (JObj o).
  Proof.
    intros l k x I. cbn [jdepth]. induction l as [|[k' y] l IH]; [destruct I|]. cbn [fold_right].
    destruct I as [I|I]; [injection I as -> ->; cbn [snd]; lia | apply IH in I; lia].
  Qed.

  Lemma zip_parse_err : forall p ts js e, zip_parse p ts js = Err e ->
    exists t j, In t ts /\ In j js /\ p t j = Err e.
  Proof.
    intros p. induction ts as [|t ts IH]; intros [|j js] e; cbn [zip_parse]; try discriminate.
    destruct (p t j) eqn:X.
    - destruct (zip_parse p ts js) eqn:Y; [discriminate|]. intros Q. injection Q as <-.
      destruct (IH _ _ Y) as (t' & j' & I & J & P). exists t', j'. cbn [In]. auto.
    - intros Q. injection Q as <-. exists t, j. cbn [In]. auto.
  Qed.

  Lemma union_try_err : forall p ts e, union_try p ts = Err e -> e <> EJsonKey ->
    exists t, In t ts /\ p t = Err e.
  Proof.
    intros p. induction ts as [|t ts IH]; intros e Q N; cbn [union_try] in Q; [congruence|].
    destruct (p t) as [v|e'] eqn:X; [discriminate|].
    assert (D : union_try p ts = Err e \/ e' = e).
    { destruct e'; try (right; congruence); left; exact Q. }
    destruct D as [D| ->].
    - destruct (IH _ D N) as (u & I & Hu). exists u. cbn [In]. auto.
    - exists t. cbn [In]. auto.
  Qed.

  Lemma good_children : forall m op ts t, good m (TUnion op ts) -> In t ts -> good m t.
  Proof.
    intros m op ts t [P L] I. apply every_part_union in P. rewrite Forall_forall in P. split; [apply P; exact I|].
    cbn [theight] in L. change (fold_right _ 0 ts) with (lheight ts) in L.
    pose proof (lheight_in _ _ I). lia.
  Qed.

  Lemma refs_height_in : forall m s a t, lookup E m s = Some (a, t) -> S (theight t) <= refs_height (e_refs E).
  Proof.
    intros m s a t. unfold lookup, refs_height. induction (e_refs E) as [|[[m' s'] r] rs IH];
      cbn [find_ref fold_right]; [discriminate|].
    destruct (Nat.eqb m' m && pystr_eqb s' s).
    - intros Q. injection Q as ->. cbn [snd]. lia.
    - intros Q. apply IH in Q. lia.
  Qed.

  Lemma good_ref : forall m s a t, lookup E m s = Some (a, t) -> good m (deref t).
  Proof.
    intros m s a t L. pose proof (ge_refs _ GE _ _ _ _ L) as P. pose proof (refs_height_in _ _ _ _ L) as R.
    assert (theight t <= H) by (unfold env_size in HB; lia).
    destruct t; try (split; assumption). unfold deref. cbn [unwrap_annotated]. destruct P as [_ P].
    split; [exact P|]. cbn [theight] in *. lia.
  Qed.

  Lemma parse_field_total : forall p c cl fps fp o e, get_class E c = Some cl ->
    field_parsers E cl = Ok fps -> In fp fps -> parse_field p fp o = Err e -> e = ERecursion ->
    exists j, dict_get o (fp_prop fp) = Some j /\ p (fp_type fp) j = Err e.
  Proof.
    intros p c cl fps fp o e G F I Q ->. unfold parse_field in Q.
    destruct (fp_mode fp) as [| |d] eqn:M; destruct (dict_get o (fp_prop fp)) as [j|]; try discriminate;
      try (destruct j; try discriminate; eexists; (split; [reflexivity | exact Q])).
    1: destruct j; try (eexists; split; [reflexivity | exact Q]).
    all: exfalso; subst d; unfold field_parsers in F; apply bind_ok in F; destruct F as (hs & _ & F);
      destruct (c_kind cl) as [ms|ths|xs|fr fs|phs] eqn:KD.
    all: try (injection F as <-; destruct I; fail).
    all: try (injection F as <-; apply in_map_iff in I; destruct I as ([x t] & <- & _); discriminate).
    all: apply mapM_ok in F; destruct (Forall2_in_r _ _ _ _ _ _ F I) as (q & J & P).
    all: try (destruct q as [f [x t]]).
    all: try (destruct q as [x t]).
    all: unfold field_parser in P; apply bind_ok in P; destruct P as (u & _ & P); injection P as <-; cbn [fp_mode] in M.
    all: try (destruct (is_type_optional t); discriminate).
    all: destruct (f_default f) as [d|] eqn:FD; [|destruct (is_type_optional t); discriminate].
    all: injection M as ->; apply in_combine_l in J; exact (calm_default _ CALM _ _ _ _ _ G KD J FD).
  Qed.

  Lemma parse_enough : forall d k m t j n, jdepth j <= d -> level k m t -> good m t ->
    k + d * K <= n -> parse E skip n m t j <> Err ERecursion.
  Proof.
    induction d as [d IHd] using lt_wf_ind.
    assert (DOWN : forall m t j n, S (jdepth j) <= d -> good m t -> d * K <= n ->
      parse E skip n m t j <> Err ERecursion).
    { intros m t j n J G N. apply (IHd (jdepth j) ltac:(lia) K); [lia | apply good_level; exact G | exact G|].
      assert (S (jdepth j) * K <= d * K) by (apply Nat.mul_le_mono_r; lia). cbn [Nat.mul] in *. lia. }
    induction k as [|k IHk]; intros m t j n J L G N; [destruct L|].
    destruct n as [|n]; [lia|]. destruct t; cbn [parse].
    - apply parse_scalar_total.
    - discriminate.
    - destruct j; try discriminate. intros Q. apply bind_err in Q. destruct Q as [Q|(a & _ & Q)]; [|discriminate].
      apply mapM_err in Q. destruct Q as (x & I & Q). apply jdepth_arr in I.
      refine (DOWN m t x n _ _ _ Q); [lia| |lia]. destruct G as [P L']. cbn [theight] in L'.
      split; [exact (proj2 P) | lia].
    - destruct j; try discriminate. intros Q. apply bind_err in Q. destruct Q as [Q|(a & _ & Q)]; [|discriminate].
      apply mapM_err in Q. destruct Q as (x & I & Q). apply jdepth_arr in I.
      apply bind_err in Q. destruct Q as [Q|(v & _ & Q)]; [|destruct (hashable E v); discriminate].
      refine (DOWN m t x n _ _ _ Q); [lia| |lia]. destruct G as [P L']. cbn [theight] in L'.
      split; [exact (proj2 P) | lia].
    - destruct j; try discriminate. intros Q. apply bind_err in Q. destruct Q as [Q|(a & _ & Q)]; [|discriminate].
      apply mapM_err in Q. destruct Q as ([s x] & I & Q). apply jdepth_obj in I.
      apply bind_err in Q. destruct Q as [Q|(kv & _ & Q)].
      { destruct t1; try discriminate; cbn [parse_key] in Q.
        - destruct k0; discriminate.
        - destruct (get_class E c) as [cl|]; [|discriminate]. destruct (c_kind cl); try discriminate.
          unfold parse_enum in Q. destruct (enum_find _ _); discriminate. }
      apply bind_err in Q. destruct Q as [Q|(v & _ & Q)]; [|discriminate].
      refine (DOWN m t2 x n _ _ _ Q); [lia| |lia]. destruct G as [P L']. cbn [theight] in L'.
      split; [exact (proj2 (proj2 P)) | lia].
    - destruct j; try discriminate. destruct (Nat.eqb _ _); [|discriminate].
      intros Q. apply bind_err in Q. destruct Q as [Q|(a & _ & Q)]; [|discriminate].
      apply zip_parse_err in Q. destruct Q as (t & x & It & Ix & Q). apply jdepth_arr in Ix.
      refine (DOWN m t x n _ _ _ Q); [lia| |lia].
      destruct G as [P L']. cbn [theight] in L'. change (fold_right _ 0 ts) with (lheight ts) in L'.
      pose proof (lheight_in _ _ It). destruct P as [_ P]. apply every_part_list in P. rewrite Forall_forall in P.
      split; [apply P; exact It | lia].
    - intros Q. apply bind_err in Q. destruct Q as [Q|(ps & _ & Q)]; [exact (discriminating_total _ Q)|].
      cbn [level] in L. rewrite Forall_forall in L.
      assert (MEM : forall t, In t ts -> parse E skip n m t j <> Err ERecursion).
      { intros t I. apply IHk; [exact J | apply L; exact I | eapply good_children; eassumption | lia]. }
      destruct ps as [|p ps].
      + destruct (union_try_err _ _ _ Q ltac:(discriminate)) as (t & I & Ht). exact (MEM _ I Ht).
      + apply bind_err in Q. destruct Q as [Q|(tbl & T & Q)]; [exact (tag_table_total _ _ Q)|].
        destruct j; try discriminate.
        apply bind_err in Q. destruct Q as [Q|(u & S & Q)]; [exact (tag_select_total _ _ _ Q)|].
        apply DeserSound.tag_select_in in S. destruct S as (p' & l & x & _ & I & _).
        apply (DeserSound.tag_table_in _ _ _ _ _ _ _ T) in I. destruct I as (Iu & _).
        exact (MEM _ Iu Q).
    - destruct (literal_type_cases ls) as [(l & ->)| ->]; [|discriminate]. cbn [bind].
      intros Q. apply bind_err in Q. destruct Q as [Q|(v & _ & Q)]; [|destruct (existsb _ _); discriminate].
      cbn [level] in L. revert Q. destruct l; cbn [lit_type];
        try (destruct n; [lia|]; cbn [parse]; apply parse_scalar_total).
      destruct n; [lia|]. cbn [parse]. destruct (get_class E c) as [cl|] eqn:GC; [|discriminate].
      assert (OBJ : (do fps <- field_parsers E cl; parse_object (parse E skip n (c_module cl)) skip c cl fps j) <> Err ERecursion).
      { intros Q. apply bind_err in Q. destruct Q as [Q|(fps & F & Q)]; [exact (field_parsers_total _ Q)|].
        destruct j; try discriminate. cbn [parse_object] in Q. apply bind_err in Q.
        destruct Q as [Q|(vals & _ & Q)].
        2: { destruct (skip || _); [|discriminate]. destruct (c_kind cl) as [| |[|]| |]; discriminate. }
        apply mapM_err in Q. destruct Q as (fp & I & Q).
        apply bind_err in Q. destruct Q as [Q|(v & _ & Q)]; [|discriminate].
        destruct (parse_field_total _ _ _ _ _ _ _ GC F I Q eq_refl) as (x & D & P).
        apply dict_get_in, jdepth_obj in D.
        destruct (field_parsers_parts _ _ _ _ GC F I) as [P1 P2].
        refine (DOWN _ _ x n _ _ _ P); [lia| |lia]. split; [exact P1|].
        pose proof (class_height _ _ GC). unfold env_size in HB. lia. }
      destruct (c_kind cl) eqn:KD, (c_from_json cl) eqn:HK; try exact OBJ;
        try (eapply calm_hook; eassumption);
        unfold parse_enum; destruct (enum_find _ _); discriminate.
    - cbn [level] in L. destruct G as [P L']. cbn [theight] in L'. destruct P as [_ P].
      destruct t; try discriminate; (apply IHk; [exact J | exact L | split; [exact P | lia] | lia]).
    - destruct (get_class E c) as [cl|] eqn:GC; [|discriminate].
      assert (OBJ : (do fps <- field_parsers E cl; parse_object (parse E skip n (c_module cl)) skip c cl fps j) <> Err ERecursion).
      { intros Q. apply bind_err in Q. destruct Q as [Q|(fps & F & Q)]; [exact (field_parsers_total _ Q)|].
        destruct j; try discriminate. cbn [parse_object] in Q. apply bind_err in Q.
        destruct Q as [Q|(vals & _ & Q)].
        2: { destruct (skip || _); [|discriminate]. destruct (c_kind cl) as [| |[|]| |]; discriminate. }
        apply mapM_err in Q. destruct Q as (fp & I & Q).
        apply bind_err in Q. destruct Q as [Q|(v & _ & Q)]; [|discriminate].
        destruct (parse_field_total _ _ _ _ _ _ _ GC F I Q eq_refl) as (x & D & P).
        apply dict_get_in, jdepth_obj in D.
        destruct (field_parsers_parts _ _ _ _ GC F I) as [P1 P2].
        refine (DOWN _ _ x n _ _ _ P); [lia| |lia]. split; [exact P1|].
        pose proof (class_height _ _ GC). unfold env_size in HB. lia. }
      destruct (c_kind cl) eqn:KD, (c_from_json cl) eqn:HK; try exact OBJ;
        try (eapply calm_hook; eassumption);
        unfold parse_enum; destruct (enum_find _ _); discriminate.
    - cbn [level] in L. destruct (lookup E m s) as [[a u]|] eqn:LK; [|discriminate].
      pose proof (good_ref _ _ _ _ LK) as GR.
      assert (LD : level k m (deref u)).
      { destruct u; try exact L. unfold deref. cbn [unwrap_annotated]. destruct k; [destruct L|].
        apply level_S. exact L. }
      destruct (deref u); try discriminate; (apply IHk; [exact J | exact LD | exact GR | lia]).
    - discriminate.
  Qed.

  (** * Construction *)

  Definition all_keys : list ckey :=
    map KeyClass (seq 0 (length (e_classes E))) ++
    map (fun r => KeyAlias (fst (fst r)) (snd (fst r))) (e_refs E).

  Definition seen (vis : list ckey) (k : ckey) : bool := existsb (ckey_eqb k) vis.

  Definition unseen (vis : list ckey) : nat :=
    length (filter (fun k => negb (seen vis k)) all_keys).

  Lemma ckey_eqb_eq : forall a b, ckey_eqb a b = true <-> a = b.
  Proof.
    intros [c|m s] [d|m' s']; cbn [ckey_eqb]; split; intros Q; try discriminate.
    - apply Nat.eqb_eq in Q. congruence.
    - injection Q as ->. apply Nat.eqb_refl.
    - apply andb_true_iff in Q. destruct Q as [Q1 Q2]. apply Nat.eqb_eq in Q1. apply pystr_eqb_eq in Q2. congruence.
    - injection Q as -> ->. rewrite Nat.eqb_refl. apply pystr_eqb_eq. reflexivity.
  Qed.

  Lemma seen_in : forall vis k, seen vis k = true <-> In k vis.
  Proof.
    intros vis k. unfold seen. rewrite existsb_exists. split.
    - intros (x & I & Q). apply ckey_eqb_eq in Q. subst. exact I.
    - intros I. exists k. split; [exact I | apply ckey_eqb_eq; reflexivity].
  Qed.

  Lemma filter_le : forall (p q : ckey -> bool) l, (forall k, p k = true -> q k = true) ->
    length (filter p l) <= length (filter q l).
  Proof.
    intros p q l PQ. induction l as [|k l IH]; cbn [filter]; [lia|]. specialize (PQ k).
    destruct (p k); [rewrite PQ by reflexivity; cbn [length]; lia|]. destruct (q k); cbn [length]; lia.
  Qed.

  Lemma filter_lt : forall (p q : ckey -> bool) l k0, (forall k, p k = true -> q k = true) ->
    In k0 l -> p k0 = false -> q k0 = true -> length (filter p l) < length (filter q l).
  Proof.
    intros p q l k0 PQ. induction l as [|k l IH]; intros I P Q; [destruct I|]. cbn [filter].
    destruct I as [->|I].
    - rewrite P, Q. cbn [length]. pose proof (filter_le p q l PQ). lia.
    - specialize (IH I P Q). specialize (PQ k).
      destruct (p k); [rewrite PQ by reflexivity; cbn [length]; lia|]. destruct (q k); cbn [length]; lia.
  Qed.

  Lemma unseen_mono : forall vis vis', incl vis vis' -> unseen vis' <= unseen vis.
  Proof.
    intros vis vis' I. apply filter_le. intros k Q. apply negb_true_iff in Q. apply negb_true_iff.
    destruct (seen vis k) eqn:S; [|reflexivity]. apply seen_in, I, seen_in in S. congruence.
  Qed.

  Lemma unseen_cons : forall vis k, In k all_keys -> seen vis k = false -> S (unseen (k :: vis)) <= unseen vis.
  Proof.
    intros vis k I S. apply (filter_lt _ _ _ k).
    - intros x Q. apply negb_true_iff in Q. apply negb_true_iff. destruct (seen vis x) eqn:X; [|reflexivity].
      apply seen_in in X. assert (seen (k :: vis) x = true) by (apply seen_in; right; exact X). congruence.
    - exact I.
    - apply negb_false_iff, seen_in. left. reflexivity.
    - apply negb_true_iff. exact S.
  Qed.

  Lemma class_key : forall c cl, get_class E c = Some cl -> In (KeyClass c) all_keys.
  Proof.
    intros c cl G. apply in_or_app. left. apply in_map, in_seq. split; [lia|].
    cbn [plus]. apply nth_error_Some. unfold get_class in G. congruence.
  Qed.

  Lemma alias_key : forall m s r, lookup E m s = Some r -> In (KeyAlias m s) all_keys.
  Proof.
    intros m s r L. apply in_or_app. right. unfold lookup in L.
    induction (e_refs E) as [|[[m' s'] r'] rs IH]; cbn [find_ref map] in *; [discriminate|].
    destruct (Nat.eqb m' m && pystr_eqb s' s) eqn:X.
    - apply andb_true_iff in X. destruct X as [X1 X2]. apply Nat.eqb_eq in X1. apply pystr_eqb_eq in X2.
      subst. left. reflexivity.
    - right. apply IH, L.
  Qed.

  Lemma fold_build_incl : forall A (f : A -> list ckey -> res (list ckey)) l vis vis',
    (forall x v v', In x l -> f x v = Ok v' -> incl v v') -> fold_build f l vis = Ok vis' -> incl vis vis'.
  Proof.
    intros A f. induction l as [|x l IH]; intros vis vis' F Q; cbn [fold_build] in Q.
    - injection Q as <-. intros k I. exact I.
    - destruct (f x vis) as [v|e] eqn:X; [|discriminate].
      apply (F x vis v (or_introl eq_refl)) in X. apply IH in Q; [|intros; eapply F; [right|]; eassumption].
      intros k I. apply Q, X, I.
  Qed.

  Lemma build_incl : forall n m t vis vis', build E n m t vis = Ok vis' -> incl vis vis'.
  Proof.
    induction n as [|n IH]; intros m t vis vis' Q; cbn [build] in Q; [discriminate|].
    assert (FB : forall ts v v', fold_build (build E n m) ts v = Ok v' -> incl v v').
    { intros ts v v' F. eapply fold_build_incl; [|exact F]. intros x a b _. apply IH. }
    destruct t; try discriminate.
    - injection Q as <-. apply incl_refl.
    - apply IH in Q. exact Q.
    - apply IH in Q. exact Q.
    - apply bind_ok in Q. destruct Q as (u & _ & Q). apply IH in Q. exact Q.
    - apply FB in Q. exact Q.
    - apply bind_ok in Q. destruct Q as (ps & _ & Q). destruct ps; [apply FB in Q; exact Q|].
      apply bind_ok in Q. destruct Q as (tbl & _ & Q). destruct (tags_distinct _ _); [|discriminate].
      apply FB in Q. exact Q.
    - apply bind_ok in Q. destruct Q as (u & _ & Q). apply IH in Q. exact Q.
    - destruct t; try discriminate; apply IH in Q; exact Q.
    - destruct (get_class E c) as [cl|]; [|discriminate].
      destruct (existsb _ vis); [injection Q as <-; apply incl_refl|].
      assert (T : incl vis (KeyClass c :: vis)) by (apply incl_tl, incl_refl).
      assert (C : forall v, (do fps <- field_parsers E cl;
        fold_build (fun fp => build E n (c_module cl) (fp_type fp)) fps (KeyClass c :: vis)) = Ok v -> incl vis v).
      { intros v F. apply bind_ok in F. destruct F as (fps & _ & F).
        eapply incl_tran; [exact T|]. eapply fold_build_incl; [|exact F]. intros x a b _. apply IH. }
      destruct (c_kind cl), (c_from_json cl); try (apply C; exact Q); injection Q as <-; exact T.
    - destruct (lookup E m s) as [[[] u]|]; [| |discriminate].
      + assert (C : forall u', (if existsb (ckey_eqb (KeyAlias m s)) vis then Ok vis
          else build E n m u' (KeyAlias m s :: vis)) = Ok vis' -> incl vis vis').
        { intros u' F. destruct (existsb _ vis); [injection F as <-; apply incl_refl|].
          apply IH in F. eapply incl_tran; [apply incl_tl, incl_refl | exact F]. }
        destruct (deref u); try discriminate; try (apply C in Q; exact Q); apply IH in Q; exact Q.
      + destruct (deref u); try discriminate; apply IH in Q; exact Q.
  Qed.

  Definition no_refs (t : typ) : Prop := every_part (fun u => ~ is_ref u) t.

  Lemma fold_build_err : forall A (f : A -> list ckey -> res (list ckey)) l vis e,
    (forall x v v', In x l -> f x v = Ok v' -> incl v v') -> fold_build f l vis = Err e ->
    exists x v, In x l /\ incl vis v /\ f x v = Err e.
  Proof.
    intros A f. induction l as [|x l IH]; intros vis e F Q; cbn [fold_build] in Q; [discriminate|].
    destruct (f x vis) as [v|e'] eqn:X.
    - destruct (IH _ _ (fun y a b I => F y a b (or_intror I)) Q) as (y & w & I & J & P).
      exists y, w. repeat split; [right; exact I | | exact P].
      apply (F x vis v (or_introl eq_refl)) in X. eapply incl_tran; eassumption.
    - injection Q as <-. exists x, vis. repeat split; [left; reflexivity | apply incl_refl | exact X].
  Qed.

  (** Construction at one level, given that entering a new key (hypothesis [DOWN])
      and following a reference (hypothesis [REF]) come to an end. *)
  Section OneLevel.
    Variables (u m r : nat) (allow : bool).
    Hypothesis DOWN : forall k vis n t', In k all_keys -> seen vis k = false -> unseen vis <= u ->
      theight t' <= H -> u * K <= n ->
      forall m' vis', incl (k :: vis) vis' -> build E n m' t' vis' <> Err ERecursion.
    Hypothesis REF : allow = true -> forall s vis n, unseen vis <= u -> u * K + S r <= n ->
      build E n m (TRef s) vis <> Err ERecursion.

    Lemma build_level : forall t vis n, unseen vis <= u -> theight t <= H ->
      (allow = false -> no_refs t) -> u * K + theight t + r <= n -> build E n m t vis <> Err ERecursion.
    Proof.
      assert (CLASS : forall c cl vis n, get_class E c = Some cl -> seen vis (KeyClass c) = false ->
        unseen vis <= u -> u * K <= n ->
        (do fps <- field_parsers E cl;
         fold_build (fun fp => build E n (c_module cl) (fp_type fp)) fps (KeyClass c :: vis)) <> Err ERecursion).
      { intros c cl vis n GC SE U N Q. apply bind_err in Q.
        destruct Q as [Q|(fps & F & Q)]; [exact (field_parsers_total _ Q)|].
        apply fold_build_err in Q; [|intros y a b _; apply build_incl].
        destruct Q as (fp & v & I & J & Q). destruct (field_parsers_parts _ _ _ _ GC F I) as [P1 P2].
        pose proof (class_height _ _ GC). unfold env_size in HB.
        refine (DOWN _ vis n (fp_type fp) (class_key _ _ GC) SE U _ _ _ v J Q); lia. }
      induction t using typ_induct; intros vis n U HT A N.
      all: destruct n as [|n]; [cbn [theight] in N; lia|].
      all: try (cbn [build]; discriminate).
      - cbn [build theight] in *. apply IHt; [exact U | lia | intros Z; exact (proj2 (A Z)) | lia].
      - cbn [build theight] in *. apply IHt; [exact U | lia | intros Z; exact (proj2 (A Z)) | lia].
      - cbn [build]. intros Q. apply bind_err in Q. destruct Q as [Q|(x & _ & Q)].
        { destruct t1; try discriminate; cbn [check_key_type] in Q.
          - destruct k; discriminate.
          - destruct (get_class E c) as [cl|]; [|discriminate]. destruct (c_kind cl); try discriminate.
            destruct (forallb _ _ && _); discriminate. }
        cbn [theight] in *.
        revert Q. apply IHt2; [exact U | lia | intros Z; exact (proj2 (proj2 (A Z))) | lia].
      - cbn [build]. intros Q. apply fold_build_err in Q; [|intros x a b _; apply build_incl].
        destruct Q as (x & v & I & J & Q). rewrite Forall_forall in H0.
        cbn [theight] in HT, N. change (fold_right _ 0 ts) with (lheight ts) in HT, N.
        pose proof (lheight_in _ _ I). pose proof (unseen_mono _ _ J).
        refine (H0 x I v n _ _ _ _ Q); [lia | lia | | lia].
        intros Z. apply A in Z. destruct Z as [_ Z]. apply every_part_list in Z.
        rewrite Forall_forall in Z. apply Z. exact I.
      - cbn [build]. assert (FB : fold_build (build E n m) ts vis <> Err ERecursion).
        { intros Q. apply fold_build_err in Q; [|intros x a b _; apply build_incl].
          destruct Q as (x & v & I & J & Q). rewrite Forall_forall in H0.
          cbn [theight] in HT, N. change (fold_right _ 0 ts) with (lheight ts) in HT, N.
          pose proof (lheight_in _ _ I). pose proof (unseen_mono _ _ J).
          refine (H0 x I v n _ _ _ _ Q); [lia | lia | | lia].
          intros Z. apply A in Z. destruct Z as [_ Z]. apply every_part_list in Z.
          rewrite Forall_forall in Z. apply Z. exact I. }
        intros Q. apply bind_err in Q. destruct Q as [Q|(ps & _ & Q)]; [exact (discriminating_total _ Q)|].
        destruct ps; [exact (FB Q)|].
        apply bind_err in Q. destruct Q as [Q|(tbl & _ & Q)]; [exact (tag_table_total _ _ Q)|].
        destruct (tags_distinct _ _); [exact (FB Q) | discriminate].
      - cbn [build]. destruct (literal_type_cases ls) as [(l & ->)| ->]; [|discriminate]. cbn [bind].
        cbn [theight] in N. destruct n as [|n]; [lia|].
        destruct l; cbn [lit_type build]; try discriminate.
        destruct (get_class E c) as [cl|] eqn:GC; [|discriminate].
        destruct (existsb _ vis) eqn:SE; [discriminate|].
        assert (C := CLASS c cl vis n GC SE U ltac:(lia)).
        destruct (c_kind cl), (c_from_json cl); try exact C; discriminate.
      - cbn [build theight] in *.
        assert (B : build E n m t vis <> Err ERecursion).
        { apply IHt; [exact U | lia | intros Z; exact (proj2 (A Z)) | lia]. }
        destruct t; try discriminate; exact B.
      - cbn [build theight] in *. destruct (get_class E c) as [cl|] eqn:GC; [|discriminate].
        destruct (existsb _ vis) eqn:SE; [discriminate|].
        assert (C := CLASS c cl vis n GC SE U ltac:(lia)).
        destruct (c_kind cl), (c_from_json cl); try exact C; discriminate.
      - cbn [theight] in N. destruct allow.
        + apply REF; [reflexivity | exact U | lia].
        + exfalso. apply (A eq_refl). exact I.
    Qed.
  End OneLevel.

  Lemma no_refs_deref : forall t, no_refs t -> no_refs (deref t).
  Proof. intros t R. destruct t; try exact R. exact (proj2 R). Qed.

  Lemma build_enough : forall u m t vis n, unseen vis <= u -> theight t <= H ->
    u * K + theight t + refs_height (e_refs E) <= n -> build E n m t vis <> Err ERecursion.
  Proof.
    induction u as [u IHu] using lt_wf_ind.
    assert (DOWN : forall k vis n t', In k all_keys -> seen vis k = false -> unseen vis <= u ->
      theight t' <= H -> u * K <= n ->
      forall m' vis', incl (k :: vis) vis' -> build E n m' t' vis' <> Err ERecursion).
    { intros k vis n t' I SE U HT N m' vis' IN. pose proof (unseen_cons _ _ I SE) as UC. apply unseen_mono in IN.
      destruct u as [|u']; [lia|]. apply (IHu u'); [lia | lia | exact HT|].
      cbn [Nat.mul] in N. unfold K in N at 1. lia. }
    intros m t vis n U HT N. refine (build_level u m (refs_height (e_refs E)) true DOWN _ t vis n U HT _ N); [|discriminate].
    clear t vis n U HT N. intros _ s vis n U N. destruct n as [|n]; [lia|]. cbn [build].
    destruct (lookup E m s) as [[attr w]|] eqn:LK; [|discriminate].
    pose proof (refs_height_in _ _ _ _ LK) as RH.
    assert (DH : theight (deref w) <= theight w).
    { destruct w; cbn; lia. }
    assert (PLAIN : no_refs (deref w) -> build E n m (deref w) vis <> Err ERecursion).
    { intros R. refine (build_level u m 0 false DOWN _ _ _ _ U _ (fun _ => R) _); [discriminate | |lia].
      unfold env_size in HB. lia. }
    assert (NR : attr = false -> no_refs (deref w)).
    { intros ->. apply no_refs_deref. exact (ge_plain _ GE _ _ _ LK). }
    assert (ATTR : attr = true -> (if existsb (ckey_eqb (KeyAlias m s)) vis then Ok vis
      else build E n m (deref w) (KeyAlias m s :: vis)) <> Err ERecursion).
    { intros ->. destruct (existsb _ vis) eqn:SE; [discriminate|].
      refine (DOWN _ vis n _ (alias_key _ _ _ LK) SE U _ _ m _ (incl_refl _)); [|lia].
      unfold env_size in HB. lia. }
    assert (SIMPLE : (match deref w with TScalar _ | TBare _ | TClass _ => True | _ => False end) ->
      build E n m (deref w) vis <> Err ERecursion).
    { intros Z. apply PLAIN. destruct (deref w); try contradiction; (split; [intros [] | exact I]). }
    destruct (deref w); try discriminate; try (apply SIMPLE; exact I);
      (destruct attr; [apply ATTR; reflexivity | apply PLAIN, NR; reflexivity]).
  Qed.
End Resolve.

Lemma filter_length : forall A (p : A -> bool) l, length (filter p l) <= length l.
Proof. intros A p. induction l as [|x l IH]; cbn [filter length]; [lia|]. destruct (p x); cbn [length]; lia. Qed.

Lemma unseen_bound : forall E vis, unseen E vis <= length (e_classes E) + length (e_refs E).
Proof.
  intros E vis. unfold unseen. etransitivity; [apply filter_length|].
  unfold all_keys. rewrite app_length, !map_length, seq_length. lia.
Qed.

Section Enough.
  Variable E : env.
  Hypothesis GE : guarded_env E.
  Hypothesis CALM : calm E.

  Lemma level_bound_K : forall t, K E (theight t + env_size E) <= level_bound E t.
  Proof. intros t. unfold K, level_bound, env_size. lia. Qed.

  Theorem create_deserializer_ends : forall m t, create_deserializer E m t <> Err ERecursion.
  Proof.
    intros m t. unfold create_deserializer, build_fuel.
    apply (build_enough E GE (theight t + env_size E)) with (u := length (e_classes E) + length (e_refs E)).
    - lia.
    - apply unseen_bound.
    - lia.
    - pose proof (level_bound_K t). set (u := length (e_classes E) + length (e_refs E)).
      assert (u * K E (theight t + env_size E) <= u * level_bound E t) by (apply Nat.mul_le_mono_l; assumption).
      cbn [Nat.mul]. unfold level_bound at 1. unfold env_size in *. lia.
  Qed.

  Theorem parse_ends : forall skip m t j n, every_part (guarded E m) t -> parse_fuel E t j <= n ->
    parse E skip n m t j <> Err ERecursion.
  Proof.
    intros skip m t j n P N.
    assert (G : good E (theight t + env_size E) m t) by (split; [exact P | lia]).
    apply (parse_enough E GE CALM skip (theight t + env_size E) ltac:(lia) (jdepth j) (K E (theight t + env_size E)));
      [lia | apply good_level; [lia | exact G] | exact G|].
    unfold parse_fuel in N. pose proof (level_bound_K t).
    assert (S (jdepth j) * K E (theight t + env_size E) <= S (jdepth j) * level_bound E t)
      by (apply Nat.mul_le_mono_l; assumption). cbn [Nat.mul] in *. lia.
  Qed.

  Theorem json_to_object_ends : forall skip m t j, every_part (guarded E m) t ->
    json_to_object E skip m t j <> Err ERecursion.
  Proof.
    intros skip m t j P Q. unfold json_to_object in Q. apply bind_err in Q. destruct Q as [Q|(v & _ & Q)].
    - exact (create_deserializer_ends _ _ Q).
    - exact (parse_ends _ _ _ _ _ P (le_n _) Q).
  Qed.

  (** Any larger recursion budget gives the same outcome. *)
  Theorem json_to_object_budget : forall skip m t j n, every_part (guarded E m) t ->
    parse_fuel E t j <= n ->
    json_to_object E skip m t j = (do _ <- create_deserializer E m t; parse E skip n m t j).
  Proof.
    intros skip m t j n P N. unfold json_to_object. destruct (create_deserializer E m t); [|reflexivity].
    cbn [bind]. symmetry. apply parse_mono; [exact N|]. apply parse_ends; [exact P | lia].
  Qed.
End Enough.
