(** Tagged unions. *)
From Coq Require Import String List NArith ZArith Bool Lia Permutation.
From Verif Require Import Base Json PyTypes Mapping Deser Lists SpecTyping TypingFacts DeserSound SpecRecursion DeserFuel DeserBuild
  DeserUnfold SpecNumbers NumbersProofs SpecDeser DeserFacts SpecTypes TypeAlgebraProofs SpecFields FieldProofs SpecTagged.
Import ListNotations.
Open Scope list_scope.
Open Scope nat_scope.

(** * Literals and data *)

Lemma lit_json_eqb_spec : forall l j, lit_json_eqb l j = true <-> says l j.
Proof.
  intros l j. unfold says. split.
  - destruct l; cbn [lit_json_eqb lit_json]; intros H; try discriminate; apply scalar_eqb_spec in H; eauto.
  - intros (w & Q & J). destruct l; try discriminate; injection Q as <-; apply scalar_eqb_spec; exact J.
Qed.

Lemma says_equal : forall l l' j, says l j -> says l' j -> lit_pyeq l l' = true.
Proof.
  intros l l' j (w & A & B) (w' & A' & B').
  assert (S : scalar_eqb w w' = true).
  { apply scalar_eqb_spec. eapply json_equal_trans; [exact B | apply json_equal_sym; exact B']. }
  destruct l, l'; try discriminate; injection A as <-; injection A' as <-; try discriminate S; exact S.
Qed.

Lemma lit_pyeq_sym : forall a b, lit_pyeq a b = lit_pyeq b a.
Proof.
  intros a b. unfold lit_pyeq. destruct (lit_number a) as [x|] eqn:A, (lit_number b) as [y|] eqn:B.
  - apply Z.eqb_sym.
  - destruct a, b; try discriminate; reflexivity.
  - destruct a, b; try discriminate; reflexivity.
  - assert (X : forall s s' : list N, pystr_eqb s s' = pystr_eqb s' s).
    { intros s s'. destruct (pystr_eqb s s') eqn:P.
      - apply pystr_eqb_eq in P. subst. symmetry. apply pystr_eqb_refl.
      - destruct (pystr_eqb s' s) eqn:P'; [|reflexivity]. apply pystr_eqb_eq in P'. subst. rewrite pystr_eqb_refl in P. discriminate. }
    destruct a, b; try discriminate; cbn [lit_eqb]; try reflexivity; try apply X. rewrite Nat.eqb_sym. f_equal. apply X.
Qed.

Lemma says_scalar : forall l j, says l j -> match j with JArr _ | JObj _ => False | _ => True end.
Proof.
  intros l j (w & A & B). destruct B as [| |a b q q' _ N _|]; try exact I. destruct N; exact I.
Qed.

(** * The table of tags *)

Definition clash_free (x y : pystr * lit * typ) : Prop :=
  fst (fst x) = fst (fst y) -> lit_pyeq (snd (fst x)) (snd (fst y)) = false.

Lemma clash_free_sym : forall x y, clash_free x y -> clash_free y x.
Proof. intros x y H Q. rewrite lit_pyeq_sym. apply H. symmetry. exact Q. Qed.

Lemma tags_distinct_iff : forall tbl seen, tags_distinct seen tbl = true <->
  ForallOrdPairs clash_free tbl /\
  Forall (fun x => Forall (fun q => fst q = fst (fst x) -> lit_pyeq (snd q) (snd (fst x)) = false) seen) tbl.
Proof.
  induction tbl as [|[[p l] t] tbl IH]; intros seen; cbn [tags_distinct].
  - split; [intros _; split; constructor | reflexivity].
  - destruct (existsb (fun q => pystr_eqb (fst q) p && lit_pyeq (snd q) l) seen) eqn:X.
    + split; [discriminate|]. intros [_ F]. inversion F as [|? ? F1 _]; subst. cbn [fst snd] in F1.
      apply existsb_exists in X. destruct X as (q & I & X). apply andb_true_iff in X. destruct X as [X1 X2].
      apply pystr_eqb_eq in X1. rewrite Forall_forall in F1. rewrite (F1 q I X1) in X2. discriminate.
    + rewrite IH. split.
      * intros [A B]. split.
        -- constructor; [|exact A]. rewrite Forall_forall in B |- *. intros y I Q. specialize (B y I).
           inversion B as [|? ? B1 _]; subst. cbn [fst snd] in *. apply B1. exact Q.
        -- constructor.
           ++ cbn [fst snd]. apply Forall_forall. intros q I Q. destruct (lit_pyeq (snd q) l) eqn:Y; [|reflexivity].
              assert (Z : existsb (fun q => pystr_eqb (fst q) p && lit_pyeq (snd q) l) seen = true).
              { apply existsb_exists. exists q. split; [exact I|]. rewrite Q, pystr_eqb_refl. exact Y. }
              congruence.
           ++ eapply Forall_impl; [|exact B]. intros x F. inversion F; assumption.
      * intros [A B]. inversion A as [|? ? A1 A2]; subst. inversion B as [|? ? B1 B2]; subst. split; [exact A2|].
        rewrite Forall_forall in *. intros x I. constructor; [|apply B2; exact I]. exact (A1 x I).
Qed.

Lemma fop_perm : forall A (R : A -> A -> Prop) l l', (forall x y, R x y -> R y x) -> Permutation l l' ->
  ForallOrdPairs R l -> ForallOrdPairs R l'.
Proof.
  intros A R l l' SYM P. induction P as [|x l l' P IH|x y l|l l' l'' _ IH1 _ IH2]; intros F.
  - constructor.
  - inversion F as [|? ? F1 F2]; subst. constructor; [|exact (IH F2)]. eapply Permutation_Forall; eassumption.
  - inversion F as [|? ? F1 F2]; subst. inversion F2 as [|? ? F3 F4]; subst. inversion F1 as [|? ? F5 F6]; subst.
    constructor; [constructor; [apply SYM; exact F5 | exact F3] | constructor; assumption].
  - auto.
Qed.

Lemma tags_distinct_perm : forall tbl tbl', Permutation tbl tbl' -> tags_distinct [] tbl = tags_distinct [] tbl'.
Proof.
  assert (H : forall tbl tbl', Permutation tbl tbl' -> tags_distinct [] tbl = true -> tags_distinct [] tbl' = true).
  { intros tbl tbl' P Q. apply tags_distinct_iff in Q. destruct Q as [Q _]. apply tags_distinct_iff. split.
    - eapply fop_perm; [exact clash_free_sym | exact P | exact Q].
    - apply Forall_forall. intros. constructor. }
  intros tbl tbl' P. destruct (tags_distinct [] tbl) eqn:A.
  - symmetry. eapply H; eassumption.
  - destruct (tags_distinct [] tbl') eqn:B; [|reflexivity]. apply Permutation_sym in P. rewrite (H _ _ P B) in A. discriminate.
Qed.

Lemma tag_find_none : forall tbl p j, tag_find tbl p j = None <-> forall l t, In (p, l, t) tbl -> ~ says l j.
Proof.
  induction tbl as [|[[q l] t] tbl IH]; intros p j; cbn [tag_find].
  - split; [intros _ l t [] | reflexivity].
  - destruct (pystr_eqb q p && lit_json_eqb l j) eqn:X.
    + apply andb_true_iff in X. destruct X as [A B]. apply pystr_eqb_eq in A. subst q. apply lit_json_eqb_spec in B. split.
      * discriminate.
      * intros H. destruct (H l t (or_introl eq_refl) B).
    + rewrite IH. split.
      * intros H l' t' [I|I]; [|apply (H l' t' I)]. injection I as <- <- <-. intros S. apply lit_json_eqb_spec in S.
        rewrite pystr_eqb_refl, S in X. discriminate.
      * intros H l' t' I. apply (H l' t'). right. exact I.
Qed.

Lemma tag_find_some : forall tbl p j t, tags_distinct [] tbl = true ->
  (tag_find tbl p j = Some t <-> exists l, In (p, l, t) tbl /\ says l j).
Proof.
  intros tbl p j t D. split.
  - intros H. apply tag_find_in in H. destruct H as (l & I & S). exists l. split; [exact I|].
    apply lit_json_eqb_spec. exact S.
  - intros (l & I & S). apply tags_distinct_iff in D. destruct D as [D _]. revert I D.
    induction tbl as [|[[q l'] t'] tbl IH]; intros I D; [destruct I|]. inversion D as [|? ? D1 D2]; subst. cbn [tag_find].
    destruct I as [I|I].
    + injection I as -> -> ->. rewrite pystr_eqb_refl. apply lit_json_eqb_spec in S. rewrite S. reflexivity.
    + destruct (pystr_eqb q p && lit_json_eqb l' j) eqn:X; [|exact (IH I D2)].
      apply andb_true_iff in X. destruct X as [A B]. apply pystr_eqb_eq in A. subst q. apply lit_json_eqb_spec in B.
      rewrite Forall_forall in D1. specialize (D1 _ I eq_refl). cbn [fst snd] in D1.
      rewrite (says_equal l' l j B S) in D1. discriminate.
Qed.

Section Table.
  Variable E : env.
  Hypothesis OK : env_ok E.

  Lemma properties_names : forall c cl ps, get_class E c = Some cl -> class_properties E cl = Ok ps -> NoDup (map fst ps).
  Proof.
    intros c cl ps G C. pose proof (ok_names _ _ _ (OK _ _ G)) as N.
    assert (H : map fst ps = map fst (raw_fields (c_kind cl))).
    { unfold class_properties in C. destruct (c_kind cl) eqn:K; try (rewrite <- K; apply (hints_names E); exact C).
      injection C as <-. reflexivity. }
    rewrite H. exact N.
  Qed.

  Lemma literal_property_values : forall c p ls, literal_property E c p ls <->
    exists cl, get_class E c = Some cl /\ tag_values E (TClass c) p = Ok ls /\
      exists ps t, class_properties E cl = Ok ps /\ dict_get ps p = Some t /\ literal_values t = Some ls.
  Proof.
    intros c p ls. split.
    - intros (cl & t & ps & G & C & I & L). exists cl. split; [exact G|].
      apply (dict_get_nodup _ _ _ (properties_names _ _ _ G C)) in I.
      split; [|exists ps, t; auto]. cbn [tag_values]. rewrite G, C. cbn [bind]. rewrite I, L. reflexivity.
    - intros (cl & G & _ & ps & t & C & D & L). exists cl, t, ps. repeat split; try assumption. apply dict_get_in. exact D.
  Qed.

  Lemma literal_property_fun : forall c p ls ls', literal_property E c p ls -> literal_property E c p ls' -> ls = ls'.
  Proof.
    intros c p ls ls' A B. apply literal_property_values in A, B. destruct A as (cl & G & A & _), B as (cl' & G' & B & _).
    congruence.
  Qed.

  Lemma tag_table_ok : forall ps ts, (forall p, In p ps -> tag E ts p) -> exists tbl, tag_table E ps ts = Ok tbl.
  Proof.
    intros ps ts H. unfold tag_table.
    destruct (mapM_total _ _ (tag_row E ps) ts) as (rows & R); [|rewrite R; cbn [bind]; eauto].
    intros t I. unfold tag_row.
    destruct (mapM_total _ _ (fun p => do ls <- tag_values E t p; Ok (map (fun l => (p, l, t)) ls)) ps) as (row & R);
      [|rewrite R; cbn [bind]; eauto].
    intros p Ip. destruct (H p Ip) as [_ F]. rewrite Forall_forall in F. destruct (F t I) as (c & ls & -> & L).
    apply literal_property_values in L. destruct L as (cl & _ & L & _). rewrite L. cbn [bind]. eauto.
  Qed.

  Lemma tag_table_iff : forall ps ts tbl p c l, tag_table E ps ts = Ok tbl -> (forall p, In p ps -> tag E ts p) ->
    (In (p, l, TClass c) tbl <-> In p ps /\ In (TClass c) ts /\ exists ls, literal_property E c p ls /\ In l ls).
  Proof.
    intros ps ts tbl p c l T H. split.
    - intros I. apply (tag_table_in _ _ _ _ _ _ _ T) in I. destruct I as (It & Ip & ls & L & Il).
      split; [exact Ip|]. split; [exact It|]. exists ls. split; [|exact Il].
      destruct (H p Ip) as [_ F]. rewrite Forall_forall in F. destruct (F _ It) as (c' & ls' & Q & L'). injection Q as <-.
      assert (ls' = ls); [|subst; exact L']. apply literal_property_values in L'. destruct L' as (cl & _ & L' & _). congruence.
    - intros (Ip & It & ls & L & Il). unfold tag_table in T. apply bind_ok in T. destruct T as (rows & R & Q). injection Q as <-.
      apply mapM_ok in R. eapply Forall2_in_l in It; [|exact R]. destruct It as (row & Ir & T). apply in_concat. exists row.
      split; [exact Ir|]. unfold tag_row in T. apply bind_ok in T. destruct T as (cells & C & Q). injection Q as <-.
      apply mapM_ok in C. eapply Forall2_in_l in Ip; [|exact C]. destruct Ip as (cell & Ic & T). apply in_concat. exists cell.
      split; [exact Ic|]. apply literal_property_values in L. destruct L as (cl & _ & L & _). rewrite L in T. cbn [bind] in T.
      injection T as <-. apply in_map_iff. exists l. auto.
  Qed.

  Lemma tag_table_class : forall ps ts tbl p l t, tag_table E ps ts = Ok tbl -> (forall p, In p ps -> tag E ts p) ->
    In (p, l, t) tbl -> exists c, t = TClass c.
  Proof.
    intros ps ts tbl p l t T H I. apply (tag_table_in _ _ _ _ _ _ _ T) in I. destruct I as (It & Ip & _).
    destruct (H p Ip) as [_ F]. rewrite Forall_forall in F. destruct (F _ It) as (c & _ & -> & _). eauto.
  Qed.

  (** The same table, in another order. *)
  Lemma concat_perm : forall A B (R : A -> list B -> Prop) l l' r, Permutation l l' -> Forall2 R l r ->
    exists r', Forall2 R l' r' /\ Permutation (concat r) (concat r').
  Proof.
    intros A B R l l' r P. revert r. induction P as [|x l l' P IH|x y l|l l' l'' _ IH1 _ IH2]; intros r F.
    - exists r. auto.
    - inversion F as [|? b ? r0 F1 F2]; subst. destruct (IH r0 F2) as (r' & F' & P'). exists (b :: r').
      split; [constructor; assumption|]. cbn [concat]. apply Permutation_app_head. exact P'.
    - inversion F as [|? b ? r0 F1 F2]; subst. inversion F2 as [|? b' ? r1 F3 F4]; subst. exists (b' :: b :: r1).
      split; [repeat constructor; assumption|]. cbn [concat]. rewrite !app_assoc. apply Permutation_app_tail. apply Permutation_app_comm.
    - destruct (IH1 r F) as (r1 & F1 & P1). destruct (IH2 r1 F1) as (r2 & F2 & P2). exists r2.
      split; [exact F2 | eapply Permutation_trans; eassumption].
  Qed.

  Lemma tag_table_perm : forall ps ps' ts tbl, Permutation ps ps' -> tag_table E ps ts = Ok tbl ->
    exists tbl', tag_table E ps' ts = Ok tbl' /\ Permutation tbl tbl'.
  Proof.
    intros ps ps' ts tbl P. revert tbl. unfold tag_table. induction ts as [|t ts IH]; intros tbl T; cbn [mapM] in *.
    - injection T as <-. exists []. auto.
    - apply bind_ok in T. destruct T as (rows & T & Q). injection Q as <-.
      apply bind_ok in T. destruct T as (row & R & T). apply bind_ok in T. destruct T as (rows' & RS & Q). injection Q as <-.
      assert (X : exists row', tag_row E ps' t = Ok row' /\ Permutation row row').
      { unfold tag_row in R |- *. apply bind_ok in R. destruct R as (cells & C & Q). injection Q as <-. apply mapM_ok in C.
        destruct (concat_perm _ _ _ _ _ _ P C) as (cells' & C' & P'). apply mapM_ok in C'. rewrite C'. cbn [bind]. eauto. }
      destruct X as (row' & R' & P'). rewrite R'. cbn [bind].
      specialize (IH (concat rows')). rewrite RS in IH. cbn [bind] in IH. destruct (IH eq_refl) as (tbl' & T' & PT).
      apply bind_ok in T'. destruct T' as (rows'' & RS' & Q). injection Q as <-. rewrite RS'. cbn [bind concat].
      eexists. split; [reflexivity|]. apply Permutation_app; assumption.
  Qed.

  (** * Selection *)

  Lemma tag_select_claims : forall ps ts tbl o c, tag_table E ps ts = Ok tbl -> (forall p, In p ps -> tag E ts p) ->
    tags_distinct [] tbl = true -> In (TClass c) ts ->
    (exists p j, In p ps /\ dict_get o p = Some j /\ j <> JNull) ->
    (forall p j, In p ps -> dict_get o p = Some j -> j <> JNull -> claims E c p j) ->
    tag_select tbl ps o = Ok (TClass c).
  Proof.
    intros ps ts tbl o c T H D It.
    assert (X : forall qs, incl qs ps ->
      (exists p j, In p qs /\ dict_get o p = Some j /\ j <> JNull) ->
      (forall p j, In p qs -> dict_get o p = Some j -> j <> JNull -> claims E c p j) ->
      tag_select tbl qs o = Ok (TClass c)).
    2: { intros; apply X; auto. apply incl_refl. }
    induction qs as [|p qs IH]; intros IN EX CL; [destruct EX as (p & _ & [] & _)|]. cbn [tag_select].
    assert (GO : (forall j, dict_get o p = Some j -> j = JNull) -> tag_select tbl qs o = Ok (TClass c)).
    { intros NG. apply IH.
      - intros x I. apply IN. right. exact I.
      - destruct EX as (q & j & [<-|I] & D' & NZ); [destruct NZ; apply NG; exact D' | eauto].
      - intros q j I. apply CL. right. exact I. }
    destruct (dict_get o p) as [j|] eqn:DG; [|apply GO; discriminate].
    assert (F : j <> JNull -> tag_find tbl p j = Some (TClass c) /\ match j with JArr _ | JObj _ => False | _ => True end).
    { intros NZ. destruct (CL p j (or_introl eq_refl) DG NZ) as (ls & l & L & I & S). split; [|eapply says_scalar; exact S].
      apply (tag_find_some _ _ _ _ D). exists l. split; [|exact S].
      apply (tag_table_iff ps ts); try assumption. split; [apply IN; left; reflexivity|]. eauto. }
    destruct j; try (apply GO; intros j' Q; injection Q as <-; reflexivity);
      (destruct F as [F1 F2]; [discriminate | try contradiction]); rewrite F1; reflexivity.
  Qed.

  Lemma tag_select_ok : forall ps ts tbl o t, tag_table E ps ts = Ok tbl -> (forall p, In p ps -> tag E ts p) ->
    tag_select tbl ps o = Ok t ->
    exists c p j, t = TClass c /\ In (TClass c) ts /\ In p ps /\ dict_get o p = Some j /\ j <> JNull /\ claims E c p j.
  Proof.
    intros ps ts tbl o t T H S.
    assert (X : forall qs, tag_select tbl qs o = Ok t ->
      exists p j, In p qs /\ dict_get o p = Some j /\ j <> JNull /\ tag_find tbl p j = Some t).
    { induction qs as [|p qs IH]; cbn [tag_select]; [discriminate|]. intros Q.
      assert (NEXT : tag_select tbl qs o = Ok t -> exists p' j, In p' (p :: qs) /\ dict_get o p' = Some j /\ j <> JNull /\ tag_find tbl p' j = Some t).
      { intros Y. destruct (IH Y) as (p' & j & I & R). exists p', j. split; [right; exact I | exact R]. }
      destruct (dict_get o p) as [j|] eqn:DG; [|auto].
      destruct j; try (apply NEXT; exact Q); try discriminate;
        (destruct (tag_find tbl p _) eqn:F; [|discriminate]; injection Q as <-; exists p; eexists;
         split; [left; reflexivity|]; split; [exact DG|]; split; [discriminate | exact F]). }
    destruct (X _ S) as (p & j & I & DG & NZ & F). apply tag_find_in in F. destruct F as (l & IT & LJ).
    destruct (tag_table_class _ _ _ _ _ _ T H IT) as (c & ->).
    apply (tag_table_iff _ _ _ _ _ _ T H) in IT. destruct IT as (Ip & It & ls & L & Il).
    exists c, p, j. repeat split; try assumption. exists ls, l. repeat split; try assumption. apply lit_json_eqb_spec. exact LJ.
  Qed.

  Lemma tag_select_missing : forall tbl ps o, (forall p j, In p ps -> dict_get o p = Some j -> j = JNull) ->
    tag_select tbl ps o = Err EJsonType.
  Proof.
    intros tbl. induction ps as [|p ps IH]; intros o H; [reflexivity|]. cbn [tag_select].
    assert (IH' : tag_select tbl ps o = Err EJsonType) by (apply IH; intros q j I; apply H; right; exact I).
    destruct (dict_get o p) as [j|] eqn:DG; [|exact IH']. rewrite (H p j (or_introl eq_refl) DG). exact IH'.
  Qed.

  Lemma tag_select_wrong : forall ps ts tbl o, tag_table E ps ts = Ok tbl -> (forall p, In p ps -> tag E ts p) ->
    (forall p j c, In p ps -> dict_get o p = Some j -> In (TClass c) ts -> ~ claims E c p j) ->
    (forall p j, In p ps -> dict_get o p = Some j -> match j with JArr _ | JObj _ => False | _ => True end) ->
    tag_select tbl ps o = Err EJsonType.
  Proof.
    intros ps ts tbl o T H.
    assert (X : forall qs, incl qs ps ->
      (forall p j c, In p qs -> dict_get o p = Some j -> In (TClass c) ts -> ~ claims E c p j) ->
      (forall p j, In p qs -> dict_get o p = Some j -> match j with JArr _ | JObj _ => False | _ => True end) ->
      tag_select tbl qs o = Err EJsonType).
    2: { intros; apply X; auto. apply incl_refl. }
    induction qs as [|p qs IH]; intros IN NC SC; [reflexivity|]. cbn [tag_select].
    assert (IH' : tag_select tbl qs o = Err EJsonType).
    { apply IH; [intros x I; apply IN; right; exact I| |]; intros; [apply (NC p0) | apply (SC p0)]; try assumption; right; assumption. }
    destruct (dict_get o p) as [j|] eqn:DG; [|exact IH']. pose proof (SC p j (or_introl eq_refl) DG) as S.
    assert (F : tag_find tbl p j = None).
    { apply tag_find_none. intros l t I SY. destruct (tag_table_class _ _ _ _ _ _ T H I) as (c & ->).
      apply (tag_table_iff _ _ _ _ _ _ T H) in I. destruct I as (_ & It & ls & L & Il).
      apply (NC p j c (or_introl eq_refl) DG It). exists ls, l. auto. }
    destruct j; try contradiction; try exact IH'; rewrite F; reflexivity.
  Qed.
End Table.

(** * Tagged unions as a whole *)

Section Tagged.
  Variable E : env.
  Hypothesis OK : env_ok E.
  Hypothesis GE : guarded_env E.
  Hypothesis CALM : calm E.
  Hypothesis ORD : shuffles (e_order E).
  Variables (skip : bool) (m : nat) (op : bool) (ts : list typ).
  Hypothesis R : ready E m (TUnion op ts).

  Notation jto := (json_to_object E skip).

  Lemma ready_table : (exists p, tag E ts p) -> exists ps tbl,
    discriminating_properties E ts = Ok ps /\ ps <> [] /\ (forall p, In p (e_order E ps) <-> tag E ts p) /\
    tag_table E (e_order E ps) ts = Ok tbl /\ tags_distinct [] tbl = true.
  Proof.
    intros (p & TG). destruct (ready_static E m (TUnion op ts) R) as (vis & _ & SO).
    inversion SO as [| | | | |? ? ps D X _| | | | | |]; subst.
    assert (NE : ps <> []).
    { intros ->. apply (untagged_iff E ts [] D) in TG; [exact TG | reflexivity]. }
    destruct X as [->|(tbl & T & TD)]; [contradiction|]. exists ps, tbl. split; [exact D|]. split; [exact NE|].
    split; [|split; assumption]. intros p0. split.
    - intros I. apply (discriminating_spec E ts ps p0 D). eapply Permutation_in; [apply ORD | exact I].
    - intros I. apply (discriminating_spec E ts ps p0 D) in I. eapply Permutation_in; [apply Permutation_sym; apply ORD | exact I].
  Qed.

  Lemma jto_tagged : (exists p, tag E ts p) -> exists ps tbl,
    (forall p, In p ps <-> tag E ts p) /\ tag_table E ps ts = Ok tbl /\ tags_distinct [] tbl = true /\
    forall j, jto m (TUnion op ts) j =
      match j with JObj o => do u <- tag_select tbl ps o; jto m u j | _ => Err EJsonType end.
  Proof.
    intros TG. destruct (ready_table TG) as (ps & tbl & D & NE & I & T & TD). exists (e_order E ps), tbl.
    split; [exact I|]. split; [exact T|]. split; [exact TD|]. intros j.
    rewrite (jto_union E GE CALM skip m op ts j R), D. cbn [bind]. destruct ps; [contradiction|]. cbv zeta. rewrite T. reflexivity.
  Qed.

  Theorem tagged_ok : forall j v, (exists p, tag E ts p) -> jto m (TUnion op ts) j = Ok v ->
    exists o p x c, j = JObj o /\ tag E ts p /\ given o p x /\ In (TClass c) ts /\ claims E c p x /\ jto m (TClass c) j = Ok v.
  Proof.
    intros j v TG H. destruct (jto_tagged TG) as (ps & tbl & I & T & TD & J). rewrite J in H.
    destruct j as [| | | | | |o]; try discriminate. apply bind_ok in H. destruct H as (u & S & H).
    apply (tag_select_ok E OK ps ts tbl o u T (fun p => proj1 (I p))) in S.
    destruct S as (c & p & x & -> & It & Ip & DG & NZ & C). exists o, p, x, c. split; [reflexivity|].
    split; [apply I; exact Ip|]. split; [split; [apply dict_get_in; exact DG | exact NZ]|]. auto.
  Qed.

  Theorem tagged_selects : forall o c, NoDup (map fst o) -> In (TClass c) ts ->
    (exists p x, tag E ts p /\ given o p x) ->
    (forall p x, tag E ts p -> given o p x -> claims E c p x) ->
    jto m (TUnion op ts) (JObj o) = jto m (TClass c) (JObj o).
  Proof.
    intros o c ND It (p & x & TG & GV) CL.
    destruct (jto_tagged (ex_intro _ p TG)) as (ps & tbl & I & T & TD & J). rewrite J.
    rewrite (tag_select_claims E OK ps ts tbl o c T (fun p => proj1 (I p)) TD It); [reflexivity| |].
    - exists p, x. destruct GV as [GI NZ]. split; [apply I; exact TG|]. split; [apply dict_get_present; assumption | exact NZ].
    - intros q y Iq DG NZ. apply CL; [apply I; exact Iq|]. split; [apply dict_get_in; exact DG | exact NZ].
  Qed.

  Theorem tagged_unique : forall p x c c', tag E ts p -> In (TClass c) ts -> In (TClass c') ts ->
    claims E c p x -> claims E c' p x -> c = c'.
  Proof.
    intros p x c c' TG It It' (ls & l & L & Il & S) (ls' & l' & L' & Il' & S').
    destruct (ready_table (ex_intro _ p TG)) as (ps & tbl & D & NE & I & T & TD).
    assert (A : In (p, l, TClass c) tbl).
    { apply (tag_table_iff E OK (e_order E ps) ts tbl p c l T (fun p => proj1 (I p))). split; [apply I; exact TG | eauto]. }
    assert (A' : In (p, l', TClass c') tbl).
    { apply (tag_table_iff E OK (e_order E ps) ts tbl p c' l' T (fun p => proj1 (I p))). split; [apply I; exact TG | eauto]. }
    assert (B : tag_find tbl p x = Some (TClass c)) by (apply (tag_find_some _ _ _ _ TD); eauto).
    assert (B' : tag_find tbl p x = Some (TClass c')) by (apply (tag_find_some _ _ _ _ TD); eauto).
    congruence.
  Qed.

  Theorem tagged_missing : forall o, (exists p, tag E ts p) -> (forall p x, tag E ts p -> ~ given o p x) ->
    jto m (TUnion op ts) (JObj o) = Err EJsonType.
  Proof.
    intros o TG NG. destruct (jto_tagged TG) as (ps & tbl & I & T & TD & J). rewrite J.
    rewrite tag_select_missing; [reflexivity|]. intros p x Ip DG. apply dict_get_in in DG.
    destruct x; try reflexivity; exfalso; eapply (NG p); try (apply I; exact Ip); (split; [exact DG | discriminate]).
  Qed.

  Theorem tagged_wrong : forall o, (exists p, tag E ts p) ->
    (forall p x c, tag E ts p -> In (p, x) o -> In (TClass c) ts -> ~ claims E c p x) ->
    (forall p x, tag E ts p -> In (p, x) o -> is_scalar x) ->
    jto m (TUnion op ts) (JObj o) = Err EJsonType.
  Proof.
    intros o TG NC SC. destruct (jto_tagged TG) as (ps & tbl & I & T & TD & J). rewrite J.
    rewrite (tag_select_wrong E OK ps ts tbl o T (fun p => proj1 (I p))); [reflexivity| |].
    - intros p x c Ip DG It. apply (NC p x c); [apply I; exact Ip | apply dict_get_in; exact DG | exact It].
    - intros p x Ip DG. apply (SC p x); [apply I; exact Ip | apply dict_get_in; exact DG].
  Qed.
End Tagged.

(** * Independence of the order of tags *)

Lemma reach_trans : forall E m t m' t' m'' t'', reach E m t m' t' -> reach E m' t' m'' t'' -> reach E m t m'' t''.
Proof.
  intros E m t m' t' m'' t'' H K. induction H; [exact K|..]; econstructor; eauto.
Qed.

Lemma orderly_reach : forall E m t m' t', reach E m t m' t' -> orderly E m t -> orderly E m' t'.
Proof.
  intros E m t m' t' RE [A B]. split.
  - intros m1 op ts H. apply (A m1 op). eapply reach_trans; eassumption.
  - intros m1 op ts ts1 u ts2 m2 op' us H. apply (B m1 op ts ts1 u ts2). eapply reach_trans; eassumption.
Qed.

Lemma single_reach : forall E m t m' t', reach E m t m' t' -> single_tags E m t -> single_tags E m' t'.
Proof. intros E m t m' t' RE A m1 op ts H. apply (A m1 op). eapply reach_trans; eassumption. Qed.

Section Order.
  Variable E : env.
  Hypothesis OK : env_ok E.
  Hypothesis CE : canonical_env E.
  Variable f : list pystr -> list pystr.
  Hypothesis ORD : shuffles (e_order E).
  Hypothesis ORD' : shuffles f.
  Variable skip : bool.

  Notation E' := (reorder E f).

  Lemma orders_perm : forall ps, Permutation (e_order E ps) (f ps).
  Proof. intros ps. eapply Permutation_trans; [apply ORD | apply Permutation_sym; apply ORD']. Qed.

  (** Functions that do not depend on the order. *)
  Lemma resolve_reorder : forall m n g t, resolve E m n g t = resolve E' m n g t.
  Proof.
    intros m.
    induction n as [|n IHn]; intros g t; induction t using typ_induct; rewrite (resolve_eq E), (resolve_eq E'); try reflexivity;
      try (rewrite IHt; reflexivity); try (rewrite IHt1, IHt2; reflexivity);
      try (erewrite mapM_ext; [reflexivity|]; rewrite Forall_forall in *; intros; auto; fail).
    change (lookup E' m s) with (lookup E m s). destruct (mem_str s g); [reflexivity|].
    destruct (lookup E m s) as [[a u]|]; [|reflexivity]. apply IHn.
  Qed.

  Lemma hints_reorder : forall cl, hints E cl = hints E' cl.
  Proof.
    intros cl. unfold hints. apply mapM_ext. intros [x t] _. unfold resolve_hint.
    change (length (e_refs E')) with (length (e_refs E)). rewrite resolve_reorder. reflexivity.
  Qed.

  Lemma properties_reorder : forall cl, class_properties E cl = class_properties E' cl.
  Proof. intros cl. unfold class_properties. rewrite hints_reorder. reflexivity. Qed.

  Lemma literal_reorder : forall t, literal_properties E t = literal_properties E' t.
  Proof.
    intros t. destruct t; try reflexivity. cbn [literal_properties]. change (get_class E' c) with (get_class E c).
    destruct (get_class E c); [|reflexivity]. rewrite properties_reorder. reflexivity.
  Qed.

  Lemma common_reorder : forall ts ps, common_properties E ps ts = common_properties E' ps ts.
  Proof.
    induction ts as [|t ts IH]; intros ps; cbn [common_properties]; [reflexivity|]. rewrite literal_reorder.
    destruct (literal_properties E' t); [cbn [bind]; apply IH | reflexivity].
  Qed.

  Lemma discriminating_reorder : forall ts, discriminating_properties E' ts = discriminating_properties E ts.
  Proof.
    intros [|t ts]; [reflexivity|]. cbn [discriminating_properties]. destruct (forallb is_class_type (t :: ts)); [|reflexivity].
    rewrite literal_reorder. destruct (literal_properties E' t); [|reflexivity]. cbn [bind]. symmetry. apply common_reorder.
  Qed.

  Lemma table_reorder : forall ps ts, tag_table E' ps ts = tag_table E ps ts.
  Proof.
    intros ps ts. unfold tag_table. erewrite mapM_ext; [reflexivity|]. intros t _. unfold tag_row.
    erewrite mapM_ext; [reflexivity|]. intros p _. assert (X : tag_values E' t p = tag_values E t p); [|rewrite X; reflexivity].
    destruct t; try reflexivity. cbn [tag_values]. change (get_class E' c) with (get_class E c).
    destruct (get_class E c); [|reflexivity]. rewrite properties_reorder. reflexivity.
  Qed.

  Lemma parsers_reorder : forall cl, field_parsers E' cl = field_parsers E cl.
  Proof. intros cl. unfold field_parsers. rewrite <- hints_reorder. reflexivity. Qed.

  Lemma hashable_reorder : forall v, hashable E' v = hashable E v.
  Proof.
    apply (value_induct (fun v => hashable E' v = hashable E v)); try reflexivity.
    - intros v. destruct v; reflexivity || exact I.
    - intros vs F. cbn [hashable]. induction F as [|v vs Q _ IH]; [reflexivity|]. cbn [forallb]. rewrite Q, IH. reflexivity.
    - intros c attrs F. cbn [hashable]. change (get_class E' c) with (get_class E c).
      assert (X : forallb (fun kv => hashable E' (snd kv)) attrs = forallb (fun kv => hashable E (snd kv)) attrs).
      { induction F as [|v vs Q _ IH]; [reflexivity|]. cbn [forallb]. rewrite Q, IH. reflexivity. }
      rewrite X. reflexivity.
  Qed.

  Lemma py_eq_reorder : forall a b, py_eq E' a b = py_eq E a b.
  Proof.
    assert (LE : forall l, Forall (fun a => forall b, py_eq E' a b = py_eq E a b) l -> forall r, list_eqb (py_eq E') l r = list_eqb (py_eq E) l r).
    { intros l F. induction F as [|x l Q _ IH]; intros [|y r]; try reflexivity. cbn [list_eqb]. rewrite Q, IH. reflexivity. }
    apply (value_induct (fun a => forall b, py_eq E' a b = py_eq E a b)).
    - intros v. destruct v; try exact I; intros w; destruct w; reflexivity.
    - intros vs F b. destruct b; reflexivity.
    - intros vs F b. destruct b; try reflexivity; cbn [py_eq value_number]; rewrite (LE vs F); reflexivity.
    - intros vs F b. destruct b; reflexivity.
    - intros vs F b. destruct b; reflexivity.
    - intros c attrs F b. destruct b; try reflexivity; cbn [py_eq value_number];
        (match goal with |- ?a && _ = ?b && _ => change a with b; apply (f_equal (andb b)) end).
      + revert vs. induction F as [|x l Q _ IH]; intros [|y r]; try reflexivity. rewrite Q. f_equal. apply IH.
      + revert attrs0. induction F as [|x l Q _ IH]; intros [|y r]; try reflexivity. rewrite Q. f_equal. apply IH.
  Qed.

  Lemma set_of_reorder : forall vs acc, set_of E' acc vs = set_of E acc vs.
  Proof.
    induction vs as [|v vs IH]; intros acc; cbn [set_of]; [reflexivity|].
    assert (X : existsb (fun u => py_eq E' u v) acc = existsb (fun u => py_eq E u v) acc).
    { induction acc as [|u acc IHa]; [reflexivity|]. cbn [existsb]. rewrite py_eq_reorder, IHa. reflexivity. }
    rewrite X, !IH. reflexivity.
  Qed.

  Lemma literal_check_reorder : forall v ls, existsb (fun l => py_eq E' (lit_value l) v) ls = existsb (fun l => py_eq E (lit_value l) v) ls.
  Proof. intros v. induction ls as [|l ls IH]; [reflexivity|]. cbn [existsb]. rewrite py_eq_reorder, IH. reflexivity. Qed.

  (** Construction succeeds or fails alike. *)
  Lemma build_reorder : forall n m t vis, build E n m t vis = build E' n m t vis.
  Proof.
    induction n as [|n IH]; intros m t vis; [reflexivity|].
    assert (FB : forall A (g g' : A -> list ckey -> res (list ckey)) l, (forall x v, g x v = g' x v) ->
      forall v, fold_build g l v = fold_build g' l v).
    { intros A g g' l X. induction l as [|x l IHl]; intros v; cbn [fold_build]; [reflexivity|]. rewrite X.
      destruct (g' x v); [apply IHl | reflexivity]. }
    destruct t; cbn [build]; try reflexivity; try apply IH.
    - change (check_key_type E' t1) with (check_key_type E t1). destruct (check_key_type E t1); [cbn [bind]; apply IH | reflexivity].
    - apply FB. intros; apply IH.
    - rewrite discriminating_reorder.
      destruct (discriminating_properties E ts) as [ps|e] eqn:D; [|reflexivity]. cbn [bind].
      destruct ps as [|p ps]; [apply FB; intros; apply IH|].
      assert (H : forall q, In q (e_order E (p :: ps)) -> tag E ts q).
      { intros q I. apply (discriminating_spec E ts _ q D). eapply Permutation_in; [apply ORD | exact I]. }
      destruct (tag_table_ok E OK _ _ H) as (tbl & T). rewrite T.
      destruct (tag_table_perm E _ (f (p :: ps)) ts tbl (orders_perm _) T) as (tbl' & T' & P).
      rewrite table_reorder. change (e_order E' (p :: ps)) with (f (p :: ps)). rewrite T'. cbn [bind].
      rewrite (tags_distinct_perm _ _ P). destruct (tags_distinct [] tbl'); [apply FB; intros; apply IH | reflexivity].
    - destruct (literal_type ls); [cbn [bind]; apply IH | reflexivity].
    - destruct t; try reflexivity; apply IH.
    - change (get_class E' c) with (get_class E c). destruct (get_class E c) as [cl|]; [|reflexivity].
      destruct (existsb (ckey_eqb (KeyClass c)) vis); [reflexivity|].
      rewrite parsers_reorder.
      destruct (c_kind cl), (c_from_json cl); try reflexivity;
        (destruct (field_parsers E cl) as [fps|]; [|reflexivity]; cbn [bind]; apply FB; intros; apply IH).
    - change (lookup E' m s) with (lookup E m s). destruct (lookup E m s) as [[a u]|]; [|reflexivity].
      destruct (deref u); try reflexivity; try apply IH; (destruct a; [|apply IH]);
        (destruct (existsb _ vis); [reflexivity | apply IH]).
  Qed.

  Lemma create_reorder : forall m t, create_deserializer E m t = create_deserializer E' m t.
  Proof. intros m t. unfold create_deserializer. apply build_reorder. Qed.

  Lemma one_order : forall ts ps, discriminating_properties E ts = Ok ps -> ~ many_tags E ts -> e_order E ps = f ps.
  Proof.
    intros ts ps D NM.
    assert (LEN : length (e_order E ps) = length (f ps)) by (apply Permutation_length; apply orders_perm).
    assert (SAME : forall p q, In p (e_order E ps) -> In q (f ps) -> p = q).
    { intros p q A B. destruct (list_eq_dec N.eq_dec p q) as [Q|NQ]; [exact Q|]. destruct NM. exists p, q. split; [exact NQ|].
      split; apply (discriminating_spec E ts ps _ D);
        (eapply Permutation_in; [|eassumption]); [apply ORD | apply ORD']. }
    revert LEN SAME. generalize (e_order E ps) (f ps). induction l as [|a l IH]; intros [|b r] LEN SAME; try discriminate; [reflexivity|].
    f_equal; [apply SAME; left; reflexivity|]. apply IH; [injection LEN; auto|]. intros; apply SAME; right; assumption.
  Qed.

  Lemma field_types : forall c cl fps fp m, get_class E c = Some cl -> fieldwise cl -> field_parsers E cl = Ok fps -> In fp fps ->
    reach E m (TClass c) (c_module cl) (fp_type fp).
  Proof.
    intros c cl fps fp m G FW F I. destruct (class_parsers E CE c cl fps G FW F) as [_ X].
    destruct (X fp I) as (hs & x & t & H & Ix & _ & RD). eapply re_class; try eassumption. apply re_refl.
  Qed.

  (** With single tags nothing depends on the order. *)
  Theorem parse_single : forall n m t j, single_tags E m t -> parse E skip n m t j = parse E' skip n m t j.
  Proof.
    induction n as [|n IH]; intros m t j S; [reflexivity|].
    destruct t; cbn [parse]; try reflexivity.
    - destruct j; try reflexivity. rewrite (mapM_ext _ _ (parse E skip n m t) (parse E' skip n m t)); [reflexivity|].
      intros x _. apply IH. eapply single_reach; [|exact S]. apply re_list, re_refl.
    - destruct j; try reflexivity.
      rewrite (mapM_ext _ _ (fun x => do v <- parse E skip n m t x; if hashable E v then Ok v else Err EType)
        (fun x => do v <- parse E' skip n m t x; if hashable E' v then Ok v else Err EType)).
      { destruct (mapM _ l); [|reflexivity]. cbn [bind]. rewrite set_of_reorder. reflexivity. }
      intros x _. rewrite IH; [destruct (parse E' skip n m t x); [cbn [bind]; rewrite hashable_reorder; reflexivity | reflexivity]|].
      eapply single_reach; [|exact S]. apply re_set, re_refl.
    - destruct j; try reflexivity.
      rewrite (mapM_ext _ _ (fun '(s, x) => do kv <- parse_key E t1 s; do v <- parse E skip n m t2 x; Ok (kv, v))
        (fun '(s, x) => do kv <- parse_key E' t1 s; do v <- parse E' skip n m t2 x; Ok (kv, v))); [reflexivity|].
      intros [s x] _. rewrite IH; [reflexivity|]. eapply single_reach; [|exact S]. apply re_dict, re_refl.
    - destruct j; try reflexivity. destruct (Nat.eqb (length l) (length ts)); [|reflexivity].
      rewrite (zip_parse_ext (parse E skip n m) (parse E' skip n m)); [reflexivity|]. intros t x I _. apply IH.
      eapply single_reach; [|exact S]. eapply re_tuple; [exact I | apply re_refl].
    - assert (IHt : forall t x, In t ts -> parse E skip n m t x = parse E' skip n m t x).
      { intros t x I. apply IH. eapply single_reach; [|exact S]. eapply re_union; [exact I | apply re_refl]. }
      rewrite discriminating_reorder.
      destruct (discriminating_properties E ts) as [ps|e] eqn:D; [|reflexivity]. cbn [bind].
      destruct ps as [|p ps]; [apply union_try_ext; intros; apply IHt; assumption|]. cbv zeta.
      rewrite table_reorder.
      change (e_order E' (p :: ps)) with (f (p :: ps)).
      rewrite (one_order ts (p :: ps) D) by (apply (S m op); apply re_refl).
      destruct (tag_table E (f (p :: ps)) ts) as [tbl|] eqn:T; [|reflexivity]. cbn [bind]. destruct j as [| | | | | |o]; try reflexivity.
      destruct (tag_select tbl (f (p :: ps)) o) as [u|] eqn:SEL; [|reflexivity]. cbn [bind].
      apply tag_select_in in SEL. destruct SEL as (p' & l' & x & _ & I & _). apply (tag_table_in _ _ _ _ _ _ _ T) in I.
      apply IHt. tauto.
    - destruct (literal_type ls) as [u|] eqn:L; [|reflexivity]. cbn [bind]. rewrite IH.
      { destruct (parse E' skip n m u j); [|reflexivity]. cbn [bind]. rewrite literal_check_reorder. reflexivity. }
      eapply single_reach; [|exact S]. destruct ls as [|l ls]; [discriminate|].
      rewrite <- (literal_type_all _ _ L l (or_introl eq_refl)). eapply re_literal; [left; reflexivity | apply re_refl].
    - destruct t; try reflexivity; apply IH; (eapply single_reach; [|exact S]; apply re_annot, re_refl).
    - change (get_class E' c) with (get_class E c). destruct (get_class E c) as [cl|] eqn:G; [|reflexivity].
      rewrite parsers_reorder.
      assert (X : fieldwise cl -> forall fps, field_parsers E cl = Ok fps ->
        parse_object (parse E skip n (c_module cl)) skip c cl fps j = parse_object (parse E' skip n (c_module cl)) skip c cl fps j).
      { intros FW fps F. destruct j as [| | | | | |o]; try reflexivity. cbn [parse_object].
        rewrite (mapM_ext _ _ (fun fp => do v <- parse_field (parse E skip n (c_module cl)) fp o; Ok (fp_name fp, v))
          (fun fp => do v <- parse_field (parse E' skip n (c_module cl)) fp o; Ok (fp_name fp, v))); [reflexivity|].
        intros fp I. rewrite (parse_field_ext _ (parse E' skip n (c_module cl))); [reflexivity|]. intros x _. apply IH.
        eapply single_reach; [|exact S]. eapply field_types; eassumption. }
      unfold fieldwise in X.
      destruct (c_kind cl) eqn:K, (c_from_json cl) eqn:FJ; try reflexivity;
        (destruct (field_parsers E cl) as [fps|]; [|reflexivity]; cbn [bind]; apply X; try exact I; reflexivity).
    - change (lookup E' m s) with (lookup E m s). destruct (lookup E m s) as [[a u]|] eqn:L; [|reflexivity].
      assert (X : parse E skip n m (deref u) j = parse E' skip n m (deref u) j).
      { apply IH. eapply single_reach; [|exact S]. eapply re_ref; [exact L | apply re_refl]. }
      destruct (deref u); try reflexivity; exact X.
  Qed.

  Lemma create_same : forall m t, (exists vis, create_deserializer E m t = Ok vis) <-> (exists vis, create_deserializer E' m t = Ok vis).
  Proof. intros m t. rewrite create_reorder. reflexivity. Qed.

  Theorem jto_single : forall m t j, single_tags E m t -> json_to_object E skip m t j = json_to_object E' skip m t j.
  Proof.
    intros m t j S. unfold json_to_object. rewrite create_reorder. destruct (create_deserializer E' m t); [|reflexivity]. cbn [bind].
    change (parse_fuel E' t j) with (parse_fuel E t j). apply parse_single. exact S.
  Qed.
End Order.

Section Claims.
  Variable E : env.
  Hypothesis OK : env_ok E.
  Hypothesis CE : canonical_env E.
  Variable skip : bool.

  (** Data that is read as a literal is one of the values listed. *)
  Lemma literal_says : forall F n m t j v ls, parse F skip n m t j = Ok v -> literal_values t = Some ls ->
    (forall l, In l ls -> lit_json l <> None) -> exists l, In l ls /\ says l j.
  Proof.
    intros F n m t j v ls H L NJ.
    assert (X : exists n', parse F skip n' m (TLiteral ls) j = Ok v).
    { unfold literal_values in L. destruct t; cbn [unwrap_annotated] in L; try discriminate.
      - injection L as <-. eauto.
      - destruct t; try discriminate. injection L as <-. destruct n as [|n]; [discriminate|]. cbn [parse] in H. eauto. }
    clear n H. destruct X as (n & H). destruct n as [|n]; [discriminate|]. cbn [parse] in H.
    apply bind_ok in H. destruct H as (u & LT & H). apply bind_ok in H. destruct H as (w & P & H).
    destruct (existsb (fun l => py_eq F (lit_value l) w) ls) eqn:X; [|discriminate]. injection H as ->.
    apply existsb_exists in X. destruct X as (l & I & Q). exists l. split; [exact I|].
    pose proof (literal_type_all _ _ LT l I) as LU. specialize (NJ l I). destruct n as [|n]; [discriminate|].
    apply lit_json_eqb_spec. destruct l; try (destruct NJ; reflexivity); cbn [lit_type] in LU; subst u; cbn [parse parse_scalar] in P;
      destruct j; try discriminate; injection P as <-; try reflexivity; try exact Q.
  Qed.

  Lemma field_exists : forall c cl ps fps p t ls, get_class E c = Some cl -> class_properties E cl = Ok ps -> In (p, t) ps ->
    literal_values t = Some ls -> fieldwise cl -> json_name cl p t p -> field_parsers E cl = Ok fps ->
    exists fp, In fp fps /\ fp_prop fp = p /\ literal_values (fp_type fp) = Some ls.
  Proof.
    intros c cl ps fps p t ls G C I L FW JN F.
    destruct (class_parsers_rel E CE c cl fps G FW F) as (hs & H & A).
    assert (IH : In (p, t) hs).
    { unfold class_properties in C. destruct (c_kind cl) eqn:K; try congruence. injection C as <-.
      unfold hints in H. rewrite K in H. apply mapM_ok in H. eapply Forall2_in_l in I; [|exact H].
      destruct I as ([y u] & I & Q). apply bind_ok in Q. destruct Q as (w & RH & Q). injection Q as <- <-.
      assert (w = t); [|subst; exact I]. unfold resolve_hint in RH.
      unfold literal_values in L. destruct t; cbn [unwrap_annotated] in L; try discriminate.
      - rewrite resolve_eq in RH. congruence.
      - destruct t; try discriminate. rewrite !resolve_eq in RH. cbn [bind mk_annot] in RH. congruence. }
    eapply Forall2_in_l in IH; [|exact A]. destruct IH as (fp & Ifp & JN' & RD). cbn [fst snd] in *. exists fp.
    split; [exact Ifp|]. split.
    - unfold json_name in JN, JN'. destruct (c_kind cl); try congruence; eapply prop_name_fun; eassumption.
    - assert (Q : fp_type fp = t); [|rewrite Q; exact L]. unfold reads in RD.
      assert (NO : ~ optional t).
      { intros (op & ts & _ & [->|(md & ->)]); discriminate L. }
      destruct (c_kind cl); try exact RD; destruct RD as [[O _]|[_ Q]]; try contradiction; exact Q.
  Qed.

  Lemma class_claims : forall g n m ts c o v p x, plain_tags E ts -> tag E ts p -> In (TClass c) ts ->
    parse (reorder E g) skip n m (TClass c) (JObj o) = Ok v -> dict_get o p = Some x -> x <> JNull -> claims E c p x.
  Proof.
    intros g n m ts c o v p x PL TG It H DG NZ.
    destruct TG as [NE TG]. pose proof TG as TG'. rewrite Forall_forall in TG'. destruct (TG' _ It) as (c' & ls & Q & LP). injection Q as <-.
    pose proof LP as (cl & t & ps & G & C & I & L).
    destruct (PL p c cl ps t ls (conj NE TG) It G C I L) as (FW & JN & NJ).
    destruct n as [|n]; [discriminate|]. cbn [parse] in H. change (get_class (reorder E g) c) with (get_class E c) in H.
    rewrite G, parsers_reorder in H.
    assert (X : (do fps <- field_parsers E cl; parse_object (parse (reorder E g) skip n (c_module cl)) skip c cl fps (JObj o)) = Ok v).
    { unfold fieldwise in FW. destruct (c_kind cl); try contradiction; try (rewrite FW in H); try exact H;
        destruct (c_from_json cl); exact H. }
    clear H. apply bind_ok in X. destruct X as (fps & F & X). cbn [parse_object] in X.
    apply bind_ok in X. destruct X as (vals & V & _). apply mapM_ok in V.
    destruct (field_exists c cl ps fps p t ls G C I L FW JN F) as (fp & Ifp & FP & FL).
    eapply Forall2_in_l in Ifp; [|exact V]. destruct Ifp as (kv & _ & Q). apply bind_ok in Q. destruct Q as (w & Q & _).
    assert (P : parse (reorder E g) skip n (c_module cl) (fp_type fp) x = Ok w).
    { unfold parse_field in Q. rewrite FP, DG in Q. destruct (fp_mode fp), x; try exact Q; contradiction. }
    destruct (literal_says _ _ _ _ _ _ _ P FL NJ) as (l & Il & S). exists ls, l. auto.
  Qed.

  Lemma tag_select_other : forall g n m ts ps ps' tbl tbl' o u v, plain_tags E ts ->
    (forall p, In p ps -> tag E ts p) -> Permutation ps ps' -> tag_table E ps ts = Ok tbl -> tag_table E ps' ts = Ok tbl' ->
    tags_distinct [] tbl = true -> tag_select tbl ps o = Ok u -> parse (reorder E g) skip n m u (JObj o) = Ok v ->
    tag_select tbl' ps' o = Ok u.
  Proof.
    intros g n m ts ps ps' tbl tbl' o u v PL TG P T T' D S H.
    destruct (tag_select_ok E OK ps ts tbl o u T TG S) as (c & p & x & -> & It & Ip & DG & NZ & CL).
    assert (TG' : forall p, In p ps' -> tag E ts p).
    { intros q I. apply TG. eapply Permutation_in; [apply Permutation_sym; exact P | exact I]. }
    apply (tag_select_claims E OK ps' ts tbl' o c T' TG').
    - destruct (tag_table_perm E _ _ _ _ P T) as (tbl2 & T2 & PT). rewrite T' in T2. injection T2 as <-.
      rewrite <- (tags_distinct_perm _ _ PT). exact D.
    - exact It.
    - exists p, x. split; [eapply Permutation_in; eassumption | auto].
    - intros q y Iq DGq NZq. eapply class_claims; try eassumption. apply TG'. exact Iq.
  Qed.

  (** * Documents accepted do not depend on the order of tags *)

  Lemma union_try_agree : forall (p q : typ -> res value) ts v,
    (forall ts1 t ts2, ts = ts1 ++ t :: ts2 -> ts2 <> [] -> p t = q t) ->
    (forall t w, In t ts -> p t = Ok w -> q t = Ok w) ->
    union_try p ts = Ok v -> union_try q ts = Ok v.
  Proof.
    intros p q ts v A B H. apply union_try_spec in H. destruct H as (ts1 & t & ts2 & -> & H & F). apply union_try_spec.
    exists ts1, t, ts2. split; [reflexivity|]. split; [apply B; [apply in_app_iff; right; left; reflexivity | exact H]|].
    apply Forall_forall. intros u I. pose proof I as I'. rewrite Forall_forall in F. destruct (F u I') as (e & Q & S). exists e. split; [|exact S].
    rewrite <- Q. symmetry. apply in_split in I. destruct I as (a & b & ->). apply (A a u (b ++ t :: ts2)).
    - rewrite <- app_assoc. reflexivity.
    - destruct b; discriminate.
  Qed.

  Lemma canonical_reorder : forall g, canonical_env (reorder E g).
  Proof. intros g. split; [exact (ce_refs _ CE) | exact (ce_fields _ CE)]. Qed.

  Lemma reach_reorder : forall g m t m' u, reach (reorder E g) m t m' u -> reach E m t m' u.
  Proof.
    intros g m t m' u H. induction H; try (econstructor; eauto; fail).
    eapply re_class; try eassumption. rewrite (hints_reorder E g). assumption.
  Qed.

  Lemma many_tags_reorder : forall g ts, many_tags (reorder E g) ts -> many_tags E ts.
  Proof.
    intros g ts (p & q & N & A & B).
    assert (X : forall p, tag (reorder E g) ts p -> tag E ts p).
    { intros x [NE F]. split; [exact NE|]. eapply Forall_impl; [|exact F]. intros t (c & ls & -> & cl & u & ps & G & C & I & L).
      exists c, ls. split; [reflexivity|]. exists cl, u, ps. rewrite (properties_reorder E g). auto. }
    exists p, q. auto.
  Qed.

  Lemma many_tags_dec : forall ts ps, discriminating_properties E ts = Ok ps -> many_tags E ts \/ ~ many_tags E ts.
  Proof.
    intros ts ps D.
    assert (X : (exists p q, p <> q /\ In p ps /\ In q ps) \/ forall p q, In p ps -> In q ps -> p = q).
    { clear D. destruct ps as [|a ps]; [right; intros ? ? []|].
      destruct (forallb (pystr_eqb a) ps) eqn:F.
      - right. rewrite forallb_forall in F.
        assert (Y : forall p, In p (a :: ps) -> a = p) by (intros p [Q|I]; [exact Q | apply pystr_eqb_eq; apply F; exact I]).
        intros p q A B. rewrite <- (Y p A). apply Y. exact B.
      - left. apply forallb_exists_false in F. destruct F as (b & I & Q). exists a, b. split.
        + intros ->. rewrite pystr_eqb_refl in Q. discriminate.
        + split; [left; reflexivity | right; exact I]. }
    destruct X as [(p & q & N & A & B)|X].
    - left. exists p, q. split; [exact N|]. split; apply (discriminating_spec E ts ps _ D); assumption.
    - right. intros (p & q & N & A & B). apply N. apply X; apply (discriminating_spec E ts ps _ D); assumption.
  Qed.

  Lemma parse_agree : forall g h, shuffles g -> shuffles h -> forall n m t j v, orderly E m t ->
    (forall m' op ts ps tbl, reach E m t m' (TUnion op ts) -> discriminating_properties E ts = Ok ps -> ps <> [] ->
       tag_table E (g ps) ts = Ok tbl -> tags_distinct [] tbl = true) ->
    parse (reorder E g) skip n m t j = Ok v -> parse (reorder E h) skip n m t j = Ok v.
  Proof.
    intros g h SG SH.
    induction n as [|n IH]; intros m t j v O TD H; [discriminate|].
    assert (IH' : forall m' t' x w, reach E m t m' t' -> parse (reorder E g) skip n m' t' x = Ok w -> parse (reorder E h) skip n m' t' x = Ok w).
    { intros m' t' x w RE. apply IH; [eapply orderly_reach; eassumption|]. intros m1 op ts ps tbl RE'. apply (TD m1 op). eapply reach_trans; eassumption. }
    destruct t; cbn [parse] in *; try exact H.
    - destruct j as [| | | | |js|]; try discriminate. apply bind_ok in H. destruct H as (vs & A & B). injection B as <-.
      apply bind_ok. exists vs. split; [|reflexivity]. apply mapM_ok in A. apply mapM_ok. eapply Forall2_impl_in; [|exact A].
      intros x y _ _. apply IH'. apply re_list, re_refl.
    - destruct j as [| | | | |js|]; try discriminate. apply bind_ok in H. destruct H as (vs & A & B). injection B as <-.
      apply bind_ok. exists vs. split; [|rewrite !set_of_reorder; reflexivity]. apply mapM_ok in A. apply mapM_ok.
      eapply Forall2_impl_in; [|exact A].
      intros x y _ _ Q. apply bind_ok in Q. destruct Q as (w & Q & R). apply bind_ok. exists w.
      split; [eapply IH'; [apply re_set, re_refl | exact Q]|]. rewrite hashable_reorder in *. exact R.
    - destruct j as [| | | | | |o]; try discriminate. apply bind_ok in H. destruct H as (vs & A & B). injection B as <-.
      apply bind_ok. exists vs. split; [|reflexivity]. apply mapM_ok in A. apply mapM_ok. eapply Forall2_impl_in; [|exact A].
      intros [s x] y _ _ Q. apply bind_ok in Q. destruct Q as (k & Q & R). apply bind_ok. exists k. split; [exact Q|].
      apply bind_ok in R. destruct R as (w & R & Z). apply bind_ok. exists w. split; [|exact Z].
      eapply IH'; [apply re_dict, re_refl | exact R].
    - destruct j as [| | | | |js|]; try discriminate. destruct (Nat.eqb (length js) (length ts)) eqn:LEN; [|discriminate].
      apply Nat.eqb_eq in LEN. apply bind_ok in H. destruct H as (vs & A & B). injection B as <-.
      apply bind_ok. exists vs. split; [|reflexivity]. apply (zip_parse_ok _ _ _ _ LEN) in A. apply (zip_parse_ok _ _ _ _ LEN).
      eapply Forall2_impl_in; [|exact A]. intros [t x] y I _. cbn [fst snd]. apply IH'.
      eapply re_tuple; [apply in_combine_l in I; exact I | apply re_refl].
    - rewrite discriminating_reorder in *. destruct (discriminating_properties E ts) as [ps|e] eqn:D; [|discriminate]. cbn [bind] in *.
      destruct ps as [|p ps].
      + eapply union_try_agree; [| |exact H].
        * intros ts1 t ts2 Q NE. apply (parse_single (reorder E g) (canonical_reorder g) h SG SH skip).
          intros m1 op1 us RE M. apply reach_reorder in RE. apply many_tags_reorder in M.
          apply (or_last _ _ _ O m op ts ts1 t ts2 m1 op1 us); try assumption; [apply re_refl|].
          apply (untagged_iff E ts [] D). reflexivity.
        * intros t w I. apply IH'. eapply re_union; [exact I | apply re_refl].
      + cbv zeta in *. change (e_order (reorder E g) (p :: ps)) with (g (p :: ps)) in H.
        change (e_order (reorder E h) (p :: ps)) with (h (p :: ps)). rewrite table_reorder in *.
        assert (TG : forall q, In q (g (p :: ps)) -> tag E ts q).
        { intros q I. apply (discriminating_spec E ts _ q D). eapply Permutation_in; [apply SG | exact I]. }
        assert (P : Permutation (g (p :: ps)) (h (p :: ps))).
        { eapply Permutation_trans; [apply SG | apply Permutation_sym; apply SH]. }
        destruct (tag_table E (g (p :: ps)) ts) as [tbl|] eqn:T; [|discriminate]. cbn [bind] in H.
        destruct (tag_table_perm E _ _ _ _ P T) as (tbl' & T' & PT). rewrite T'. cbn [bind].
        destruct j as [| | | | | |o]; try discriminate. apply bind_ok in H. destruct H as (u & S & H).
        assert (MEM : In u ts).
        { apply tag_select_in in S. destruct S as (p' & l' & x & _ & I & _). apply (tag_table_in _ _ _ _ _ _ _ T) in I. tauto. }
        assert (S' : tag_select tbl' (h (p :: ps)) o = Ok u).
        { destruct (many_tags_dec ts (p :: ps) D) as [M|NM].
          - eapply tag_select_other; try eassumption.
            + apply (or_plain _ _ _ O m op); [apply re_refl | exact M].
            + eapply TD; try eassumption; [apply re_refl | discriminate].
          - assert (Q : g (p :: ps) = h (p :: ps)).
            { apply (one_order (reorder E g) h SG SH ts); [rewrite discriminating_reorder; exact D|].
              intros M. apply NM. apply many_tags_reorder in M. exact M. }
            rewrite <- Q in *. congruence. }
        rewrite S'. cbn [bind]. eapply IH'; [|exact H]. eapply re_union; [exact MEM | apply re_refl].
    - apply bind_ok in H. destruct H as (u & L & H). apply bind_ok. exists u. split; [exact L|].
      apply bind_ok in H. destruct H as (w & P & H). apply bind_ok. exists w. split; [|rewrite literal_check_reorder in *; exact H].
      eapply IH'; [|exact P]. destruct ls as [|l ls]; [discriminate|].
      rewrite <- (literal_type_all _ _ L l (or_introl eq_refl)). eapply re_literal; [left; reflexivity | apply re_refl].
    - destruct t; try discriminate; (eapply IH'; [apply re_annot, re_refl | exact H]).
    - change (get_class (reorder E h) c) with (get_class E c). change (get_class (reorder E g) c) with (get_class E c) in H.
      destruct (get_class E c) as [cl|] eqn:G; [|discriminate]. rewrite parsers_reorder in *.
      assert (X : fieldwise cl ->
        (do fps <- field_parsers E cl; parse_object (parse (reorder E g) skip n (c_module cl)) skip c cl fps j) = Ok v ->
        (do fps <- field_parsers E cl; parse_object (parse (reorder E h) skip n (c_module cl)) skip c cl fps j) = Ok v).
      { intros FW Q. apply bind_ok in Q. destruct Q as (fps & F & Q). rewrite F. cbn [bind].
        destruct j as [| | | | | |o]; try discriminate. cbn [parse_object] in *. apply bind_ok in Q. destruct Q as (vals & V & Q).
        apply bind_ok. exists vals. split; [|exact Q]. apply mapM_ok in V. apply mapM_ok. eapply Forall2_impl_in; [|exact V].
        intros fp y I _ Z. apply bind_ok in Z. destruct Z as (w & Z & Y). apply bind_ok. exists w. split; [|exact Y].
        assert (PF : forall x, parse (reorder E g) skip n (c_module cl) (fp_type fp) x = Ok w -> parse (reorder E h) skip n (c_module cl) (fp_type fp) x = Ok w).
        { intros x. apply IH'. eapply (field_types E CE); eassumption. }
        unfold parse_field in *. destruct (fp_mode fp), (dict_get o (fp_prop fp)) as [x|]; try exact Z; destruct x; try exact Z; auto. }
      unfold fieldwise in X.
      destruct (c_kind cl) eqn:K, (c_from_json cl) eqn:FJ; try exact H; (apply X; [try exact I; reflexivity | exact H]).
    - change (lookup (reorder E h) m s) with (lookup E m s). change (lookup (reorder E g) m s) with (lookup E m s) in H.
      destruct (lookup E m s) as [[a u]|] eqn:L; [|discriminate].
      assert (X : parse (reorder E g) skip n m (deref u) j = Ok v -> parse (reorder E h) skip n m (deref u) j = Ok v).
      { apply IH'. eapply re_ref; [exact L | apply re_refl]. }
      destruct (deref u); try discriminate; exact (X H).
  Qed.

  Lemma reorder_self : reorder E (e_order E) = E.
  Proof. destruct E. reflexivity. Qed.

  Hypothesis GE : guarded_env E.

  Lemma ready_reach : forall m t m' u, reach E m t m' u -> ready E m t -> ready E m' u.
  Proof.
    intros m t m' u H. induction H as [m t|m t m' u H IH|m t m' u H IH|m k t m' u H IH|m ts t m' u I H IH|m op ts t m' u I H IH
      |m ls l m' u I H IH|m t md m' u H IH|m s a t m' u L H IH|m c cl hs x t w m' u G FW HH I RD H IH]; intros R.
    - exact R.
    - apply IH. apply (ready_list E GE). exact R.
    - apply IH. apply (ready_set E GE). exact R.
    - apply IH. apply (ready_dict E GE m k t). exact R.
    - apply IH. apply (ready_tuple E GE) in R. rewrite Forall_forall in R. apply R. exact I.
    - apply IH. apply (ready_union E GE) in R. rewrite Forall_forall in R. apply R. exact I.
    - apply IH. apply (ready_literal E GE) in R. destruct R as (v & L & R). rewrite (literal_type_all _ _ L l I). exact R.
    - apply IH. apply (ready_annot E GE m t md). exact R.
    - apply IH. apply (ready_ref E GE) in R. destruct R as (a' & t' & L' & _ & R). rewrite L in L'. injection L' as <- <-. exact R.
    - apply IH. apply (ready_class E GE) in R. destruct R as (cl' & G' & R). rewrite G in G'. injection G' as <-.
      destruct R as (fps & F & A).
      { unfold by_fields. unfold fieldwise in FW. destruct (c_kind cl); try contradiction; try (rewrite FW); try exact Logic.I; destruct (c_from_json cl); exact Logic.I. }
      destruct (class_parsers_rel E CE c cl fps G FW F) as (hs' & HH' & B). rewrite HH in HH'. injection HH' as <-.
      eapply Forall2_in_l in I; [|exact B]. destruct I as (fp & Ifp & _ & RD'). cbn [fst snd] in RD'.
      assert (Q : fp_type fp = w).
      { unfold reads in RD, RD'. destruct (c_kind cl); try congruence; eapply read_type_fun; eassumption. }
      subst w. rewrite Forall_forall in A. apply A. exact Ifp.
  Qed.

  Hypothesis ORD : shuffles (e_order E).

  Lemma distinct_reach : forall m t, ready E m t -> forall g, shuffles g -> forall m' op ts ps tbl, reach E m t m' (TUnion op ts) ->
    discriminating_properties E ts = Ok ps -> ps <> [] -> tag_table E (g ps) ts = Ok tbl -> tags_distinct [] tbl = true.
  Proof.
    intros m t R g SG m' op ts ps tbl RE D NE T. pose proof (ready_reach _ _ _ _ RE R) as RU.
    destruct ps as [|p ps].
    - contradiction.
    - assert (TG : tag E ts p) by (apply (discriminating_spec E ts _ p D); left; reflexivity).
      destruct (ready_table E ORD m' op ts RU (ex_intro _ p TG)) as (ps' & tbl' & D' & _ & _ & T' & DI).
      rewrite D in D'. injection D' as <-.
      assert (P : Permutation (g (p :: ps)) (e_order E (p :: ps))).
      { eapply Permutation_trans; [apply SG | apply Permutation_sym, ORD]. }
      destruct (tag_table_perm E _ _ _ _ P T) as (tbl2 & T2 & PT). rewrite T' in T2. injection T2 as <-.
      rewrite (tags_distinct_perm _ _ PT). exact DI.
  Qed.

  Theorem jto_agree : forall f, shuffles f -> forall m t j v, every_part (guarded E m) t -> orderly E m t ->
    json_to_object E skip m t j = Ok v <-> json_to_object (reorder E f) skip m t j = Ok v.
  Proof.
    intros f SF m t j v EP O. unfold json_to_object. rewrite <- (create_reorder E OK f ORD SF).
    destruct (create_deserializer E m t) as [vis|e] eqn:C; [|split; discriminate]. cbn [bind].
    assert (R : ready E m t) by (split; [exact EP | exists vis; exact C]).
    change (parse_fuel (reorder E f) t j) with (parse_fuel E t j). set (n := parse_fuel E t j). clearbody n.
    split; intros H.
    - apply (parse_agree (e_order E) f ORD SF n m t j v O); [apply distinct_reach; assumption|].
      rewrite reorder_self. exact H.
    - rewrite <- reorder_self. apply (parse_agree f (e_order E) SF ORD n m t j v O); [apply distinct_reach; assumption|]. exact H.
  Qed.
End Claims.
