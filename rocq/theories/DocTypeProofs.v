(** Proofs about the documentation of types. *)
From Coq Require Import String List NArith Bool Lia Arith.
From Verif Require Import Base Lists PyTypes Docstring Mapping Ser SerFacts SpecDocstring DocstringProofs DocType SpecDocType.
Import ListNotations.
Open Scope list_scope.
Open Scope nat_scope.

Lemma no_newline : forall s, forallb (fun c => negb (c =? NL)%N) s = true <-> ~ In NL s.
Proof.
  intros s. rewrite forallb_forall. split.
  - intros H I. apply H in I. rewrite N.eqb_refl in I. discriminate I.
  - intros H c I. destruct (c =? NL)%N eqn:Q; [apply N.eqb_eq in Q; subst; destruct (H I) | reflexivity].
Qed.

Theorem generated_spec : forall name doc, generated name doc = true <-> made_up name doc.
Proof.
  intros name doc. unfold generated. cbv zeta. split.
  - intros H. destruct (starts_with (name ++ str "(") doc) eqn:S; [|discriminate H]. apply starts_with_spec in S. destruct S as (r & ->).
    rewrite skipn_app, skipn_all, Nat.sub_diag in H. cbn [skipn app] in H.
    apply andb_true_iff in H. destruct H as (A & B). apply no_newline in B. apply ends_with_spec in A. destruct A as (b & A).
    destruct (ends_with [NL] r) eqn:L.
    + apply ends_with_spec in L. destruct L as (r' & ->). rewrite removelast_last in A, B. subst r'. rewrite <- !app_assoc.
      apply mu_newline. intros I. apply B. apply in_or_app. left. exact I.
    + subst r. rewrite <- !app_assoc. apply mu_line. intros I. apply B. apply in_or_app. left. exact I.
  - intros H.
    assert (X : forall body tail, ~ In NL body -> tail = [] \/ tail = [NL] ->
      starts_with (name ++ str "(") (name ++ str "(" ++ body ++ str ")" ++ tail) = true /\
      skipn (length (name ++ str "(")) (name ++ str "(" ++ body ++ str ")" ++ tail) = body ++ str ")" ++ tail).
    { intros body tail _ _. split; [apply starts_with_spec; exists (body ++ str ")" ++ tail); rewrite <- app_assoc; reflexivity|].
      rewrite (app_assoc name), skipn_app, skipn_all, Nat.sub_diag. reflexivity. }
    assert (Y : forall body, ~ In NL body -> ends_with (str ")") (body ++ str ")") && forallb (fun c => negb (c =? NL)%N) (body ++ str ")") = true).
    { intros body NI. apply andb_true_iff. split; [apply ends_with_spec; exists body; reflexivity|]. apply no_newline. intros I.
      apply in_app_or in I. destruct I as [I|[I|[]]]; [exact (NI I) | discriminate I]. }
    destruct H as [body NI|body NI].
    + destruct (X body [] NI (or_introl eq_refl)) as (X1 & X2). rewrite !app_nil_r in X1, X2. rewrite X1, X2.
      replace (ends_with [NL] (body ++ str ")")) with false; [apply Y; exact NI|].
      symmetry. destruct (ends_with [NL] (body ++ str ")")) eqn:Q; [|reflexivity]. apply ends_with_spec in Q. destruct Q as (r & Q).
      apply app_inj_tail in Q. destruct Q as (_ & Q). discriminate Q.
    + destruct (X body [NL] NI (or_intror eq_refl)) as (X1 & X2). rewrite X1, X2.
      rewrite app_assoc.
      replace (ends_with [NL] ((body ++ str ")") ++ [NL])) with true by (symmetry; apply ends_with_spec; eexists; reflexivity).
      rewrite removelast_last. apply Y. exact NI.
Qed.

Lemma default_spec : forall x, has_default_docstring x = true <->
  exists doc, d_doc x = Some doc /\ ((exists ps, d_kind x = DData ps) /\ made_up (d_name x) doc \/ d_kind x = DEnum /\ doc = str "An enumeration.").
Proof.
  intros x. unfold has_default_docstring. destruct (d_kind x) as [ps| |ps|sg ret]; destruct (d_doc x) as [doc|].
  all: try (split; [discriminate | intros (doc' & Q & [((ps' & K) & _)|(K & _)]); discriminate]).
  - rewrite generated_spec. split; [intros M; exists doc; split; [reflexivity | left; eauto]|].
    intros (doc' & Q & [(_ & M)|(K & _)]); [congruence | discriminate K].
  - rewrite pystr_eqb_eq. split; [intros ->; eexists; split; [reflexivity | right; auto]|].
    intros (doc' & Q & [((ps' & K) & _)|(_ & K)]); [discriminate K | congruence].
Qed.

Theorem get_docstring_spec : forall x doc, get_docstring x = Some doc <-> written x doc.
Proof.
  intros x doc. unfold get_docstring. destruct (d_doc x) as [doc'|] eqn:D.
  2: { split; [discriminate | intros [Q _ _]; congruence]. }
  destruct (has_default_docstring x) eqn:H.
  - split; [discriminate|]. intros [Q A B]. rewrite D in Q. injection Q as ->.
    apply default_spec in H. destruct H as (doc'' & Q & H). rewrite D in Q. injection Q as <-.
    destruct H as [((ps & K) & M)|(K & M)]; [destruct (A ps K M) | destruct (B K M)].
  - split.
    + intros Q. injection Q as ->. split; [exact D | |].
      * intros ps K M. assert (X : has_default_docstring x = true) by (apply default_spec; exists doc; eauto 6). congruence.
      * intros K M. assert (X : has_default_docstring x = true) by (apply default_spec; exists doc; eauto 6). congruence.
    + intros [Q _ _]. congruence.
Qed.

(** *** Docstrings that are parsed *)

Lemma parsed_ok : forall t d, parse_text t = Ok d -> fields_ok d.
Proof.
  intros t d H. destruct (parse_text_layout t _ _ d (pieces_layout _) H) as [s [l [_ P]]]. apply chunks_ok in P; [exact P|].
  unfold fields_ok. cbn. repeat apply conj; constructor.
Qed.

Lemma mem_own : forall bases n, mem_str n (flat_map (fun b => map fst (own_props b)) bases) = true <->
  exists b t, In b bases /\ annotated b n t.
Proof.
  intros bases n. rewrite mem_str_in, in_flat_map. split.
  - intros (b & B & I). apply in_map_iff in I. destruct I as ((n' & t) & <- & I). exists b, t. split; [exact B|]. unfold own_props in I. unfold annotated.
    destruct (d_kind b) as [ps| |ps|sg ret]; try destruct I as []; exists ps; auto.
  - intros (b & t & B & ps & I & K). exists b. split; [exact B | apply in_map_iff; exists (n, t)]. split; [reflexivity|].
    unfold own_props. destruct K as [-> | ->]; exact I.
Qed.

Lemma check_spec : forall x bases d,
  (check_docstring x bases d false = Ok tt <->
   (forall n, In n (map fst (params d)) -> may_document x bases n) /\ (returns d <> None -> may_return x)) /\
  (check_docstring x bases d false = Ok tt \/ check_docstring x bases d false = Err EType).
Proof.
  intros x bases d. unfold check_docstring, may_document, may_return. destruct (d_kind x) as [ps| |ps|sg ret].
  - destruct (check_dataclass_char (map fst ps) (flat_map (fun b => map fst (own_props b)) bases) d false) as (A & B). split; [|exact B].
    rewrite A. split.
    + intros (H & _). split; [|exact (fun _ => Logic.I)]. intros n I. destruct (H n I) as (P & NB). split.
      * apply in_map_iff in P. destruct P as ((n' & t) & <- & P). eauto.
      * intros b t IB It. apply NB. apply mem_str_in, mem_own. eauto.
    + intros (H & _). split; [|discriminate]. intros n I. destruct (H n I) as ((t & P) & NB). split.
      * apply in_map_iff. exists (n, t). auto.
      * intros J. apply mem_str_in, mem_own in J. destruct J as (b & t' & IB & It). exact (NB b t' IB It).
  - split; [|left; reflexivity]. split; auto.
  - split; [|left; reflexivity]. split; auto.
  - destruct (check_function_char (map (fun p => (fst p, fst (snd p))) sg) (match ret with Some _ => true | None => false end) d false) as (A & B).
    split; [|exact B]. rewrite A. split.
    + intros (H & R & _). split.
      * intros n I. specialize (H n I). rewrite map_map in H. cbn [fst] in H. apply in_map_iff in H. destruct H as ((n' & p) & <- & H). eauto.
      * intros N. specialize (R N). destruct ret; [discriminate | discriminate R].
    + intros (H & R). split; [|split; [|discriminate]].
      * intros n I. destruct (H n I) as (p & J). rewrite map_map. cbn [fst]. apply in_map_iff. exists (n, p). auto.
      * intros N. specialize (R N). destruct ret; [reflexivity | congruence].
Qed.

Lemma assign_total : forall x bases d, (forall n, In n (map fst (params d)) -> may_document x bases n) ->
  exists t, assign_types x d = Ok t /\ t_doc t = d.
Proof.
  intros x bases d M. unfold assign_types, may_document in *. destruct (d_kind x) as [ps| |ps|sg ret]; try (eexists; split; reflexivity).
  - destruct (mapM_total _ _ (fun e : pystr * (pystr * pystr) => do t <- item ps (fst e); Ok (fst e, t)) (params d)) as (ts & Q).
    { intros e I. destruct (M (fst e) (in_map fst _ _ I)) as ((t & J) & _). unfold item. destruct (dict_get ps (fst e)) eqn:G; [eexists; reflexivity|].
      apply dict_get_none in G. destruct G. apply in_map_iff. exists (fst e, t). auto. }
    rewrite Q. eexists. split; reflexivity.
  - destruct (mapM_total _ _ (fun e : pystr * (pystr * pystr) => do p <- item sg (fst e); Ok (fst e, snd p)) (params d)) as (ts & Q).
    { intros e I. destruct (M (fst e) (in_map fst _ _ I)) as (t & J). unfold item. destruct (dict_get sg (fst e)) eqn:G; [eexists; reflexivity|].
      apply dict_get_none in G. destruct G. apply in_map_iff. exists (fst e, t). auto. }
    rewrite Q. eexists. split; reflexivity.
Qed.

Lemma exception_spec : forall builtins x n c, names_once builtins x ->
  (exception_named builtins x n c <-> exists names, d_module x = Some names /\
    (dict_get names n = Some c \/ (dict_get names n = None /\ dict_get builtins n = Some c))).
Proof.
  intros builtins x n c (NB & NM & _). unfold exception_named. split; intros (names & Q & H); exists names; (split; [exact Q|]); specialize (NM names Q).
  - destruct H as [H|(H1 & H2)]; [left; apply dict_get_nodup; assumption | right]. split; [|apply dict_get_nodup; assumption].
    apply dict_get_none. intros I. apply in_map_iff in I. destruct I as ((n' & c') & <- & I). exact (H1 c' I).
  - destruct H as [H|(H1 & H2)]; [left; apply dict_get_in; exact H | right]. split; [|apply dict_get_in; exact H2].
    intros c' I. apply dict_get_none in H1. apply H1. apply in_map_iff. exists (n, c'). auto.
Qed.

Lemma raises_spec : forall builtins x t, names_once builtins x ->
  ((exists t', assign_raises builtins x t = Ok t') <->
   (d_module x <> None -> forall n, In n (map fst (raises (t_doc t))) -> exists c, exception_named builtins x n c)) /\
  (forall e, assign_raises builtins x t = Err e -> e = EType) /\
  (forall t', assign_raises builtins x t = Ok t' -> t_doc t' = t_doc t /\ t_params t' = t_params t /\ t_returns t' = t_returns t).
Proof.
  intros builtins x t NO. unfold assign_raises. destruct (d_module x) as [names|] eqn:D.
  2: { split; [split; [congruence | eauto]|]. split; [discriminate | intros t' Q; injection Q as <-; auto]. }
  set (f := fun e : pystr * (pystr * pystr) => _). split; [|split].
  - split.
    + intros (t' & H) _ n I. apply bind_ok in H. destruct H as (rs & M & _). apply mapM_ok in M.
      apply in_map_iff in I. destruct I as (e & <- & I). destruct (Forall2_in_l _ _ _ _ _ _ M I) as (r & _ & Q). unfold f in Q.
      destruct (dict_get names (fst e)) as [c|] eqn:G.
      * exists c. apply (proj2 (exception_spec _ _ _ _ NO)). exists names. auto.
      * destruct (dict_get builtins (fst e)) as [c|] eqn:G'; [|discriminate Q].
        exists c. apply (proj2 (exception_spec _ _ _ _ NO)). exists names. auto.
    + intros H. destruct (mapM_total _ _ f (raises (t_doc t))) as (rs & Q); [|rewrite Q; eexists; reflexivity].
      intros e I. destruct (H ltac:(discriminate) (fst e) (in_map fst _ _ I)) as (c & X). apply (proj1 (exception_spec _ _ _ _ NO)) in X.
      destruct X as (names' & Q & X). rewrite D in Q. injection Q as <-. unfold f. destruct X as [->|(-> & ->)]; eexists; reflexivity.
  - intros e H. destruct (mapM f (raises (t_doc t))) as [rs|e'] eqn:M; [discriminate H|]. cbn [bind] in H. injection H as <-.
    apply mapM_err in M. destruct M as (a & _ & Q). unfold f in Q.
    destruct (dict_get names (fst a)); [discriminate Q|]. destruct (dict_get builtins (fst a)); [discriminate Q|]. injection Q as <-. reflexivity.
  - intros t' H. apply bind_ok in H. destruct H as (rs & _ & Q). injection Q as <-. auto.
Qed.

Theorem parse_type_spec : forall builtins x bases doc d, names_once builtins x -> written x doc -> parse_text doc = Ok d ->
  ((exists t, parse_type builtins x bases = Ok t) <-> agrees builtins x bases d) /\
  (forall t, parse_type builtins x bases = Ok t -> t_doc t = d) /\
  (forall e, parse_type builtins x bases = Err e -> e = EType).
Proof.
  intros builtins x bases doc d NO W P. apply get_docstring_spec in W. unfold parse_type. rewrite W, P. cbn [bind].
  destruct (check_spec x bases d) as (C & CE).
  destruct CE as [CE|CE].
  2: { rewrite CE. cbn [bind]. split; [|split; [discriminate | intros e Q; injection Q as <-; reflexivity]].
       split; [intros (t & Q); discriminate Q|]. intros [A1 A2 _]. rewrite (proj2 C (conj A1 A2)) in CE. discriminate CE. }
  rewrite CE. cbn [bind]. apply (proj1 C) in CE. destruct CE as (A1 & A2). destruct (assign_total x bases d A1) as (t0 & T0 & Q0). rewrite T0. cbn [bind].
  destruct (raises_spec builtins x t0 NO) as (R1 & R2 & R3). rewrite Q0 in *. split; [|split].
  - rewrite R1. split; [intros H; split; assumption | intros H; exact (ag_raises _ _ _ _ H)].
  - intros t Q. apply R3 in Q. destruct Q as (Q & _). congruence.
  - exact R2.
Qed.

Lemma parse_type_text_error : forall builtins x bases doc e, written x doc -> parse_text doc = Err e -> parse_type builtins x bases = Err e.
Proof. intros builtins x bases doc e W P. apply get_docstring_spec in W. unfold parse_type. rewrite W, P. reflexivity. Qed.

Lemma parse_type_unwritten : forall builtins x bases, (forall doc, ~ written x doc) -> parse_type builtins x bases = Ok (untyped empty_docstring).
Proof.
  intros builtins x bases H. unfold parse_type. destruct (get_docstring x) as [doc|] eqn:G; [|reflexivity].
  apply get_docstring_spec in G. destruct (H doc G).
Qed.

Lemma written_dec : forall x, (exists doc, written x doc) \/ forall doc, ~ written x doc.
Proof.
  intros x. destruct (get_docstring x) as [doc|] eqn:G; [left; exists doc; apply get_docstring_spec; exact G|].
  right. intros doc W. apply get_docstring_spec in W. congruence.
Qed.

Lemma written_fun : forall x doc doc', written x doc -> written x doc' -> doc = doc'.
Proof. intros x doc doc' [A _ _] [B _ _]. congruence. Qed.

(** *** The types assigned *)

Theorem parse_type_types : forall builtins x bases t, names_once builtins x -> parse_type builtins x bases = Ok t ->
  (forall n ty, In (n, ty) (t_params t) <-> In n (map fst (params (t_doc t))) /\
     match d_kind x with DData ps => In (n, ty) ps | DFunction sg _ => exists b, In (n, (b, ty)) sg | _ => False end) /\
  (t_returns t = match d_kind x with DFunction _ ret => if returns (t_doc t) then ret else None | _ => None end) /\
  (forall n c, In (n, c) (t_raises t) <-> In n (map fst (raises (t_doc t))) /\ exception_named builtins x n c).
Proof.
  intros builtins x bases t NO H. pose proof NO as (NB & NM & NK). destruct (written_dec x) as [(doc & W)|W].
  2: { rewrite (parse_type_unwritten _ _ _ W) in H. injection H as <-. cbn. split; [|split].
       - intros n ty. split; [intros [] | intros ([] & _)].
       - destruct (d_kind x); reflexivity.
       - intros n c. split; [intros [] | intros ([] & _)]. }
  apply get_docstring_spec in W. unfold parse_type in H. rewrite W in H. apply bind_ok in H. destruct H as (d & P & H).
  apply bind_ok in H. destruct H as ([] & C & H). apply bind_ok in H. destruct H as (t0 & T & H).
  destruct (raises_spec builtins x t0 NO) as (_ & _ & R3). destruct (R3 t H) as (Q1 & Q2 & Q3). rewrite Q1, Q2, Q3.
  apply (proj1 (proj1 (check_spec x bases d))) in C. destruct C as (C1 & _).
  assert (A : t_doc t0 = d /\
    (forall n ty, In (n, ty) (t_params t0) <-> In n (map fst (params d)) /\
       match d_kind x with DData ps => In (n, ty) ps | DFunction sg _ => exists b, In (n, (b, ty)) sg | _ => False end) /\
    t_returns t0 = match d_kind x with DFunction _ ret => if returns d then ret else None | _ => None end).
  { unfold assign_types in T. destruct (d_kind x) as [ps| |ps|sg ret].
    - apply bind_ok in T. destruct T as (ts & M & Q). injection Q as <-. cbn [t_doc t_params t_returns]. split; [reflexivity|]. split; [|reflexivity].
      apply mapM_ok in M. intros n ty. split.
      + intros I. destruct (Forall2_in_r _ _ _ _ _ _ M I) as (e & J & Q). apply bind_ok in Q. destruct Q as (ty' & Q & Q'). injection Q' as <- <-.
        split; [apply in_map; exact J|]. unfold item in Q. destruct (dict_get ps (fst e)) eqn:G; [|discriminate Q]. injection Q as <-. apply dict_get_in. exact G.
      + intros (I & J). apply in_map_iff in I. destruct I as (e & <- & I). destruct (Forall2_in_l _ _ _ _ _ _ M I) as (r & J' & Q).
        unfold item in Q. rewrite (dict_get_nodup _ _ _ NK J) in Q. injection Q as <-. exact J'.
    - injection T as <-. cbn. split; [reflexivity|]. split; [|reflexivity]. intros n ty. split; [intros [] | intros (_ & [])].
    - injection T as <-. cbn. split; [reflexivity|]. split; [|reflexivity]. intros n ty. split; [intros [] | intros (_ & [])].
    - apply bind_ok in T. destruct T as (ts & M & Q). injection Q as <-. cbn [t_doc t_params t_returns]. split; [reflexivity|].
      split; [|destruct (returns d); reflexivity].
      apply mapM_ok in M. intros n ty. split.
      + intros I. destruct (Forall2_in_r _ _ _ _ _ _ M I) as (e & J & Q). apply bind_ok in Q. destruct Q as ([b ty'] & Q & Q'). injection Q' as <- <-.
        split; [apply in_map; exact J|]. unfold item in Q. destruct (dict_get sg (fst e)) eqn:G; [|discriminate Q]. injection Q as ->. exists b. apply dict_get_in. exact G.
      + intros (I & b & J). apply in_map_iff in I. destruct I as (e & <- & I). destruct (Forall2_in_l _ _ _ _ _ _ M I) as (r & J' & Q).
        unfold item in Q. rewrite (dict_get_nodup _ _ _ NK J) in Q. injection Q as <-. exact J'. }
  destruct A as (A1 & A2 & A3). rewrite A1. split; [exact A2|]. split; [exact A3|].
  intros n c. unfold assign_raises in H. destruct (d_module x) as [names|] eqn:D.
  2: { injection H as <-. assert (Z : t_raises t0 = []).
       { unfold assign_types in T. destruct (d_kind x); try (injection T as <-; reflexivity); apply bind_ok in T; destruct T as (? & _ & T); injection T as <-; reflexivity. }
       rewrite Z. split; [intros [] |]. intros (_ & names & Q & _). congruence. }
  apply bind_ok in H. destruct H as (rs & M & Q). injection Q as <-. cbn [t_raises]. rewrite A1 in M. apply mapM_ok in M. split.
  - intros I. destruct (Forall2_in_r _ _ _ _ _ _ M I) as (e & J & Q). split.
    + destruct (dict_get names (fst e)); [injection Q as <- _; apply in_map; exact J|]. destruct (dict_get builtins (fst e)); [injection Q as <- _; apply in_map; exact J | discriminate Q].
    + apply (proj2 (exception_spec _ _ _ _ NO)). exists names. split; [exact D|].
      destruct (dict_get names (fst e)) as [c'|] eqn:G; [injection Q as <- <-; auto|].
      destruct (dict_get builtins (fst e)) as [c'|] eqn:G'; [injection Q as <- <-; auto | discriminate Q].
  - intros (I & X). apply in_map_iff in I. destruct I as (e & <- & I). destruct (Forall2_in_l _ _ _ _ _ _ M I) as (r & J' & Q).
    apply (proj1 (exception_spec _ _ _ _ NO)) in X. destruct X as (names' & Q' & X). rewrite D in Q'. injection Q' as <-.
    destruct X as [X|(X & Y)]; rewrite X in Q; [|rewrite Y in Q]; injection Q as <-; exact J'.
Qed.

(** *** Properties *)

Lemma params_step : forall tr ps result n text, NoDup (map fst result) -> Forall (fun p => fst (snd p) = fst p) ps -> NoDup (map fst ps) ->
  NoDup (map fst (describe_params tr ps result)) /\
  (In (n, text) (describe_params tr ps result) <->
   In (n, text) result \/ (~ In n (map fst result) /\ exists raw, In (n, (n, raw)) ps /\ text = transformed tr n raw)) /\
  (In n (map fst (describe_params tr ps result)) <-> In n (map fst result) \/ In n (map fst ps)).
Proof.
  intros tr ps. unfold describe_params. induction ps as [|[k [k' raw0]] ps IH]; intros result n text NR F NP; cbn [fold_left snd].
  - split; [exact NR|]. split.
    + split; [auto|]. intros [H|(_ & raw & [] & _)]. exact H.
    + split; [auto|]. intros [H|[]]. exact H.
  - inversion F as [|? ? Fk F']; subst. cbn [fst snd] in Fk. subst k'. cbn [map] in NP. inversion NP as [|? ? NI NP']; subst.
    destruct (dict_mem result k) eqn:MM; unfold dict_mem in MM; destruct (dict_get result k) as [old|] eqn:G; try discriminate MM.
    + destruct (IH result n text NR F' NP') as (A & B & C). split; [exact A|]. apply dict_get_in in G. split.
      * rewrite B. split; intros [H|(H1 & raw & H2 & H3)]; auto; right; (split; [exact H1|]); exists raw; (split; [|exact H3]).
        -- right. exact H2.
        -- destruct H2 as [H2|H2]; [|exact H2]. assert (k = n) by congruence; assert (raw0 = raw) by congruence; subst n raw; clear H2. destruct H1. apply in_map_iff. exists (k, old). auto.
      * rewrite C. cbn [map fst In]. split; [tauto|]. intros [H|[<-|H]]; auto. left. apply in_map_iff. exists (k, old). auto.
    + apply dict_get_none in G. rewrite (dict_set_fresh _ _ _ G).
      assert (NR' : NoDup (map fst (result ++ [(k, match tr with Some f => f k raw0 | None => raw0 end)]))).
      { rewrite map_app. cbn [map fst]. apply NoDup_rev in NR. rewrite <- (rev_involutive (map fst result ++ [k])). apply NoDup_rev. rewrite rev_app_distr.
        cbn [rev app]. constructor; [|exact NR]. rewrite <- in_rev. exact G. }
      destruct (IH _ n text NR' F' NP') as (A & B & C). split; [exact A|]. split.
      * rewrite B, map_app, !in_app_iff. cbn [map fst In]. unfold transformed. split.
        -- intros [[H|[H|[]]]|(H1 & raw & H2 & H3)]; [auto | |].
           ++ injection H as <- <-. right. split; [exact G|]. exists raw0. auto.
           ++ right. split; [tauto|]. exists raw. auto.
        -- intros [H|(H1 & raw & [H2|H2] & H3)]; [auto | |].
           ++ assert (k = n) by congruence; assert (raw0 = raw) by congruence; subst n raw; clear H2. subst text. auto.
           ++ right. split; [|eauto]. intros [H|[H|[]]]; [auto|]. subst k. apply NI. apply in_map_iff. exists (n, (n, raw)). auto.
      * rewrite C, map_app, in_app_iff. cbn [map fst In]. tauto.
Qed.

Lemma parse_type_params : forall builtins x bases t, names_once builtins x -> parse_type builtins x bases = Ok t ->
  fields_ok (t_doc t) /\ forall n text, In (n, (n, text)) (params (t_doc t)) <-> describes x n text.
Proof.
  intros builtins x bases t NO H. destruct (written_dec x) as [(doc & W)|W].
  - destruct (parse_text doc) as [d|e] eqn:P; [|rewrite (parse_type_text_error _ _ _ _ _ W P) in H; discriminate H].
    destruct (parse_type_spec builtins x bases doc d NO W P) as (_ & Q & _). rewrite (Q t H). split; [exact (parsed_ok _ _ P)|].
    intros n text. split; [intros I; exists doc, d; auto|]. intros (doc' & d' & W' & P' & I).
    assert (doc' = doc) by exact (written_fun x _ _ W' W). subst doc'. rewrite P in P'. injection P' as <-. exact I.
  - rewrite (parse_type_unwritten _ _ _ W) in H. injection H as <-. split; [repeat apply conj; constructor|].
    intros n text. split; [intros [] | intros (doc & d & W' & _)]. destruct (W doc W').
Qed.

(** The first class in [mro] that describes [n]. *)
Theorem properties_spec : forall builtins tr mro result r, (forall x bs, In (x, bs) mro -> names_once builtins x) -> NoDup (map fst result) ->
  property_docstrings builtins tr mro result = Ok r ->
  NoDup (map fst r) /\
  (forall n text, In (n, text) r <-> In (n, text) result \/
     (~ In n (map fst result) /\ exists before x bs after raw, mro = before ++ (x, bs) :: after /\ describes x n raw /\
        (forall y cs raw', In (y, cs) before -> ~ describes y n raw') /\ text = transformed tr n raw)).
Proof.
  intros builtins tr mro. induction mro as [|[x bs] mro IH]; intros result r NO NR H; cbn [property_docstrings] in H.
  - injection H as <-. split; [exact NR|]. intros n text. split; [auto|]. intros [I|(_ & before & x & bs & after & raw & Q & _)]; [exact I|].
    destruct before; discriminate Q.
  - apply bind_ok in H. destruct H as (t & P & H). pose proof (NO x bs (or_introl eq_refl)) as NOx.
    destruct (parse_type_params builtins x bs t NOx P) as (FO & D). destruct FO as ((NP & FP) & _).
    assert (FE : Forall (fun p => fst (snd p) = fst p) (params (t_doc t))).
    { apply Forall_forall. intros p I. rewrite Forall_forall in FP. destruct (FP p I) as (Q & _). auto. }
    assert (ND : NoDup (map fst (describe_params tr (params (t_doc t)) result))) by exact (proj1 (params_step tr _ result [] [] NR FE NP)).
    destruct (IH _ r (fun y cs I => NO y cs (or_intror I)) ND H) as (A & B). split; [exact A|].
    intros n text. destruct (params_step tr _ result n text NR FE NP) as (_ & S1 & S2). rewrite B, S1, S2.
    assert (DP : In n (map fst (params (t_doc t))) <-> exists raw, describes x n raw).
    { split.
      - intros I. apply in_map_iff in I. destruct I as ((n' & (n'' & raw)) & <- & I). rewrite Forall_forall in FP. destruct (FP _ I) as (Q & _). cbn in Q. subst n''.
        exists raw. apply D. exact I.
      - intros (raw & I). apply D in I. apply in_map_iff. exists (n, (n, raw)). auto. }
    split.
    + intros [[I|(NI & raw & I & Q)]|(NI & before & y & cs & after & raw & Q & Dy & Bf & T)].
      * auto.
      * right. split; [exact NI|]. exists [], x, bs, mro, raw. repeat apply conj; [reflexivity | apply D; exact I | intros ? ? ? [] | exact Q].
      * right. split; [tauto|]. exists ((x, bs) :: before), y, cs, after, raw. repeat apply conj; [rewrite Q; reflexivity | exact Dy | | exact T].
        intros z ds raw' [J|J]; [|exact (Bf z ds raw' J)]. injection J as <- <-. intros Dz. apply NI. right. apply DP. eauto.
    + intros [I|(NI & before & y & cs & after & raw & Q & Dy & Bf & T)]; [auto|].
      destruct before as [|[x' bs'] before]; cbn [app] in Q; injection Q as <- <- Q.
      * left. right. split; [exact NI|]. exists raw. split; [apply D; exact Dy | exact T].
      * right. split.
        -- intros [I|I]; [exact (NI I)|]. apply DP in I. destruct I as (raw' & I). exact (Bf x bs raw' (or_introl eq_refl) I).
        -- exists before, y, cs, after, raw. repeat apply conj; [exact Q | exact Dy | | exact T]. intros z ds raw' J. exact (Bf z ds raw' (or_intror J)).
Qed.

Theorem properties_total : forall builtins tr mro result, (forall x bs, In (x, bs) mro -> names_once builtins x) ->
  ((exists r, property_docstrings builtins tr mro result = Ok r) <->
   forall x bs doc, In (x, bs) mro -> written x doc -> exists d, parse_text doc = Ok d /\ agrees builtins x bs d).
Proof.
  intros builtins tr mro. induction mro as [|[x bs] mro IH]; intros result NO; cbn [property_docstrings].
  - split; [intros _ x bs doc [] | eauto].
  - pose proof (NO x bs (or_introl eq_refl)) as NOx. pose proof (fun res => IH res (fun y cs I => NO y cs (or_intror I))) as IH'. split.
    + intros (r & H). apply bind_ok in H. destruct H as (t & P & H). intros y cs doc [I|I] W.
      * injection I as <- <-. destruct (parse_text doc) as [d|e] eqn:PT; [|rewrite (parse_type_text_error _ _ _ _ _ W PT) in P; discriminate P].
        exists d. split; [reflexivity|]. apply (parse_type_spec builtins x bs doc d NOx W PT). eauto.
      * exact (proj1 (IH' _) (ex_intro _ r H) y cs doc I W).
    + intros H. destruct (parse_type builtins x bs) as [t|e] eqn:P.
      * cbn [bind]. apply IH'. intros y cs doc I W. exact (H y cs doc (or_intror I) W).
      * exfalso. destruct (written_dec x) as [(doc & W)|W]; [|rewrite (parse_type_unwritten _ _ _ W) in P; discriminate P].
        destruct (H x bs doc (or_introl eq_refl) W) as (d & PT & A). apply (parse_type_spec builtins x bs doc d NOx W PT) in A. destruct A as (t & A). congruence.
Qed.

Theorem class_docstrings_spec : forall builtins x bases, names_once builtins x ->
  (forall doc d, written x doc -> parse_text doc = Ok d -> agrees builtins x bases d ->
     get_class_docstrings builtins x bases = Ok (short_description d, long_description d)) /\
  ((forall doc, ~ written x doc) -> get_class_docstrings builtins x bases = Ok (None, None)) /\
  (forall doc d, written x doc -> parse_text doc = Ok d -> ~ agrees builtins x bases d -> get_class_docstrings builtins x bases = Err EType).
Proof.
  intros builtins x bases NO. repeat apply conj.
  - intros doc d W P A. pose proof (parse_type_spec builtins x bases doc d NO W P) as (S1 & S2 & _).
    apply S1 in A. destruct A as (t & A). unfold get_class_docstrings. rewrite A. cbn [bind]. rewrite (S2 t A).
    apply get_docstring_spec in W. unfold get_docstring in W. destruct (d_doc x); [|discriminate W]. destruct (has_default_docstring x); [discriminate W | reflexivity].
  - intros H. unfold get_class_docstrings. rewrite (parse_type_unwritten _ _ _ H). cbn. destruct (has_default_docstring x); reflexivity.
  - intros doc d W P A. pose proof (parse_type_spec builtins x bases doc d NO W P) as (S1 & _ & S3).
    unfold get_class_docstrings. destruct (parse_type builtins x bases) as [t|e]; [destruct A; apply S1; eauto|]. cbn. rewrite (S3 e eq_refl). reflexivity.
Qed.
