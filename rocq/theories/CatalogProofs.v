(** Proofs about the type catalog. *)
From Coq Require Import String List NArith ZArith Bool Lia.
From Verif Require Import Base Json PyTypes Lists TypeAlgebraProofs ClassDefProofs Catalog SpecCatalog.
Import ListNotations.
Open Scope list_scope.
Open Scope nat_scope.

Lemma is_ref_dec : forall t, {is_ref t} + {~ is_ref t}.
Proof. intros []; try (right; intros (s & Q); discriminate Q). left. eexists. reflexivity. Qed.

Lemma typ_eqb_same : forall t, typ_eqb t t = true.
Proof. intros t. apply typ_eqb_iff. reflexivity. Qed.

Lemma typ_eqb_other : forall t u, t <> u -> typ_eqb t u = false.
Proof. intros t u N. destruct (typ_eqb t u) eqn:Q; [|reflexivity]. apply typ_eqb_iff in Q. contradiction. Qed.

Lemma typ_dec : forall t u : typ, {t = u} + {t <> u}.
Proof.
  intros t u. destruct (typ_eqb t u) eqn:Q; [left; apply typ_eqb_iff; exact Q|].
  right. intros ->. rewrite typ_eqb_same in Q. discriminate.
Qed.

Lemma type_set_get : forall d t e u, type_get (type_set d t e) u = if typ_eqb t u then Some e else type_get d u.
Proof.
  induction d as [|[x w] d IH]; intros t e u; cbn [type_set type_get]; [reflexivity|].
  destruct (typ_eqb x t) eqn:Q.
  - apply typ_eqb_iff in Q. subst x. cbn [type_get]. destruct (typ_eqb t u); reflexivity.
  - cbn [type_get]. rewrite IH. destruct (typ_eqb x u) eqn:Q'; [|reflexivity]. apply typ_eqb_iff in Q'. subst u.
    destruct (typ_eqb t x) eqn:R; [|reflexivity]. apply typ_eqb_iff in R. subst. rewrite typ_eqb_same in Q. discriminate.
Qed.

Lemma first_for_snoc : forall rs u e' t e later, first_for (rs ++ [(u, e')]) t e later <->
  (exists l, later = l ++ [(u, e')] /\ first_for rs t e l) \/ (later = [] /\ t = u /\ e = e' /\ ~ In t (map fst rs)).
Proof.
  intros rs u e' t e later. split.
  - intros (b & Q & N). destruct later as [|x l _] using rev_ind.
    + apply app_inj_tail in Q. destruct Q as [<- Q]. apply pair_equal_spec in Q. destruct Q as [<- <-]. right. auto.
    + rewrite app_comm_cons, app_assoc in Q. apply app_inj_tail in Q. destruct Q as [-> <-]. left. exists l. split; [reflexivity|].
      exists b. auto.
  - intros [(l & -> & b & -> & N)|(-> & -> & -> & N)].
    + exists b. split; [rewrite <- app_assoc; reflexivity | exact N].
    + exists rs. auto.
Qed.

Lemma first_for_in : forall rs t e later, first_for rs t e later -> In t (map fst rs).
Proof. intros rs t e later (b & -> & _). apply in_map_iff. exists (t, e). split; [reflexivity|]. apply in_or_app. right. left. reflexivity. Qed.

Lemma in_first_for : forall rs t, In t (map fst rs) -> exists e later, first_for rs t e later.
Proof.
  induction rs as [|[u e'] rs IH] using rev_ind; intros t I; [contradiction|].
  destruct (in_dec typ_dec t (map fst rs)) as [J|J].
  - destruct (IH t J) as (e & l & F). exists e, (l ++ [(u, e')]). apply first_for_snoc. left. eauto.
  - rewrite map_app in I. apply in_app_or in I. destruct I as [I|[Q|[]]]; [contradiction|]. cbn in Q. subst u.
    exists e', []. apply first_for_snoc. right. auto.
Qed.

Lemma register_all_snoc : forall rs r, register_all (rs ++ [r]) = register (register_all rs) r.
Proof. intros rs r. unfold register_all. rewrite fold_left_app. reflexivity. Qed.

Lemma register_ref : forall c s e, register c (TRef s, e) = c.
Proof. reflexivity. Qed.

Lemma register_type : forall c t e, ~ is_ref t -> register c (t, e) =
  match type_get (by_type c) t with
  | Some _ => c
  | None => {| by_type := type_set (by_type c) t e; by_name := dict_set (by_name c) (en_identifier e) e |}
  end.
Proof.
  intros c t [s i x] N. unfold register, add. cbn [fst snd en_schema en_identifier en_examples].
  destruct t; try (destruct (type_get _ _); reflexivity). exfalso. apply N. eexists. reflexivity.
Qed.

Lemma type_get_registered : forall rs t e, type_get (by_type (register_all rs)) t = Some e <-> registered rs t e.
Proof.
  induction rs as [|[u e'] rs IH] using rev_ind; intros t e.
  - cbn. split; [discriminate|]. intros (_ & l & b & Q & _). destruct b; discriminate.
  - rewrite register_all_snoc. destruct (is_ref_dec u) as [(s & ->)|NR].
    + rewrite register_ref, IH. unfold registered. split.
      * intros (N & l & F). split; [exact N|]. eexists. apply first_for_snoc. left. eauto.
      * intros (N & l & F). split; [exact N|]. apply first_for_snoc in F. destruct F as [(l' & _ & F)|(_ & -> & _)]; [eauto|].
        exfalso. apply N. eexists. reflexivity.
    + rewrite (register_type _ _ _ NR). destruct (type_get (by_type (register_all rs)) u) as [e0|] eqn:G.
      * rewrite IH. apply IH in G. destruct G as (_ & l0 & F0). unfold registered. split.
        -- intros (N & l & F). split; [exact N|]. eexists. apply first_for_snoc. left. eauto.
        -- intros (N & l & F). split; [exact N|]. apply first_for_snoc in F. destruct F as [(l' & _ & F)|(_ & -> & _ & NI)]; [eauto|].
           exfalso. apply NI. eapply first_for_in. exact F0.
      * cbn [by_type]. rewrite type_set_get. destruct (typ_eqb u t) eqn:Q.
        -- apply typ_eqb_iff in Q. subst u. split.
           ++ intros X. injection X as <-. split; [exact NR|]. exists []. apply first_for_snoc. right. repeat split.
              intros I. destruct (in_first_for rs t I) as (e & l & F). assert (X : registered rs t e) by (split; eauto). apply IH in X. congruence.
           ++ intros (N & l & F). apply first_for_snoc in F. destruct F as [(l' & _ & F)|(_ & _ & -> & _)]; [|reflexivity].
              assert (X : registered rs t e) by (split; eauto). apply IH in X. congruence.
        -- rewrite IH. unfold registered. split.
           ++ intros (N & l & F). split; [exact N|]. eexists. apply first_for_snoc. left. eauto.
           ++ intros (N & l & F). split; [exact N|]. apply first_for_snoc in F. destruct F as [(l' & _ & F)|(_ & -> & _)]; [eauto|].
              rewrite typ_eqb_same in Q. discriminate.
Qed.

Lemma named_same : forall rs u e' s e, is_ref u \/ In u (map fst rs) -> (named (rs ++ [(u, e')]) s e <-> named rs s e).
Proof.
  intros rs u e' s e H. split.
  - intros (t & l & N & F & I & M). apply first_for_snoc in F. destruct F as [(l' & -> & F)|(_ & -> & _ & NI)]; [|tauto].
    exists t, l'. split; [exact N|]. split; [exact F|]. split; [exact I|]. intros v ev lv NV FV IV.
    assert (X : length (l' ++ [(u, e')]) <= length (lv ++ [(u, e')])) by (apply (M v ev); [exact NV | apply first_for_snoc; left; eauto | exact IV]).
    rewrite !app_length in X. lia.
  - intros (t & l & N & F & I & M). exists t, (l ++ [(u, e')]). split; [exact N|]. split; [apply first_for_snoc; left; eauto|].
    split; [exact I|]. intros v ev lv NV FV IV. apply first_for_snoc in FV. destruct FV as [(l' & -> & FV)|(_ & -> & _ & NI)]; [|tauto].
    pose proof (M v ev l' NV FV IV). rewrite !app_length. lia.
Qed.

Lemma by_name_named : forall rs s e, dict_get (by_name (register_all rs)) s = Some e <-> named rs s e.
Proof.
  induction rs as [|[u e'] rs IH] using rev_ind; intros s e.
  - cbn. split; [discriminate|]. intros (t & l & _ & (b & Q & _) & _). destruct b; discriminate.
  - rewrite register_all_snoc. destruct (is_ref_dec u) as [R|NR].
    + rewrite named_same by auto. destruct R as (x & ->). rewrite register_ref. apply IH.
    + rewrite (register_type _ _ _ NR). destruct (type_get (by_type (register_all rs)) u) as [e0|] eqn:G.
      * apply type_get_registered in G. destruct G as (_ & l & F). rewrite named_same; [apply IH | right; eapply first_for_in; exact F].
      * assert (NI : ~ In u (map fst rs)).
        { intros I. destruct (in_first_for rs u I) as (e0 & l & F). assert (X : registered rs u e0) by (split; eauto).
          apply type_get_registered in X. congruence. }
        cbn [by_name]. rewrite set_get. destruct (pystr_eqb (en_identifier e') s) eqn:Q.
        -- apply pystr_eqb_eq in Q. split.
           ++ intros X. injection X as <-. exists u, []. split; [exact NR|]. split; [apply first_for_snoc; right; auto|]. split; [exact Q|].
              intros. cbn. lia.
           ++ intros (t & l & N & F & I & M). apply first_for_snoc in F. destruct F as [(l' & -> & F)|(_ & _ & -> & _)]; [|reflexivity].
              assert (X : length (l' ++ [(u, e')]) <= length (@nil (typ * entry))) by (apply (M u e'); [exact NR | apply first_for_snoc; right; auto | exact Q]).
              rewrite app_length in X. cbn in X. lia.
        -- assert (NQ : en_identifier e' <> s) by (intros X; subst s; rewrite pystr_eqb_refl in Q; discriminate).
           rewrite IH. split.
           ++ intros (t & l & N & F & I & M). exists t, (l ++ [(u, e')]). split; [exact N|]. split; [apply first_for_snoc; left; eauto|].
              split; [exact I|]. intros v ev lv NV FV IV. apply first_for_snoc in FV. destruct FV as [(l' & -> & FV)|(_ & _ & -> & _)]; [|contradiction].
              pose proof (M v ev l' NV FV IV). rewrite !app_length. lia.
           ++ intros (t & l & N & F & I & M). apply first_for_snoc in F. destruct F as [(l' & -> & F)|(_ & _ & -> & _)]; [|contradiction].
              exists t, l'. split; [exact N|]. split; [exact F|]. split; [exact I|]. intros v ev lv NV FV IV.
              assert (X : length (l' ++ [(u, e')]) <= length (lv ++ [(u, e')])) by (apply (M v ev); [exact NV | apply first_for_snoc; left; eauto | exact IV]).
              rewrite !app_length in X. lia.
Qed.

Lemma get_type : forall c t, ~ is_ref t -> get c t = match type_get (by_type c) t with Some e => Ok e | None => Err EKey end.
Proof. intros c t N. destruct t; try reflexivity. exfalso. apply N. eexists. reflexivity. Qed.

Lemma contains_type : forall c t, ~ is_ref t -> contains c t = match type_get (by_type c) t with Some e => true | None => false end.
Proof. intros c t N. destruct t; try reflexivity. exfalso. apply N. eexists. reflexivity. Qed.

Lemma catalog_by_type : forall rs t, ~ is_ref t ->
  (forall e, get (register_all rs) t = Ok e <-> registered rs t e) /\
  (contains (register_all rs) t = true <-> In t (map fst rs)) /\
  (~ In t (map fst rs) -> get (register_all rs) t = Err EKey).
Proof.
  intros rs t N. assert (R : In t (map fst rs) <-> exists e, registered rs t e).
  { split; [|intros (e & _ & l & F); eapply first_for_in; exact F]. intros I. destruct (in_first_for rs t I) as (e & l & F).
    exists e. split; eauto. }
  rewrite (get_type _ _ N), (contains_type _ _ N). split; [|split].
  - intros e. rewrite <- type_get_registered. destruct (type_get _ t); split; congruence.
  - rewrite R. split.
    + destruct (type_get _ t) as [e|] eqn:G; [|discriminate]. intros _. exists e. apply type_get_registered. exact G.
    + intros (e & X). apply type_get_registered in X. rewrite X. reflexivity.
  - intros X. destruct (type_get _ t) as [e|] eqn:G; [|reflexivity]. exfalso. apply X, R. exists e. apply type_get_registered. exact G.
Qed.

Lemma catalog_by_name : forall rs s,
  (forall e, get (register_all rs) (TRef s) = Ok e <-> named rs s e) /\
  (contains (register_all rs) (TRef s) = true <-> exists e, named rs s e) /\
  ((forall t e, In (t, e) rs -> en_identifier e <> s) -> get (register_all rs) (TRef s) = Err EKey).
Proof.
  intros rs s. cbn [get contains]. split; [|split].
  - intros e. rewrite <- by_name_named. destruct (dict_get _ s); split; congruence.
  - unfold dict_mem. split.
    + destruct (dict_get _ s) as [e|] eqn:G; [|discriminate]. intros _. exists e. apply by_name_named. exact G.
    + intros (e & X). apply by_name_named in X. rewrite X. reflexivity.
  - intros H. destruct (dict_get _ s) as [e|] eqn:G; [|reflexivity]. exfalso. apply by_name_named in G.
    destruct G as (t & l & _ & (b & -> & _) & I & _). apply (H t e); [|exact I]. apply in_or_app. right. left. reflexivity.
Qed.

Lemma catalog_distinct : forall rs t e, NoDup (map fst rs) -> NoDup (map (fun r => en_identifier (snd r)) rs) ->
  (forall u, In u (map fst rs) -> ~ is_ref u) -> In (t, e) rs ->
  get (register_all rs) t = Ok e /\ get (register_all rs) (TRef (en_identifier e)) = Ok e.
Proof.
  intros rs t e N M R I. apply in_split in I. destruct I as (b & l & ->). rewrite map_app in N. cbn [map fst] in N.
  assert (F : first_for (b ++ (t, e) :: l) t e l).
  { exists b. split; [reflexivity|]. apply NoDup_remove_2 in N. intros X. apply N. apply in_or_app. auto. }
  assert (NT : ~ is_ref t) by (apply R; eapply first_for_in; exact F).
  split.
  - apply (proj1 (catalog_by_type _ t NT)). split; [exact NT | eauto].
  - apply (proj1 (catalog_by_name _ _)). exists t, l. split; [exact NT|]. split; [exact F|]. split; [reflexivity|].
    intros u e' l' NU (b' & Q & N') I. rewrite map_app in M. cbn [map snd] in M.
    destruct (Nat.le_gt_cases (length l) (length l')) as [|L]; [assumption|exfalso].
    (* the second registration would have to be inside [l] *)
    assert (X : In (u, e') l).
    { clear -Q L. revert b' Q. induction b as [|x b IH]; intros b' Q; cbn [app] in Q.
      - destruct b' as [|y b']; cbn [app] in Q; injection Q as _ Q; [subst l'; lia|]. subst l. apply in_or_app. right. left. reflexivity.
      - destruct b' as [|y b']; cbn [app] in Q; injection Q as _ Q.
        + exfalso. apply (f_equal (@length _)) in Q. rewrite app_length in Q. cbn in Q. lia.
        + eapply IH. exact Q. }
    apply NoDup_remove_2 in M. apply M. apply in_or_app. right. apply in_map_iff. exists (u, e'). split; [exact I | exact X].
Qed.
