(** Lemmas on the evaluation of names in quotes. *)
From Coq Require Import String List Bool Lia.
From Verif Require Import Base Lists PyTypes Scopes SpecScopes.
Import ListNotations.
Open Scope list_scope.
Open Scope nat_scope.

Section Scopes.
  Variables globals builtins : namespace.
  Hypothesis NG : NoDup (map fst globals).
  Hypothesis NB : NoDup (map fst builtins).

  Lemma parameters_hide : forall typ m s, not_hidden s -> dict_get (parameters typ m) s = None.
  Proof.
    intros typ m s [H K]. apply dict_get_none. intros [I|[I|[]]]; [exact (H (eq_sym I)) | exact (K (eq_sym I))].
  Qed.

  Lemma eval_stands : forall typ m s o, not_hidden s ->
    (eval_name [parameters typ m; globals; builtins] s = Ok o <-> stands_for globals builtins s o).
  Proof.
    intros typ m s o N. cbn [eval_name]. rewrite (parameters_hide typ m s N).
    destruct (dict_get globals s) as [o'|] eqn:G.
    - split; [intros Q; injection Q as <-; left; apply dict_get_in; exact G|].
      intros [I|[I _]]; [rewrite (dict_get_nodup _ _ _ NG I) in G; injection G as <-; reflexivity|].
      exfalso. apply I. apply dict_get_in in G. apply in_map_iff. exists (s, o'). split; [reflexivity | exact G].
    - pose proof (proj1 (dict_get_none _ _) G) as G'. destruct (dict_get builtins s) as [o'|] eqn:B.
      + split; [intros Q; injection Q as <-; right; split; [exact G' | apply dict_get_in; exact B]|].
        intros [I|[_ I]]; [exfalso; apply G'; apply in_map_iff; exists (s, o); split; [reflexivity | exact I]|].
        rewrite (dict_get_nodup _ _ _ NB I) in B. injection B as <-. reflexivity.
      + split; [discriminate|]. pose proof (proj1 (dict_get_none _ _) B) as B'.
        intros [I|[_ I]]; exfalso; [apply G' | apply B']; apply in_map_iff; exists (s, o); (split; [reflexivity | exact I]).
  Qed.

  Lemma eval_unbound : forall typ m s e, not_hidden s ->
    (eval_name [parameters typ m; globals; builtins] s = Err e <-> e = EName /\ unbound globals builtins s).
  Proof.
    intros typ m s e N. cbn [eval_name]. rewrite (parameters_hide typ m s N).
    destruct (dict_get globals s) as [o'|] eqn:G.
    - split; [discriminate|]. intros (_ & U & _). apply dict_get_none in U. congruence.
    - pose proof (proj1 (dict_get_none _ _) G) as G'. destruct (dict_get builtins s) as [o'|] eqn:B.
      + split; [discriminate|]. intros (_ & _ & U). apply dict_get_none in U. congruence.
      + pose proof (proj1 (dict_get_none _ _) B) as B'. split; [intros Q; injection Q as <-; repeat split; assumption|].
        intros [-> _]. reflexivity.
  Qed.

  Lemma stands_once : forall s o o', not_hidden s -> stands_for globals builtins s o -> stands_for globals builtins s o' -> o = o'.
  Proof.
    intros s o o' N H K. apply (eval_stands (OText s) 0 s o N) in H. apply (eval_stands (OText s) 0 s o' N) in K. congruence.
  Qed.

  (** [u] stands for no further text, and evaluation gives [r]. *)
  Definition final (u : pystr) (r : res obj) : Prop :=
    not_hidden u /\
    ((exists o, stands_for globals builtins u o /\ (forall s, ~ is_text o s) /\ r = Ok o) \/
     (unbound globals builtins u /\ r = Err EName)).

  Lemma final_last : forall u r k w, final u r -> follows globals builtins k u w -> k = 0.
  Proof.
    intros u r k w (N & F) H. inversion H as [|j ? o s' ? _ SF T _]; subst; [reflexivity|]. exfalso.
    destruct F as [(o' & SF' & NT & _)|((U1 & U2) & _)].
    - rewrite (stands_once _ _ _ N SF SF') in T. exact (NT _ T).
    - destruct SF as [I|[_ I]]; [apply U1 | apply U2]; apply in_map_iff; eexists; (split; [|exact I]); reflexivity.
  Qed.

  Lemma follows_once : forall u r k s, final u r -> follows globals builtins k s u -> forall k', follows globals builtins k' s u -> k = k'.
  Proof.
    intros u r k s F H. induction H as [u|k s o s' u N SF T H IH]; intros k' H'.
    - symmetry. eapply final_last; eassumption.
    - inversion H' as [|j ? o' s'' ? _ SF' T' H'']; subst.
      + exfalso. assert (X := final_last _ _ (S k) u F). discriminate X. eapply fo_next; eassumption.
      + f_equal. apply IH; [exact F|]. rewrite (stands_once _ _ _ N SF SF') in T.
        assert (s' = s'') as -> by (destruct T as [-> | ->], T' as [T' | T']; congruence). exact H''.
  Qed.

  Lemma bound_name : forall s o, stands_for globals builtins s o -> In s (map fst (globals ++ builtins)).
  Proof.
    intros s o [I|[_ I]]; rewrite map_app; apply in_or_app; [left | right]; apply in_map_iff; exists (s, o); (split; [reflexivity | exact I]).
  Qed.

  Lemma evaluate_follows : forall typ m u r, final u r -> forall n g s k, follows globals builtins k s u ->
    (forall x, In x g -> exists k', k < k' /\ follows globals builtins k' x u) ->
    NoDup g -> incl g (map fst (globals ++ builtins)) -> length (globals ++ builtins) <= length g + n ->
    evaluate_ref n g [parameters typ m; globals; builtins] s = r.
  Proof.
    intros typ m u r F. induction n as [|n IH]; intros g s k H G ND IN LE.
    all: assert (M : mem_str s g = false) by
      (apply mem_str_not_in; intros I; destruct (G s I) as (k' & L & H'); rewrite (follows_once _ _ _ _ F H _ H') in L; lia).
    all: inversion H as [|j ? o s' ? N SF T H']; subst.
    all: try (cbn [evaluate_ref]; rewrite M; destruct F as (N & [(o & SF & NT & ->)|(U & ->)]);
      [ rewrite (proj2 (eval_stands typ m _ o N) SF); cbn [bind]; destruct o as [c|x|x|c]; try reflexivity;
        exfalso; [apply (NT x); left; reflexivity | apply (NT x); right; reflexivity]
      | rewrite (proj2 (eval_unbound typ m _ EName N) (conj eq_refl U)); reflexivity ]; fail).
    all: assert (ND' : NoDup (s :: g)) by (constructor; [apply mem_str_not_in; exact M | exact ND]).
    all: assert (IN' : incl (s :: g) (map fst (globals ++ builtins))) by
      (intros x [<-|I]; [eapply bound_name; exact SF | exact (IN x I)]).
    - exfalso. pose proof (NoDup_incl_length ND' IN') as Q. rewrite map_length in Q. cbn [length] in Q. lia.
    - cbn [evaluate_ref]. rewrite M, (proj2 (eval_stands typ m s o N) SF). cbn [bind].
      assert (X : evaluate_ref n (s :: g) [parameters typ m; globals; builtins] s' = r).
      { eapply (IH _ _ j H'); [| exact ND' | exact IN' | cbn [length]; lia].
        intros x [<-|I]; [exists (S j); split; [lia | exact H]|]. destruct (G x I) as (k' & L & Hx). exists k'. split; [lia | exact Hx]. }
      destruct T as [-> | ->]; exact X.
  Qed.
End Scopes.
