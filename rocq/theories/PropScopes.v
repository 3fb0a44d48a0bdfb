(** C75: what names in quotes stand for. *)
From Coq Require Import String List Bool Lia.
From Verif Require Import Base Lists PyTypes Scopes SpecScopes ScopesProofs.
Import ListNotations.
Open Scope list_scope.
Open Scope nat_scope.

(** C75.  A text stands for what the module binds the name to, or else for what
    builtins binds it to; NameError is raised exactly if neither does.  This holds
    for all names but two. *)
Theorem C75_text : forall globals builtins m s, NoDup (map fst globals) -> NoDup (map fst builtins) -> not_hidden s ->
  (forall o, evaluate_object globals builtins m (OText s) = Ok o <-> stands_for globals builtins s o) /\
  (forall e, evaluate_object globals builtins m (OText s) = Err e <-> e = EName /\ unbound globals builtins s).
Proof.
  intros globals builtins m s NG NB N. split; intros x; [apply eval_stands | apply eval_unbound]; assumption.
Qed.
Print Assumptions C75_text.

(** C75.  A reference is followed through any number of names bound to texts, to the
    class or module at the end ... *)
Theorem C75_reference : forall globals builtins m k s u o, NoDup (map fst globals) -> NoDup (map fst builtins) ->
  follows globals builtins k s u -> not_hidden u -> stands_for globals builtins u o -> (forall x, ~ is_text o x) ->
  evaluate_object globals builtins m (ORef s) = Ok o.
Proof.
  intros globals builtins m k s u o NG NB H N SF NT. unfold evaluate_object.
  eapply (evaluate_follows globals builtins NG NB); [split; [exact N | left; eauto] | exact H | intros x [] | constructor | intros x [] |].
  rewrite app_length. cbn [length]. lia.
Qed.
Print Assumptions C75_reference.

(** ... or to NameError, if the name at the end is not bound. *)
Theorem C75_reference_unbound : forall globals builtins m k s u, NoDup (map fst globals) -> NoDup (map fst builtins) ->
  follows globals builtins k s u -> not_hidden u -> unbound globals builtins u ->
  evaluate_object globals builtins m (ORef s) = Err EName.
Proof.
  intros globals builtins m k s u NG NB H N U. unfold evaluate_object.
  eapply (evaluate_follows globals builtins NG NB); [split; [exact N | right; split; [exact U | reflexivity]] | exact H | intros x [] | constructor | intros x [] |].
  rewrite app_length. cbn [length]. lia.
Qed.
Print Assumptions C75_reference_unbound.

(** C75.  The two names are those of the parameters of [evaluate_type], whatever the
    module binds them to. *)
Theorem C75_hidden : forall globals builtins m,
  evaluate_object globals builtins m (OText (str "typ")) = Ok (OText (str "typ")) /\
  evaluate_object globals builtins m (ORef (str "typ")) = Ok (ORef (str "typ")) /\
  evaluate_object globals builtins m (OText (str "module")) = Ok (OModule m) /\
  evaluate_object globals builtins m (ORef (str "module")) = Ok (OModule m).
Proof. repeat split. Qed.
Print Assumptions C75_hidden.

(** So the rule without the exception is false: the module binds the name to a class,
    and the annotation does not stand for it. *)
Theorem C75_any_name_refuted : exists globals builtins m s c,
  NoDup (map fst globals) /\ NoDup (map fst builtins) /\ stands_for globals builtins s (OClass c) /\
  evaluate_object globals builtins m (OText s) <> Ok (OClass c) /\ evaluate_object globals builtins m (ORef s) <> Ok (OClass c).
Proof.
  exists [(str "module", OClass 1)], [], 0, (str "module"), 1.
  repeat split; try discriminate; try (repeat constructor; intros []; fail).
Qed.
Print Assumptions C75_any_name_refuted.

(** A = "B"; B = "C"; class C; D = "E" *)
Definition names : namespace := [(str "A", OText (str "B")); (str "B", OText (str "C")); (str "C", OClass 3); (str "D", OText (str "E"))].

Example C75_witness :
  NoDup (map fst names) /\ follows names [(str "int", OClass 0)] 2 (str "A") (str "C") /\
  evaluate_object names [(str "int", OClass 0)] 0 (ORef (str "A")) = Ok (OClass 3) /\
  evaluate_object names [(str "int", OClass 0)] 0 (OText (str "A")) = Ok (OText (str "B")) /\
  evaluate_object names [(str "int", OClass 0)] 0 (OText (str "int")) = Ok (OClass 0) /\
  evaluate_object names [(str "int", OClass 0)] 0 (ORef (str "D")) = Err EName.
Proof.
  split; [repeat constructor; cbn; intros X; repeat destruct X as [X|X]; try discriminate X; contradiction|].
  split; [|repeat split].
  eapply fo_next; [split; discriminate | left; left; reflexivity | left; reflexivity|].
  eapply fo_next; [split; discriminate | left; right; left; reflexivity | left; reflexivity|]. constructor.
Qed.
