(** C74: evaluation of annotations. *)
From Coq Require Import String List NArith ZArith Bool Lia.
From Verif Require Import Base Json PyTypes SpecTyping SpecTypes SpecFields TypingFacts SpecHints HintProofs Samples.
Import ListNotations.
Open Scope list_scope.
Open Scope nat_scope.

(** C74.  The annotations returned are those of the fields, in order, and stand
    for the same values as the annotations written. *)
Theorem C74_meaning : forall E cl hs, hints E cl = Ok hs ->
  map fst hs = map fst (raw_fields (c_kind cl)) /\
  Forall2 (fun r h => forall v, has_type E (c_module cl) (snd h) v <-> has_type E (c_module cl) (snd r) v)
    (raw_fields (c_kind cl)) hs.
Proof.
  intros E cl hs H. apply hints_ok in H. split.
  - induction H as [|r h rs hs [Q _] _ IH]; [reflexivity|]. cbn [map]. rewrite Q, IH. reflexivity.
  - induction H as [|r h rs hs [_ Q] _ IH]; constructor; assumption.
Qed.
Print Assumptions C74_meaning.

(** C74.  Evaluation fails exactly if some annotation mentions a name that is not
    defined, directly or through the definitions of other names; the exception is
    then NameError.  Names may be defined in terms of themselves. *)
Theorem C74_fails : forall E c cl e, canonical_env E -> get_class E c = Some cl ->
  (hints E cl = Err e <->
   e = EName /\ exists x t, In (x, t) (raw_fields (c_kind cl)) /\ mentions_undefined E (c_module cl) t).
Proof. intros E c cl e CE. exact (hints_fails E CE c cl e). Qed.
Print Assumptions C74_fails.

(** Hence it ends with a result on every class whose names are all defined, however
    they refer to each other. *)
Theorem C74_total : forall E c cl, canonical_env E -> get_class E c = Some cl ->
  (forall x t, In (x, t) (raw_fields (c_kind cl)) -> ~ mentions_undefined E (c_module cl) t) ->
  exists hs, hints E cl = Ok hs.
Proof.
  intros E c cl CE G H. destruct (hints E cl) as [hs|e] eqn:R; [eauto|]. exfalso.
  apply (C74_fails E c cl e CE G) in R. destruct R as (_ & x & t & I & M). exact (H x t I M).
Qed.
Print Assumptions C74_total.

(** C74.  A name is left in an annotation that is returned only if it is defined in
    terms of itself; all others have been replaced by what they stand for. *)
Theorem C74_names : forall E cl hs x t s, hints E cl = Ok hs -> In (x, t) hs -> written s t ->
  recursive_name E (c_module cl) s.
Proof. intros E cl hs x t s. exact (hints_written E cl hs x t s). Qed.
Print Assumptions C74_names.

(** class Leaf: tree: "Tree"
    class Broken: tree: "Tree"; other: list["Alias"]
    where Tree = Union[list["Tree"], int] and Alias = dict[str, "Missing"]. *)
Definition Leaf := mkClass 0 (str "Leaf") (CPlain [(str "tree", TRef (str "Tree"))]) None None.
Definition Broken := mkClass 0 (str "Broken")
  (CPlain [(str "tree", TRef (str "Tree")); (str "other", TList (TRef (str "Alias")))]) None None.
Definition Wood : env := mkEnv [Leaf; Broken]
  [(0, str "Tree", (true, TUnion false [TList (TRef (str "Tree")); tint]));
   (0, str "Alias", (true, TDict tstr (TRef (str "Missing"))))] (fun ps => ps).

Lemma wood_canonical : canonical_env Wood.
Proof.
  split.
  - intros m s a t L. unfold lookup, Wood in L. cbn [e_refs find_ref] in L.
    destruct (Nat.eqb 0 m && pystr_eqb (str "Tree") s); [injection L as <- <-|].
    + constructor; [cbn; lia| |].
      * constructor; [intros [X|[]]; discriminate X|]. constructor; [intros [] | constructor].
      * repeat constructor; intros [].
    + destruct (Nat.eqb 0 m && pystr_eqb (str "Alias") s); [injection L as <- <-; repeat constructor | discriminate].
  - intros c cl x t G I. destruct c as [|[|c]]; cbn in G; [injection G as <-..|destruct c; discriminate G];
      cbn [raw_fields c_kind Leaf Broken In] in I; repeat (destruct I as [I|I]; [injection I as <- <-; repeat constructor|]); contradiction.
Qed.

Example C74_witness : canonical_env Wood /\
  hints Wood Leaf = Ok [(str "tree", TUnion false [TList (TRef (str "Tree")); tint])] /\
  mentions_undefined Wood 0 (TList (TRef (str "Alias"))) /\ hints Wood Broken = Err EName.
Proof.
  split; [exact wood_canonical|]. split; [reflexivity|]. split; [|reflexivity].
  exists 3. eapply uw_part; [constructor|]. eapply uw_def; [reflexivity|].
  eapply uw_part; [apply pt_value|]. constructor. reflexivity.
Qed.

(** The hypothesis of [C74_total] holds for the class Leaf, whose annotation is
    defined in terms of itself. *)
Example C74_witness_total : forall x t, In (x, t) (raw_fields (c_kind Leaf)) -> ~ mentions_undefined Wood (c_module Leaf) t.
Proof.
  intros x t I M.
  assert (R : hints Wood Leaf = Err EName) by (apply (C74_fails Wood 0 Leaf EName wood_canonical eq_refl); split; [reflexivity | eauto]).
  discriminate R.
Qed.

(** In the annotation returned for Leaf the name Tree is left. *)
Example C74_witness_names : written (str "Tree") (TUnion false [TList (TRef (str "Tree")); tint]) /\
  recursive_name Wood 0 (str "Tree").
Proof.
  assert (W : written (str "Tree") (TUnion false [TList (TRef (str "Tree")); tint])).
  { eapply wr_part; [apply pt_union; left; reflexivity|]. eapply wr_part; [constructor|]. constructor. }
  split; [exact W|]. apply (C74_names Wood Leaf _ (str "tree") _ _ eq_refl (or_introl eq_refl) W).
Qed.
