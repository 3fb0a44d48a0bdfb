(** C09: the order of properties in a document is irrelevant. *)
From Coq Require Import String List NArith ZArith Bool Lia Permutation.
From Verif Require Import Base Json PyTypes TypeAlgebra Mapping Deser Lists SpecTyping TypingFacts SpecRecursion DeserUnfold
  SpecDeser SpecTypes TypeAlgebraProofs SpecFields FieldProofs SpecTagged TaggedProofs DeserFacts SpecNumbers
  SpecRoundTrip RoundTrip SpecPerm PermProofs Samples PropDeser PropFields PropTagged PropRoundTrip.
Import ListNotations.
Open Scope list_scope.
Open Scope nat_scope.

(** C09.  A document that is accepted is accepted with its properties in any
    other order, at any depth, and stands for the same value, up to the order of
    entries in dictionaries; provided that the unions without tags that are met
    are [settled]. *)
Theorem C09_permuted : forall E skip m t j j' v,
  canonical_env E -> guarded_env E -> calm E -> ready E m t -> order_free E skip m t ->
  json_wf j -> jperm j j' ->
  json_to_object E skip m t j = Ok v -> exists v', json_to_object E skip m t j' = Ok v' /\ vperm v v'.
Proof. intros E skip m t j j' v CE GE C. exact (jto_perm E CE GE C skip m t j j' v). Qed.
Print Assumptions C09_permuted.

(** C09.  Hence a document is rejected in one order exactly if it is rejected in
    the other. *)
Theorem C09_rejected : forall E skip m t j j',
  canonical_env E -> guarded_env E -> calm E -> ready E m t -> order_free E skip m t ->
  json_wf j -> jperm j j' ->
  ((exists e, json_to_object E skip m t j = Err e) <-> (exists e, json_to_object E skip m t j' = Err e)).
Proof.
  assert (X : forall E skip m t j j', canonical_env E -> guarded_env E -> calm E -> ready E m t -> order_free E skip m t ->
    json_wf j -> jperm j j' -> (exists e, json_to_object E skip m t j' = Err e) -> exists e, json_to_object E skip m t j = Err e).
  { intros E skip m t j j' CE GE C R O W P (e & H). destruct (json_to_object E skip m t j) as [v|e'] eqn:J; [|eauto].
    destruct (jto_perm E CE GE C skip m t j j' v R O W P J) as (v' & J' & _). congruence. }
  intros E skip m t j j' CE GE C R O W P. split; eapply X; try eassumption.
  - eapply jperm_wf; eassumption.
  - apply jperm_sym. exact P.
Qed.
Print Assumptions C09_rejected.

(** C09.  Where no dictionary is read, the outcome is the same to the letter,
    exceptions included. *)
Theorem C09_exact : forall E skip m t j j',
  canonical_env E -> guarded_env E -> calm E -> ready E m t -> dict_free E m t ->
  json_wf j -> jperm j j' -> json_to_object E skip m t j' = json_to_object E skip m t j.
Proof. intros E skip m t j j' CE GE C. exact (jto_perm_exact E CE GE C skip m t j j'). Qed.
Print Assumptions C09_exact.

(** C09.  Alternatives are settled if each of them, compared to each one after
    it, reads no dictionary, or is read from other kinds of data, or rejects
    data with JsonKeyError or JsonTypeError only. *)
Theorem C09_settled : forall E skip m ts,
  canonical_env E -> guarded_env E -> calm E -> shuffles (e_order E) -> Forall (ready E m) ts ->
  (forall ts1 w ts2 u, ts = ts1 ++ w :: ts2 -> In u ts2 ->
     dict_free E m w \/ kinds_apart E m w u \/ (gentle E skip m w /\ order_free E skip m w)) ->
  settled E skip m ts.
Proof. intros E skip m ts CE GE C ORD. exact (settled_when E CE GE C skip ORD m ts). Qed.
Print Assumptions C09_settled.

(** * What is not true *)

(** Union[dict[str, date], dict[str, Union[int, str]]] *)
Definition U3 := TUnion false [TDict tstr (TScalar KDate); TDict tstr (TUnion false [tint; tstr])].
Definition doc3 : json := JObj [(str "a", JInt 1); (str "b", jstr "x")].
Definition doc3' : json := JObj [(str "b", jstr "x"); (str "a", JInt 1)].

Lemma doc3_perm : json_wf doc3 /\ jperm doc3 doc3'.
Proof.
  split.
  - constructor; [nodup|]. constructor; [constructor | constructor; [constructor | constructor]].
  - eapply jp_obj; [|apply perm_swap]. constructor; [split; [reflexivity | apply jp_same]|].
    constructor; [split; [reflexivity | apply jp_same] | constructor].
Qed.

(** C09.  In general a document is accepted or rejected depending on the order of
    its properties: the first entry that is not a date decides whether the first
    dictionary is passed over (JsonTypeError) or not (ValueError). *)
Theorem C09_union_refuted : exists t j j' v e, ready Zoo 0 t /\ json_wf j /\ jperm j j' /\
  json_to_object Zoo false 0 t j = Ok v /\ json_to_object Zoo false 0 t j' = Err e.
Proof.
  exists U3, doc3, doc3', (VDict [(vstr "a", VInt 1); (vstr "b", vstr "x")]), EValue.
  split; [prove_ready|]. destruct doc3_perm as [W P]. split; [exact W|]. split; [exact P|]. split; vm_compute; reflexivity.
Qed.
Print Assumptions C09_union_refuted.

(** C09.  The exception a document is rejected with depends on the order. *)
Theorem C09_exception_refuted : exists t j j' e e', ready Zoo 0 t /\ order_free Zoo false 0 t /\ json_wf j /\ jperm j j' /\
  json_to_object Zoo false 0 t j = Err e /\ json_to_object Zoo false 0 t j' = Err e' /\ e <> e'.
Proof.
  exists (TDict tstr (TScalar KDate)), doc3, doc3', EJsonType, EValue.
  split; [prove_ready|]. split.
  - split.
    + intros m' op ts H. inversion H as [| | |? ? ? ? H'| | | | | |]; subst. inversion H'.
    + intros m' c cl h j j' v H. inversion H as [| | |? ? ? ? H'| | | | | |]; subst. inversion H'.
  - destruct doc3_perm as [W P]. split; [exact W|]. split; [exact P|]. split; [vm_compute; reflexivity|].
    split; [vm_compute; reflexivity | discriminate].
Qed.
Print Assumptions C09_exception_refuted.

(** * Witnesses *)

Definition small : list typ := [tint; tstr; tnone; TScalar KBool; TClass 1].

Lemma zoo_small : forall m t m' u, reach Zoo m t m' u -> In t small -> In u small.
Proof.
  assert (X : forall m t m' u, reach Zoo m t m' u -> (fun (_ : nat) t => In t small) m t -> (fun (_ : nat) t => In t small) m' u); [|exact X].
  apply reach_kept; cbn beta; unfold small.
  - intros m t I. cbn [In] in I. cases_in I; discriminate I.
  - intros m t I. cbn [In] in I. cases_in I; discriminate I.
  - intros m k t I. cbn [In] in I. cases_in I; discriminate I.
  - intros m ts t I. cbn [In] in I. cases_in I; discriminate I.
  - intros m op ts t I. cbn [In] in I. cases_in I; discriminate I.
  - intros m ls l I. cbn [In] in I. cases_in I; discriminate I.
  - intros m t md I. cbn [In] in I. cases_in I; discriminate I.
  - intros m s a t I. cbn [In] in I. cases_in I; discriminate I.
  - intros m c cl hs x t w I G FW H J RD. cbn [In] in I. cases_in I; try discriminate I; injection I as <-; injection G as <-;
      vm_compute in H; injection H as <-; cbn [In] in J; cases_in J; try (injection J as <- <-).
    + apply read_type_fun with (w := tint) in RD; [subst w; cbn; auto 30 | apply read_plain; not_optional].
    + apply optional_int in RD; [subst w; cbn; auto 30 | auto].
    + apply read_type_fun with (w := tstr) in RD; [subst w; cbn; auto 30 | apply read_plain; not_optional].
Qed.

Lemma small_free : forall t, In t small -> dict_free Zoo 0 t.
Proof.
  intros t I. split.
  - intros m' k u H. apply zoo_small in H; [|exact I]. unfold small in H. cbn [In] in H. cases_in H; discriminate H.
  - intros m' c cl h j j' H G [_ FJ]. apply zoo_small in H; [|exact I]. unfold small in H. cbn [In] in H.
    cases_in H; try discriminate H. injection H as <-. injection G as <-. discriminate FJ.
Qed.

Lemma hook_zoo : forall c cl h j j' v, get_class Zoo c = Some cl -> hooked cl h -> jperm j j' -> h j = Ok v -> exists v', h j' = Ok v' /\ vperm v v'.
Proof.
  intros c cl h j j' v G [_ FJ] P H. zoo_class c G; try discriminate FJ. injection FJ as <-.
  destruct P; try discriminate. destruct j; try discriminate. injection H as <-. eexists. split; [reflexivity | constructor].
Qed.

Lemma zoo_module_any : forall m op ts, In (TUnion op ts) [U1; U2; JsonAlias] -> Forall (ready Zoo m) ts -> m = 0 ->
  untagged Zoo ts -> settled Zoo false 0 ts.
Proof.
  intros m op ts I R -> U. cbn [In] in I. cases_in I; injection I as <- <-.
  - apply C09_settled; [exact zoo_canonical | exact zoo_guarded | exact zoo_calm | exact zoo_shuffles | exact R |].
    intros ts1 w ts2 u Q Iu. left. apply small_free. unfold small.
    destruct ts1 as [|? [|? [|? [|? ts1]]]]; cbn [app] in Q; injection Q as; subst; cbn [In]; auto 10; try contradiction.
    destruct ts1; discriminate.
  - destruct (U (str "kind")). split; [discriminate|].
    constructor; [|constructor; [|constructor]].
    + exists 4, [LStr (str "dog")]. split; [reflexivity|]. eexists _, _, _. split; [reflexivity|]. split; [reflexivity|]. split; [left; reflexivity | reflexivity].
    + exists 5, [LStr (str "cat")]. split; [reflexivity|]. eexists _, _, _. split; [reflexivity|]. split; [reflexivity|]. split; [left; reflexivity | reflexivity].
  - apply C09_settled; [exact zoo_canonical | exact zoo_guarded | exact zoo_calm | exact zoo_shuffles | exact R |].
    intros ts1 w ts2 u Q Iu.
    destruct ts1 as [|? [|? [|? [|? [|? [|? ts1]]]]]]; cbn [app] in Q; injection Q as; subst; cbn [In] in Iu; cases_in Iu; subst;
      try (left; apply small_free; cbn; auto 10; fail).
    + right. left. intros jk A. inversion A; subst. apply rf_list. discriminate.
    + destruct ts1; discriminate.
Qed.

Example C09_witness_tuple : ready Zoo 0 T0 /\ order_free Zoo false 0 T0.
Proof.
  split; [prove_ready|]. split.
  - intros m' op ts H U. pose proof (zoo_module _ _ _ _ H eq_refl) as ->.
    assert (R : ready Zoo 0 T0) by prove_ready.
    apply (ready_reach Zoo zoo_canonical zoo_guarded _ _ _ _ H) in R. apply (ready_union Zoo zoo_guarded) in R.
    apply zoo_met in H; [|left; reflexivity]. apply (zoo_module_any 0 op ts); [|exact R|reflexivity|exact U].
    unfold met in H. cbn [In] in H. cases_in H; try discriminate H; injection H as <- <-; cbn; auto.
  - intros m' c cl h j j' v _. apply hook_zoo.
Qed.

Definition json_met : list typ := [TRef (str "Json"); JsonAlias; tnone; TScalar KBool; tint; tstr; TList (TRef (str "Json")); TDict tstr (TRef (str "Json"))].

Lemma zoo_json : forall m t m' u, reach Zoo m t m' u -> In t json_met -> In u json_met.
Proof.
  assert (X : forall m t m' u, reach Zoo m t m' u -> (fun (_ : nat) t => In t json_met) m t -> (fun (_ : nat) t => In t json_met) m' u); [|exact X].
  apply reach_kept; cbn beta; unfold json_met.
  - intros m t I. cbn [In] in I. cases_in I; try discriminate I; injection I as <-; cbn; auto 10.
  - intros m t I. cbn [In] in I. cases_in I; discriminate I.
  - intros m k t I. cbn [In] in I. cases_in I; try discriminate I; injection I as <- <-; cbn; auto 10.
  - intros m ts t I. cbn [In] in I. cases_in I; discriminate I.
  - intros m op ts t I J. cbn [In] in I. cases_in I; try discriminate I; injection I as <- <-; cbn [In] in J; cases_in J; subst t; cbn; auto 10.
  - intros m ls l I. cbn [In] in I. cases_in I; discriminate I.
  - intros m t md I. cbn [In] in I. cases_in I; discriminate I.
  - intros m s a t I L. cbn [In] in I. cases_in I; try discriminate I. injection I as <-.
    destruct m as [|m]; [|discriminate L]. vm_compute in L. injection L as <- <-. right. left. reflexivity.
  - intros m c cl hs x t w I. cbn [In] in I. cases_in I; discriminate I.
Qed.

Example C09_witness_json : ready Zoo 0 (TRef (str "Json")) /\ order_free Zoo false 0 (TRef (str "Json")).
Proof.
  assert (R0 : ready Zoo 0 (TRef (str "Json"))).
  { split; [|eexists; vm_compute; reflexivity]. split; [|exact I]. apply g_ref. intros a t L. apply zoo_refs in L.
    destruct L as [->|[->|[_ ->]]]; prove_guarded. }
  split; [exact R0|]. split.
  - intros m' op ts H U. pose proof (zoo_module _ _ _ _ H eq_refl) as ->.
    pose proof R0 as R. apply (ready_reach Zoo zoo_canonical zoo_guarded _ _ _ _ H) in R. apply (ready_union Zoo zoo_guarded) in R.
    apply zoo_json in H; [|left; reflexivity]. apply (zoo_module_any 0 op ts); [|exact R|reflexivity|exact U].
    unfold json_met in H. cbn [In] in H. cases_in H; try discriminate H. injection H as <- <-. cbn. auto.
  - intros m' c cl h j j' v _. apply hook_zoo.
Qed.

(** A document for each, and another order of its properties. *)
Definition doc4 : json := JArr [JObj [(str "red", JInt 1); (str "green", JObj [(str "x", JInt 2); (str "y", JInt 3)])];
  JArr [JObj [(str "kind", jstr "dog"); (str "age", JInt 3)]]; jstr "1.0"].
Definition doc4' : json := JArr [JObj [(str "green", JObj [(str "y", JInt 3); (str "x", JInt 2)]); (str "red", JInt 1)];
  JArr [JObj [(str "age", JInt 3); (str "kind", jstr "dog")]]; jstr "1.0"].

Example C09_witness_documents : json_wf doc4 /\ jperm doc4 doc4' /\ doc4 <> doc4' /\
  (exists v v', json_to_object Zoo false 0 T0 doc4 = Ok v /\ json_to_object Zoo false 0 T0 doc4' = Ok v' /\ vperm v v' /\ v <> v') /\
  exists v, json_to_object Zoo false 0 (TRef (str "Json")) doc4 = Ok v.
Proof.
  assert (W : json_wf doc4).
  { unfold doc4. repeat match goal with
    | |- json_wf (JObj _) => apply wf_obj; [nodup|]
    | |- json_wf (jstr _) => unfold jstr
    | |- json_wf (snd _) => cbn [snd]
    | |- json_wf _ => constructor
    | |- Forall _ _ => constructor
    end. }
  assert (P : jperm doc4 doc4').
  { apply jp_arr. constructor; [|constructor; [|constructor; [apply jp_same | constructor]]].
    - eapply jp_obj; [|apply perm_swap]. constructor; [split; [reflexivity | apply jp_same]|]. constructor; [|constructor]. split; [reflexivity|].
      eapply jp_obj; [|apply perm_swap]. constructor; [split; [reflexivity | apply jp_same]|]. constructor; [split; [reflexivity | apply jp_same] | constructor].
    - apply jp_arr. constructor; [|constructor].
      eapply jp_obj; [|apply perm_swap]. constructor; [split; [reflexivity | apply jp_same]|]. constructor; [split; [reflexivity | apply jp_same] | constructor]. }
  split; [exact W|]. split; [exact P|]. split; [discriminate|]. split.
  - destruct (json_to_object Zoo false 0 T0 doc4) as [v|] eqn:J; [|vm_compute in J; discriminate J].
    destruct C09_witness_tuple as [R O].
    destruct (C09_permuted Zoo false 0 T0 doc4 doc4' v zoo_canonical zoo_guarded zoo_calm R O W P J) as (v' & J' & V).
    exists v, v'. split; [reflexivity|]. split; [exact J'|]. split; [exact V|].
    vm_compute in J, J'. injection J as <-. injection J' as <-. discriminate.
  - eexists. vm_compute. reflexivity.
Qed.

(** Union[dict[str, int], dict[str, str]]: dictionaries of integers are rejected
    with JsonTypeError only. *)
Example C09_witness_gentle : gentle Zoo false 0 (TDict tstr tint) /\ settled Zoo false 0 [TDict tstr tint; TDict tstr tstr].
Proof.
  assert (R : ready Zoo 0 (TDict tstr tint)) by prove_ready.
  assert (G : gentle Zoo false 0 (TDict tstr tint)).
  { intros j e. rewrite (jto_dict Zoo zoo_guarded zoo_calm false 0 _ _ j R). destruct j as [| | | | | |o]; intros H; try (injection H as <-; right; reflexivity).
    apply bind_err in H. destruct H as [H|(kvs & _ & H)]; [|discriminate].
    induction o as [|[s x] o IH]; [discriminate|]. cbn [mapM bind parse_key tstr] in H.
    rewrite jto_int in H. destruct x; cbn [bind] in H; try (injection H as <-; right; reflexivity);
      (destruct (mapM _ o); [discriminate | apply IH; exact H]). }
  split; [exact G|].
  apply C09_settled; [exact zoo_canonical | exact zoo_guarded | exact zoo_calm | exact zoo_shuffles | |].
  - constructor; [exact R|]. constructor; [prove_ready | constructor].
  - intros ts1 w ts2 u Q Iu. destruct ts1 as [|? [|? ts1]]; cbn [app] in Q; injection Q as; subst.
    + right. right. split; [exact G|]. split.
      * intros m' op ts H. inversion H as [| | |? ? ? ? H'| | | | | |]; subst. inversion H'.
      * intros m' c cl h j j' v H. inversion H as [| | |? ? ? ? H'| | | | | |]; subst. inversion H'.
    + destruct Iu.
    + destruct ts1; discriminate.
Qed.
