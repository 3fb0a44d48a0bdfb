(** The keywords of schemas that are made into types. *)
From Coq Require Import String List NArith ZArith Bool Lia.
From Verif Require Import Base Json PyTypes TypeAlgebra Mapping Deser ClassDef Lists TypingFacts SpecTypes SpecRecursion SpecClassDef Flatten TypeDef SpecTypeDef
  TypeDefNodes TypeDefEnv TypeDefParts TypeDefGrow TypeDefProofs SpecTypeShape TypeDefShape SpecMirror.
Import ListNotations.
Open Scope list_scope.
Open Scope nat_scope.

Ltac in_list := cbn; repeat (first [left; reflexivity | right]).

Lemma only_subset : forall kws ks ks', (forall k x, In (k, x) kws -> In k ks) -> (forall k, In k ks -> In k (map (fun k => str k) ks')) -> only (JObj kws) ks'.
Proof. intros kws ks ks' H I. exists kws. split; [reflexivity|]. intros k x J. apply I. exact (H _ _ J). Qed.

Lemma parsed_spoken : forall c kws v, c < 9 -> parsed c kws v -> spoken (JObj kws).
Proof.
  intros c kws v L P. pose proof (parsed_view _ _ _ L P) as V. destruct P as (attrs & Q & _ & K).
  destruct V as [attrs' r Q' D G|attrs' Q' T A|attrs' Q' T A|attrs' Q' T A|attrs' Q' T A AF AN|attrs' j w Q' T D G R|c' attrs' Q' C T AP AA AR|attrs' ss vs Q' D G R];
    rewrite Q in Q'; injection Q' as Q' _; subst c.
  - right. left. exists (JStr r). split; [apply get_has; exact D|]. eapply only_subset; [exact K|]. cbn. tauto.
  - left. exists "boolean"%string. eexists. split; [in_list|]. split; [apply get_has; exact T|]. eapply only_subset; [exact K|]. cbn. tauto.
  - left. exists "integer"%string. eexists. split; [in_list|]. split; [apply get_has; exact T|]. eapply only_subset; [exact K|]. cbn. tauto.
  - left. exists "number"%string. eexists. split; [in_list|]. split; [apply get_has; exact T|]. eapply only_subset; [exact K|]. cbn. tauto.
  - left. exists "string"%string. eexists. split; [in_list|]. split; [apply get_has; exact T|]. eapply only_subset; [exact K|]. cbn. tauto.
  - left. exists "array"%string. eexists. split; [in_list|]. split; [apply get_has; exact T|]. eapply only_subset; [exact K|]. cbn. tauto.
  - left. exists "object"%string. eexists. split; [in_list|]. split; [apply get_has; exact T|].
    destruct C as [->| ->]; eapply only_subset; try exact K; cbn; tauto.
  - right. right. exists (JArr ss). split; [apply get_has; exact D|]. eapply only_subset; [exact K|]. cbn. tauto.
Qed.

Lemma pnd_inside : forall s p, inside s p -> json_wf s -> forall v, pnd s v -> exists v', pnd p v'.
Proof.
  intros s p H. induction H as [s|s ps x q p H I H' IH|s q p H H' IH|s ss q p H I H' IH]; intros W v (c & kws & L & -> & P); [exists v, c, kws; auto|..];
    apply wf_has in H as D; try exact W; pose proof (parsed_view _ _ _ L P) as V; destruct P as (attrs & Q & _ & K);
    pose proof (dict_get_in _ _ _ D) as ID; pose proof (K _ _ ID) as KD; pose proof (wf_value _ _ _ W ID) as WD;
    (destruct V as [attrs' r Q' X G|attrs' Q' T A|attrs' Q' T A|attrs' Q' T A|attrs' Q' T A AF AN|attrs' j w Q' T X G R|c' attrs' Q' C T AP AA AR|attrs' ss' vs Q' X G R];
      rewrite Q in Q'; injection Q' as Q' _; subst c; try destruct C as [->| ->];
      try (exfalso; cbn in KD; repeat (destruct KD as [KD|KD]; [discriminate KD|]); exact KD)).
  - destruct AP as (w & _ & [[[X|X] _]|(j & X & _ & R)]); try congruence. assert (j = JObj ps) by congruence. subst j.
    apply read_dict in R. destruct R as (ps' & vs & Q' & _ & PR). injection Q' as <-. destruct (Forall2_in_l _ _ _ _ _ _ PR I) as ([y w'] & _ & _ & R').
    eapply IH; [eapply wf_value; eassumption | apply union_pnd; exact R'].
  - destruct AP as (w & _ & [[[X|X] _]|(j & X & _ & R)]); try congruence. assert (j = JObj ps) by congruence. subst j.
    apply read_dict in R. destruct R as (ps' & vs & Q' & _ & PR). injection Q' as <-. destruct (Forall2_in_l _ _ _ _ _ _ PR I) as ([y w'] & _ & _ & R').
    eapply IH; [eapply wf_value; eassumption | apply union_pnd; exact R'].
  - assert (j = q) by congruence. subst j. eapply IH; [exact WD | apply union_pnd; exact R].
  - assert (ss' = ss) by congruence. subst ss'. destruct (Forall2_in_l _ _ _ _ _ _ R I) as (w' & _ & R').
    eapply IH; [eapply wf_element; eassumption | apply union_pnd; exact R'].
Qed.

(** Every part of the schema is understood. *)
Theorem parts_spoken : forall U E m name doc E' t, schema_to_type U E m name doc = Ok (E', t) -> json_wf doc -> forall s, part doc s -> spoken s.
Proof.
  intros U E m name doc E' t H W s P. unfold schema_to_type in H. apply bind_ok in H. destruct H as (top & R & H).
  assert (X : exists v, pnd s v).
  { destruct P as [I|(x & d & D & I)]; [eapply pnd_inside; [exact I | exact W | apply top_pnd; exact R]|].
    destruct (top_definitions _ _ R W) as (dss & vs & GD & PR & DF & ND). pose proof (proj1 (DF _ _) D) as J.
    destruct (Forall2_in_l _ _ _ _ _ _ PR J) as ([y w] & _ & _ & R'). eapply pnd_inside; [exact I | | apply union_pnd; exact R'].
    destruct D as (ds & (kws & -> & Id) & Jd). eapply wf_value; [eapply wf_value; [exact W | exact Id] | exact Jd]. }
  destruct X as (v & c & kws & L & -> & P'). eapply parsed_spoken; eassumption.
Qed.
