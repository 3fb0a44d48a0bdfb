(** What serialization produces has distinct property names, so it goes through
    text unchanged. *)
From Coq Require Import String List NArith ZArith Bool Lia Permutation.
From Verif Require Import Base Json PyTypes Mapping Deser Ser Lists SpecTyping SpecSer SerFacts SpecText.
Import ListNotations.
Open Scope list_scope.
Open Scope nat_scope.

Lemma merged_in : forall ps o k j, merged ps o -> In (k, j) o -> In (k, j) ps.
Proof.
  intros ps o k j H. induction H as [|ps o k' j' _ IH _|ps o1 k' i o2 j' _ IH _]; intros I; [contradiction|..].
  - apply in_app_iff in I. apply in_app_iff. destruct I as [I|I]; [left; apply IH; exact I|right; exact I].
  - apply in_app_iff. apply in_app_iff in I. destruct I as [I|[I|I]].
    + left. apply IH. apply in_app_iff. left. exact I.
    + right. left. exact I.
    + left. apply IH. apply in_app_iff. right. right. exact I.
Qed.

Lemma merged_wf : forall ps o, merged ps o -> (forall k j, In (k, j) ps -> json_wf j) -> json_wf (JObj o).
Proof.
  intros ps o H W. constructor; [apply (merged_keys _ _ H)|]. apply Forall_forall. intros [k j] I.
  apply (W k). eapply merged_in; eassumption.
Qed.

Lemma image_wf : forall E, tidy_classes E -> forall v j, image E v j -> json_wf j.
Proof.
  intros E TC.
  assert (SC : forall v j, scalar_image v j -> json_wf j) by (intros v j H; destruct H; constructor).
  assert (HK : forall v c cl h j, object_class v = Some c -> get_class E c = Some cl -> c_to_json cl = Some h -> h v = Ok j -> json_wf j).
  { intros v c cl h j _ G T Q. exact (proj1 (TC c cl G) h v j T Q). }
  assert (EN : forall c cl ms x j, get_class E c = Some cl -> c_kind cl = CEnum ms -> In (x, j) ms -> json_wf j).
  { intros c cl ms x j G K I. exact (proj2 (TC c cl G) ms x j K I). }
  assert (AR : forall vs js, Forall (fun v => forall j, image E v j -> json_wf j) vs -> Forall2 (image E) vs js -> json_wf (JArr js)).
  { intros vs js IH F. constructor. induction F as [|v j vs js H F IHF]; [constructor|]. inversion IH; subst.
    constructor; [eauto|apply IHF; assumption]. }
  apply (value_induct (fun v => forall j, image E v j -> json_wf j)).
  - intros v. destruct v; try exact Logic.I; intros j H; inversion H; subst; eauto.
  - intros vs IH j H. inversion H; subst; eauto.
  - intros vs IH j H. inversion H; subst; eauto.
  - intros vs IH j H. inversion H; subst; eauto.
  - intros kvs IH j H. inversion H as [| | | |kvs' ps o F MG| | | | |]; subst; eauto.
    apply (merged_wf _ _ MG). intros k j I. destruct (Forall2_in_r _ _ _ _ _ _ F I) as (kv & J & _ & Q).
    rewrite Forall_forall in IH. exact (proj2 (IH kv J) _ Q).
  - intros c attrs IH j H. rewrite Forall_forall in IH.
    assert (AT : forall x v j, dict_get attrs x = Some v -> image E v j -> json_wf j).
    { intros x v i D Q. apply dict_get_in in D. exact (IH (x, v) D _ Q). }
    inversion H as [| | | | | | |c' cl fs attrs' l ps o G T A CP PR F MG|c' cl xs attrs' ps o G T K F MG|c' cl attrs' l l' ps o G T K PM SO FI EX F MG];
      subst; eauto; apply (merged_wf _ _ MG); intros k j I; destruct (Forall2_in_r _ _ _ _ _ _ F I) as (f & J & _ & Q).
    + assert (D : exists x, dict_get attrs x = Some (snd f)).
      { clear - PR J. induction PR as [|x t fs l D PR IHP|x t fs v l D NN PR IHP]; [contradiction|exact (IHP J)|].
        destruct J as [<-|J]; [exists x; exact D|exact (IHP J)]. }
      destruct D as (x & D). exact (AT _ _ _ D Q).
    + destruct Q as (v & D & Q). exact (AT _ _ _ D Q).
    + apply FI in J. destruct J as [J _]. eapply IH; [eapply Permutation_in; [apply Permutation_sym; exact PM|exact J]|exact Q].
Qed.
