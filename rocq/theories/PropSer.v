(** C14: what is written for the instance of a class. *)
From Coq Require Import String List NArith ZArith Bool Lia Permutation.
From Verif Require Import Base Json PyTypes Mapping Deser Ser Lists SpecTyping TypingFacts SpecRecursion SpecDeser
  SpecTypes SpecFields FieldProofs SpecSer SerFacts RoundTrip Samples PropFields.
Import ListNotations.
Open Scope list_scope.
Open Scope nat_scope.

(** C14.  The document written for a value is its image: the specification of
    what is written, for values of all kinds. *)
Theorem C14_image : forall E v j, env_ok E -> conforms E v -> object_to_json E v = Ok j -> image E v j.
Proof. intros E v j OK. exact (object_to_json_image E OK v j). Qed.
Print Assumptions C14_image.

(** Different fields have different JSON names. *)
Definition names_apart (fs : list (pystr * typ)) : Prop :=
  forall x t y u p, In (x, t) fs -> In (y, u) fs -> prop_name x t p -> prop_name y u p -> x = y.

Lemma object_properties : forall E c cl attrs fs j, env_ok E -> get_class E c = Some cl -> c_to_json cl = None ->
  annotated cl -> class_properties E cl = Ok fs -> names_apart fs -> conforms E (VObj c attrs) ->
  object_to_json E (VObj c attrs) = Ok j ->
  exists l ps, j = JObj ps /\ NoDup (map fst ps) /\ present attrs fs l /\
    Forall2 (fun f p => prop_name (fst (fst f)) (snd (fst f)) (fst p) /\ image E (snd f) (snd p)) l ps.
Proof.
  intros E c cl attrs fs j OK G T A CP NA CF O. apply (object_to_json_image E OK _ _ CF) in O.
  destruct (image_fields E c cl attrs j G T A O) as (fs' & l & ps & o & -> & CP' & PR & PS & M).
  rewrite CP in CP'. injection CP' as <-.
  assert (ND : NoDup (map fst ps)).
  { apply (Forall2_fst_nodup _ _ _ _ _ (fun f => fst (fst f)) PS).
    - apply (present_names _ _ _ PR). rewrite (properties_names_raw E cl fs CP). exact (ok_names _ _ _ (OK _ _ G)).
    - intros [[x t] v] [[y u] w] p q I J [P _] [Q _] EQ. cbn [fst snd] in *. rewrite <- EQ in Q.
      apply (present_in _ _ _ _ _ _ PR) in I, J. apply (NA x t y u (fst p)); tauto. }
  apply merged_fun in M. rewrite (merged_distinct _ ND) in M. subst o. exists l, ps. auto.
Qed.

(** C14.  An instance of an annotated class is written with exactly one property
    for each field that is not None, in field order, named by [prop_name], and
    containing what is written for the value. *)
Theorem C14_properties : forall E c cl attrs fs j, env_ok E -> get_class E c = Some cl -> c_to_json cl = None ->
  annotated cl -> class_properties E cl = Ok fs -> names_apart fs -> conforms E (VObj c attrs) ->
  object_to_json E (VObj c attrs) = Ok j ->
  exists l ps, j = JObj ps /\ NoDup (map fst ps) /\ present attrs fs l /\
    Forall2 (fun f p => prop_name (fst (fst f)) (snd (fst f)) (fst p) /\ image E (snd f) (snd p)) l ps.
Proof. exact object_properties. Qed.
Print Assumptions C14_properties.

(** C14.  A field that is None is not written; one that is not None is written,
    once. *)
Theorem C14_omission : forall E c cl attrs fs o x t p v, env_ok E -> get_class E c = Some cl -> c_to_json cl = None ->
  annotated cl -> class_properties E cl = Ok fs -> names_apart fs -> conforms E (VObj c attrs) ->
  object_to_json E (VObj c attrs) = Ok (JObj o) ->
  In (x, t) fs -> prop_name x t p -> dict_get attrs x = Some v ->
  (v = VNone -> ~ In p (map fst o)) /\
  (v <> VNone -> exists i o1 o2, o = o1 ++ (p, i) :: o2 /\ image E v i /\ ~ In p (map fst o1) /\ ~ In p (map fst o2)).
Proof.
  intros E c cl attrs fs o x t p v OK G T A CP NA CF O I P D.
  destruct (object_properties E c cl attrs fs _ OK G T A CP NA CF O) as (l & ps & Q & ND & PR & PS). injection Q as ->.
  split.
  - intros -> J. apply in_map_iff in J. destruct J as ([q i] & Q & J). cbn [fst] in Q. subst q.
    destruct (Forall2_in_r _ _ _ _ _ _ PS J) as ([[y u] w] & Il & PQ & _). cbn [fst snd] in *.
    apply (present_in _ _ _ _ _ _ PR) in Il. destruct Il as (If & Dw & N).
    assert (x = y) by (eapply (NA x t y u p); eassumption). subst y. congruence.
  - intros N. pose proof (present_has _ _ _ _ _ _ PR I D N) as Il.
    destruct (Forall2_in_l _ _ _ _ _ _ PS Il) as ([q i] & J & PQ & IM). cbn [fst snd] in *.
    assert (q = p) by (eapply prop_name_fun; eassumption). subst q.
    apply in_split in J. destruct J as (o1 & o2 & ->). exists i, o1, o2. split; [reflexivity|]. split; [exact IM|].
    rewrite map_app in ND. cbn [map fst] in ND. apply NoDup_remove_2 in ND.
    split; intros X; apply ND; apply in_or_app; [left | right]; exact X.
Qed.
Print Assumptions C14_omission.

(** * Witnesses *)

(** An instance of a data class, with None, a keyword name, and a default. *)
Definition p0 : value := VObj 1 [(str "x", VInt 3); (str "y", VNone); (str "class_", vstr "q")].

Example C14_witness :
  env_ok Zoo /\ get_class Zoo 1 = Some Point /\ c_to_json Point = None /\ annotated Point /\
  (exists fs, class_properties Zoo Point = Ok fs /\ names_apart fs) /\ conforms Zoo p0 /\
  object_to_json Zoo p0 = Ok (JObj [(str "x", JInt 3); (str "class", jstr "q")]).
Proof.
  split; [exact zoo_ok|]. split; [reflexivity|]. split; [reflexivity|]. split; [exact Logic.I|]. split; [|split].
  - eexists. split; [vm_compute; reflexivity|]. intros x t y u p I J P Q. cbn [In] in I, J.
    apply json_property_spec in P, Q.
    repeat (destruct I as [I|I]; [|]); try contradiction; repeat (destruct J as [J|J]; [|]); try contradiction;
      apply pair_equal_spec in I, J; destruct I as [<- <-]; destruct J as [<- <-]; try reflexivity; vm_compute in P, Q; congruence.
  - eapply cf_fields; [reflexivity | exact Logic.I | reflexivity | |].
    + cbn. constructor; [apply ht_scalar; exact Logic.I|]. constructor; [|constructor; [apply ht_scalar; exact Logic.I | constructor]].
      apply (ht_union _ _ _ _ tnone); [cbn; auto | apply ht_scalar; exact Logic.I].
    + repeat constructor.
  - vm_compute. reflexivity.
Qed.

(** * Names that collide *)

(** @dataclass class Col: a: Annotated[int, Alias("b")]; b: int *)
Definition Col := mkClass 0 (str "Col")
  (CData false [mkField (str "a") (TAnnot tint [AAlias (str "b")]) None; mkField (str "b") tint None]) None None.
Definition Collide : env := mkEnv [Col] [] (fun ps => ps).

(** With an alias that is the name of another field, one of two fields is lost. *)
Theorem C14_collision_refuted : exists E c cl attrs o, env_ok E /\ get_class E c = Some cl /\ c_to_json cl = None /\
  annotated cl /\ conforms E (VObj c attrs) /\ Forall (fun a => snd a <> VNone) attrs /\
  object_to_json E (VObj c attrs) = Ok (JObj o) /\ length o < length attrs.
Proof.
  exists Collide, 0, Col, [(str "a", VInt 1); (str "b", VInt 2)], [(str "b", JInt 2)].
  split.
  { intros c cl H. unfold get_class, Collide in H. cbn [e_classes] in H. destruct c as [|[|c]]; cbn [nth_error] in H; try discriminate.
    injection H as <-. split; cbn; try discriminate; try (nodup; fail).
    intros fr fs f v Q I D. injection Q as <- <-. destruct I as [<-|[<-|[]]]; discriminate. }
  split; [reflexivity|]. split; [reflexivity|]. split; [exact Logic.I|]. split.
  { eapply cf_fields; [reflexivity | exact Logic.I | reflexivity | |].
    - cbn. constructor; [apply ht_annot; apply ht_scalar; exact Logic.I|]. constructor; [apply ht_scalar; exact Logic.I | constructor].
    - repeat constructor. }
  split; [repeat constructor; discriminate|]. split; [vm_compute; reflexivity | cbn; lia].
Qed.
Print Assumptions C14_collision_refuted.
