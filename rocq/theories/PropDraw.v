(** C50: the types for which a schema can be generated. *)
From Coq Require Import String List NArith ZArith Bool Lia.
From Verif Require Import Base Json PyTypes Deser Ser Samples Catalog Schema SpecTypes SpecTyping SpecFields SpecTagged SpecGenerate SpecValid SpecDraw DrawProofs PropSchema.
Import ListNotations.
Open Scope list_scope.
Open Scope nat_scope.

(** C50.  [type_to_schema] comes to an end with a schema exactly if one can be
    drawn up for the type, whatever names were recorded before. *)
Theorem C50_type : forall E S f t u,
  (exists n d u', type_to_schema E S n f t u = Ok (d, u')) <-> exists R, draw E S f t R.
Proof. exact schema_exists. Qed.
Print Assumptions C50_type.

(** C50.  The document can be generated if the schema of the type can be drawn up,
    and what it refers to by name can be defined, with what that refers to in
    turn.  Once the budget suffices, it makes no difference. *)
Theorem C50_document : forall E S t R G, t <> TForm -> draw E S false t R -> incl R G -> definable E S G ->
  exists doc n k, forall n' k', n <= n' -> k <= k' -> classdef_to_schema E S n' k' t = Ok doc.
Proof. exact document_exists. Qed.
Print Assumptions C50_document.

(** C50.  Conversely, every document is that of a type that can be drawn up, and
    for each of the names there is a type that can be defined. *)
Theorem C50_needed : forall E S n k t doc, classdef_to_schema E S n k t = Ok doc ->
  exists R G, draw E S false t R /\ incl (map fst R) (map fst G) /\
    forall s w, In (s, w) G -> exists R', define E S w R' /\ incl (map fst R') (map fst G).
Proof. exact document_needs. Qed.
Print Assumptions C50_needed.

(** C50.  The outcome does not depend on the budget. *)
Theorem C50_unique : forall E S n k n' k' t doc doc', classdef_to_schema E S n k t = Ok doc -> classdef_to_schema E S n' k' t = Ok doc' -> doc = doc'.
Proof.
  intros E S n k n' k' t doc doc' H H'. apply (classdef_mono _ _ _ (n + n') _ (k + k')) in H; [|lia|lia].
  apply (classdef_mono _ _ _ (n + n') _ (k + k')) in H'; [|lia|lia]. congruence.
Qed.
Print Assumptions C50_unique.

(** The classes of the sample program, some of them registered: dict[str, Node],
    where Node is recursive, list[Point] and tuple[Pair, Dog | Cat | None]. *)
Ltac unregistered := right; intros e [G _]; discriminate G.
Ltac not_plain := let k := fresh in let Q := fresh in intros (k & Q & _); discriminate Q.
Ltac is_plain := eexists; split; [reflexivity | reflexivity].
Ltac is_shown := apply shown_iff; vm_compute; reflexivity.
Ltac written := let v := fresh in let Q := fresh in let X := fresh in intros v Q X; vm_compute in Q; try discriminate Q; injection Q as <-; cbn in X; try contradiction; eexists; vm_compute; reflexivity.

Definition sample_names : list (pystr * typ) := [(str "Node", TClass 2); (str "Pair", TClass 3)].

Example C50_witness : exists R, draw Zoo registered_zoo false (TTuple [TDict tstr (TClass 2); TClass 3; TUnion false [TClass 4; TClass 5; tnone]]) R /\
  incl R sample_names /\ definable Zoo registered_zoo sample_names.
Proof.
  eexists. split; [|split].
  - apply dr_in_place; [not_plain | exact (fun X => X) | unregistered |]. apply sl_tuple. eapply da_cons; [|eapply da_cons; [|eapply da_cons; [|apply da_nil]]].
    + apply dr_in_place; [not_plain | exact (fun X => X) | unregistered |]. apply sl_dict; [left; reflexivity|].
      apply dr_registered with (e := entry_for (str "Node")); [not_plain|]. split; [reflexivity | discriminate].
    + apply dr_registered with (e := entry_for (str "Pair")); [not_plain|]. split; [reflexivity | discriminate].
    + apply dr_in_place; [not_plain | exact (fun X => X) | unregistered |]. apply sl_union; [left; cbn; lia|].
      eapply da_cons; [|eapply da_cons; [|eapply da_cons; [|apply da_nil]]].
      * apply dr_in_place; [not_plain | exact (fun X => X) | unregistered |].
        eapply sl_class; [reflexivity | discriminate | reflexivity |].
        eapply df_cons; [is_shown | | intros v Q; discriminate Q | eapply df_cons; [is_shown | | intros v Q; discriminate Q | apply df_nil]].
        -- apply dr_in_place; [not_plain | exact (fun X => X) | unregistered |]. eapply sl_literal. reflexivity.
        -- apply dr_plain. is_plain.
      * apply dr_in_place; [not_plain | exact (fun X => X) | unregistered |].
        eapply sl_class; [reflexivity | discriminate | reflexivity |].
        eapply df_cons; [is_shown | | intros v Q; discriminate Q | eapply df_cons; [is_shown | | intros v Q; discriminate Q | apply df_nil]].
        -- apply dr_in_place; [not_plain | exact (fun X => X) | unregistered |]. eapply sl_literal. reflexivity.
        -- apply dr_in_place; [not_plain | exact (fun X => X) | unregistered |]. apply sl_dict; [left; reflexivity|]. apply dr_plain. is_plain.
      * apply dr_plain. is_plain.
  - intros x I. cbn in I. unfold sample_names. cbn [In]. tauto.
  - intros s t [Q|[Q|[]]]; injection Q as <- <-.
    + exists ([] ++ [] ++ []). split; [|intros x []].
      apply de_drawn with (e := entry_for (str "Node")); [split; [reflexivity | discriminate] | reflexivity |].
      apply dr_in_place; [not_plain | exact (fun X => X) | left; reflexivity |].
      eapply sl_class; [reflexivity | discriminate | reflexivity |].
      eapply df_cons; [is_shown | | intros v Q; discriminate Q | eapply df_cons; [is_shown | | intros v Q; discriminate Q | apply df_nil]].
      * apply dr_annot_plain; [is_plain | unregistered].
      * apply dr_in_place; [not_plain | exact (fun X => X) | unregistered |]. apply sl_list.
        apply dr_in_place; [not_plain | exact (fun X => X) | right; intros e [_ G]; discriminate (G _ eq_refl) |].
        apply sl_text_unknown. reflexivity.
    + exists ([] ++ [] ++ []). split; [|intros x []].
      apply de_drawn with (e := entry_for (str "Pair")); [split; [reflexivity | discriminate] | reflexivity |].
      apply dr_in_place; [not_plain | exact (fun X => X) | left; reflexivity |].
      eapply sl_class; [reflexivity | discriminate | reflexivity |].
      eapply df_cons; [is_shown | | intros v Q; discriminate Q | eapply df_cons; [is_shown | | intros v Q; discriminate Q | apply df_nil]].
      * apply dr_in_place; [not_plain | exact (fun X => X) | unregistered |]. eapply sl_enum; [reflexivity | reflexivity |].
        apply ot_str; [discriminate|]. intros j [<-|[<-|[]]]; eexists; reflexivity.
      * apply dr_in_place; [not_plain | exact (fun X => X) | unregistered |]. apply sl_set. apply dr_plain. is_plain.
Qed.

(** A class with default values, in place. *)
Example C50_defaults_witness : exists R, draw Zoo registered_zoo true (TClass 1) R.
Proof.
  eexists. apply dr_in_place; [not_plain | exact (fun X => X) | left; reflexivity |].
  eapply sl_class; [reflexivity | discriminate | reflexivity |].
  eapply df_cons; [is_shown | | written | eapply df_cons; [is_shown | | written | eapply df_cons; [is_shown | | written | apply df_nil]]];
    apply dr_plain; is_plain.
Qed.

(** C50.  Not all types that can be serialized and deserialized have a schema:
    [list[Optional[int]]], ... *)
Theorem C50_optional_refuted : exists E S t v j, object_to_json E v = Ok j /\ json_to_object E false 0 t j = Ok v /\
  forall n k doc, classdef_to_schema E S n k t <> Ok doc.
Proof.
  exists Zoo, registered_zoo, (TList (TUnion false [tint; tnone])), (VList [VInt 1; VNone]), (JArr [JInt 1; JNull]).
  split; [vm_compute; reflexivity | split; [vm_compute; reflexivity|]].
  - intros n k doc H. destruct (document_needs _ _ _ _ _ _ H) as (R & G & D & _). inversion D; subst.
    + destruct H0 as (? & Q & _). discriminate Q.
    + destruct H1 as [Q _]. discriminate Q.
    + inversion H3; subst. inversion H6; subst.
      * destruct H4 as (? & Q & _). discriminate Q.
      * destruct H5 as [Q _]. discriminate Q.
      * inversion H8; subst. match goal with U : proper_union _ |- _ => destruct U as [L|L]; [cbn in L; lia | apply L; right; left; reflexivity] end.
Qed.
Print Assumptions C50_optional_refuted.

(** ... literals of several values, ... *)
Theorem C50_literal_refuted : exists E S t v j, object_to_json E v = Ok j /\ json_to_object E false 0 t j = Ok v /\
  forall n k doc, classdef_to_schema E S n k t <> Ok doc.
Proof.
  exists Zoo, registered_zoo, (TLiteral [LStr (str "a"); LStr (str "b")]), (vstr "b"), (jstr "b").
  split; [vm_compute; reflexivity | split; [vm_compute; reflexivity|]].
  - intros n k doc H. destruct (document_needs _ _ _ _ _ _ H) as (R & G & D & _). inversion D; subst.
    + destruct H0 as (? & Q & _). discriminate Q.
    + destruct H1 as [Q _]. discriminate Q.
    + inversion H3.
Qed.
Print Assumptions C50_literal_refuted.

(** ... and recursive classes that are not registered:
    class Chain: next: "Optional[Chain]" *)
Definition Chain := mkClass 0 (str "Chain") (CPlain [(str "next", TRef (str "Optional[Chain]"))]) None None.
Definition Links : env := mkEnv [Chain] [(0, str "Optional[Chain]", (false, TUnion false [TClass 0; tnone]))] (fun ps => ps).

Lemma chain_endless : forall n u, type_to_schema Links (Gen [] false) n false (TClass 0) u = Err ERecursion.
Proof.
  induction n as [|n IH]; intros u; [reflexivity|].
  change (type_to_schema Links (Gen [] false) (S n) false (TClass 0) u) with (expand Links (Gen [] false) (type_to_schema Links (Gen [] false) n) false (TClass 0) u).
  revert IH. generalize (type_to_schema Links (Gen [] false) n). intros rec IH.
  assert (C : class_properties Links Chain = Ok [(str "next", TUnion false [TClass 0; tnone])]) by (vm_compute; reflexivity).
  unfold expand. change (get_class Links 0) with (Some Chain). cbv iota. cbn [c_kind Chain]. rewrite C. cbn [bind].
  cbn [properties_schema]. change (is_type_optional (TUnion false [TClass 0; tnone])) with true. cbv iota.
  change (unwrap_optional (TUnion false [TClass 0; tnone])) with (Ok (TClass 0)). cbn [bind]. rewrite IH. reflexivity.
Qed.

Theorem C50_recursive_refuted : exists E S t v j, object_to_json E v = Ok j /\ json_to_object E false 0 t j = Ok v /\
  forall n k doc, classdef_to_schema E S n k t <> Ok doc.
Proof.
  exists Links, (Gen [] false), (TClass 0), (VObj 0 [(str "next", VObj 0 [(str "next", VNone)])]), (JObj [(str "next", JObj [])]).
  split; [vm_compute; reflexivity | split; [vm_compute; reflexivity|]].
  intros n k doc H. destruct (document_needs _ _ _ _ _ _ H) as (R & G & D & _).
  destruct (proj2 (schema_exists Links (Gen [] false) false (TClass 0) [])) as (m & d & u & Q); [exists R; exact D|].
  rewrite chain_endless in Q. discriminate Q.
Qed.
Print Assumptions C50_recursive_refuted.
