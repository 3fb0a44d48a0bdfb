(** C04: which exceptions deserialization raises. *)
From Coq Require Import String List NArith ZArith Bool.
From Verif Require Import Base Json PyTypes Deser SpecTyping SpecRecursion SpecErrors DeserErrors Samples.
Import ListNotations.
Open Scope list_scope.
Open Scope nat_scope.

(** C04.  Once the deserializer of a type can be built, json_to_object returns a
    value or raises JsonKeyError, JsonTypeError, JsonValueError, ValueError or
    OverflowError, provided that items of sets are hashable, hooks and default
    factories raise nothing else, and tags in the document are scalars. *)
Theorem C04_exception_discipline :
  forall E H skip m t j e vis, env_ok E -> polite E H -> guarded_env E ->
  (forall ps p, In p (e_order E ps) -> In p ps) ->
  every_part (guarded E m) t -> sets_ok E H m t ->
  create_deserializer E m t = Ok vis ->
  json_wf j -> scalar_tags E j ->
  json_to_object E skip m t j = Err e -> data_error e.
Proof. exact json_to_object_errors. Qed.
Print Assumptions C04_exception_discipline.

(** The hypotheses hold of the sample program. *)
Example C04_witness_polite : polite Zoo (fun c => c = 0 \/ c = 6).
Proof.
  split.
  - intros c cl [->| ->] H; injection H as <-; exact I.
  - intros c cl x t H J. zoo_class c H; cbn [raw_fields c_kind map f_name f_type In Color Point Node Pair Dog Cat Version Plain] in J;
      repeat (destruct J as [J|J]; [injection J as <- <-|]); try contradiction; cbn; repeat split; constructor.
  - intros m s a t L. apply zoo_refs in L. destruct L as [->|[->|[_ ->]]]; cbn; tauto.
  - intros c cl h j e H. zoo_class c H; cbn; try discriminate. intros Q. injection Q as <-.
    unfold data_error. destruct j; intros Q; try discriminate; injection Q as <-; tauto.
  - intros c cl fr fs f e H. zoo_class c H; cbn; try discriminate; intros Q; injection Q as <- <-; cbn [In];
      intros J; repeat destruct J as [<-|J]; try contradiction; discriminate.
  - intros c cl xs H. zoo_class c H; discriminate.
Qed.

Definition pets : typ := TUnion false [TClass 4; TClass 5].

Example C04_witness_type : every_part (guarded Zoo 0) pets /\ sets_ok Zoo (fun c => c = 0 \/ c = 6) 0 pets /\
  create_deserializer Zoo 0 pets = Ok [KeyClass 5; KeyClass 4].
Proof.
  split; [cbn; prove_guarded | split; [cbn; tauto | vm_compute; reflexivity]].
Qed.

Definition bad_pet : json := JObj [(str "kind", jstr "dog"); (str "age", jstr "three")].

Example C04_witness_document : json_wf bad_pet /\ scalar_tags Zoo bad_pet /\
  json_to_object Zoo false 0 pets bad_pet = Err EJsonType.
Proof.
  split; [repeat constructor; cbn; intuition discriminate | split; [|vm_compute; reflexivity]].
  intros o p x S J _. inversion S as [|? ? ? J' S'|? k y ? J' S']; subst.
  - destruct J as [Q|[Q|[]]]; injection Q as <- <-; exact I.
  - destruct J' as [Q|[Q|[]]]; injection Q as <- <-; inversion S'.
Qed.

(** Each exclusion is needed.  Items of sets must be hashable: set[list[int]]. *)
Theorem C04_unhashable_item_refuted :
  exists E skip m t j, env_ok E /\ guarded_env E /\ every_part (guarded E m) t /\
  (exists vis, create_deserializer E m t = Ok vis) /\ json_wf j /\
  json_to_object E skip m t j = Err EType.
Proof.
  exists Zoo, false, 0, (TSet (TList tint)), (JArr [JArr [JInt 1]]).
  split; [exact zoo_ok|]. split; [exact zoo_guarded|]. split; [cbn; prove_guarded|].
  split; [eexists; vm_compute; reflexivity|]. split; [repeat constructor | vm_compute; reflexivity].
Qed.
Print Assumptions C04_unhashable_item_refuted.

(** A tag that is an array or object raises TypeError. *)
Theorem C04_unhashable_tag_refuted :
  exists E skip m t j, env_ok E /\ guarded_env E /\ every_part (guarded E m) t /\
  (exists vis, create_deserializer E m t = Ok vis) /\ json_wf j /\
  json_to_object E skip m t j = Err EType.
Proof.
  exists Zoo, false, 0, pets, (JObj [(str "kind", JArr [])]).
  split; [exact zoo_ok|]. split; [exact zoo_guarded|]. split; [cbn; prove_guarded|].
  split; [eexists; vm_compute; reflexivity|].
  split; [repeat constructor; cbn; intuition discriminate | vm_compute; reflexivity].
Qed.
Print Assumptions C04_unhashable_tag_refuted.

(** Named tuples made by collections.namedtuple have no annotations, hence no
    arguments are passed to their constructor: TypeError on every document. *)
Definition RawEnv : env :=
  mkEnv [mkClass 0 (str "P") (CRawTuple [str "x"]) None None] [] (fun ps => ps).

Theorem C04_untyped_namedtuple_rejected :
  forall E c cl x xs o m, get_class E c = Some cl -> c_kind cl = CRawTuple (x :: xs) ->
  json_to_object E true m (TClass c) (JObj o) = Err EType.
Proof.
  intros E c cl x xs o m G K. unfold json_to_object.
  assert (X : field_parsers E cl = Ok []).
  { unfold field_parsers, hints. rewrite K. cbn [raw_fields mapM bind]. reflexivity. }
  unfold create_deserializer, build_fuel, level_bound. cbn [plus Nat.mul build].
  unfold parse_fuel, level_bound. cbn [plus Nat.mul parse]. rewrite G, K.
  cbn [existsb]. rewrite X. cbn [bind fold_build parse_object mapM]. rewrite K.
  destruct (c_from_json cl); reflexivity.
Qed.
Print Assumptions C04_untyped_namedtuple_rejected.

Example C04_witness_raw : json_to_object RawEnv true 0 (TClass 0) (JObj [(str "x", JInt 1)]) = Err EType.
Proof. exact (C04_untyped_namedtuple_rejected RawEnv 0 _ _ _ _ 0 eq_refl eq_refl). Qed.
