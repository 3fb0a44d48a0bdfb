(** C56: json_to_object, json_to_generic and the module in which types are
    looked up. *)
From Coq Require Import String List NArith ZArith Bool.
From Verif Require Import Base Json PyTypes Deser Ser SpecContext Context ContextProofs Samples.
Import ListNotations.
Open Scope list_scope.
Open Scope nat_scope.

(** C56.  With a context, or for a type without texts, json_to_object and
    json_to_generic have the same outcome, wherever they are called from. *)
Theorem C56_equivalent :
  forall E skip own caller caller' context t j,
  context <> None \/ (forall s, ~ mentions s t) ->
  Context.json_to_object E skip own caller context t j = json_to_generic E skip caller' context t j.
Proof.
  intros E skip own caller caller' [m|] t j H; [reflexivity|].
  destruct H as [H|H]; [destruct (H eq_refl)|]. exact (object_textless E skip own caller' t j H).
Qed.
Print Assumptions C56_equivalent.

(** C56.  For a type without texts the context is of no importance. *)
Theorem C56_context_unused :
  forall E skip caller context context' t j, (forall s, ~ mentions s t) ->
  json_to_generic E skip caller context t j = json_to_generic E skip caller context' t j.
Proof. intros E skip caller context context' t j H. exact (object_textless E skip _ _ t j H). Qed.
Print Assumptions C56_context_unused.

(** C56.  The same holds of serializers. *)
Theorem C56_serializer_context :
  forall E context context' t, (forall s, ~ mentions s t) ->
  create_serializer E context t = create_serializer E context' t.
Proof. intros E context context' t H. exact (mkser_textless E _ t context context' H). Qed.
Print Assumptions C56_serializer_context.

(** C56.  Without a context, json_to_object fails on every type with texts none
    of which are names in strong_typing.serialization, whatever the document. *)
Theorem C56_texts_fail :
  forall E skip own caller t j s, mentions s t ->
  (forall s', mentions s' t -> lookup E own s' = None) ->
  exists e, Context.json_to_object E skip own caller None t j = Err e.
Proof. intros E skip own caller t j s M U. exact (object_unknown E skip own t j s M U). Qed.
Print Assumptions C56_texts_fail.

(** C56.  Hence "equivalent to json_to_object" is false of types with texts:
    module 0 is the caller's and module 1 strong_typing.serialization. *)
Theorem C56_equivalent_refuted :
  exists E t j v, json_to_generic E false 0 None t j = Ok v /\
    Context.json_to_object E false 1 0 None t j = Err EName /\
    Context.json_to_object E false 1 0 (Some 0) t j = Ok v.
Proof.
  exists Zoo, (TList (TRef (str "Optional[Pair]"))), (JArr [JNull]), (VList [VNone]).
  repeat split; vm_compute; reflexivity.
Qed.
Print Assumptions C56_equivalent_refuted.

(** Types with and without texts. *)
Example C56_witness_textless : forall s, ~ mentions s (TDict (TScalar KStr) (TUnion false [TClass 2; tnone])).
Proof.
  intros s M. inversion M as [ | | |k u K|k u V| | | ]; subst; [inversion K|].
  inversion V as [ | | | | | |op ts u I U| ]; subst. destruct I as [<-|[<-|[]]]; inversion U.
Qed.

Example C56_witness_outcome :
  json_to_generic Zoo false 0 None (TDict (TScalar KStr) (TUnion false [TClass 2; tnone]))
    (JObj [(str "a", JNull)]) = Ok (VDict [(VStr (str "a"), VNone)]).
Proof. vm_compute. reflexivity. Qed.

Example C56_witness_texts : mentions (str "Node") (TList (TRef (str "Node"))) /\
  (forall s, mentions s (TList (TRef (str "Node"))) -> lookup Zoo 1 s = None) /\
  lookup Zoo 0 (str "Node") = Some (true, TClass 2).
Proof.
  split; [repeat constructor|]. split; [|reflexivity].
  intros s M. inversion M; subst. inversion H0; subst. reflexivity.
Qed.
