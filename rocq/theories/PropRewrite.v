(** C62: what reading a document and writing it again does to it. *)
From Coq Require Import String List NArith ZArith Bool Lia.
From Verif Require Import Base Json PyTypes Mapping Deser DeserSound Ser Lists SpecTyping TypingFacts SpecRecursion DeserUnfold SpecDeser SpecTypes SpecFields SpecTagged SpecSer SerFacts SpecRoundTrip RoundTrip
  SpecRewrite RewriteProofs Samples PropDeser PropFields PropSer PropRoundTrip.
Import ListNotations.
Open Scope list_scope.
Open Scope nat_scope.

(** C62.  A document that is read as [t] and written again is changed only as
    [rewritten] says. *)
Theorem C62_rewritten : forall E skip m t j v j', env_ok E -> canonical_env E -> json_wf j ->
  json_to_object E skip m t j = Ok v -> conforms E v -> object_to_json E v = Ok j' -> rewritten E m t j j'.
Proof. intros E skip m t j v j' OK CE. exact (document_rewritten E skip OK CE m t j v j'). Qed.
Print Assumptions C62_rewritten.

(** C62.  What is written is well formed, *)
Theorem C62_well_formed : forall E v j, env_ok E -> tidy E -> conforms E v -> object_to_json E v = Ok j -> json_wf j.
Proof. intros E v j OK TD C H. eapply image_wf; [exact OK | exact TD|]. apply C14_image; eassumption. Qed.
Print Assumptions C62_well_formed.

(** and, if the type is written faithfully (C01), it is read as the same value, so
    that reading and writing it again changes nothing. *)
Theorem C62_stable : forall E skip m t j v j', env_ok E -> canonical_env E -> guarded_env E -> calm E -> shuffles (e_order E) ->
  ready E m t -> faithful E skip m t -> json_wf j -> json_to_object E skip m t j = Ok v -> regular v -> object_to_json E v = Ok j' ->
  rewritten E m t j j' /\ json_to_object E skip m t j' = Ok v.
Proof.
  intros E skip m t j v j' OK CE GE C ORD RD FA W H RG O. pose proof (json_to_object_sound E skip OK _ _ _ _ W H) as HT.
  split; [|exact (C01_roundtrip E skip m t v j' OK CE GE C ORD RD FA HT RG O)].
  eapply C62_rewritten; try eassumption. eapply typed_conforms; eassumption.
Qed.
Print Assumptions C62_stable.

(** * A witness *)

(** The document of PropRoundTrip, written carelessly: properties in another order, a
    truth value for a number, a null, an item twice. *)
Definition j1 : json :=
  JArr [JObj [(str "red", JObj [(str "link", JObj [(str "second", JArr [JInt 2; JInt 5; JInt 2]); (str "first", jstr "green")]); (str "name", jstr "n")]);
              (str "green", JObj [(str "y", JNull); (str "class", jstr "q"); (str "x", JInt 3)])];
        JArr [JObj [(str "kind", jstr "cat"); (str "lives", JObj [(str "a", JInt 9)])];
              JObj [(str "age", JBool true); (str "kind", jstr "dog")]];
        jstr "1.0"].

Definition v1 : value :=
  VTuple [VDict [(VEnum 0 (str "RED"), v_plain); (VEnum 0 (str "GREEN"), v_point VNone)];
          VList [VObj 5 [(str "kind", vstr "cat"); (str "lives", VDict [(vstr "a", VInt 9)])];
                 VObj 4 [(str "kind", vstr "dog"); (str "age", VInt 1)]];
          VObj 6 [(str "text", vstr "1.0")]].

Definition j1' : json :=
  JArr [JObj [(str "red", JObj [(str "name", jstr "n");
                                (str "link", JObj [(str "first", jstr "green"); (str "second", JArr [JInt 2; JInt 5])])]);
              (str "green", JObj [(str "x", JInt 3); (str "class", jstr "q")])];
        JArr [JObj [(str "kind", jstr "cat"); (str "lives", JObj [(str "a", JInt 9)])];
              JObj [(str "kind", jstr "dog"); (str "age", JInt 1)]];
        jstr "1.0"].

Lemma v1_regular : regular v1.
Proof.
  intros w H. unfold v1, v_plain, v_point, v_pair, vstr in H. walk H.
Qed.

Lemma j1_wf : json_wf j1.
Proof. unfold j1. repeat first [apply Forall_nil | apply Forall_cons | apply wf_arr | apply wf_obj | apply wf_str | apply wf_int | apply wf_bool | apply wf_null | nodup]; cbn [snd map fst]. Qed.

Example C62_witness : env_ok Zoo /\ canonical_env Zoo /\ guarded_env Zoo /\ calm Zoo /\ shuffles (e_order Zoo) /\
  ready Zoo 0 T0 /\ faithful Zoo false 0 T0 /\ json_wf j1 /\ json_to_object Zoo false 0 T0 j1 = Ok v1 /\ regular v1 /\ object_to_json Zoo v1 = Ok j1' /\
  rewritten Zoo 0 T0 j1 j1' /\ json_to_object Zoo false 0 T0 j1' = Ok v1.
Proof.
  assert (RD : ready Zoo 0 T0) by prove_ready.
  assert (H : json_to_object Zoo false 0 T0 j1 = Ok v1) by (vm_compute; reflexivity).
  assert (O : object_to_json Zoo v1 = Ok j1') by (vm_compute; reflexivity).
  split; [exact zoo_ok|]. split; [exact zoo_canonical|]. split; [exact zoo_guarded|]. split; [exact zoo_calm|]. split; [exact zoo_shuffles|].
  split; [exact RD|]. split; [apply zoo_faithful|]. split; [exact j1_wf|]. split; [exact H|]. split; [exact v1_regular|]. split; [exact O|].
  exact (C62_stable Zoo false 0 T0 j1 v1 j1' zoo_ok zoo_canonical zoo_guarded zoo_calm zoo_shuffles RD (zoo_faithful false) j1_wf H v1_regular O).
Qed.

(** [rewritten] says what happens, and nothing else: other documents are not possible. *)
Example C62_witness_not : ~ rewritten Zoo 0 (TList tint) (JArr [JInt 1; JBool true]) (JArr [JInt 1; JInt 2]) /\
  ~ rewritten Zoo 0 (TList tint) (JArr [JInt 1]) (JArr []) /\ ~ rewritten Zoo 0 (TDict tstr tint) (JObj [(str "a", JInt 1)]) (JObj [(str "b", JInt 1)]).
Proof.
  split; [|split]; intros H.
  - inversion H as [|? ? ? ? F| | | | | | | | | | |]; subst. inversion F as [|? ? ? ? _ F']; subst. inversion F' as [|? ? ? ? R _]; subst.
    inversion R as [? ? ? ? S| | | | | | | | | | | |]; subst. inversion S.
  - inversion H as [|? ? ? ? F| | | | | | | | | | |]; subst. inversion F.
  - inversion H as [| | |? ? ? ? ? Q _| | | | | | | | |]; subst. discriminate Q.
Qed.

(** A property that the class does not know is dropped when it may be skipped. *)
Example C62_witness_skipped : exists v, json_to_object Zoo true 0 (TClass 1) (JObj [(str "x", JInt 3); (str "z", JInt 4)]) = Ok v /\
  object_to_json Zoo v = Ok (JObj [(str "x", JInt 3); (str "class", jstr "p")]).
Proof. exists (VObj 1 [(str "x", VInt 3); (str "y", VNone); (str "class_", vstr "p")]). split; vm_compute; reflexivity. Qed.

(** * Documents that are not stable *)

(** What is written again need not be read again: the fields of a named tuple are read
    under their own names only. *)
Theorem C62_stable_refuted : exists E m t j v j', env_ok E /\ canonical_env E /\ ready E m t /\ json_wf j /\ regular v /\
  json_to_object E false m t j = Ok v /\ object_to_json E v = Ok j' /\ json_to_object E false m t j' = Err EJsonKey.
Proof.
  exists Lossy, 0, (TClass 0), (JObj [(str "class_", jstr "a")]), (VObj 0 [(str "class_", vstr "a")]), (JObj [(str "class", jstr "a")]).
  split; [exact lossy_ok|]. split.
  { split.
    - intros m s a t L. unfold lookup, Lossy in L. cbn [e_refs find_ref] in L.
      match type of L with context [if ?b then _ else _] => destruct b end; [injection L as <- <-; prove_canonical | discriminate L].
    - intros c cl x t G I. lossy_class c G; cbn [raw_fields c_kind map f_name f_type In Kw Dflt Hid] in I; repeat (destruct I as [I|I]; [injection I as <- <-|]); try contradiction; prove_canonical. }
  split; [prove_ready|]. split; [repeat constructor; intros []|].
  split; [intros w H; unfold vstr in H; walk H|]. split; [vm_compute; reflexivity|]. split; vm_compute; reflexivity.
Qed.
Print Assumptions C62_stable_refuted.
