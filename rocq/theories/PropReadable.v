(** C33: documents that the schema of a type accepts can be deserialized. *)
From Coq Require Import String List NArith ZArith Bool Lia Permutation.
From Verif Require Import Base Json PyTypes Mapping Deser Ser Catalog Schema Samples Lists SpecTyping TypingFacts SpecRecursion SpecTypes SpecFields SpecSer
  SpecTagged SpecDeser SpecRoundTrip SpecSchema SpecGenerate SpecValid SpecReadable DeserUnfold DeserFacts FieldProofs TaggedProofs RoundTrip SchemaValid SchemaRead PropDeser PropFields PropRoundTrip PropSchema PropValid.
Import ListNotations.
Open Scope list_scope.
Open Scope nat_scope.

(** C33.  [readable] says what is asked of the type, [plain_numbers] of the
    numbers in the document.  Recursive types are included. *)
Theorem C33_readable : forall asserts E S skip n k m t doc j, env_ok E -> canonical_env E -> guarded_env E -> calm E -> shuffles (e_order E) -> coherent E S ->
  s_path S = str "#/definitions/" -> classdef_to_schema E S n k t = Ok doc ->
  (forall s, lost E S t s -> exists sch, defined doc s sch) ->
  ready E m t -> readable asserts E skip m t -> plain_numbers E m t j -> json_wf j -> satisfies asserts doc j ->
  exists v, json_to_object E skip m t j = Ok v.
Proof. exact read_document. Qed.
Print Assumptions C33_readable.

(** C33.  The result is a value of the type (C02). *)
Theorem C33_typed : forall asserts E S skip n k m t doc j, env_ok E -> canonical_env E -> guarded_env E -> calm E -> shuffles (e_order E) -> coherent E S ->
  s_path S = str "#/definitions/" -> classdef_to_schema E S n k t = Ok doc ->
  (forall s, lost E S t s -> exists sch, defined doc s sch) ->
  ready E m t -> readable asserts E skip m t -> plain_json j = true -> json_wf j -> satisfies asserts doc j ->
  exists v, json_to_object E skip m t j = Ok v /\ has_type E m t v.
Proof.
  intros asserts E S skip n k m t doc j OK CE GE CALM ORD CO P H L R F PN W A.
  destruct (read_document asserts E S skip n k m t doc j OK CE GE CALM ORD CO P H L R F (plain_json_numbers _ _ _ _ PN) W A) as (v & V).
  exists v. split; [exact V|]. eapply (DeserSound.json_to_object_sound E skip OK); eassumption.
Qed.
Print Assumptions C33_typed.

(** C33.  Unions whose members are read from different kinds of data are as
    [readable] asks. *)
Theorem C33_kinds : forall E skip m op ts, guarded_env E -> calm E -> shuffles (e_order E) -> ready E m (TUnion op ts) -> kinds_disjoint E m ts ->
  yielding E skip m ts.
Proof. intros E skip m op ts GE CALM ORD. apply kinds_yielding; assumption. Qed.
Print Assumptions C33_kinds.

(** *** A case in point *)

(** tuple[Pair, Union[Dog, Cat], Union[int, list[Node]], dict[Color, date], Plain] *)
Definition type1 : typ :=
  TTuple [TClass 3; TUnion false [TClass 4; TClass 5]; TUnion false [tint; TList (TClass 2)]; TDict (TClass 0) (TScalar KDate); TClass 7].

(** A validator that checks dates. *)
Definition dates (kw f : pystr) (j : json) : bool :=
  if pystr_eqb kw (str "format") && pystr_eqb f (str "date") then match parse_scalar KDate j with Ok _ => true | Err _ => false end else true.

Definition j1 : json :=
  JArr [JObj [(str "first", jstr "green"); (str "second", JArr [JInt 2; JInt 5])];
        JObj [(str "age", JInt 3); (str "kind", jstr "dog")];
        JArr [JObj [(str "val", JInt 1); (str "children", JArr [JObj [(str "children", JArr []); (str "val", JInt 2)]])]];
        JObj [(str "red", jstr "2024-02-29")];
        JObj [(str "name", jstr "n")]].

Definition types1 : list typ :=
  [type1; TClass 3; TUnion false [TClass 4; TClass 5]; TUnion false [tint; TList (TClass 2)]; TDict (TClass 0) (TScalar KDate); TClass 7;
   TClass 0; TClass 2; TClass 4; TClass 5; tint; tstr; TScalar KDate; TSet tint; TList (TClass 2); TDict tstr tint;
   TLiteral [LStr (str "dog")]; TLiteral [LStr (str "cat")]; TAnnot tint [AAlias (str "val")]; TList (TRef (str "Node")); TRef (str "Node")].

Lemma types1_reach : forall m t m' u, reach Zoo m t m' u -> In t types1 -> In u types1.
Proof.
  assert (X : forall m t m' u, reach Zoo m t m' u -> (fun (_ : nat) t => In t types1) m t -> (fun (_ : nat) t => In t types1) m' u); [|exact X].
  apply reach_kept; cbn beta.
  - intros m t I. unfold types1 in I. cbn [In] in I. cases_in I; try discriminate I; injection I as <-; cbn; auto 30.
  - intros m t I. unfold types1 in I. cbn [In] in I. cases_in I; try discriminate I; injection I as <-; cbn; auto 30.
  - intros m k t I. unfold types1 in I. cbn [In] in I. cases_in I; try discriminate I; injection I as <- <-; cbn; auto 30.
  - intros m ts t I J. unfold types1 in I. cbn [In] in I. cases_in I; try discriminate I; injection I as <-; cbn [In] in J; cases_in J; subst t; cbn; auto 30.
  - intros m op ts t I J. unfold types1 in I. cbn [In] in I. cases_in I; try discriminate I; injection I as <- <-; cbn [In] in J; cases_in J; subst t; cbn; auto 30.
  - intros m ls l I J. unfold types1 in I. cbn [In] in I. cases_in I; try discriminate I; injection I as <-; cbn [In] in J; cases_in J; subst l; cbn; auto 30.
  - intros m t md I. unfold types1 in I. cbn [In] in I. cases_in I; try discriminate I; injection I as <- <-; cbn; auto 30.
  - intros m s a t I L. unfold types1 in I. cbn [In] in I. cases_in I; try discriminate I. injection I as <-.
    assert (Q : t = TClass 2); [|subst t; cbn; auto 30].
    refine (co_lookup _ _ zoo_coherent m _ a t (TClass 2) L _).
    apply (sf_registered _ _ _ (entry_for (str "Node"))); [discriminate | vm_compute; reflexivity | reflexivity].
  - intros m c cl hs x t w I G FW H J RD. unfold types1 in I. cbn [In] in I. cases_in I; try discriminate I; injection I as <-; injection G as <-;
      vm_compute in H; try discriminate H; injection H as <-; cbn [In] in J; cases_in J; try (injection J as <- <-).
    all: first [ cbn in RD; subst w; cbn; solve [auto 30]
               | apply optional_int in RD; [subst w; cbn; solve [auto 30] | solve [auto]]
               | match type of RD with reads _ ?t _ => apply read_type_fun with (w := t) in RD end; [subst w; cbn; solve [auto 30] | apply read_plain; not_optional] ].
Qed.

Lemma color_kinds : forall m jk, admits Zoo m (TClass 0) jk -> jk = StringKind.
Proof.
  intros m jk A. inversion A as [| | | | | | | | |? cl ms x w ? G K I M|? cl G NE|? cl h ? G NE]; subst; injection G as <-; try contradiction.
  injection K as <-. cbn [In] in I. cases_in I; injection I as <- <-; (destruct M as [M|[[M|M] _]]; cbn [kind_of jstr] in M; congruence).
Qed.

Lemma zoo_open : forall skip c cl, In c [2; 3; 4; 5; 7] -> get_class Zoo c = Some cl -> open_class Zoo skip cl.
Proof.
  intros skip c cl I G. cbn [In] in I. cases_in I; subst c; injection G as <-; split.
  all: try exact Logic.I; try reflexivity.
  all: try (right; discriminate).
  all: try (intros ps C; vm_compute in C; injection C as <-; intros x t y u p J J' A B;
            apply (proj1 (SchemaClass.out_name_spec _ _ _)) in A; apply (proj1 (SchemaClass.out_name_spec _ _ _)) in B; rewrite A in B;
            cbn [In] in J, J'; cases_in J; injection J as <- <-; cases_in J'; injection J' as <- <-; try reflexivity; vm_compute in B; discriminate B).
  all: try (intros x t u d p F P; field_cases F; apply (proj1 (SchemaClass.out_name_spec _ _ _)) in P; vm_compute in P; subst p;
            first [reflexivity | apply json_property_spec; reflexivity]).
  all: intros x t u d F [O|A]; field_cases F; cbn [c_kind].
  all: try (exfalso; revert O; not_optional).
  all: try (exfalso; inversion A; subst; contradiction).
  all: try (exists false, [TClass 3; tnone]; split; [right; left; reflexivity | left; reflexivity]).
  all: exfalso.
  - inversion A as [| | | | | | |? ? ? A'| | | |]; subst. inversion A' as [? ? K| | | | | | | | | | |]; subst. destruct K as [K|K]; discriminate K.
  - apply color_kinds in A. discriminate A.
  - inversion A as [| | | | | |? l ? J A'| | | | |]; subst. destruct J as [<-|[]]. inversion A' as [? ? K| | | | | | | | | | |]; subst. discriminate K.
  - inversion A as [? ? K| | | | | | | | | | |]; subst. destruct K as [K|K]; discriminate K.
  - inversion A as [| | | | | |? l ? J A'| | | | |]; subst. destruct J as [<-|[]]. inversion A' as [? ? K| | | | | | | | | | |]; subst. discriminate K.
  - inversion A as [? ? K| | | | | | | | | | |]; subst. discriminate K.
Qed.

Lemma types1_unions : forall op ts, In (TUnion op ts) types1 -> ts = [TClass 4; TClass 5] \/ ts = [tint; TList (TClass 2)].
Proof. intros op ts I. unfold types1, type1 in I. cbn [In] in I. cases_in I; try discriminate I; injection I as <- <-; auto. Qed.

Lemma type1_readable : forall skip, readable dates Zoo skip 0 type1.
Proof.
  intros skip. assert (T1 : In type1 types1) by (left; reflexivity).
  split.
  - intros m' k RE. apply types1_reach in RE; [|exact T1]. unfold types1, type1 in RE. cbn [In] in RE. cases_in RE; try discriminate RE; injection RE as <-;
      (split; [reflexivity|]); intros kw f s Q A; try discriminate Q. injection Q as <- <-. unfold dates in A.
    replace (pystr_eqb _ _ && _) with true in A by reflexivity. destruct (parse_scalar KDate (JStr s)) as [v|e]; [eauto | discriminate A].
  - intros m' u v RE HT. apply types1_reach in RE; [|exact T1]. unfold types1, type1 in RE. cbn [In] in RE. cases_in RE; try discriminate RE.
    injection RE as <-. inversion HT; subst. destruct v; try contradiction. intros U. inversion U.
  - intros m' c cl ms u RE G K Ln. apply types1_reach in RE; [|exact T1]. unfold types1, type1 in RE. cbn [In] in RE. cases_in RE; try discriminate RE.
    injection RE as <- <-. injection G as <-. injection K as <-. cbn [length] in Ln. lia.
  - intros m' op ts RE UT. pose proof (zoo_module _ _ _ _ RE eq_refl) as ->. apply types1_reach in RE; [|exact T1]. apply types1_unions in RE. destruct RE as [->| ->].
    + destruct (UT _ u2_tag).
    + apply (C33_kinds Zoo skip 0 false); [exact zoo_guarded | exact zoo_calm | exact zoo_shuffles | prove_ready|].
      intros ts1 w ts2 u jk Q J A. destruct ts1 as [|a [|b ts1]]; cbn [app] in Q; injection Q as; subst; [|destruct J | destruct ts1; discriminate].
      destruct J as [<-|[]]. inversion A; subst. apply rf_scalar. intros [K|K]; discriminate K.
  - intros m' op ts p RE TG. apply types1_reach in RE; [|exact T1]. apply types1_unions in RE. destruct RE as [->| ->].
    + intros q c cl ps t ls _ I G C Ip L. destruct I as [Q|[Q|[]]]; injection Q as <-; injection G as <-; injection C as <-;
        (split; [reflexivity|]); cbn [In raw_fields c_kind map f_name f_type Dog Cat] in Ip;
        (cases_in Ip; injection Ip as <- <-; cbn in L; try discriminate L); injection L as <-;
        (split; [apply json_property_spec; reflexivity|]); intros l [<-|[]]; discriminate.
    + destruct TG as [_ F]. inversion F as [|? ? (c & ls & Q & _) _]. discriminate Q.
  - intros m' op ts p c ls RE TG I LP. apply types1_reach in RE; [|exact T1]. apply types1_unions in RE. destruct RE as [->| ->].
    + destruct LP as (cl & t & ps & G & C & Ip & L). destruct I as [Q|[Q|[]]]; injection Q as <-; injection G as <-; injection C as <-;
        cbn [In raw_fields c_kind map f_name f_type Dog Cat] in Ip;
        (cases_in Ip; injection Ip as <- <-; cbn in L; try discriminate L); injection L as <-; intros [Q|[]]; discriminate Q.
    + destruct TG as [_ F]. inversion F as [|? ? (c' & ls' & Q & _) _]. discriminate Q.
  - intros m' c cl RE G NE. apply types1_reach in RE; [|exact T1]. apply (zoo_open skip c cl); [|exact G].
    unfold types1, type1 in RE. cbn [In] in RE. cases_in RE; try discriminate RE; injection RE as <-; cbn [In]; auto 10.
    injection G as <-. destruct (NE _ eq_refl).
Qed.

(** With the optional field of Plain. *)
Definition types2 : list typ := TUnion false [TClass 3; tnone] :: tnone :: types1.

Lemma types2_met : forall t u, SpecGenerate.met Zoo registered_zoo t u -> In t types2 -> In u types2.
Proof.
  intros t u H. induction H as [t|t u _ IH|t u _ IH|k t u _ IH|ts t u I _ IH|op ts t u I _ IH|ls l u I _ IH|t md u _ IH
    |c cl ps x t u G P I _ IH|c cl ps x t w u G P I U _ IH|s w u Q _ IH]; intros J; try exact J; try discriminate Q; try apply IH.
  all: unfold types2, types1, type1 in J |- *; cbn [In] in J;
    repeat (destruct J as [J|J]; [try discriminate J; try (injection J; intros; subst); cbn [In] in *; try tauto|]); try contradiction.
  all: try (injection G as <-; vm_compute in P; injection P as <-; cbn [In] in I;
    repeat (destruct I as [I|I]; [injection I as <- <-; try (vm_compute in U; first [discriminate U | injection U as <-]); cbn [In]; unfold tint, tnone, tstr; tauto|]); destruct I).
  all: try (destruct I as [<-|[]]; cbn [lit_type]; unfold tstr; tauto).
Qed.

Lemma text1 : forall s, lost Zoo registered_zoo type1 s -> s = str "Node".
Proof.
  intros s (_ & [(M & _)|(md & M)]); apply types2_met in M; try (cbn; tauto); unfold types2, types1, type1 in M; cbn [In] in M;
    repeat (destruct M as [M|M]; [try discriminate M; try (injection M as <-; reflexivity)|]); destruct M.
Qed.

Example C33_witness : exists doc,
  env_ok Zoo /\ canonical_env Zoo /\ guarded_env Zoo /\ calm Zoo /\ shuffles (e_order Zoo) /\ coherent Zoo registered_zoo /\
  classdef_to_schema Zoo registered_zoo 9 9 type1 = Ok doc /\
  (forall s, lost Zoo registered_zoo type1 s -> exists sch, defined doc s sch) /\
  ready Zoo 0 type1 /\ readable dates Zoo false 0 type1 /\ plain_json j1 = true /\ plain_numbers Zoo 0 type1 j1 /\ json_wf j1 /\ satisfies dates doc j1.
Proof.
  exists_result (classdef_to_schema Zoo registered_zoo 9 9 type1).
  split; [exact zoo_ok|]. split; [exact zoo_canonical|]. split; [exact zoo_guarded|]. split; [exact zoo_calm|]. split; [exact zoo_shuffles|].
  split; [exact zoo_coherent|]. split; [vm_compute; reflexivity|]. split.
  { intros s L. apply text1 in L. subst s. eexists _, _, _. split; [reflexivity|]. split; [right; left; reflexivity | left; reflexivity]. }
  split; [prove_ready|]. split; [apply type1_readable|]. split; [vm_compute; reflexivity|]. split; [apply plain_json_numbers; vm_compute; reflexivity|].
  split.
  - repeat first [apply Forall_nil | apply Forall_cons | apply wf_arr | apply wf_obj | apply wf_str | apply wf_int | nodup]; cbn [snd map fst].
  - exists 20. vm_compute. reflexivity.
Qed.

(** *** The provisos are needed *)

(** The document satisfies the schema of a type that can be read, and is not
    read. *)
Definition unread (asserts : pystr -> pystr -> json -> bool) (E : env) (S : senv) (t : typ) (j : json) : Prop :=
  ready E 0 t /\ json_wf j /\ plain_json j = true /\
  exists n k doc e, classdef_to_schema E S n k t = Ok doc /\ satisfies asserts doc j /\ json_to_object E false 0 t j = Err e.

(** - class Letter(Enum): A = "a|b"; C = "c"; D = "d"; E = "e"; F = "f"
    - @dataclass class Nothing: pass
    - class Maybe(NamedTuple): x: Optional[int]
    - @dataclass class Word: class_: str *)
Definition Gaps : env := mkEnv
  [mkClass 0 (str "Letter") (CEnum [(str "A", jstr "a|b"); (str "C", jstr "c"); (str "D", jstr "d"); (str "E", jstr "e"); (str "F", jstr "f")]) None None;
   mkClass 0 (str "Nothing") (CData false []) None None;
   mkClass 0 (str "Maybe") (CTuple [(str "x", TUnion false [tint; tnone])]) None None;
   mkClass 0 (str "Word") (CData false [mkField (str "class_") tstr None]) None None]
  [] (fun ps => ps).

Ltac prove_unread E S t :=
  split; [prove_ready|]; split;
  [repeat first [apply Forall_nil | apply Forall_cons | apply wf_arr | apply wf_obj | apply wf_str | apply wf_int | nodup]; cbn [snd map fst] |
   split; [vm_compute; reflexivity|]; exists 9, 9; exists_result (classdef_to_schema E S 9 9 t); eexists;
   split; [vm_compute; reflexivity|]; split; [exists 20; vm_compute; reflexivity | vm_compute; reflexivity]].

(** To a schema, 1.0 is an integer; *)
Theorem C33_float_refuted : exists E S n k doc j, ready E 0 tint /\ json_wf j /\
  classdef_to_schema E S n k tint = Ok doc /\ satisfies (fun _ _ _ => true) doc j /\ json_to_object E false 0 tint j = Err EJsonType.
Proof.
  exists Zoo, (Gen [] false), 9, 9. exists_result (classdef_to_schema Zoo (Gen [] false) 9 9 tint). exists (JFloat (FFin false 1 0)).
  split; [prove_ready|]. split; [constructor|]. split; [vm_compute; reflexivity|]. split; [exists 20; vm_compute; reflexivity | vm_compute; reflexivity].
Qed.
Print Assumptions C33_float_refuted.

(** the names of many keys are taken for a regular expression; *)
Theorem C33_key_refuted : exists E S t j, unread (fun _ _ _ => true) E S t j.
Proof. exists Gaps, (Gen [] false), (TDict (TClass 0) tint), (JObj [(str "a", JInt 1)]). prove_unread Gaps (Gen [] false) (TDict (TClass 0) tint). Qed.
Print Assumptions C33_key_refuted.

(** a class without fields allows any property; *)
Theorem C33_empty_refuted : exists E S t j, unread (fun _ _ _ => true) E S t j.
Proof. exists Gaps, (Gen [] false), (TClass 1), (JObj [(str "a", JInt 1)]). prove_unread Gaps (Gen [] false) (TClass 1). Qed.
Print Assumptions C33_empty_refuted.

(** optional fields of a named tuple cannot be left out; *)
Theorem C33_tuple_refuted : exists E S t j, unread (fun _ _ _ => true) E S t j.
Proof. exists Gaps, (Gen [] false), (TClass 2), (JObj []). prove_unread Gaps (Gen [] false) (TClass 2). Qed.
Print Assumptions C33_tuple_refuted.

(** a field [class_] is called [class_] in the schema but [class] in
    documents; *)
Theorem C33_name_refuted : exists E S t j, unread (fun _ _ _ => true) E S t j.
Proof. exists Gaps, (Gen [] false), (TClass 3), (JObj [(str "class_", jstr "x")]). prove_unread Gaps (Gen [] false) (TClass 3). Qed.
Print Assumptions C33_name_refuted.

(** an earlier member of a union may fail for good, although a later one would
    do, even if the validator checks formats; *)
Theorem C33_union_refuted : exists E S t j, unread dates E S t j.
Proof.
  exists Zoo, (Gen [] false), (TUnion false [TScalar KDate; tstr]), (jstr "today").
  prove_unread Zoo (Gen [] false) (TUnion false [TScalar KDate; tstr]).
Qed.
Print Assumptions C33_union_refuted.

(** lists are not members of sets; *)
Theorem C33_set_refuted : exists E S t j, unread (fun _ _ _ => true) E S t j.
Proof. exists Zoo, (Gen [] false), (TSet (TList tint)), (JArr [JArr []]). prove_unread Zoo (Gen [] false) (TSet (TList tint)). Qed.
Print Assumptions C33_set_refuted.

(** and the schema of an address is that of an object. *)
Theorem C33_address_refuted : exists E S t j, unread (fun _ _ _ => true) E S t j.
Proof. exists Zoo, (Gen [] false), (TScalar KIPv4), (JObj []). prove_unread Zoo (Gen [] false) (TScalar KIPv4). Qed.
Print Assumptions C33_address_refuted.
