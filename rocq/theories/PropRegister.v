(** C61: registering classes. *)
From Coq Require Import String List NArith ZArith Bool Lia Permutation.
From Verif Require Import Base Json PyTypes Mapping Deser Ser Catalog Schema Samples Lists SpecTyping TypingFacts SpecRecursion SpecTypes SpecFields SpecSer
  SpecTagged SpecDeser SpecRoundTrip SpecSchema SpecGenerate SpecValid JsonTypes SpecRegister ValidTame RegisterProofs PropFields PropSchema PropValid.
Import ListNotations.
Open Scope list_scope.
Open Scope nat_scope.

(** C61.  A program that imports the library and decorates classes: the
    decorated classes and those of the library are registered under their own
    names, and no other class is. *)
Theorem C61_registered : forall E jo ja m c rs x cl, library E jo ja = Ok c -> get_class E jo = Some (JsonObject m) -> get_class E ja = Some (JsonArray m) ->
  decorations rs -> get_class E x = Some cl ->
  (known jo ja rs x -> get_schema_identifier (attempts E c rs) (TClass x) = Ok (Some (c_name cl))) /\
  (~ known jo ja rs x -> get_schema_identifier (attempts E c rs) (TClass x) = Ok None).
Proof. intros E jo ja m c rs x cl LIB OBJ ARR D CL. eapply registered_name; eassumption. Qed.
Print Assumptions C61_registered.

(** C61.  If the names of these classes are unambiguous, the catalog is fit to
    generate schemas from (the hypothesis of C29 to C33, C57 and C59). *)
Theorem C61_coherent : forall E S jo ja m c rs, library E jo ja = Ok c -> get_class E jo = Some (JsonObject m) -> get_class E ja = Some (JsonArray m) ->
  decorations rs -> s_catalog S = attempts E c rs -> unambiguous E (known jo ja rs) S -> coherent E S.
Proof. intros E S jo ja m c rs LIB OBJ ARR D CAT UN. eapply program_coherent; eassumption. Qed.
Print Assumptions C61_coherent.

(** C61.  So values satisfy the schemas of their types in such a program, if the
    names in quotes are of decorated classes. *)
Theorem C61_valid : forall asserts E S jo ja m c rs n k m' t doc v j,
  library E jo ja = Ok c -> get_class E jo = Some (JsonObject m) -> get_class E ja = Some (JsonArray m) ->
  decorations rs -> s_catalog S = attempts E c rs -> unambiguous E (known jo ja rs) S -> quoted E (known jo ja rs) S t ->
  env_ok E -> canonical_env E -> lenient asserts -> s_path S = str "#/definitions/" -> classdef_to_schema E S n k t = Ok doc ->
  fits E m' t v -> conforms E v -> object_to_json E v = Ok j -> satisfies asserts doc j.
Proof.
  intros asserts E S jo ja m c rs n k m' t doc v j LIB OBJ ARR D CAT UN Q OK CE LE P H F C O.
  eapply C29_valid; try eassumption; [eapply program_coherent; eassumption|].
  intros s L. destruct (none_lost E S jo ja m c rs LIB OBJ ARR D CAT UN t Q s L).
Qed.
Print Assumptions C61_valid.

(** C61.  The order in which the classes are decorated does not matter. *)
Theorem C61_order : forall E S jo ja m c rs rs' n k t, library E jo ja = Ok c -> get_class E jo = Some (JsonObject m) -> get_class E ja = Some (JsonArray m) ->
  decorations rs -> NoDup (map rq_type rs) -> Permutation rs rs' -> unambiguous E (known jo ja rs) S ->
  classdef_to_schema E (with_catalog S (attempts E c rs)) n k t = classdef_to_schema E (with_catalog S (attempts E c rs')) n k t.
Proof. exact program_order. Qed.
Print Assumptions C61_order.

(** *** A case in point *)

(** Optional["Animal"] *)
Definition mother : typ := TUnion false [TRef (str "Animal"); tnone].

Definition Animal : class := mkClass 0 (str "Animal")
  (CData false [mkField (str "name") tstr None; mkField (str "mother") mother None]) None None.
Definition Herd : class := mkClass 0 (str "Herd") (CData false [mkField (str "lead") (TClass 2) None; mkField (str "size") tint None]) None None.

(** Two classes of the same name, in modules 0 and 3. *)
Definition Item : class := mkClass 0 (str "Item") (CData false [mkField (str "price") tint None]) None None.
Definition Item' : class := mkClass 3 (str "Item") (CData false [mkField (str "label") tstr None]) None None.

Definition Farm : env := mkEnv [JsonObject 1; JsonArray 1; Animal; Herd; Item; Item']
  [(0, str "Animal", (true, TClass 2)); (0, str "Herd", (true, TClass 3)); (0, str "Item", (true, TClass 4)); (3, str "Item", (true, TClass 5))] (fun ps => ps).

Definition decoration (x : nat) (ex : option json) : request := {| rq_type := TClass x; rq_schema := None; rq_name := None; rq_examples := ex |}.

Definition farm_catalog : catalog := match library Farm 0 1 with Ok c => c | Err _ => new_catalog end.

Definition herds : list request := [decoration 2 (Some (JArr [JObj [(str "name", jstr "Bella"); (str "mother", JNull)]])); decoration 3 None].

Definition farming (rs : list request) : senv := {|
  s_catalog := attempts Farm farm_catalog rs;
  s_eval := fun s => if pystr_eqb s (str "JsonType") then Some JsonType else if pystr_eqb s (str "StrictJsonType") then Some StrictJsonType else None;
  s_forward := fun _ => true;
  s_short := fun _ => None; s_long := fun _ => None; s_props := fun _ => []; s_attrs := fun _ => []; s_tenth := fun _ => FFin false 1 (-3);
  s_path := str "#/definitions/"; s_describe := true; s_exemplify := true |}.

Lemma farm_known : forall x, known 0 1 herds x -> x = 0 \/ x = 1 \/ x = 2 \/ x = 3.
Proof. intros x [->|[->|[Q|[Q|[]]]]]; [auto | auto | injection Q as <-; auto | injection Q as <-; auto]. Qed.

Lemma farm_means : forall s w, means Farm (known 0 1 herds) s w ->
  In (s, w) [(str "JsonObject", TClass 0); (str "JsonArray", TClass 1); (str "Animal", TClass 2); (str "Herd", TClass 3); (str "JsonType", JsonType); (str "StrictJsonType", StrictJsonType)].
Proof.
  intros s w [x cl K CL| |]; [|cbn [In]; auto 10|cbn [In]; auto 10]. apply farm_known in K.
  destruct K as [->|[->|[->| ->]]]; injection CL as <-; cbn [In c_name JsonObject JsonArray Animal Herd]; auto 10.
Qed.

Lemma farm_eval : forall rs s w, s_eval (farming rs) s = Some w -> (s = str "JsonType" /\ w = JsonType) \/ (s = str "StrictJsonType" /\ w = StrictJsonType).
Proof.
  intros rs s w H. cbn [s_eval farming] in H. destruct (pystr_eqb s (str "JsonType")) eqn:Q; [apply pystr_eqb_eq in Q; injection H as <-; auto|].
  destruct (pystr_eqb s (str "StrictJsonType")) eqn:Q'; [apply pystr_eqb_eq in Q'; injection H as <-; auto | discriminate H].
Qed.

Lemma farm_lookup : forall m s a w, lookup Farm m s = Some (a, w) ->
  (s = str "Animal" /\ w = TClass 2) \/ (s = str "Herd" /\ w = TClass 3) \/ s = str "Item".
Proof.
  intros m s a w L. unfold lookup, Farm in L. cbn [e_refs find_ref] in L.
  repeat match type of L with (if ?b then _ else _) = _ => destruct b eqn:?Q end; try discriminate L; injection L as <- <-;
    match goal with Q : _ && _ = true |- _ => apply andb_true_iff in Q; destruct Q as [_ Q]; apply pystr_eqb_eq in Q; subst s end; auto.
Qed.

Ltac one_of H := cbn [In] in H; repeat (destruct H as [H|H]; [injection H as <- <-|]); [..|destruct H].

Lemma farm_unambiguous : unambiguous Farm (known 0 1 herds) (farming herds).
Proof.
  split.
  - intros s w w' A B. apply farm_means in A, B. one_of A; cbn [In] in B;
      repeat (destruct B as [B|B]; [try discriminate B; injection B as <-; reflexivity|]); destruct B.
  - intros m s a w w' A L. apply farm_means in A. apply farm_lookup in L. destruct L as [(-> & ->)|[(-> & ->)| ->]]; cbn [In] in A;
      repeat (destruct A as [A|A]; [try discriminate A; injection A as <-; reflexivity|]); destruct A.
  - intros s w w' A L. apply farm_means in A. apply farm_eval in L. destruct L as [(-> & ->)|(-> & ->)]; cbn [In] in A;
      repeat (destruct A as [A|A]; [try discriminate A; injection A as <-; reflexivity|]); destruct A.
  - intros m s a w w' L B. apply farm_lookup in L. apply farm_eval in B. exfalso.
    destruct L as [(-> & _)|[(-> & _)| ->]]; destruct B as [(B & _)|(B & _)]; discriminate B.
  - intros s w [A|A] x I; [apply farm_means in A; one_of A | apply farm_eval in A; destruct A as [(-> & _)|(-> & _)]]; cbn in I;
      repeat (destruct I as [<-|I]; [repeat split; discriminate|]); destruct I.
Qed.

Lemma farm_met : forall t u, met Farm (farming herds) t u ->
  In t [TClass 3; TClass 2; tstr; tint; mother; tnone; TRef (str "Animal")] ->
  In u [TClass 3; TClass 2; tstr; tint; mother; tnone; TRef (str "Animal")].
Proof.
  intros t u H. induction H as [t|t u _ IH|t u _ IH|k t u _ IH|ts t u I _ IH|op ts t u I _ IH|ls l u I _ IH|t md u _ IH
    |c cl ps x t u G P I _ IH|c cl ps x t w u G P I U _ IH|s w u Q _ IH]; intros J; try exact J; try apply IH.
  all: unfold mother in J; cbn [In] in J; repeat (destruct J as [J|J]; [try discriminate J; try (injection J; intros; subst)|]); try contradiction.
  all: try (unfold mother in *; cbn [In] in I |- *; tauto).
  all: try (injection G as <-; injection P as <-; cbn [In raw_fields c_kind map f_name f_type Animal Herd] in I;
    repeat (destruct I as [I|I]; [injection I as <- <-; try (first [discriminate U | vm_compute in U; injection U as <-]); cbn [In]; auto 10|]); destruct I).
  discriminate Q.
Qed.

Definition herd : value := VObj 3 [(str "lead", VObj 2 [(str "name", vstr "Bella"); (str "mother", VObj 2 [(str "name", vstr "Clara"); (str "mother", VNone)])]);
  (str "size", VInt 2)].

Ltac farm_class c H := destruct c as [|[|[|[|[|[|c]]]]]]; try (injection H as <-); [..|cbn in H; destruct c; discriminate H].

Lemma farm_ok : env_ok Farm.
Proof.
  intros c cl H. farm_class c H; split; cbn; try discriminate; try (intros; discriminate); try (nodup; fail).
  all: intros fr fs f v Q I D; injection Q as <- <-; cbn [In] in I; repeat destruct I as [<-|I]; try contradiction; discriminate D.
Qed.

Lemma farm_canonical : canonical_env Farm.
Proof.
  split.
  - intros m s a t L. unfold lookup, Farm in L. cbn [e_refs find_ref] in L.
    repeat match type of L with (if ?b then _ else _) = _ => destruct b end; try discriminate L; injection L as <- <-; prove_canonical.
  - intros c cl x t G I. farm_class c G; cbn [raw_fields c_kind map f_name f_type In JsonObject JsonArray Animal Herd Item Item'] in I;
      repeat (destruct I as [I|I]; [injection I as <- <-|]); try contradiction; prove_canonical.
Qed.

Definition farm_family (m : nat) (t : typ) : Prop := m = 0 /\ In t [TClass 3; TClass 2; tstr; tint; TRef (str "Animal")].

Lemma farm_tame : tame Farm farm_family.
Proof.
  assert (LK : forall m a w, lookup Farm m (str "Animal") = Some (a, w) -> w = TClass 2).
  { intros m a w L. apply farm_lookup in L. destruct L as [(_ & ->)|[(Q & _)|Q]]; [reflexivity | discriminate Q | discriminate Q]. }
  assert (FM : forall t, existsb (typ_eqb t) [TClass 3; TClass 2; tstr; tint; TRef (str "Animal")] = true -> farm_family 0 t).
  { intros t H. split; [reflexivity|]. apply existsb_exists in H. destruct H as (u & I & Q). apply typ_eqb_eq in Q. subst. exact I. }
  intros m t (-> & I). split.
  { cbn [In] in I. repeat (destruct I as [<-|I]; [first [apply g_leaf; exact Logic.I | apply g_ref; intros a w L; rewrite (LK 0 a w L); apply g_leaf; exact Logic.I]|]). destruct I. }
  cbn [In] in I. repeat (destruct I as [<-|I]; [|]); [..|destruct I].
  - intros cl G. injection G as <-. plain_class [(str "lead", TClass 2); (str "size", tint)]; apply FM; reflexivity.
  - intros cl G. injection G as <-. split; [reflexivity|]. split; [first [reflexivity | exact Logic.I]|].
    exists [(str "name", tstr); (str "mother", mother)]. split; [reflexivity|]. split; [|split; [|split]].
    + intros x t y u p I J A B. apply (proj1 (SchemaClass.out_name_spec _ _ _)) in A. apply (proj1 (SchemaClass.out_name_spec _ _ _)) in B. rewrite A in B.
      cbn [In] in I, J. repeat (destruct I as [I|I]; [injection I as <- <-|]); try contradiction;
        repeat (destruct J as [J|J]; [injection J as <- <-|]); try contradiction; try reflexivity; discriminate B.
    + intros x t k I Ik Q. cbn [In] in I. repeat (destruct I as [I|I]; [injection I as <- <-|]); try contradiction;
        cbn [In python_keywords map] in Ik; repeat (destruct Ik as [<-|Ik]; [discriminate Q|]); destruct Ik.
    + intros x t I H. destruct I as [Q|[Q|[]]]; injection Q as <- <-; [inversion H; contradiction|].
      exists false, [TRef (str "Animal"); tnone]. split; [right; left; reflexivity | left; reflexivity].
    + intros x t r I Rd. destruct I as [Q|[Q|[]]]; injection Q as <- <-.
      * destruct Rd as [((op & ts & _ & [Q|(md & Q)]) & _)|(_ & ->)]; [discriminate Q | discriminate Q | apply FM; reflexivity].
      * destruct Rd as [(_ & Dr)|(N & _)]; [|destruct N; exists false, [TRef (str "Animal"); tnone]; split; [right; left; reflexivity | left; reflexivity]].
        inversion Dr as [? ? us ? WN UO|]; subst. inversion WN as [|? ? WN'|? ? us' N1 WN']; subst.
        inversion WN' as [|? ? WN2|? ? ? N2 WN2]; subst; [inversion WN2; subst; inversion UO; subst; apply FM; reflexivity | destruct (N2 eq_refl)].
  - reflexivity.
  - reflexivity.
  - intros a w L. rewrite (LK 0 a w L). apply FM. reflexivity.
Qed.

Lemma herd_typed : has_type Farm 0 (TClass 3) herd.
Proof.
  assert (Z : has_type Farm 0 (TClass 2) (VObj 2 [(str "name", vstr "Clara"); (str "mother", VNone)])).
  { eapply ht_obj; [reflexivity | reflexivity | reflexivity|]. cbn [c_module Animal c_kind raw_fields map f_name f_type snd].
    constructor; [apply ht_scalar; exact Logic.I|]. constructor; [|constructor].
    apply (ht_union _ _ _ _ tnone); [cbn [In]; auto | apply ht_scalar; exact Logic.I]. }
  eapply ht_obj; [reflexivity | reflexivity | reflexivity|]. cbn [c_module Herd c_kind raw_fields map f_name f_type snd].
  constructor; [|constructor; [apply ht_scalar; exact Logic.I | constructor]].
  eapply ht_obj; [reflexivity | reflexivity | reflexivity|]. cbn [c_module Animal c_kind raw_fields map f_name f_type snd].
  constructor; [apply ht_scalar; exact Logic.I|]. constructor; [|constructor].
  apply (ht_union _ _ _ _ (TRef (str "Animal"))); [left; reflexivity|]. eapply ht_ref; [reflexivity | exact Z].
Qed.

(** The hypotheses of the theorems are met by a program with a recursive class
    and a class that refers to it; two more classes share a name, but are not
    decorated. *)
Example C61_witness : exists doc j,
  library Farm 0 1 = Ok farm_catalog /\ get_class Farm 0 = Some (JsonObject 1) /\ get_class Farm 1 = Some (JsonArray 1) /\
  decorations herds /\ NoDup (map rq_type herds) /\ Permutation herds (rev herds) /\ unambiguous Farm (known 0 1 herds) (farming herds) /\
  quoted Farm (known 0 1 herds) (farming herds) (TClass 3) /\ env_ok Farm /\ canonical_env Farm /\
  classdef_to_schema Farm (farming herds) 9 9 (TClass 3) = Ok doc /\ fits Farm 0 (TClass 3) herd /\ conforms Farm herd /\ object_to_json Farm herd = Ok j /\
  known 0 1 herds 2 /\ ~ known 0 1 herds 4 /\ c_name Item = c_name Item'.
Proof.
  exists_result (classdef_to_schema Farm (farming herds) 9 9 (TClass 3)). exists_result (object_to_json Farm herd).
  do 3 (split; [reflexivity|]). split; [repeat constructor; eexists; repeat split|].
  split; [constructor; [intros [Q|[]]; discriminate Q|]; constructor; [intros []|]; constructor|]. split; [apply perm_swap|].
  split; [exact farm_unambiguous|]. split.
  { split.
    - intros s M. right. split; [reflexivity|]. apply farm_met in M; [|left; reflexivity]. cbn [In] in M.
      repeat (destruct M as [M|M]; [try discriminate M|]); [|destruct M]. injection M as <-. exists 2, Animal.
      split; [right; right; left; reflexivity|]. split; reflexivity.
    - intros s md M. apply farm_met in M; [|left; reflexivity]. cbn [In] in M. repeat (destruct M as [M|M]; [discriminate M|]). destruct M. }
  split; [exact farm_ok|]. split; [exact farm_canonical|]. split; [vm_compute; reflexivity|].
  assert (T3 : farm_family 0 (TClass 3)) by (split; [reflexivity | left; reflexivity]).
  destruct (tame_fits Farm farm_ok farm_canonical farm_family farm_tame 0 (TClass 3) herd T3 herd_typed) as (F & C).
  split; [exact F|]. split; [exact C|]. split; [vm_compute; reflexivity|]. split; [right; right; left; reflexivity|].
  split; [intros K; apply farm_known in K; lia | reflexivity].
Qed.

(** C61.  Two decorated classes of the same name, in different modules: both
    are registered, and the schema of the first is taken for the second. *)
Theorem C61_names_refuted : exists E S jo ja m c rs n k t doc v j, library E jo ja = Ok c /\ get_class E jo = Some (JsonObject m) /\
  get_class E ja = Some (JsonArray m) /\ decorations rs /\ NoDup (map rq_type rs) /\ s_catalog S = attempts E c rs /\
  (forall r, In r rs -> exists s, get_schema_identifier (s_catalog S) (rq_type r) = Ok (Some s)) /\
  classdef_to_schema E S n k t = Ok doc /\ has_type E 0 t v /\ object_to_json E v = Ok j /\ forall asserts, violates asserts doc j.
Proof.
  set (rs := [decoration 4 None; decoration 5 None]). set (t := TTuple [TClass 4; TClass 5]).
  set (v := VTuple [VObj 4 [(str "price", VInt 3)]; VObj 5 [(str "label", vstr "x")]]).
  exists Farm, (farming rs), 0, 1, 1, farm_catalog, rs, 9, 9, t.
  exists_result (classdef_to_schema Farm (farming rs) 9 9 t). exists v. exists_result (object_to_json Farm v).
  do 3 (split; [reflexivity|]). split; [repeat constructor; eexists; repeat split|].
  split; [constructor; [intros [Q|[]]; discriminate Q|]; constructor; [intros []|]; constructor|]. split; [reflexivity|].
  split; [intros r [<-|[<-|[]]]; exists (str "Item"); vm_compute; reflexivity|].
  split; [vm_compute; reflexivity|]. split; [|split; [vm_compute; reflexivity|intros asserts; exists 9; vm_compute; reflexivity]].
  apply ht_tuple. constructor; [|constructor; [|constructor]].
  - eapply ht_obj; [reflexivity | reflexivity | reflexivity|]. constructor; [apply ht_scalar; exact Logic.I | constructor].
  - eapply ht_obj; [reflexivity | reflexivity | reflexivity|]. constructor; [apply ht_scalar; exact Logic.I | constructor].
Qed.
Print Assumptions C61_names_refuted.
