(** C64: new versions of a program read the documents of old ones, and the reverse. *)
From Coq Require Import String List NArith ZArith Bool Lia Permutation.
From Verif Require Import Base Json PyTypes Mapping Deser DeserUnfold DeserSound Ser Lists SpecTyping TypingFacts SpecRecursion SpecTypes SpecDeser SpecFields SpecTagged SpecSer SpecRoundTrip
  RoundTrip FieldProofs TaggedProofs SpecEvolve EvolveProofs Samples PropDeser PropFields PropRoundTrip.
Import ListNotations.
Open Scope list_scope.
Open Scope nat_scope.

(** C64.  A new version of a program, in which classes have further fields that need not
    be given, reads every document that the old version reads; it finds the same values,
    except that the objects have the further attributes, with their defaults or None. *)
Theorem C64_backward : forall E E' m t j v, evolved E E' ->
  canonical_env E -> canonical_env E' -> guarded_env E -> guarded_env E' -> calm E -> calm E' -> shuffles (e_order E) ->
  env_ok E -> env_ok E' -> ready E m t -> ready E' m t -> durable E m t ->
  json_to_object E false m t j = Ok v -> exists v', json_to_object E' false m t j = Ok v' /\ grown (defaulted E') v v'.
Proof.
  intros E E' m t j v EV CE CE' GE GE' C C' ORD OK OK' R R' D H.
  eapply reads_backward; try eassumption. split; [exact R|]. split; assumption.
Qed.
Print Assumptions C64_backward.

(** C64.  The old version, told to skip unknown properties, reads every document that the
    new version reads; it finds the same values without the further attributes. *)
Theorem C64_forward : forall E E' m t j v', evolved E E' ->
  canonical_env E -> canonical_env E' -> guarded_env E -> guarded_env E' -> calm E -> calm E' -> shuffles (e_order E) ->
  env_ok E -> env_ok E' -> ready E m t -> ready E' m t -> durable E m t ->
  json_to_object E' true m t j = Ok v' -> exists v, json_to_object E true m t j = Ok v /\ grown (fun _ _ _ => True) v v'.
Proof.
  intros E E' m t j v' EV CE CE' GE GE' C C' ORD OK OK' R R' D H.
  eapply reads_forward; try eassumption. split; [exact R|]. split; assumption.
Qed.
Print Assumptions C64_forward.

(** C64.  What the old version writes, the new one reads. *)
Theorem C64_old_to_new : forall E E' m t v j, evolved E E' ->
  canonical_env E -> canonical_env E' -> guarded_env E -> guarded_env E' -> calm E -> calm E' -> shuffles (e_order E) ->
  env_ok E -> env_ok E' -> ready E m t -> ready E' m t -> durable E m t ->
  faithful E false m t -> has_type E m t v -> SpecRoundTrip.regular v -> object_to_json E v = Ok j ->
  exists v', json_to_object E' false m t j = Ok v' /\ grown (defaulted E') v v'.
Proof.
  intros E E' m t v j EV CE CE' GE GE' C C' ORD OK OK' R R' D F HT RG O.
  eapply C64_backward; try eassumption. eapply C01_roundtrip; eassumption.
Qed.
Print Assumptions C64_old_to_new.

(** C64.  What the new version writes, the old one reads, skipping what it does not know. *)
Theorem C64_new_to_old : forall E E' m t v' j, evolved E E' ->
  canonical_env E -> canonical_env E' -> guarded_env E -> guarded_env E' -> calm E -> calm E' -> shuffles (e_order E) ->
  env_ok E -> env_ok E' -> ready E m t -> ready E' m t -> durable E m t ->
  faithful E' true m t -> has_type E' m t v' -> SpecRoundTrip.regular v' -> object_to_json E' v' = Ok j ->
  exists v, json_to_object E true m t j = Ok v /\ grown (fun _ _ _ => True) v v'.
Proof.
  intros E E' m t v' j EV CE CE' GE GE' C C' ORD OK OK' R R' D F HT RG O.
  assert (ORD' : shuffles (e_order E')) by (rewrite (ev_order _ _ EV); exact ORD).
  eapply C64_forward; try eassumption. eapply C01_roundtrip; eassumption.
Qed.
Print Assumptions C64_new_to_old.

(** * A witness *)

(** @dataclass class Point: x: int; label: Optional[str]; y: Optional[int] = None; class_: str = "p"; z: int = 7 *)
Definition Point' := mkClass 0 (str "Point")
  (CData false [mkField (str "x") tint None;
                mkField (str "label") (TUnion false [tstr; tnone]) None;
                mkField (str "y") (TUnion false [tint; tnone]) (Some (Ok VNone));
                mkField (str "class_") tstr (Some (Ok (vstr "p")));
                mkField (str "z") tint (Some (Ok (VInt 7)))]) None None.

(** @dataclass class Dog: kind: Literal["dog"]; age: int; chip: Optional[str] *)
Definition Dog' := mkClass 0 (str "Dog")
  (CData false [mkField (str "kind") (TLiteral [LStr (str "dog")]) None;
                mkField (str "age") tint None;
                mkField (str "chip") (TUnion false [tstr; tnone]) None]) None None.

(** class Plain: note: Optional[str]; name: str; link: "Optional[Pair]" *)
Definition Plain' := mkClass 0 (str "Plain")
  (CPlain [(str "note", TUnion false [tstr; tnone]); (str "name", tstr); (str "link", TRef (str "Optional[Pair]"))]) None None.

(** @dataclass class Bird: kind: Literal["bird"] *)
Definition Bird := mkClass 0 (str "Bird") (CData false [mkField (str "kind") (TLiteral [LStr (str "bird")]) None]) None None.

(** A new version of the sample program. *)
Definition Zoo' : env := mkEnv
  [Color; Point'; Node; Pair; Dog'; Cat; Version; Plain'; Bird]
  [(0, str "Node", (true, TClass 2));
   (0, str "Json", (true, JsonAlias));
   (0, str "Optional[Pair]", (false, TUnion false [TClass 3; tnone]));
   (0, str "Bird", (true, TClass 8))]
  (fun ps => ps).

Ltac new_class c H :=
  unfold get_class, Zoo' in H; cbn [e_classes] in H;
  destruct c as [|[|[|[|[|[|[|[|[|?c]]]]]]]]]; cbn [nth_error] in H;
  [injection H as <-..|destruct c; discriminate H].

Ltac new_ref H :=
  unfold lookup, Zoo' in H; cbn [e_refs find_ref] in H;
  repeat match type of H with
  | (if ?b then _ else _) = _ =>
      let Q := fresh "Q" in destruct b eqn:Q;
      [injection H as <- <-; apply andb_true_iff in Q; destruct Q as [Q ?]; apply Nat.eqb_eq in Q; subst|]
  end; try discriminate H.

Lemma new_ok : env_ok Zoo'.
Proof.
  intros c cl H. new_class c H; split; cbn; try discriminate; try (intros; discriminate).
  all: try (nodup; fail).
  all: try (intros ? Q; injection Q as <-; repeat split; try (nodup; fail);
            repeat constructor; cbn; try reflexivity; intros; discriminate).
  all: try (intros fr fs f v Q I D; injection Q as <- <-; cbn [In] in I;
            repeat destruct I as [<-|I]; try contradiction; cbn [f_default f_type] in *; try discriminate D;
            injection D as <-;
            first [ apply ht_scalar; exact Logic.I
                  | apply (ht_union _ _ _ _ tnone); [cbn [In]; auto | apply ht_scalar; exact Logic.I] ]).
  intros h j v Q. injection Q as <-. destruct j; try discriminate. intros Q. injection Q as <-. eexists. reflexivity.
Qed.

Lemma new_refs : forall m s a t, lookup Zoo' m s = Some (a, t) ->
  t = TClass 2 \/ t = JsonAlias \/ (a = false /\ t = TUnion false [TClass 3; tnone]) \/ t = TClass 8.
Proof. intros m s a t H. new_ref H; auto. Qed.

Lemma new_guarded : guarded_env Zoo'.
Proof.
  assert (RR : forall m s, guarded Zoo' m (TRef s)).
  { intros m s. apply g_ref. intros a t L. apply new_refs in L. destruct L as [->|[->|[[_ ->]| ->]]]; prove_guarded. }
  split.
  - intros c cl x t H I. new_class c H; cbn [raw_fields c_kind map f_name f_type In Color Point' Node Pair Dog' Cat Version Plain' Bird] in I;
      repeat (destruct I as [I|I]; [injection I as <- <-|]); try contradiction; cbn [every_part fold_right tint tstr tnone]; prove_guarded; apply RR.
  - intros m s a t L. apply new_refs in L. destruct L as [->|[->|[[_ ->]| ->]]]; unfold JsonAlias; cbn [every_part fold_right tint tstr tnone];
      prove_guarded; apply RR.
  - intros m s t L. unfold lookup, Zoo' in L; cbn [e_refs find_ref] in L.
    repeat match type of L with (if ?b then _ else _) = _ => destruct b; [try discriminate L|] end; try discriminate L.
    injection L as <-. cbn. tauto.
Qed.

Lemma new_calm : calm Zoo'.
Proof.
  split.
  - intros c cl h j H. new_class c H; cbn; try discriminate. intros Q. injection Q as <-. destruct j; discriminate.
  - intros c cl fr fs f H. new_class c H; cbn; try discriminate; intros Q; injection Q as <- <-; cbn [In];
      intros I; repeat destruct I as [<-|I]; try contradiction; discriminate.
Qed.

Lemma new_canonical : canonical_env Zoo'.
Proof.
  split.
  - intros m s a t L. apply new_refs in L. destruct L as [->|[->|[[_ ->]| ->]]]; unfold JsonAlias; prove_canonical.
  - intros c cl x t G I. new_class c G; cbn [raw_fields c_kind map f_name f_type In Color Point' Node Pair Dog' Cat Version Plain' Bird] in I;
      repeat (destruct I as [I|I]; [injection I as <- <-|]); try contradiction; prove_canonical.
Qed.

Lemma two_halves : forall A B (L : list (A * B)), L = combine (map fst L) (map snd L).
Proof. induction L as [|[a b] l IH]; [reflexivity|]. cbn [map combine fst snd]. congruence. Qed.

Lemma layout_list : forall E cl L hs, layout E cl L -> hints E cl = Ok hs -> L = combine hs (defaults (c_kind cl)).
Proof. intros E cl L hs [H D] Q. rewrite Q in H. injection H as ->. rewrite <- D. apply two_halves. Qed.

Ltac prove_inserted :=
  cbn [combine defaults c_kind raw_fields map f_default fst snd];
  repeat first [apply in_nil | apply in_keep | apply in_new; [first [left; eexists; reflexivity | right; split; [reflexivity|]; do 2 eexists; (split; [|left; reflexivity]); cbn; auto; fail | reflexivity]|]].

Ltac prove_renewed :=
  split; [reflexivity | reflexivity | first [exact Logic.I | split; reflexivity]
  | let L := fresh in let L' := fresh in let A := fresh in let B := fresh in
    intros L L' A B; eapply layout_list in A; [|vm_compute; reflexivity]; eapply layout_list in B; [|vm_compute; reflexivity]; subst L L'; prove_inserted
  | let L := fresh in let A := fresh in
    intros L A; eapply layout_list in A; [|vm_compute; reflexivity]; subst L; cbn [combine defaults c_kind raw_fields map f_default];
    repeat (constructor; [repeat (constructor; [intros ? P1 P2; cbn [fst snd] in P1, P2; first [unfold json_name in P1, P2; cbn [c_kind] in P1, P2; apply json_property_spec in P1; apply json_property_spec in P2; vm_compute in P1, P2; congruence
       | cbv in P1, P2; congruence]|]); constructor|]); constructor
  | let P := fresh in let P' := fresh in intros ps ps' P P'; vm_compute in P, P'; injection P as <-; injection P' as <-; prove_inserted].

Lemma evolved_zoo : evolved Zoo Zoo'.
Proof.
  split; [reflexivity|..].
  - intros m s r H. unfold lookup, Zoo in H. unfold lookup, Zoo'. cbn [e_refs find_ref] in H |- *.
    repeat match type of H with (if ?b then _ else _) = _ => destruct b; [exact H|] end. discriminate H.
  - intros c cl G. zoo_class c G; (eexists; split; [reflexivity|]); prove_renewed.
Qed.

(** tuple[dict[Color, Union[int, str, Point]], list[Union[Dog, Cat]], Plain] *)
Definition U3 := TUnion false [tint; tstr; TClass 1].
Definition T1 := TTuple [TDict (TClass 0) U3; TList U2; TClass 7].

Definition old_types : list typ :=
  [T1; TDict (TClass 0) U3; TList U2; U3; U2; tint; tstr; TClass 0; TClass 1; TClass 3; TClass 4; TClass 5; TClass 7;
   TSet tint; TLiteral [LStr (str "dog")]; TLiteral [LStr (str "cat")]; TDict tstr tint].

Lemma old_reach : forall m t m' u, reach Zoo m t m' u -> In t old_types -> In u old_types.
Proof.
  assert (X : forall m t m' u, reach Zoo m t m' u -> (fun (_ : nat) t => In t old_types) m t -> (fun (_ : nat) t => In t old_types) m' u); [|exact X].
  apply reach_kept; cbn beta.
  - intros m t I. unfold old_types in I. cbn [In] in I. cases_in I; try discriminate I; injection I as <-; cbn; auto 30.
  - intros m t I. unfold old_types in I. cbn [In] in I. cases_in I; try discriminate I; injection I as <-; cbn; auto 30.
  - intros m k t I. unfold old_types in I. cbn [In] in I. cases_in I; try discriminate I; injection I as <- <-; cbn; auto 30.
  - intros m ts t I J. unfold old_types in I. cbn [In] in I. cases_in I; try discriminate I; injection I as <-; cbn [In] in J; cases_in J; subst t; cbn; auto 30.
  - intros m op ts t I J. unfold old_types in I. cbn [In] in I. cases_in I; try discriminate I; injection I as <- <-; cbn [In] in J; cases_in J; subst t; cbn; auto 30.
  - intros m ls l I J. unfold old_types in I. cbn [In] in I. cases_in I; try discriminate I; injection I as <-; cbn [In] in J; cases_in J; subst l; cbn; auto 30.
  - intros m t md I. unfold old_types in I. cbn [In] in I. cases_in I; discriminate I.
  - intros m s a t I _. unfold old_types in I. cbn [In] in I. cases_in I; discriminate I.
  - intros m c cl hs x t w I G FW H J RD. unfold old_types in I. cbn [In] in I. cases_in I; try discriminate I; injection I as <-; injection G as <-;
      vm_compute in H; injection H as <-; cbn [In] in J; cases_in J; try (injection J as <- <-).
    all: first [ apply optional_int in RD; [subst w; cbn; auto 30 | auto]
               | cbn in RD; subst w; cbn; auto 30; fail
               | eapply read_type_fun in RD; [|apply read_plain; not_optional]; subst w; cbn; auto 30 ].
Qed.

Lemma durable_zoo : forall m t, In t old_types -> durable Zoo m t.
Proof.
  intros m t T. split.
  - intros m' u RE. apply old_reach in RE; [|exact T]. unfold old_types in RE. cbn [In] in RE. cases_in RE; try discriminate RE. injection RE as <-. apply rg_scalar.
  - intros m' ls RE. apply old_reach in RE; [|exact T]. unfold old_types in RE. cbn [In] in RE.
    cases_in RE; try discriminate RE; injection RE as <-; apply rg_literal; intros l [<-|[]]; apply rg_scalar.
  - intros m' op ts ts1 a ts2 b RE UT Q I. apply old_reach in RE; [|exact T]. unfold old_types in RE. cbn [In] in RE. cases_in RE; try discriminate RE; injection RE as <- <-.
    + left. destruct ts1 as [|? [|? [|? ts1]]]; cbn [app] in Q; try discriminate Q; injection Q as; subst; try apply rg_scalar; [destruct I | destruct ts1; discriminate].
    + destruct (UT _ u2_tag).
Qed.

Definition old_value : value :=
  VTuple [VDict [(VEnum 0 (str "RED"), VInt 5); (VEnum 0 (str "GREEN"), v_point VNone)];
          VList [VObj 5 [(str "kind", vstr "cat"); (str "lives", VDict [(vstr "a", VInt 9)])];
                 VObj 4 [(str "kind", vstr "dog"); (str "age", VInt 2)]];
          v_plain].

Definition new_value : value :=
  VTuple [VDict [(VEnum 0 (str "RED"), VInt 5);
                 (VEnum 0 (str "GREEN"), VObj 1 [(str "x", VInt 3); (str "label", VNone); (str "y", VNone); (str "class_", vstr "q"); (str "z", VInt 7)])];
          VList [VObj 5 [(str "kind", vstr "cat"); (str "lives", VDict [(vstr "a", VInt 9)])];
                 VObj 4 [(str "kind", vstr "dog"); (str "age", VInt 2); (str "chip", VNone)]];
          VObj 7 [(str "note", VNone); (str "name", vstr "n"); (str "link", v_pair)]].

Definition old_json : json :=
  JArr [JObj [(str "red", JInt 5); (str "green", JObj [(str "x", JInt 3); (str "class", jstr "q")])];
        JArr [JObj [(str "kind", jstr "cat"); (str "lives", JObj [(str "a", JInt 9)])];
              JObj [(str "kind", jstr "dog"); (str "age", JInt 2)]];
        JObj [(str "name", jstr "n"); (str "link", JObj [(str "first", jstr "green"); (str "second", JArr [JInt 2; JInt 5])])]].

Definition new_json : json :=
  JArr [JObj [(str "red", JInt 5); (str "green", JObj [(str "x", JInt 3); (str "class", jstr "q"); (str "label", jstr "here"); (str "z", JInt 8)])];
        JArr [JObj [(str "kind", jstr "cat"); (str "lives", JObj [(str "a", JInt 9)])];
              JObj [(str "kind", jstr "dog"); (str "chip", jstr "c7"); (str "age", JInt 2)]];
        JObj [(str "name", jstr "n"); (str "note", jstr "m"); (str "link", JObj [(str "first", jstr "green"); (str "second", JArr [JInt 2; JInt 5])])]].

Example C64_witness : evolved Zoo Zoo' /\ canonical_env Zoo /\ canonical_env Zoo' /\ guarded_env Zoo /\ guarded_env Zoo' /\ calm Zoo /\ calm Zoo' /\
  shuffles (e_order Zoo) /\ env_ok Zoo /\ env_ok Zoo' /\ ready Zoo 0 T1 /\ ready Zoo' 0 T1 /\ durable Zoo 0 T1 /\
  json_to_object Zoo false 0 T1 old_json = Ok old_value /\ json_to_object Zoo' false 0 T1 old_json = Ok new_value /\
  (exists v', json_to_object Zoo' true 0 T1 new_json = Ok v' /\ v' <> new_value) /\ json_to_object Zoo true 0 T1 new_json = Ok old_value.
Proof.
  split; [exact evolved_zoo|]. split; [exact zoo_canonical|]. split; [exact new_canonical|]. split; [exact zoo_guarded|]. split; [exact new_guarded|].
  split; [exact zoo_calm|]. split; [exact new_calm|]. split; [exact zoo_shuffles|]. split; [exact zoo_ok|]. split; [exact new_ok|].
  split; [prove_ready|]. split; [prove_ready|]. split; [apply durable_zoo; left; reflexivity|].
  split; [vm_compute; reflexivity|]. split; [vm_compute; reflexivity|]. split; [|vm_compute; reflexivity].
  let r := eval vm_compute in (json_to_object Zoo' true 0 T1 new_json) in match r with Ok ?x => exists x end. split; [vm_compute; reflexivity | discriminate].
Qed.

Lemma faithful_reach : forall E skip m t m' t', reach E m t m' t' -> faithful E skip m t -> faithful E skip m' t'.
Proof.
  intros E skip m t m' t' RE [A B C D]. split; intros *; intros X; [eapply A | eapply B | eapply C | eapply D]; eapply reach_trans; eassumption.
Qed.

(** The types that list[Union[Dog, Cat]] leads to in the new version. *)
Definition new_types : list typ :=
  [TList U2; U2; TClass 4; TClass 5; TLiteral [LStr (str "dog")]; TLiteral [LStr (str "cat")]; TDict tstr tint; tint; tstr].

Lemma optional_str : forall w, read_type (TUnion false [tstr; tnone]) w -> w = tstr.
Proof.
  intros w R. eapply read_type_fun; [exact R|]. left. split.
  - exists false, [tstr; tnone]. split; [right; left; reflexivity | left; reflexivity].
  - eapply dn_union; [|constructor]. apply wo_keep; [discriminate|]. apply wo_none. apply wo_nil.
Qed.

Lemma new_reach : forall m t m' u, reach Zoo' m t m' u -> In t new_types -> In u new_types.
Proof.
  assert (X : forall m t m' u, reach Zoo' m t m' u -> (fun (_ : nat) t => In t new_types) m t -> (fun (_ : nat) t => In t new_types) m' u); [|exact X].
  apply reach_kept; cbn beta.
  - intros m t I. unfold new_types in I. cbn [In] in I. cases_in I; try discriminate I; injection I as <-; cbn; auto 30.
  - intros m t I. unfold new_types in I. cbn [In] in I. cases_in I; discriminate I.
  - intros m k t I. unfold new_types in I. cbn [In] in I. cases_in I; try discriminate I; injection I as <- <-; cbn; auto 30.
  - intros m ts t I J. unfold new_types in I. cbn [In] in I. cases_in I; discriminate I.
  - intros m op ts t I J. unfold new_types in I. cbn [In] in I. cases_in I; try discriminate I; injection I as <- <-; cbn [In] in J; cases_in J; subst t; cbn; auto 30.
  - intros m ls l I J. unfold new_types in I. cbn [In] in I. cases_in I; try discriminate I; injection I as <-; cbn [In] in J; cases_in J; subst l; cbn; auto 30.
  - intros m t md I. unfold new_types in I. cbn [In] in I. cases_in I; discriminate I.
  - intros m s a t I _. unfold new_types in I. cbn [In] in I. cases_in I; discriminate I.
  - intros m c cl hs x t w I G FW H J RD. unfold new_types in I. cbn [In] in I. cases_in I; try discriminate I; injection I as <-; injection G as <-;
      vm_compute in H; injection H as <-; cbn [In] in J; cases_in J; try (injection J as <- <-).
    all: first [ apply optional_str in RD; subst w; cbn; auto 30; fail
               | eapply read_type_fun in RD; [|apply read_plain; not_optional]; subst w; cbn; auto 30 ].
Qed.

Lemma new_fields : forall c cl, In c [4; 5] -> get_class Zoo' c = Some cl -> mirrored_fields Zoo' cl.
Proof.
  intros c cl I G. cbn [In] in I. cases_in I; subst c; injection G as <-; split.
  all: try (intros x t u d p F P; field_cases F; apply json_property_spec in P; vm_compute in P; subst p;
            first [reflexivity | apply json_property_spec; reflexivity]).
  all: try (intros x t u d y t' u' d' p F F' P P'; field_cases F; field_cases F'; try reflexivity;
            cbn [json_name c_kind] in P, P';
            first [ cbv in P, P'; congruence
                  | apply json_property_spec in P; apply json_property_spec in P'; vm_compute in P, P'; congruence ]).
  all: intros x t u d F HT; field_cases F; cbn [c_kind].
  all: try reflexivity.
  all: try (exfalso; inversion HT; subst; contradiction).
  all: try (exfalso; apply ht_literal_iff in HT; destruct HT as (l & [<-|[]] & Q); discriminate Q).
  exists false, [tstr; tnone]. split; [right; left; reflexivity | left; reflexivity].
Qed.

Lemma new_tag : tag Zoo' [TClass 4; TClass 5] (str "kind").
Proof.
  split; [discriminate|]. constructor; [|constructor; [|constructor]].
  - exists 4, [LStr (str "dog")]. split; [reflexivity|]. exists Dog', (TLiteral [LStr (str "dog")]), (raw_fields (c_kind Dog')).
    repeat split; cbn; auto.
  - exists 5, [LStr (str "cat")]. split; [reflexivity|]. exists Cat, (TLiteral [LStr (str "cat")]), (raw_fields (c_kind Cat)).
    repeat split; cbn; auto.
Qed.

Lemma new_faithful : forall skip, faithful Zoo' skip 0 (TList U2).
Proof.
  intros skip. assert (IN : In (TList U2) new_types) by (left; reflexivity).
  assert (UN : forall op ts, In (TUnion op ts) new_types -> ts = [TClass 4; TClass 5]).
  { intros op ts I. unfold new_types in I. cbn [In] in I. cases_in I; try discriminate I. injection I as <- <-. reflexivity. }
  split.
  - intros m' op ts RE UT. apply new_reach in RE; [|exact IN]. apply UN in RE. subst ts. destruct (UT _ new_tag).
  - intros m' op ts p RE TG. apply new_reach in RE; [|exact IN]. apply UN in RE. subst ts.
    intros q c cl ps t ls _ I G C Ip L. destruct I as [Q|[Q|[]]]; injection Q as <-; injection G as <-; injection C as <-;
      (split; [reflexivity|]); cbn [In raw_fields c_kind map f_name f_type Dog' Cat] in Ip;
      (cases_in Ip; injection Ip as <- <-; cbn in L; try discriminate L); injection L as <-;
      (split; [apply json_property_spec; reflexivity|]); intros l [<-|[]]; discriminate.
  - intros m' op ts p c ls RE TG I LP. apply new_reach in RE; [|exact IN]. apply UN in RE. subst ts.
    destruct LP as (cl & t & ps & G & C & Ip & L). destruct I as [Q|[Q|[]]]; injection Q as <-; injection G as <-; injection C as <-;
      cbn [In raw_fields c_kind map f_name f_type Dog' Cat] in Ip;
      (cases_in Ip; injection Ip as <- <-; cbn in L; try discriminate L); injection L as <-; intros [Q|[]]; discriminate Q.
  - intros m' c cl RE G. apply new_reach in RE; [|exact IN]. unfold new_types in RE. cbn [In] in RE. cases_in RE; try discriminate RE; injection RE as <-;
      pose proof G as G0; injection G as <-; unfold mirrored; cbn [c_kind c_to_json c_from_json Dog' Cat]; [apply (new_fields 4) | apply (new_fields 5)]; cbn; auto.
Qed.

Definition old_pets : value :=
  VList [VObj 5 [(str "kind", vstr "cat"); (str "lives", VDict [(vstr "a", VInt 9)])]; VObj 4 [(str "kind", vstr "dog"); (str "age", VInt 2)]].
Definition new_pets (chip : value) : value :=
  VList [VObj 5 [(str "kind", vstr "cat"); (str "lives", VDict [(vstr "a", VInt 9)])]; VObj 4 [(str "kind", vstr "dog"); (str "age", VInt 2); (str "chip", chip)]].
Definition old_pets_json : json :=
  JArr [JObj [(str "kind", jstr "cat"); (str "lives", JObj [(str "a", JInt 9)])]; JObj [(str "kind", jstr "dog"); (str "age", JInt 2)]].
Definition new_pets_json : json :=
  JArr [JObj [(str "kind", jstr "cat"); (str "lives", JObj [(str "a", JInt 9)])]; JObj [(str "kind", jstr "dog"); (str "age", JInt 2); (str "chip", jstr "c7")]].

Example C64_witness_written : ready Zoo 0 (TList U2) /\ ready Zoo' 0 (TList U2) /\ durable Zoo 0 (TList U2) /\
  faithful Zoo false 0 (TList U2) /\ has_type Zoo 0 (TList U2) old_pets /\ SpecRoundTrip.regular old_pets /\ object_to_json Zoo old_pets = Ok old_pets_json /\
  json_to_object Zoo' false 0 (TList U2) old_pets_json = Ok (new_pets VNone) /\
  faithful Zoo' true 0 (TList U2) /\ has_type Zoo' 0 (TList U2) (new_pets (vstr "c7")) /\ SpecRoundTrip.regular (new_pets (vstr "c7")) /\
  object_to_json Zoo' (new_pets (vstr "c7")) = Ok new_pets_json /\ json_to_object Zoo true 0 (TList U2) new_pets_json = Ok old_pets.
Proof.
  split; [prove_ready|]. split; [prove_ready|]. split; [apply durable_zoo; cbn; auto|].
  split. { eapply faithful_reach; [|apply zoo_faithful]. eapply re_tuple; [right; left; reflexivity | apply re_refl]. }
  split; [unfold old_pets, vstr, U2; typed; apply ht_scalar; exact Logic.I|].
  split; [intros w H; unfold old_pets, vstr in H; walk H|]. split; [vm_compute; reflexivity|]. split; [vm_compute; reflexivity|].
  split; [apply new_faithful|].
  split. { unfold new_pets, vstr, U2. typed; try (apply ht_scalar; exact Logic.I). apply (ht_union _ _ _ _ tstr); [cbn; auto | apply ht_scalar; exact Logic.I]. }
  split; [intros w H; unfold new_pets, vstr in H; walk H|]. split; vm_compute; reflexivity.
Qed.

(** * What breaks documents *)

(** The strict old version does not read documents of the new one. *)
Theorem C64_strict_refuted : exists E E' m t j v', evolved E E' /\ ready E m t /\ ready E' m t /\ durable E m t /\
  json_to_object E' false m t j = Ok v' /\ json_to_object E false m t j = Err EJsonKey.
Proof.
  exists Zoo, Zoo', 0, (TList U2), new_pets_json, (new_pets (vstr "c7")). split; [exact evolved_zoo|]. split; [prove_ready|]. split; [prove_ready|].
  split; [apply durable_zoo; cbn; auto|]. split; vm_compute; reflexivity.
Qed.
Print Assumptions C64_strict_refuted.

(** Properties that the old version skipped become fields of the new one: the new version
    does not read what the old one read. *)
Theorem C64_skipped_refuted : exists E E' m t j v, evolved E E' /\ ready E m t /\ ready E' m t /\ durable E m t /\
  json_to_object E true m t j = Ok v /\ json_to_object E' true m t j = Err EJsonType.
Proof.
  exists Zoo, Zoo', 0, (TClass 4), (JObj [(str "kind", jstr "dog"); (str "age", JInt 2); (str "chip", JInt 7)]), (VObj 4 [(str "kind", vstr "dog"); (str "age", VInt 2)]).
  split; [exact evolved_zoo|]. split; [prove_ready|]. split; [prove_ready|]. split; [apply durable_zoo; cbn; auto 20|]. split; vm_compute; reflexivity.
Qed.
Print Assumptions C64_skipped_refuted.

(** @dataclass class Box: x: int      @dataclass class Crate: x: int; y: int *)
Definition Box := mkClass 0 (str "Box") (CData false [mkField (str "x") tint None]) None None.
Definition Crate := mkClass 0 (str "Crate") (CData false [mkField (str "x") tint None; mkField (str "y") tint None]) None None.
(** class Box gains y: Optional[int] *)
Definition Box' := mkClass 0 (str "Box") (CData false [mkField (str "x") tint None; mkField (str "y") (TUnion false [tint; tnone]) None]) None None.
(** class Box gains kind: Literal["box"] = "box", and class Crate the like *)
Definition Box2 := mkClass 0 (str "Box") (CData false [mkField (str "x") tint None; mkField (str "kind") (TLiteral [LStr (str "box")]) (Some (Ok (vstr "box")))]) None None.
Definition Crate2 := mkClass 0 (str "Crate") (CData false [mkField (str "x") tint None; mkField (str "y") tint None;
  mkField (str "kind") (TLiteral [LStr (str "crate")]) (Some (Ok (vstr "crate")))]) None None.

Definition Store : env := mkEnv [Box; Crate] [] (fun ps => ps).
Definition Store1 : env := mkEnv [Box'; Crate] [] (fun ps => ps).
Definition Store2 : env := mkEnv [Box2; Crate2] [] (fun ps => ps).

Lemma evolved_store : evolved Store Store1.
Proof.
  split; [reflexivity | intros m s r H; discriminate H|]. intros c cl G. unfold get_class, Store in G. cbn [e_classes] in G.
  destruct c as [|[|c]]; cbn [nth_error] in G; [injection G as <-..|destruct c; discriminate G]; (eexists; split; [reflexivity|]); prove_renewed.
Qed.

(** In a union without tags a class that gains a field takes the documents of a later one. *)
Theorem C64_union_refuted : exists E E' m t j c c' attrs attrs', evolved E E' /\ ready E m t /\ ready E' m t /\
  json_to_object E false m t j = Ok (VObj c attrs) /\ json_to_object E' false m t j = Ok (VObj c' attrs') /\ c' <> c.
Proof.
  exists Store, Store1, 0, (TUnion false [TClass 0; TClass 1]), (JObj [(str "x", JInt 1); (str "y", JInt 2)]), 1, 0, [(str "x", VInt 1); (str "y", VInt 2)], [(str "x", VInt 1); (str "y", VInt 2)].
  split; [exact evolved_store|]. split; [prove_ready|]. split; [prove_ready|]. split; [vm_compute; reflexivity|]. split; [vm_compute; reflexivity | discriminate].
Qed.
Print Assumptions C64_union_refuted.

(** Fields of literal type make tags, and documents without tags are then rejected, though
    the fields have defaults. *)
Theorem C64_literal_refuted : exists E E' m t j v, ready E m t /\ ready E' m t /\
  (forall c cl cl' L L', get_class E c = Some cl -> get_class E' c = Some cl' -> layout E cl L -> layout E' cl' L' -> inserted spare L L') /\
  json_to_object E false m t j = Ok v /\ json_to_object E' false m t j = Err EJsonType.
Proof.
  exists Store, Store2, 0, (TUnion false [TClass 0; TClass 1]), (JObj [(str "x", JInt 1)]), (VObj 0 [(str "x", VInt 1)]).
  split; [prove_ready|]. split; [prove_ready|]. split.
  - intros c cl cl' L L' G G' A B. unfold get_class, Store in G. unfold get_class, Store2 in G'. cbn [e_classes] in G, G'.
    destruct c as [|[|c]]; cbn [nth_error] in G, G'; [injection G as <-; injection G' as <-..|destruct c; discriminate G];
      (eapply layout_list in A; [|vm_compute; reflexivity]); (eapply layout_list in B; [|vm_compute; reflexivity]); subst L L'; prove_inserted.
  - split; vm_compute; reflexivity.
Qed.
Print Assumptions C64_literal_refuted.

(** A further field that must be given. *)
Theorem C64_required_refuted : exists E E' m t j v, ready E m t /\ ready E' m t /\
  (forall c cl cl' L L', get_class E c = Some cl -> get_class E' c = Some cl' -> layout E cl L -> layout E' cl' L' -> inserted (fun _ => True) L L') /\
  json_to_object E false m t j = Ok v /\ json_to_object E' false m t j = Err EJsonKey.
Proof.
  exists Store, (mkEnv [Crate; Crate] [] (fun ps => ps)), 0, (TClass 0), (JObj [(str "x", JInt 1)]), (VObj 0 [(str "x", VInt 1)]).
  split; [prove_ready|]. split; [prove_ready|]. split.
  - intros c cl cl' L L' G G' A B. unfold get_class, Store in G. unfold get_class in G'. cbn [e_classes] in G, G'.
    destruct c as [|[|c]]; cbn [nth_error] in G, G'; [injection G as <-; injection G' as <-..|destruct c; discriminate G];
      (eapply layout_list in A; [|vm_compute; reflexivity]); (eapply layout_list in B; [|vm_compute; reflexivity]); subst L L';
      cbn [combine defaults c_kind raw_fields map f_default]; repeat first [apply in_nil | apply in_keep | apply in_new; [exact Logic.I|]].
  - split; vm_compute; reflexivity.
Qed.
Print Assumptions C64_required_refuted.
