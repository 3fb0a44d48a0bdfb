(** C01: deserialization undoes serialization. *)
From Coq Require Import String List NArith ZArith Bool Lia Permutation.
From Verif Require Import Base Json TimeDelta IsoTime PyTypes TypeAlgebra Mapping Deser Ser Lists SpecIsoTime SpecTyping TypingFacts SpecRecursion DeserUnfold
  SpecDeser SpecTypes TypeAlgebraProofs SpecFields FieldProofs SpecTagged TaggedProofs DeserFacts SpecNumbers
  SpecSer SerFacts SpecRoundTrip RoundTrip Samples PropDeser PropFields.
Import ListNotations.
Open Scope list_scope.
Open Scope nat_scope.

(** C01.  What is written for a value of type [t] is read back, at type [t], as
    that same value. *)
Theorem C01_roundtrip : forall E skip m t v j,
  env_ok E -> canonical_env E -> guarded_env E -> calm E -> shuffles (e_order E) ->
  ready E m t -> faithful E skip m t -> has_type E m t v -> regular v ->
  object_to_json E v = Ok j -> json_to_object E skip m t j = Ok v.
Proof. intros E skip m t v j OK CE GE C ORD. exact (roundtrip E OK CE GE C ORD skip m t v j). Qed.
Print Assumptions C01_roundtrip.

(** C01.  Alternatives of a union that are told apart by the kind of data, or by
    the absence of the first, required, field, satisfy what [faithful] asks. *)
Theorem C01_apart : forall E skip m op ts,
  canonical_env E -> guarded_env E -> calm E -> shuffles (e_order E) ->
  ready E m (TUnion op ts) -> members_apart E m ts -> separable E skip m ts.
Proof. intros E skip m op ts CE GE C ORD. exact (apart_separable E CE GE C ORD skip m op ts). Qed.
Print Assumptions C01_apart.

(** * A witness *)

(** A predicate kept by every step of reading. *)
Lemma reach_kept : forall E (P : nat -> typ -> Prop),
  (forall m t, P m (TList t) -> P m t) -> (forall m t, P m (TSet t) -> P m t) -> (forall m k t, P m (TDict k t) -> P m t) ->
  (forall m ts t, P m (TTuple ts) -> In t ts -> P m t) -> (forall m op ts t, P m (TUnion op ts) -> In t ts -> P m t) ->
  (forall m ls l, P m (TLiteral ls) -> In l ls -> P m (lit_type l)) -> (forall m t md, P m (TAnnot t md) -> P m t) ->
  (forall m s a t, P m (TRef s) -> lookup E m s = Some (a, t) -> P m (unwrap_annotated t)) ->
  (forall m c cl hs x t w, P m (TClass c) -> get_class E c = Some cl -> fieldwise cl -> hints E cl = Ok hs -> In (x, t) hs ->
     reads cl t w -> P (c_module cl) w) ->
  forall m t m' u, reach E m t m' u -> P m t -> P m' u.
Proof.
  intros E P A1 A2 A3 A4 A5 A6 A7 A8 A9 m t m' u H. induction H; intros X; eauto.
Qed.

Lemma field_of_list : forall E cl fs hs x t u d, class_properties E cl = Ok fs -> hints E cl = Ok hs ->
  field_of E cl x t u d -> In (x, t) fs /\ In (x, u, d) (combine hs (defaults (c_kind cl))).
Proof.
  intros E cl fs hs x t u d C H (fs' & L & C' & [H' D] & I & J). rewrite C in C'. injection C' as <-.
  rewrite H in H'. injection H' as ->. split; [exact I|]. rewrite <- D.
  replace (combine (map fst L) (map snd L)) with L; [exact J|].
  clear. induction L as [|[a b] l IH]; [reflexivity|]. cbn [map combine fst snd]. congruence.
Qed.

Ltac cases_in H := repeat (destruct H as [H|H]; [|]); try contradiction.

(** Union[int, str, Point, Plain] *)
Definition U1 := TUnion false [tint; tstr; TClass 1; TClass 7].
(** Union[Dog, Cat] *)
Definition U2 := TUnion false [TClass 4; TClass 5].
(** tuple[dict[Color, U1], list[U2], Version] *)
Definition T0 := TTuple [TDict (TClass 0) U1; TList U2; TClass 6].

Definition met : list typ :=
  [T0; TDict (TClass 0) U1; TList U2; U1; U2; tint; tstr; TClass 0; TClass 1; TClass 3; TClass 4; TClass 5; TClass 6; TClass 7;
   TSet tint; TLiteral [LStr (str "dog")]; TLiteral [LStr (str "cat")]; TDict tstr tint].

Lemma reads_ordinary : forall t u w cl, (match c_kind cl with CTuple _ => False | _ => True end) ->
  read_type t u -> reads cl t w -> w = u.
Proof.
  intros t u w cl K R RD. unfold reads in RD. destruct (c_kind cl); try contradiction; eapply read_type_fun; eassumption.
Qed.

Lemma read_plain : forall t, ~ optional t -> read_type t t.
Proof. intros t N. right. auto. Qed.

Ltac not_optional :=
  let op := fresh "op" in let ts := fresh "ts" in let Q := fresh "Q" in
  intros (op & ts & _ & [Q|(? & Q)]); discriminate Q.

Lemma optional_int : forall t w, t = tint \/ t = TClass 3 -> read_type (TUnion false [t; tnone]) w -> w = t.
Proof.
  intros t w D R. eapply read_type_fun; [exact R|]. left. split.
  - exists false, [t; tnone]. split; [right; left; reflexivity | left; reflexivity].
  - eapply dn_union; [|constructor]. apply wo_keep; [destruct D as [->| ->]; discriminate|]. apply wo_none. apply wo_nil.
Qed.

Lemma zoo_met : forall m t m' u, reach Zoo m t m' u -> In t met -> In u met.
Proof.
  assert (X : forall m t m' u, reach Zoo m t m' u -> (fun (_ : nat) t => In t met) m t -> (fun (_ : nat) t => In t met) m' u); [|exact X].
  apply reach_kept; cbn beta.
  - intros m t I. unfold met in I. cbn [In] in I. cases_in I; try discriminate I; injection I as <-; cbn; auto 30.
  - intros m t I. unfold met in I. cbn [In] in I. cases_in I; try discriminate I; injection I as <-; cbn; auto 30.
  - intros m k t I. unfold met in I. cbn [In] in I. cases_in I; try discriminate I; injection I as <- <-; cbn; auto 30.
  - intros m ts t I J. unfold met in I. cbn [In] in I. cases_in I; try discriminate I; injection I as <-; cbn [In] in J; cases_in J; subst t; cbn; auto 30.
  - intros m op ts t I J. unfold met in I. cbn [In] in I. cases_in I; try discriminate I; injection I as <- <-; cbn [In] in J; cases_in J; subst t; cbn; auto 30.
  - intros m ls l I J. unfold met in I. cbn [In] in I. cases_in I; try discriminate I; injection I as <-; cbn [In] in J; cases_in J; subst l; cbn; auto 30.
  - intros m t md I. unfold met in I. cbn [In] in I. cases_in I; discriminate I.
  - intros m s a t I _. unfold met in I. cbn [In] in I. cases_in I; discriminate I.
  - intros m c cl hs x t w I G FW H J RD. unfold met in I. cbn [In] in I. cases_in I; try discriminate I; injection I as <-; injection G as <-;
      vm_compute in H; injection H as <-; cbn [In] in J; cases_in J; try (injection J as <- <-).
    + apply read_type_fun with (w := tint) in RD; [subst w; cbn; auto 30 | apply read_plain; not_optional].
    + apply optional_int in RD; [subst w; cbn; auto 30 | auto].
    + apply read_type_fun with (w := tstr) in RD; [subst w; cbn; auto 30 | apply read_plain; not_optional].
    + cbn in RD. subst w. cbn. auto 30.
    + cbn in RD. subst w. cbn. auto 30.
    + apply read_type_fun with (w := TLiteral [LStr (str "dog")]) in RD; [subst w; cbn; auto 30 | apply read_plain; not_optional].
    + apply read_type_fun with (w := tint) in RD; [subst w; cbn; auto 30 | apply read_plain; not_optional].
    + apply read_type_fun with (w := TLiteral [LStr (str "cat")]) in RD; [subst w; cbn; auto 30 | apply read_plain; not_optional].
    + apply read_type_fun with (w := TDict tstr tint) in RD; [subst w; cbn; auto 30 | apply read_plain; not_optional].
    + apply read_type_fun with (w := tstr) in RD; [subst w; cbn; auto 30 | apply read_plain; not_optional].
    + apply optional_int in RD; [subst w; cbn; auto 30 | auto].
Qed.

Ltac field_cases F :=
  eapply field_of_list in F; [|vm_compute; reflexivity | vm_compute; reflexivity];
  let A := fresh "A" in let B := fresh "B" in let Bn := fresh "Bn" in destruct F as [A B];
  cbn [In combine defaults c_kind raw_fields map f_default] in A, B; cases_in A; cases_in B;
  apply pair_equal_spec in A; destruct A as [<- <-];
  apply pair_equal_spec in B; destruct B as [B <-]; apply pair_equal_spec in B; destruct B as [Bn <-];
  try discriminate Bn; clear Bn.

Lemma zoo_fields : forall c cl, In c [1; 3; 4; 5; 7] -> get_class Zoo c = Some cl -> mirrored_fields Zoo cl.
Proof.
  intros c cl I G. cbn [In] in I. cases_in I; subst c; injection G as <-; split.
  all: try (intros x t u d p F P; field_cases F; apply json_property_spec in P; vm_compute in P; subst p;
            first [reflexivity | apply json_property_spec; reflexivity]).
  all: try (intros x t u d y t' u' d' p F F' P P'; field_cases F; field_cases F'; try reflexivity;
            cbn [json_name c_kind] in P, P';
            first [ cbv in P, P'; congruence
                  | apply json_property_spec in P; apply json_property_spec in P'; vm_compute in P, P'; congruence ]).
  all: intros x t u d F HT; field_cases F; cbn [c_kind].
  all: try reflexivity.
  all: try (exfalso; inversion HT; subst; contradiction).
  all: try (exfalso; apply ht_literal_iff in HT; destruct HT as (l & [<-|[]] & Q); discriminate Q).
  exists false, [TClass 3; tnone]. split; [right; left; reflexivity | left; reflexivity].
Qed.

Lemma zoo_mirrored : forall c cl, In (TClass c) met -> get_class Zoo c = Some cl -> mirrored Zoo c cl.
Proof.
  intros c cl I G. unfold met in I. cbn [In] in I. cases_in I; try discriminate I; injection I as <-; pose proof G as G0; injection G as <-;
    unfold mirrored; cbn [c_kind c_to_json c_from_json Color Point Pair Dog Cat Version Plain].
  - split; [reflexivity|]. intros x j [Q|[Q|[]]]; injection Q as <- <-; (split; [discriminate | constructor]).
  - apply (zoo_fields 1); [cbn; auto 10 | reflexivity].
  - split; [reflexivity|]. apply (zoo_fields 3); [cbn; auto 10 | reflexivity].
  - apply (zoo_fields 4); [cbn; auto 10 | reflexivity].
  - apply (zoo_fields 5); [cbn; auto 10 | reflexivity].
  - intros v j O H. destruct v as [| | | | | | | | | | | | | | | | | |c attrs|]; try discriminate. injection O as ->.
    destruct attrs as [|[a w] [|]]; try discriminate; destruct w; try discriminate.
    destruct (pystr_eqb a (str "text")) eqn:Q; [|discriminate]. injection H as <-. apply pystr_eqb_eq in Q. subst a.
    split; [discriminate | reflexivity].
  - apply (zoo_fields 7); [cbn; auto 10 | reflexivity].
Qed.

Lemma zoo_gives : forall m u jk, In u [tstr; TClass 1; TClass 7] -> gives Zoo m u jk ->
  (u = tstr /\ jk = StringKind) \/ jk = ObjectKind.
Proof.
  intros m u jk I H. cbn [In] in I. cases_in I; subst u.
  - inversion H; subst. left. auto.
  - right. inversion H as [| | | | | | | | |? ? cl ms x j G K| |? ? cl h v j G T]; subst; try reflexivity; injection G as <-; discriminate.
  - right. inversion H as [| | | | | | | | |? ? cl ms x j G K| |? ? cl h v j G T]; subst; try reflexivity; injection G as <-; discriminate.
Qed.

Lemma u1_apart : forall m, members_apart Zoo m [tint; tstr; TClass 1; TClass 7].
Proof.
  assert (INT : forall m u, In u [tstr; TClass 1; TClass 7] -> apart Zoo m tint u).
  { intros m u I. left. intros jk H. apply (zoo_gives _ _ _ I) in H. apply rf_scalar. cbn [scalar_kind].
    destruct H as [[_ ->]| ->]; intros [Q|Q]; discriminate Q. }
  assert (STR : forall m u, In u [TClass 1; TClass 7] -> apart Zoo m tstr u).
  { intros m u I. left. intros jk H. apply zoo_gives in H; [|right; exact I]. apply rf_scalar. cbn [scalar_kind].
    destruct H as [[-> _]| ->]; [|discriminate]. destruct I as [Q|[Q|[]]]; discriminate Q. }
  assert (PT : first_missing Zoo 1 7).
  { exists Point, Plain, (str "x"), tint, (str "x"),
      [(str "y", TUnion false [tint; tnone], Some (Ok VNone)); (str "class_", tstr, Some (Ok (vstr "p")))]. split; [reflexivity|]. split; [reflexivity|].
    split; [split; vm_compute; reflexivity|]. split; [not_optional|].
    split; [apply json_property_spec; vm_compute; reflexivity|]. split; [reflexivity|]. split; [reflexivity|].
    split; [discriminate|]. intros fs y u C I P. vm_compute in C. injection C as <-. cbn [In] in I.
    cases_in I; injection I as <- <-; apply json_property_spec in P; vm_compute in P; discriminate P. }
  intros m ts1 w ts2 u Q I.
  destruct ts1 as [|a [|b [|c [|d [|]]]]]; cbn [app] in Q; try discriminate Q; injection Q as; subst.
  - apply INT. exact I.
  - apply STR. exact I.
  - destruct I as [<-|[]]. right. exists 1, 7. auto.
  - destruct I.
Qed.

Lemma u2_tag : tag Zoo [TClass 4; TClass 5] (str "kind").
Proof.
  split; [discriminate|]. constructor; [|constructor; [|constructor]].
  - exists 4, [LStr (str "dog")]. split; [reflexivity|]. exists Dog, (TLiteral [LStr (str "dog")]), (raw_fields (c_kind Dog)).
    repeat split; cbn; auto.
  - exists 5, [LStr (str "cat")]. split; [reflexivity|]. exists Cat, (TLiteral [LStr (str "cat")]), (raw_fields (c_kind Cat)).
    repeat split; cbn; auto.
Qed.

Lemma zoo_unions : forall op ts, In (TUnion op ts) met -> ts = [tint; tstr; TClass 1; TClass 7] \/ ts = [TClass 4; TClass 5].
Proof. intros op ts I. unfold met in I. cbn [In] in I. cases_in I; try discriminate I; injection I as <- <-; auto. Qed.

Lemma zoo_ready_u1 : ready Zoo 0 U1.
Proof. prove_ready. Qed.

Lemma zoo_shuffles : shuffles (e_order Zoo).
Proof. intros ps. apply Permutation_refl. Qed.

Lemma zoo_module : forall m t m' u, reach Zoo m t m' u -> m = 0 -> m' = 0.
Proof.
  intros m t m' u H. induction H as [| | | | | | | | |m c cl hs x t w m' u G FW HH I RD H IH]; intros; auto. apply IH. zoo_class c G; reflexivity.
Qed.

Lemma zoo_faithful : forall skip, faithful Zoo skip 0 T0.
Proof.
  intros skip. assert (T0_met : In T0 met) by (left; reflexivity).
  split.
  - intros m' op ts RE UT. pose proof (zoo_module _ _ _ _ RE eq_refl) as ->. apply zoo_met in RE; [|exact T0_met]. apply zoo_unions in RE.
    destruct RE as [->| ->].
    + apply (apart_separable Zoo zoo_canonical zoo_guarded zoo_calm zoo_shuffles skip 0 false); [exact zoo_ready_u1 | apply u1_apart].
    + destruct (UT _ u2_tag).
  - intros m' op ts p RE TG. apply zoo_met in RE; [|exact T0_met]. apply zoo_unions in RE. destruct RE as [->| ->].
    + destruct TG as [_ F]. inversion F as [|? ? (c & ls & Q & _) _]. discriminate Q.
    + intros q c cl ps t ls _ I G C Ip L. destruct I as [Q|[Q|[]]]; injection Q as <-; injection G as <-; injection C as <-;
        (split; [reflexivity|]); cbn [In raw_fields c_kind map f_name f_type Dog Cat] in Ip;
        (cases_in Ip; injection Ip as <- <-; cbn in L; try discriminate L); injection L as <-;
        (split; [apply json_property_spec; reflexivity|]); intros l [<-|[]]; discriminate.
  - intros m' op ts p c ls RE TG I LP. apply zoo_met in RE; [|exact T0_met]. apply zoo_unions in RE. destruct RE as [->| ->].
    + destruct TG as [_ F]. inversion F as [|? ? (c' & ls' & Q & _) _]. discriminate Q.
    + destruct LP as (cl & t & ps & G & C & Ip & L). destruct I as [Q|[Q|[]]]; injection Q as <-; injection G as <-; injection C as <-;
        cbn [In raw_fields c_kind map f_name f_type Dog Cat] in Ip;
        (cases_in Ip; injection Ip as <- <-; cbn in L; try discriminate L); injection L as <-; intros [Q|[]]; discriminate Q.
  - intros m' c cl RE G. apply zoo_met in RE; [|exact T0_met]. apply zoo_mirrored; assumption.
Qed.

Definition v_point (y : value) := VObj 1 [(str "x", VInt 3); (str "y", y); (str "class_", vstr "q")].
Definition v_pair := VObj 3 [(str "first", VEnum 0 (str "GREEN")); (str "second", VSet [VInt 2; VInt 5])].
Definition v_plain := VObj 7 [(str "name", vstr "n"); (str "link", v_pair)].

(** A value with alternatives of every sort, a named tuple with a set inside an
    optional field, and an object written by its own method. *)
Definition v0 : value :=
  VTuple [VDict [(VEnum 0 (str "RED"), v_plain); (VEnum 0 (str "GREEN"), v_point VNone)];
          VList [VObj 5 [(str "kind", vstr "cat"); (str "lives", VDict [(vstr "a", VInt 9)])];
                 VObj 4 [(str "kind", vstr "dog"); (str "age", VInt 2)]];
          VObj 6 [(str "text", vstr "1.0")]].

Definition j0 : json :=
  JArr [JObj [(str "red", JObj [(str "name", jstr "n");
                                (str "link", JObj [(str "first", jstr "green"); (str "second", JArr [JInt 2; JInt 5])])]);
              (str "green", JObj [(str "x", JInt 3); (str "class", jstr "q")])];
        JArr [JObj [(str "kind", jstr "cat"); (str "lives", JObj [(str "a", JInt 9)])];
              JObj [(str "kind", jstr "dog"); (str "age", JInt 2)]];
        jstr "1.0"].

Example C01_witness_output : object_to_json Zoo v0 = Ok j0 /\ json_to_object Zoo false 0 T0 j0 = Ok v0.
Proof. split; vm_compute; reflexivity. Qed.

Ltac walk H :=
  inversion H; subst; clear H; try exact Logic.I;
  match goal with I : In _ _ |- _ => cbn [In] in I; cases_in I end;
  match goal with
  | I : (_, _) = (_, _) |- _ => injection I as <- <-
  | I : _ = _ |- _ => subst
  end;
  match goal with I : inside _ _ |- _ => walk I end.

Lemma v0_regular : regular v0.
Proof.
  intros w H. unfold v0, v_plain, v_point, v_pair, vstr in H. walk H.
Qed.

Ltac typed :=
  repeat first
  [ exact Logic.I | assumption
  | match goal with
    | |- has_type _ _ (TScalar _) _ => apply ht_scalar; exact Logic.I
    | |- has_type _ _ (TList _) _ => apply ht_list
    | |- has_type _ _ (TTuple _) _ => apply ht_tuple
    | |- has_type _ _ (TSet _) _ => apply ht_set
    | |- has_type _ _ (TDict _ _) _ => apply ht_dict
    | |- has_type _ _ (TLiteral [?l]) _ => apply (ht_literal _ _ _ l); left; reflexivity
    | |- has_type _ _ (TClass _) (VEnum _ _) => eapply ht_enum; [reflexivity | reflexivity | cbn; auto]
    | |- has_type _ _ (TClass 6) _ => eapply ht_hook; [reflexivity | exact Logic.I | reflexivity]
    | |- has_type _ _ (TClass _) (VObj _ _) => eapply ht_obj; [reflexivity | first [exact Logic.I | reflexivity] | reflexivity | cbn]
    | |- has_type _ _ (TUnion _ _) (VObj 1 _) => apply (ht_union _ _ _ _ (TClass 1)); [cbn; auto|]
    | |- has_type _ _ (TUnion _ _) (VObj 3 _) => apply (ht_union _ _ _ _ (TClass 3)); [cbn; auto|]
    | |- has_type _ _ (TUnion _ _) (VObj 4 _) => apply (ht_union _ _ _ _ (TClass 4)); [cbn; auto|]
    | |- has_type _ _ (TUnion _ _) (VObj 5 _) => apply (ht_union _ _ _ _ (TClass 5)); [cbn; auto|]
    | |- has_type _ _ (TUnion _ _) (VObj 7 _) => apply (ht_union _ _ _ _ (TClass 7)); [cbn; auto|]
    | |- has_type _ _ (TUnion _ _) VNone => apply (ht_union _ _ _ _ tnone); [cbn; auto|]
    | |- has_type _ _ (TRef _) _ => eapply ht_ref; [reflexivity|]
    | |- Forall _ _ => constructor
    | |- Forall2 _ _ _ => constructor
    | |- ForallOrdPairs _ _ => constructor
    | |- NoDup _ => nodup
    | |- _ = _ => reflexivity
    end
  | progress cbn [fst snd] ].

Lemma v0_typed : has_type Zoo 0 T0 v0.
Proof. unfold v0, v_plain, v_point, v_pair, vstr, T0, U1, U2. typed; apply ht_scalar; exact Logic.I. Qed.

Example C01_witness :
  env_ok Zoo /\ canonical_env Zoo /\ guarded_env Zoo /\ calm Zoo /\ shuffles (e_order Zoo) /\
  ready Zoo 0 T0 /\ faithful Zoo false 0 T0 /\ has_type Zoo 0 T0 v0 /\ regular v0 /\
  object_to_json Zoo v0 = Ok j0 /\ members_apart Zoo 0 [tint; tstr; TClass 1; TClass 7].
Proof.
  split; [exact zoo_ok|]. split; [exact zoo_canonical|]. split; [exact zoo_guarded|]. split; [exact zoo_calm|].
  split; [exact zoo_shuffles|]. split; [prove_ready|]. split; [apply zoo_faithful|]. split; [exact v0_typed|].
  split; [exact v0_regular|]. split; [vm_compute; reflexivity | apply u1_apart].
Qed.

(** * What is lost *)

(** class Kw(NamedTuple): class_: str *)
Definition Kw := mkClass 0 (str "Kw") (CTuple [(str "class_", tstr)]) None None.
(** @dataclass class Dflt: x: Optional[int] = 5 *)
Definition Dflt := mkClass 0 (str "Dflt")
  (CData false [mkField (str "x") (TUnion false [tint; tnone]) (Some (Ok (VInt 5)))]) None None.
(** @dataclass class Hid: x: "Annotated[int, Alias('y')]" *)
Definition Hid := mkClass 0 (str "Hid") (CData false [mkField (str "x") (TRef (str "T")) None]) None None.
Definition Lossy : env := mkEnv [Kw; Dflt; Hid] [(0, str "T", (false, TAnnot tint [AAlias (str "y")]))] (fun ps => ps).

Ltac lossy_class c H :=
  unfold get_class, Lossy in H; cbn [e_classes] in H;
  destruct c as [|[|[|?c]]]; cbn [nth_error] in H;
  [injection H as <-..|destruct c; discriminate H].

Lemma lossy_ok : env_ok Lossy.
Proof.
  intros c cl H. lossy_class c H; split; cbn; try discriminate; try (intros; discriminate); try (nodup; fail).
  all: intros fr fs f v Q I D; injection Q as <- <-; cbn [In] in I; repeat destruct I as [<-|I]; try contradiction;
    cbn [f_default f_type] in *; try discriminate D; injection D as <-.
  apply (ht_union _ _ _ _ tint); [cbn; auto | apply ht_scalar; exact Logic.I].
Qed.

(** A field of a named tuple whose name is a keyword and an underscore is
    written without the underscore and looked for with it. *)
Theorem C01_namedtuple_refuted : exists E m t v j,
  env_ok E /\ ready E m t /\ has_type E m t v /\ regular v /\
  object_to_json E v = Ok j /\ json_to_object E false m t j = Err EJsonKey.
Proof.
  exists Lossy, 0, (TClass 0), (VObj 0 [(str "class_", vstr "a")]), (JObj [(str "class", jstr "a")]).
  split; [exact lossy_ok|]. split; [prove_ready|]. split; [typed; apply ht_scalar; exact Logic.I|]. split.
  - intros w H. unfold vstr in H. walk H.
  - split; vm_compute; reflexivity.
Qed.
Print Assumptions C01_namedtuple_refuted.

(** None in an optional field with another default comes back as the default. *)
Theorem C01_default_refuted : exists E m t v j w,
  env_ok E /\ ready E m t /\ has_type E m t v /\ regular v /\
  object_to_json E v = Ok j /\ json_to_object E false m t j = Ok w /\ py_eq E w v = false.
Proof.
  exists Lossy, 0, (TClass 1), (VObj 1 [(str "x", VNone)]), (JObj []), (VObj 1 [(str "x", VInt 5)]).
  split; [exact lossy_ok|]. split; [prove_ready|]. split; [typed; apply ht_scalar; exact Logic.I|]. split.
  - intros w H. walk H.
  - split; [vm_compute; reflexivity|]. split; vm_compute; reflexivity.
Qed.
Print Assumptions C01_default_refuted.

(** The alias of a field whose annotation is a string is used when reading but
    not when writing. *)
Theorem C01_hidden_alias_refuted : exists E m t v j,
  env_ok E /\ ready E m t /\ has_type E m t v /\ regular v /\
  object_to_json E v = Ok j /\ json_to_object E false m t j = Err EJsonKey.
Proof.
  exists Lossy, 0, (TClass 2), (VObj 2 [(str "x", VInt 7)]), (JObj [(str "x", JInt 7)]).
  split; [exact lossy_ok|]. split; [prove_ready|]. split.
  { eapply ht_obj; [reflexivity | reflexivity | reflexivity | cbn]. constructor; [|constructor].
    eapply ht_ref; [reflexivity|]. apply ht_annot. apply ht_scalar. exact Logic.I. }
  split.
  - intros w H. walk H.
  - split; vm_compute; reflexivity.
Qed.
Print Assumptions C01_hidden_alias_refuted.

(** Alternatives written alike: the first one is read. *)
Theorem C01_union_refuted : exists E m t v j w,
  env_ok E /\ ready E m t /\ has_type E m t v /\ regular v /\
  object_to_json E v = Ok j /\ json_to_object E false m t j = Ok w /\ py_eq E w v = false.
Proof.
  exists Lossy, 0, (TUnion false [tstr; TScalar KDate]), (VDate (mkDate 2020 3 29)), (jstr "2020-03-29"), (vstr "2020-03-29").
  split; [exact lossy_ok|]. split; [prove_ready|]. split.
  { apply (ht_union _ _ _ _ (TScalar KDate)); [cbn; auto|]. apply ht_scalar. cbn [scalar_type].
    split; [cbn; lia|]. exists 31%N. split; [left; split; [cbn; auto 10 | reflexivity] | cbn; lia]. }
  split.
  - intros w H. inversion H; subst. exact Logic.I.
  - split; [vm_compute; reflexivity|]. split; vm_compute; reflexivity.
Qed.
Print Assumptions C01_union_refuted.
