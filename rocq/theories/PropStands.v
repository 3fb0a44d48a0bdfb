(** Theorems for property C68: instances of subclasses in place of their base class. *)
From Coq Require Import String List NArith ZArith Bool Lia Permutation.
From Verif Require Import Base Json TimeDelta IsoTime PyTypes TypeAlgebra Mapping Deser Ser Lists SpecIsoTime SpecTyping TypingFacts SpecRecursion DeserUnfold
  SpecDeser SpecTypes TypeAlgebraProofs SpecFields FieldProofs SpecTagged TaggedProofs DeserFacts SpecNumbers
  SpecSer SerFacts SpecRoundTrip RoundTrip Samples PropDeser PropFields PropRoundTrip SpecStands StandsProofs.
Import ListNotations.
Open Scope list_scope.
Open Scope nat_scope.

(** C68.  [create_serializer(t).generate(v)]: an object that stands for another is
    written exactly like it, or fails like it. *)
Theorem C68_written : forall E m t s v w n, env_ok E -> serializer_of E t = Ok s -> stands E m t v w ->
  gen E n s v = gen E n s w.
Proof.
  intros E m t s v w n OK S ST. unfold serializer_of in S.
  refine (same_written E (fun c cl G => ok_names E c cl (OK c cl G)) _ None t s S m v w n _ ST). discriminate.
Qed.
Print Assumptions C68_written.

(** The document of an object whose fields have such values. *)
Theorem C68_document : forall E m t v w j, env_ok E -> typeof v = t -> typeof w = t -> stands E m t v w ->
  object_to_json E w = Ok j -> object_to_json E v = Ok j.
Proof.
  intros E m t v w j OK TV TW ST O. unfold object_to_json in *. rewrite TW in O. rewrite TV. apply bind_ok in O. destruct O as (s & S & G). rewrite S. cbn [bind].
  rewrite (C68_written E m t s v w (gen_fuel v) OK S ST). apply (gen_up E (gen_fuel w)); [|exact G].
  unfold gen_fuel. pose proof (stands_depth E m t v w ST). lia.
Qed.
Print Assumptions C68_document.

(** It is read as the object that was stood for. *)
Theorem C68_read : forall E skip m t v w j,
  env_ok E -> canonical_env E -> guarded_env E -> calm E -> shuffles (e_order E) ->
  ready E m t -> faithful E skip m t -> typeof v = t -> typeof w = t -> stands E m t v w -> has_type E m t w -> regular w ->
  object_to_json E w = Ok j -> object_to_json E v = Ok j /\ json_to_object E skip m t j = Ok w.
Proof.
  intros E skip m t v w j OK CE GE C ORD R F TV TW ST HT RG O. split; [exact (C68_document E m t v w j OK TV TW ST O)|].
  exact (roundtrip E OK CE GE C ORD skip m t w j R F HT RG O).
Qed.
Print Assumptions C68_read.

(** * A family. *)
(** @dataclass class Base: x: int *)
Definition Base := mkClass 0 (str "Base") (CData false [mkField (str "x") tint None]) None None.
(** @dataclass class Derived(Base): y: str *)
Definition Derived := mkClass 0 (str "Derived") (CData false [mkField (str "x") tint None; mkField (str "y") tstr None]) None None.
(** @dataclass class Holder: first: Base; items: list[Base]; named: dict[str, Base] *)
Definition Holder := mkClass 0 (str "Holder") (CData false
  [mkField (str "first") (TClass 0) None; mkField (str "items") (TList (TClass 0)) None; mkField (str "named") (TDict tstr (TClass 0)) None]) None None.
(** @dataclass class Maybe: item: Optional[Base] *)
Definition Maybe := mkClass 0 (str "Maybe") (CData false [mkField (str "item") (TUnion false [TClass 0; tnone]) None]) None None.

Definition Family : env := mkEnv [Base; Derived; Holder; Maybe] [] (fun ps => ps).

Ltac family_class c H :=
  unfold get_class, Family in H; cbn [e_classes] in H;
  destruct c as [|[|[|[|?c]]]]; cbn [nth_error] in H;
  [injection H as <-..|destruct c; discriminate H].

Lemma family_ok : env_ok Family.
Proof.
  intros c cl H. family_class c H; split; cbn; try discriminate; try (intros; discriminate).
  all: try (nodup; fail).
  all: try (intros fr fs f v Q I D; injection Q as <- <-; cbn [In] in I;
            repeat destruct I as [<-|I]; try contradiction; cbn [f_default f_type] in *; discriminate D).
Qed.

Lemma family_guarded : guarded_env Family.
Proof.
  split.
  - intros c cl x t H I. family_class c H; cbn [raw_fields c_kind map f_name f_type In Base Derived Holder Maybe] in I;
      repeat (destruct I as [I|I]; [injection I as <- <-|]); try contradiction; cbn [every_part fold_right]; prove_guarded.
  - intros m s a t L. discriminate L.
  - intros m s t L. discriminate L.
Qed.

Lemma family_calm : calm Family.
Proof.
  split.
  - intros c cl h j H. family_class c H; cbn; discriminate.
  - intros c cl fr fs f H. family_class c H; cbn; intros Q; injection Q as <- <-; cbn [In];
      intros I; repeat destruct I as [<-|I]; try contradiction; discriminate.
Qed.

Lemma family_canonical : canonical_env Family.
Proof.
  split.
  - intros m s a t L. discriminate L.
  - intros c cl x t G I. family_class c G; cbn [raw_fields c_kind map f_name f_type In Base Derived Holder Maybe] in I;
      repeat (destruct I as [I|I]; [injection I as <- <-|]); try contradiction; prove_canonical.
Qed.

Lemma family_shuffles : shuffles (e_order Family).
Proof. intros ps. apply Permutation_refl. Qed.

Definition seen : list typ := [TClass 2; TClass 0; TList (TClass 0); TDict tstr (TClass 0); tint].

Lemma family_seen : forall m t m' u, reach Family m t m' u -> In t seen -> In u seen.
Proof.
  assert (X : forall m t m' u, reach Family m t m' u -> (fun (_ : nat) t => In t seen) m t -> (fun (_ : nat) t => In t seen) m' u); [|exact X].
  apply reach_kept; cbn beta.
  - intros m t I. cbn [seen In] in I. cases_in I; try discriminate I; injection I as <-; cbn; auto 30.
  - intros m t I. cbn [seen In] in I. cases_in I; discriminate I.
  - intros m k t I. cbn [seen In] in I. cases_in I; try discriminate I; injection I as <- <-; cbn; auto 30.
  - intros m ts t I J. cbn [seen In] in I. cases_in I; discriminate I.
  - intros m op ts t I J. cbn [seen In] in I. cases_in I; discriminate I.
  - intros m ls l I J. cbn [seen In] in I. cases_in I; discriminate I.
  - intros m t md I. cbn [seen In] in I. cases_in I; discriminate I.
  - intros m s a t I L. discriminate L.
  - intros m c cl hs x t w I G FW H J RD. cbn [seen In] in I. cases_in I; try discriminate I; injection I as <-; injection G as <-;
      vm_compute in H; injection H as <-; cbn [In] in J; cases_in J; injection J as <- <-.
    + apply read_type_fun with (w := TClass 0) in RD; [subst w; cbn; auto 30 | apply read_plain; not_optional].
    + apply read_type_fun with (w := TList (TClass 0)) in RD; [subst w; cbn; auto 30 | apply read_plain; not_optional].
    + apply read_type_fun with (w := TDict tstr (TClass 0)) in RD; [subst w; cbn; auto 30 | apply read_plain; not_optional].
    + apply read_type_fun with (w := tint) in RD; [subst w; cbn; auto 30 | apply read_plain; not_optional].
Qed.

Lemma family_fields : forall c cl, In c [0; 2] -> get_class Family c = Some cl -> mirrored_fields Family cl.
Proof.
  intros c cl I G. cbn [In] in I. cases_in I; subst c; injection G as <-; split.
  all: try (intros x t u d p F P; field_cases F; apply json_property_spec in P; vm_compute in P; subst p;
            first [reflexivity | apply json_property_spec; reflexivity]).
  all: try (intros x t u d y t' u' d' p F F' P P'; field_cases F; field_cases F'; try reflexivity;
            cbn [json_name c_kind] in P, P';
            apply json_property_spec in P; apply json_property_spec in P'; vm_compute in P, P'; congruence).
  all: intros x t u d F HT; field_cases F; cbn [c_kind].
  all: exfalso; inversion HT; subst; contradiction.
Qed.

Lemma family_faithful : forall skip, faithful Family skip 0 (TClass 2).
Proof.
  intros skip. assert (T : In (TClass 2) seen) by (left; reflexivity).
  assert (NU : forall m' op ts, ~ reach Family 0 (TClass 2) m' (TUnion op ts)).
  { intros m' op ts RE. apply family_seen in RE; [|exact T]. cbn [seen In] in RE. cases_in RE; discriminate RE. }
  split.
  - intros m' op ts RE. destruct (NU _ _ _ RE).
  - intros m' op ts p RE. destruct (NU _ _ _ RE).
  - intros m' op ts p c ls RE. destruct (NU _ _ _ RE).
  - intros m' c cl RE G. apply family_seen in RE; [|exact T]. cbn [seen In] in RE. cases_in RE; try discriminate RE; injection RE as <-;
      pose proof G as G0; injection G as <-; unfold mirrored; cbn [c_kind c_to_json c_from_json Base Holder].
    + apply (family_fields 2); [cbn; auto | reflexivity].
    + apply (family_fields 0); [cbn; auto | reflexivity].
Qed.

Definition base (x : Z) := VObj 0 [(str "x", VInt x)].
Definition derived (x : Z) (y : string) := VObj 1 [(str "x", VInt x); (str "y", vstr y)].
Arguments derived x y%string.
Definition held (a b c : value) := VObj 2 [(str "first", a); (str "items", VList [b; b]); (str "named", VDict [(vstr "n", c)])].
Definition held_doc (x y : Z) := let b := fun x => JObj [(str "x", JInt x)] in
  JObj [(str "first", b x); (str "items", JArr [b y; b y]); (str "named", JObj [(str "n", b x)])].

Lemma derived_stands : forall m x y, stands Family m (TClass 0) (derived x y) (base x).
Proof.
  intros m x y. apply (st_obj Family m 0 Base [(str "x", tint)] 1 [(str "x", VInt x); (str "y", vstr y)] [VInt x] [VInt x]); try reflexivity; try exact Logic.I.
  - constructor; [reflexivity | constructor].
  - apply pl_cons; [apply st_same | apply pl_nil].
Qed.

Lemma held_stands : forall y z, stands Family 0 (TClass 2) (held (derived 1%Z y) (derived 2%Z z) (base 1%Z)) (held (base 1%Z) (base 2%Z) (base 1%Z)).
Proof.
  intros y z.
  apply (st_obj Family 0 2 Holder [(str "first", TClass 0); (str "items", TList (TClass 0)); (str "named", TDict tstr (TClass 0))] 2 _
    [derived 1%Z y; VList [derived 2%Z z; derived 2%Z z]; VDict [(vstr "n", base 1%Z)]] [base 1%Z; VList [base 2%Z; base 2%Z]; VDict [(vstr "n", base 1%Z)]]); try reflexivity; try exact Logic.I.
  - repeat (constructor; [reflexivity|]). constructor.
  - apply pl_cons; [apply derived_stands|]. apply pl_cons; [apply st_list; repeat (constructor; [apply derived_stands|]); constructor|].
    apply pl_cons; [apply st_same | apply pl_nil].
Qed.

Example C68_witness : env_ok Family /\ canonical_env Family /\ guarded_env Family /\ calm Family /\ shuffles (e_order Family) /\
  ready Family 0 (TClass 2) /\ faithful Family false 0 (TClass 2) /\
  stands Family 0 (TClass 2) (held (derived 1%Z "a") (derived 2%Z "b") (base 1%Z)) (held (base 1%Z) (base 2%Z) (base 1%Z)) /\
  has_type Family 0 (TClass 2) (held (base 1%Z) (base 2%Z) (base 1%Z)) /\ regular (held (base 1%Z) (base 2%Z) (base 1%Z)) /\
  object_to_json Family (held (base 1%Z) (base 2%Z) (base 1%Z)) = Ok (held_doc 1%Z 2%Z) /\
  object_to_json Family (held (derived 1%Z "a") (derived 2%Z "b") (base 1%Z)) = Ok (held_doc 1%Z 2%Z).
Proof.
  split; [exact family_ok|]. split; [exact family_canonical|]. split; [exact family_guarded|]. split; [exact family_calm|]. split; [exact family_shuffles|].
  split; [prove_ready|]. split; [apply family_faithful|]. split; [apply held_stands|]. split; [unfold held, base, vstr; typed; apply ht_scalar; exact Logic.I|].
  split; [intros w H; unfold held, base, vstr in H; walk H|]. split; vm_compute; reflexivity.
Qed.

(** What the subclass adds is lost without notice: different objects have one document. *)
Theorem C68_lost_refuted : exists E v w j, env_ok E /\ py_eq E v w = false /\ typeof v = typeof w /\
  object_to_json E v = Ok j /\ object_to_json E w = Ok j.
Proof.
  exists Family, (held (derived 1%Z "a") (derived 2%Z "b") (base 1%Z)), (held (derived 1%Z "c") (derived 2%Z "b") (base 1%Z)), (held_doc 1%Z 2%Z).
  split; [exact family_ok|]. split; [vm_compute; reflexivity|]. split; [reflexivity|]. split; vm_compute; reflexivity.
Qed.
Print Assumptions C68_lost_refuted.

(** In a union, and so in an optional field, the instance of the subclass is written with
    all its fields instead, and the document cannot be read. *)
Theorem C68_union_refuted : exists E m c v j, env_ok E /\ ready E m (TClass c) /\ typeof v = TClass c /\
  object_to_json E v = Ok j /\ json_to_object E false m (TClass c) j = Err EJsonKey /\
  exists w, json_to_object E true m (TClass c) j = Ok w.
Proof.
  exists Family, 0, 3, (VObj 3 [(str "item", derived 1%Z "a")]), (JObj [(str "item", JObj [(str "x", JInt 1); (str "y", jstr "a")])]).
  split; [exact family_ok|]. split; [prove_ready|]. split; [reflexivity|]. split; [vm_compute; reflexivity|]. split; [vm_compute; reflexivity|].
  exists (VObj 3 [(str "item", base 1%Z)]). vm_compute. reflexivity.
Qed.
Print Assumptions C68_union_refuted.
