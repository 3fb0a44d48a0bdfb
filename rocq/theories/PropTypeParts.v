(** Theorems for property C66: taking types apart. *)
From Coq Require Import String List NArith ZArith Bool Lia Permutation.
From Verif Require Import Base Json PyTypes Mapping Ser Lists SpecTyping TypingFacts SpecTypes TypeAlgebra TypeAlgebraProofs TypeParts Samples PropDeser PropFields PropSchema.
Import ListNotations.
Open Scope list_scope.
Open Scope nat_scope.

(** The questions that may be asked about a type. *)
Inductive question := AList | ASet | ADict | ALiteral | AnEnum | ADataClass | ANamedTuple | AUnion.

Definition answer (E : env) (q : question) (t : typ) : bool :=
  match q with
  | AList => is_generic_list t
  | ASet => is_generic_set t
  | ADict => is_generic_dict t
  | ALiteral => is_type_literal t
  | AnEnum => is_type_enum E t
  | ADataClass => is_dataclass_type E t
  | ANamedTuple => is_named_tuple_type E t
  | AUnion => is_type_optional t || is_type_union t
  end.

(** The answers that there ought to be. *)
Inductive such (E : env) : question -> typ -> Prop :=
| su_list : forall t, such E AList (TList t)
| su_set : forall t, such E ASet (TSet t)
| su_dict : forall k t, such E ADict (TDict k t)
| su_literal : forall ls, such E ALiteral (TLiteral ls)
| su_enum : forall c cl ms, get_class E c = Some cl -> c_kind cl = CEnum ms -> such E AnEnum (TClass c)
| su_data : forall c cl fr fs, get_class E c = Some cl -> c_kind cl = CData fr fs -> such E ADataClass (TClass c)
| su_tuple : forall c cl hs, get_class E c = Some cl -> c_kind cl = CTuple hs -> such E ANamedTuple (TClass c)
| su_raw : forall c cl xs, get_class E c = Some cl -> c_kind cl = CRawTuple xs -> such E ANamedTuple (TClass c)
| su_union : forall op ts, such E AUnion (TUnion op ts).

Lemma class_kind_ok : forall E t k, class_kind E t = Some k -> exists c cl, t = TClass c /\ get_class E c = Some cl /\ c_kind cl = k.
Proof.
  intros E t k H. destruct t as [| | | | | |op ts0| | |c| |]; try discriminate H; try (destruct op; discriminate H). cbn [class_kind] in H. destruct (get_class E c) as [cl|] eqn:G; [|discriminate H].
  injection H as <-. eauto.
Qed.

Lemma union_answer : forall E t, canonical t -> answer E AUnion t = true <-> is_union (unwrap_annotated t).
Proof.
  intros E t C. cbn [answer]. unfold is_type_optional, is_type_union. assert (CU : canonical (unwrap_annotated t)).
  { destruct t; try exact C. inversion C; assumption. }
  destruct (unwrap_annotated t) as [| | | | | |op ts| | | | |]; cbn [is_union]; try (split; [discriminate | contradiction]).
  split; [intros _; exact I|]. intros _. inversion CU as [| | | | | |? ? L _ _| | | | |]; subst.
  destruct (existsb _ ts); [reflexivity|]. rewrite orb_true_r. reflexivity.
Qed.

(** C66.  The answers are right, about annotated types as about others; only a named
    tuple is not recognised when it is annotated. *)
Theorem C66_answers : forall E q t, canonical t -> (q = ANamedTuple -> ~ is_annotated t) ->
  (answer E q t = true <-> such E q (unwrap_annotated t)).
Proof.
  intros E q t C N. assert (DEC : q = AUnion \/ q <> AUnion) by (destruct q; (left; reflexivity) || (right; discriminate)). destruct DEC as [->|NU].
  - rewrite (union_answer E t C). split.
    + intros H. destruct (unwrap_annotated t); try destruct H. constructor.
    + intros H. inversion H. exact I.
  - assert (NT : q = ANamedTuple -> unwrap_annotated t = t) by (intros Q; specialize (N Q); destruct t; try reflexivity; destruct N; exact I).
    split.
    + intros H. destruct q; try (destruct (NU eq_refl)); cbn [answer] in H.
      1-4: unfold is_generic_list, is_generic_set, is_generic_dict, is_type_literal in H; destruct (unwrap_annotated t) as [| | | | | |[|] ts| | | | |]; try discriminate H; constructor.
      * unfold is_type_enum in H. destruct (class_kind E (unwrap_annotated t)) as [k|] eqn:K; [|discriminate H]. destruct k; try discriminate H.
        apply class_kind_ok in K. destruct K as (c & cl & -> & G & K). eapply su_enum; eassumption.
      * unfold is_dataclass_type in H. destruct (class_kind E (unwrap_annotated t)) as [k|] eqn:K; [|discriminate H]. destruct k; try discriminate H.
        apply class_kind_ok in K. destruct K as (c & cl & -> & G & K). eapply su_data; eassumption.
      * rewrite (NT eq_refl). unfold is_named_tuple_type in H. destruct (class_kind E t) as [k|] eqn:K; [|discriminate H].
        apply class_kind_ok in K. destruct K as (c & cl & -> & G & K). destruct k; try discriminate H; [eapply su_tuple | eapply su_raw]; eassumption.
    + intros H. remember (unwrap_annotated t) as w eqn:QW. destruct H as [u|u|k u|ls|c cl ms G K|c cl fr fs G K|c cl hs G K|c cl xs G K|op ts]; cbn [answer].
      1-4: unfold is_generic_list, is_generic_set, is_generic_dict, is_type_literal; rewrite <- QW; reflexivity.
      * unfold is_type_enum. rewrite <- QW. cbn [class_kind]. rewrite G. cbn [option_map]. rewrite K. reflexivity.
      * unfold is_dataclass_type. rewrite <- QW. cbn [class_kind]. rewrite G. cbn [option_map]. rewrite K. reflexivity.
      * unfold is_named_tuple_type. rewrite <- (NT eq_refl). cbn [class_kind]. rewrite G. cbn [option_map]. rewrite K. reflexivity.
      * unfold is_named_tuple_type. rewrite <- (NT eq_refl). cbn [class_kind]. rewrite G. cbn [option_map]. rewrite K. reflexivity.
      * destruct (NU eq_refl).
Qed.
Print Assumptions C66_answers.

(** C66.  No two questions are answered yes about one type. *)
Theorem C66_exclusive : forall E q q' t, canonical t -> answer E q t = true -> answer E q' t = true -> q = q'.
Proof.
  assert (X : forall E q t, canonical t -> answer E q t = true -> such E q (unwrap_annotated t)).
  { intros E q t C H. apply C66_answers; try assumption. intros -> A. destruct t; try destruct A. discriminate H. }
  intros E q q' t C H H'. apply X in H; [|exact C]. apply X in H'; [|exact C].
  inversion H; subst; inversion H'; subst; try reflexivity; congruence.
Qed.
Print Assumptions C66_exclusive.

Theorem C66_named_tuple_refuted : exists E t md, canonical (TAnnot t md) /\ is_named_tuple_type E t = true /\ is_named_tuple_type E (TAnnot t md) = false.
Proof. exists Zoo, (TClass 3), [AOther 1]. split; [prove_canonical; intros [] | split; reflexivity]. Qed.
Print Assumptions C66_named_tuple_refuted.

(** ** The types of items *)

(** C66.  The type of the items of a list is found, and the metadata of the list with it;
    the lists of the type are the lists of such items. *)
Theorem C66_list : forall t, canonical t -> is_generic_list t = true -> exists u, unwrap_generic_list t = Ok u /\
  (t = TList u \/ exists w md, t = TAnnot (TList w) md /\ carrying w md u) /\
  forall E m v, has_type E m t v <-> has_type E m (TList u) v.
Proof.
  intros t C H. destruct t as [| |w| | | |op ts0| |t md| | |]; try discriminate H; try (destruct op; discriminate H).
  - exists w. split; [reflexivity|]. split; [left; reflexivity | tauto].
  - destruct t as [| |w| | | |op ts0| | | | |]; try discriminate H; try (destruct op; discriminate H). exists (mk_annot w md). split; [reflexivity|].
    assert (CA : carrying w md (mk_annot w md)) by (apply mk_annot_carrying; reflexivity).
    split; [right; eauto|]. intros E m v.
    assert (X : forall x, has_type E m (mk_annot w md) x <-> has_type E m w x).
    { intros x. revert CA. generalize (mk_annot w md). intros u CA. inversion CA as [? ? NA|w0 md0 md1]; subst.
      - split; [intros A; inversion A; assumption | apply ht_annot].
      - split; intros A; apply ht_annot; inversion A; assumption. }
    split; intros A; inversion A as [| | | | | | |? ? ? ? B| | | | |]; subst.
    + inversion B as [|? ? vs F| | | | | | | | | | |]; subst. apply ht_list. eapply Forall_impl; [|exact F]. intros a. apply X.
    + apply ht_annot, ht_list. match goal with F : Forall _ _ |- _ => eapply Forall_impl; [|exact F] end. intros a. apply X.
Qed.
Print Assumptions C66_list.

Theorem C66_set : forall t, canonical t -> is_generic_set t = true -> exists u, unwrap_generic_set t = Ok u /\
  (t = TSet u \/ exists w md, t = TAnnot (TSet w) md /\ carrying w md u) /\
  forall E m v, has_type E m t v <-> has_type E m (TSet u) v.
Proof.
  intros t C H. destruct t as [| | |w| | |op ts0| |t md| | |]; try discriminate H; try (destruct op; discriminate H).
  - exists w. split; [reflexivity|]. split; [left; reflexivity | tauto].
  - destruct t as [| | |w| | |op ts0| | | | |]; try discriminate H; try (destruct op; discriminate H). exists (mk_annot w md). split; [reflexivity|].
    assert (CA : carrying w md (mk_annot w md)) by (apply mk_annot_carrying; reflexivity).
    split; [right; eauto|]. intros E m v.
    assert (X : forall x, has_type E m (mk_annot w md) x <-> has_type E m w x).
    { intros x. revert CA. generalize (mk_annot w md). intros u CA. inversion CA as [? ? NA|w0 md0 md1]; subst.
      - split; [intros A; inversion A; assumption | apply ht_annot].
      - split; intros A; apply ht_annot; inversion A; assumption. }
    split; intros A.
    + inversion A as [| | | | | | |? ? ? ? B| | | | |]; subst. inversion B as [| |? ? vs F Hh D| | | | | | | | | |]; subst. apply ht_set; [|exact Hh | exact D].
      eapply Forall_impl; [|exact F]. intros a. apply X.
    + inversion A as [| |? ? vs F Hh D| | | | | | | | | |]; subst. apply ht_annot, ht_set; [|exact Hh | exact D].
      eapply Forall_impl; [|exact F]. intros a. apply X.
Qed.
Print Assumptions C66_set.

(** C66.  The types of keys and values of a dictionary are found; the metadata of the
    dictionary is not kept. *)
Theorem C66_dict : forall t, canonical t -> is_generic_dict t = true -> exists k u, unwrap_generic_dict t = Ok (k, u) /\
  unwrap_annotated t = TDict k u /\ forall E m v, has_type E m t v <-> has_type E m (TDict k u) v.
Proof.
  intros t C H. destruct t as [| | | |k w| |op ts0| |t md| | |]; try discriminate H; try (destruct op; discriminate H).
  - exists k, w. split; [reflexivity|]. split; [reflexivity | tauto].
  - destruct t as [| | | |k w| |op ts0| | | | |]; try discriminate H; try (destruct op; discriminate H). exists k, w. split; [reflexivity|]. split; [reflexivity|].
    intros E m v. split; [intros A; inversion A; assumption | apply ht_annot].
Qed.
Print Assumptions C66_dict.

(** C66.  Anything that does not have the right number of arguments is rejected. *)
Theorem C66_rejected : forall t e, canonical t -> (unwrap_generic_list t = Err e \/ unwrap_generic_set t = Err e) ->
  is_generic_list t = false /\ is_generic_set t = false /\
  (e = EValue \/ exists l, unwrap_annotated t = TLiteral [l]).
Proof.
  assert (Y : forall t e, canonical t -> rewrap_annotated single_arg t = Err e ->
    is_generic_list t = false /\ is_generic_set t = false /\ (e = EValue \/ exists l, unwrap_annotated t = TLiteral [l])).
  { assert (Z : forall t e, single_arg t = Err e -> origin_is OList t = false /\ origin_is OSet t = false /\ (e = EValue \/ (exists l, t = TLiteral [l]) \/ is_annotated t)).
    { intros t e H. unfold single_arg in H. destruct t as [k|b|w|w|k w|ts|op ts|ls|w md|c|s|]; cbn [get_args] in H; try discriminate H; try (injection H as <-; repeat split; auto; fail).
      - destruct ts as [|a [|b ts]]; cbn [map] in H; try discriminate H; injection H as <-; repeat split; auto.
      - destruct ts as [|a [|b ts]]; cbn [map] in H; try discriminate H; injection H as <-; destruct op; repeat split; auto.
      - destruct ls as [|a [|b ls]]; cbn [map] in H; try discriminate H; injection H as <-; repeat split; eauto.
      - repeat split. right. right. exact I. }
    intros t e C H. unfold is_generic_list, is_generic_set. destruct t as [k|b|w|w|k w|ts|op ts|ls|w md|c|s|]; cbn [rewrap_annotated unwrap_annotated] in H |- *.
    9: { destruct (single_arg w) as [u|e'] eqn:Q; cbn [bind] in H; [discriminate H|]. injection H as <-. destruct (Z w e' Q) as (A & B & [D|[D|D]]); auto.
         inversion C as [| | | | | | | |? ? ? NA| | |]; subst. contradiction. }
    all: destruct (Z _ e H) as (A & B & [D|[D|D]]); auto; destruct D. }
  intros t e C [H|H]; apply Y; assumption.
Qed.
Print Assumptions C66_rejected.

(** C66.  Only lists, sets and tuples of one item are taken apart. *)
Theorem C66_taken : forall t u, canonical t -> unwrap_generic_list t = Ok u \/ unwrap_generic_set t = Ok u ->
  exists w, (unwrap_annotated t = TList w \/ unwrap_annotated t = TSet w \/ unwrap_annotated t = TTuple [w]) /\
    (u = w \/ exists md, carrying w md u).
Proof.
  assert (Z : forall t w, canonical t -> ~ is_annotated t -> single_arg t = Ok w -> t = TList w \/ t = TSet w \/ t = TTuple [w]).
  { intros t w C N H. unfold single_arg in H. destruct t as [k|b|x|x|k x|ts|op ts|ls|x md|c|s|]; cbn [get_args] in H; try discriminate H; try (injection H as <-; auto; fail).
    - destruct ts as [|a [|b ts]]; cbn [map] in H; try discriminate H. injection H as <-. auto.
    - inversion C as [| | | | | |? ? L _ _| | | | |]; subst. destruct ts as [|a [|b ts]]; cbn [map length] in H, L; try lia. discriminate H.
    - destruct ls as [|a [|b ls]]; cbn [map] in H; discriminate H.
    - destruct N. exact I. }
  intros t u C H. assert (H' : rewrap_annotated single_arg t = Ok u) by (destruct H; assumption). clear H.
  destruct t as [k|b|x|x|k x|ts|op ts|ls|x md|c|s|].
  9: { cbn [rewrap_annotated unwrap_annotated] in *. apply bind_ok in H'. destruct H' as (w & Q & H). injection H as <-.
       inversion C as [| | | | | | | |? ? CX NA| | |]; subst. exists w. split; [apply Z; assumption|]. right. exists md. apply mk_annot_carrying. reflexivity. }
  all: exists u; (split; [apply Z; [exact C | intros [] | exact H'] | left; reflexivity]).
Qed.
Print Assumptions C66_taken.

(** What is taken apart is not checked to be a list. *)
Theorem C66_unchecked_refuted : exists t u, canonical t /\ is_generic_list t = false /\ unwrap_generic_list t = Ok u.
Proof. exists (TSet tint), tint. split; [prove_canonical | split; reflexivity]. Qed.
Print Assumptions C66_unchecked_refuted.

(** What is said of a list cannot be told from what is said of its items. *)
Theorem C66_metadata_refuted : exists t t', canonical t /\ canonical t' /\ is_generic_list t = true /\ is_generic_list t' = true /\ t <> t' /\
  unwrap_generic_list t = unwrap_generic_list t'.
Proof.
  exists (TAnnot (TList tstr) [AMaxLength 3]), (TList (TAnnot tstr [AMaxLength 3])).
  split; [prove_canonical; intros []|]. split; [prove_canonical; intros []|]. split; [reflexivity|]. split; [reflexivity|]. split; [discriminate | reflexivity].
Qed.
Print Assumptions C66_metadata_refuted.

(** ** Literals *)

(** C66.  The constants of a literal are its values, and their types the types of these;
    a single one is found if and only if there is no other. *)
Theorem C66_literal : forall t, canonical t -> is_type_literal t = true -> exists ls, unwrap_literal_values t = map ArgValue ls /\
  (forall E m v, has_type E m t v <-> exists l, In l ls /\ v = lit_value l) /\
  unwrap_literal_types t = Ok (map (fun l => typeof (lit_value l)) ls) /\
  (forall a, unwrap_literal_value t = Ok a <-> exists l, a = ArgValue l /\ ls = [l]).
Proof.
  assert (X : forall t ls, unwrap_annotated t = TLiteral ls -> unwrap_literal_types t = Ok (map (fun l => typeof (lit_value l)) ls) /\
    (forall a, unwrap_literal_value t = Ok a <-> exists l, a = ArgValue l /\ ls = [l])).
  { intros t ls Q. unfold unwrap_literal_types, unwrap_literal_value, unwrap_literal_values. rewrite Q. cbn [get_args]. split.
    - clear Q. induction ls as [|l ls IH]; [reflexivity|]. cbn [map mapM bind]. rewrite IH. destruct l; reflexivity.
    - intros a. destruct ls as [|l [|l' ls]]; cbn [map]; split; intros A; try discriminate A.
      + destruct A as (l & _ & A). discriminate A.
      + injection A as <-. eauto.
      + destruct A as (l0 & -> & A). injection A as <-. reflexivity.
      + destruct A as (l0 & _ & A). discriminate A. }
  intros t C H. destruct t as [| | | | | |op ts0|ls|t md| | |]; try discriminate H; try (destruct op; discriminate H).
  - exists ls. split; [reflexivity|]. split; [intros E m v; apply ht_literal_iff | apply X; reflexivity].
  - destruct t as [| | | | | |op ts0|ls| | | |]; try discriminate H; try (destruct op; discriminate H). exists ls. split; [reflexivity|]. split; [|apply X; reflexivity].
    intros E m v. rewrite <- (ht_literal_iff E m ls v). split; [intros A; inversion A; assumption | apply ht_annot].
Qed.
Print Assumptions C66_literal.

(** ** The fields of classes *)

(** C66.  Evaluation does not change what a type means. *)
Theorem C66_evaluate : forall E m t u, evaluate_type E m t = Ok u -> forall v, has_type E m t v <-> has_type E m u v.
Proof.
  intros E m t u H v. destruct t as [| | | | | | | | | |s|]; try (injection H as <-; tauto). cbn [evaluate_type] in H.
  destruct (lookup E m s) as [[a w]|] eqn:L; [injection H as <- | discriminate H]. split; intros A.
  - inversion A as [| | | | | | | |? ? ? ? ? L' B| | | |]; subst. rewrite L in L'. injection L' as <- <-. exact B.
  - eapply ht_ref; eassumption.
Qed.
Print Assumptions C66_evaluate.

(** C66.  The fields listed of a data class say what its instances are. *)
Theorem C66_fields : forall E m c cl fs attrs, get_class E c = Some cl -> c_from_json cl = None -> dataclass_fields E cl = Ok fs ->
  (has_type E m (TClass c) (VObj c attrs) <->
   Forall2 (fun f a => fst a = fst f /\ has_type E (c_module cl) (snd f) (snd a)) fs attrs).
Proof.
  intros E m c cl fs attrs G NJ D. unfold dataclass_fields in D. destruct (c_kind cl) as [| | |fr hs|] eqn:K; try discriminate D.
  assert (X : Forall2 (fun h f => fst f = f_name h /\ forall v, has_type E (c_module cl) (f_type h) v <-> has_type E (c_module cl) (snd f) v) hs fs).
  { revert fs D. clear K. induction hs as [|h hs IH]; intros fs D; cbn [mapM] in D; [injection D as <-; constructor|].
    apply bind_ok in D. destruct D as (f & F & D). apply bind_ok in D. destruct D as (fs' & F' & D). injection D as <-.
    apply bind_ok in F. destruct F as (t & F & Q). injection Q as <-. constructor; [|apply IH; exact F']. split; [reflexivity|]. apply C66_evaluate. exact F. }
  split.
  - intros H. inversion H as [| | | | | | | | | |? ? ? ? G' Kc N F|? ? ? ? ? G' K'|? ? ? ? ? G' K' J]; subst; rewrite G in G'; injection G' as <-; try congruence; rewrite K in *.
    cbn [raw_fields] in N, F. clear H K NJ D Kc. revert attrs fs X N F. induction hs as [|h hs IH]; intros attrs fs X N F; inversion X as [|? f ? fs' (A & B) X']; subst;
      destruct attrs as [|[x v] attrs]; try discriminate N; constructor.
    + cbn [map fst snd] in N, F |- *. injection N as N1 N2. inversion F; subst. split; [congruence | apply B; assumption].
    + cbn [map fst snd] in N, F. injection N as N1 N2. inversion F; subst. apply IH; assumption.
  - intros F. eapply ht_obj; [exact G | rewrite K; exact NJ | rewrite K; cbn [raw_fields] ..]; clear K D NJ.
    + revert attrs fs X F. induction hs as [|h hs IH]; intros attrs fs X F; inversion X as [|? f ? fs' (A & B) X']; subst; inversion F as [|? [x v] ? attrs' (A' & B') F']; subst; [reflexivity|].
      cbn [map fst snd] in *. f_equal; [congruence | eapply IH; eassumption].
    + revert attrs fs X F. induction hs as [|h hs IH]; intros attrs fs X F; inversion X as [|? f ? fs' (A & B) X']; subst; inversion F as [|? [x v] ? attrs' (A' & B') F']; subst; [constructor|].
      cbn [map fst snd] in *. constructor; [apply B; exact B' | eapply IH; eassumption].
Qed.
Print Assumptions C66_fields.

(** C66.  A field is found by name if and only if it is listed. *)
Theorem C66_by_name : forall E c cl fs x, env_ok E -> get_class E c = Some cl -> dataclass_fields E cl = Ok fs ->
  (forall t, dataclass_field_by_name E cl x = Ok (Some (x, t)) <-> In (x, t) fs) /\
  (dataclass_field_by_name E cl x = Ok None <-> ~ In x (map fst fs)).
Proof.
  intros E c cl fs x OK G D. unfold dataclass_fields in D. unfold dataclass_field_by_name. destruct (c_kind cl) as [| | |fr hs|] eqn:K; try discriminate D.
  assert (ND : NoDup (map f_name hs)).
  { pose proof (ok_names _ _ _ (OK c cl G)) as N. rewrite K in N. cbn [raw_fields] in N. rewrite map_map in N. exact N. }
  clear K G OK. revert fs D ND. induction hs as [|h hs IH]; intros fs D ND; cbn [mapM] in D.
  - injection D as <-. cbn [find]. split; [intros t; split; [discriminate | intros []] | split; [intros _ [] | reflexivity]].
  - apply bind_ok in D. destruct D as (f & F & D). apply bind_ok in D. destruct D as (fs' & F' & D). injection D as <-.
    apply bind_ok in F. destruct F as (u & F & Q). injection Q as <-. cbn [map] in ND. inversion ND as [|? ? NI ND']; subst.
    specialize (IH _ F' ND'). cbn [find]. destruct (pystr_eqb (f_name h) x) eqn:Q.
    + apply pystr_eqb_eq in Q. subst x. rewrite F. cbn [bind].
      assert (NF : ~ In (f_name h) (map fst fs')).
      { intros I. apply NI. clear - I F'. revert fs' F' I. induction hs as [|g hs IH]; intros fs F I; cbn [mapM] in F; [injection F as <-; destruct I|].
        apply bind_ok in F. destruct F as (a & A & F). apply bind_ok in F. destruct F as (b & B & F). injection F as <-.
        apply bind_ok in A. destruct A as (t & _ & A). injection A as <-. destruct I as [I|I]; [left; exact I | right; eapply IH; eassumption]. }
      split.
      * intros t. split; [intros A; injection A as <-; left; reflexivity|]. intros [A|A]; [injection A as <-; reflexivity|].
        destruct NF. apply (in_map fst) in A. exact A.
      * split; [discriminate|]. intros A. destruct A. left. reflexivity.
    + assert (NQ : f_name h <> x) by (intros R; subst x; rewrite pystr_eqb_refl in Q; discriminate Q).
      destruct IH as [A B]. split.
      * intros t. rewrite A. split; [intros I; right; exact I | intros [I|I]; [injection I as I _; contradiction | exact I]].
      * rewrite B. cbn [map fst In]. tauto.
Qed.
Print Assumptions C66_by_name.

(** C66.  The property that is found has the type of the field, but for evaluation. *)
Theorem C66_property : forall E c cl fs x (t : typ), env_ok E -> get_class E c = Some cl -> dataclass_fields E cl = Ok fs ->
  (get_class_property E cl x = Ok None <-> ~ In x (map fst fs)) /\
  (get_class_property E cl x = Ok (Some t) -> exists u, In (x, u) fs /\ forall v, has_type E (c_module cl) t v <-> has_type E (c_module cl) u v).
Proof.
  intros E c cl fs x t OK G D. unfold dataclass_fields in D. unfold get_class_property, class_properties. destruct (c_kind cl) as [| | |fr hs|] eqn:K; try discriminate D.
  cbn [bind raw_fields]. clear K. revert fs D. induction hs as [|h hs IH]; intros fs D; cbn [mapM] in D.
  - injection D as <-. split; [split; [intros _ [] | reflexivity] | discriminate].
  - apply bind_ok in D. destruct D as (f & F & D). apply bind_ok in D. destruct D as (fs' & F' & D). injection D as <-.
    apply bind_ok in F. destruct F as (u & F & Q). injection Q as <-. specialize (IH _ F'). destruct IH as [A B]. cbn [map dict_get fst In].
    destruct (pystr_eqb (f_name h) x) eqn:Q.
    + apply pystr_eqb_eq in Q. subst x. split; [split; [discriminate | intros N; destruct N; left; reflexivity]|].
      intros H. injection H as <-. exists u. split; [left; reflexivity|]. apply C66_evaluate. exact F.
    + assert (NQ : f_name h <> x) by (intros R; subst x; rewrite pystr_eqb_refl in Q; discriminate Q). split; [rewrite A; tauto|].
      intros H. destruct (B H) as (w & I & W). exists w. auto.
Qed.
Print Assumptions C66_property.

(** The type of a property found in a data class is the text written, that of a property
    of a plain class the type it stands for. *)
Theorem C66_text_refuted : exists E cl cl' x s t, raw_fields (c_kind cl) = raw_fields (c_kind cl') /\ c_module cl = c_module cl' /\
  get_class_property E cl x = Ok (Some (TRef s)) /\ get_class_property E cl' x = Ok (Some t) /\ forall r, t <> TRef r.
Proof.
  exists Zoo, (mkClass 0 (str "A") (CData false [mkField (str "next") (TRef (str "Node")) None]) None None),
    (mkClass 0 (str "A") (CPlain [(str "next", TRef (str "Node"))]) None None), (str "next"), (str "Node"), (TClass 2).
  split; [reflexivity|]. split; [reflexivity|]. split; [reflexivity|]. split; [vm_compute; reflexivity | discriminate].
Qed.
Print Assumptions C66_text_refuted.

(** ** Cases in point *)

Example C66_witness : canonical (TAnnot (TList (TAnnot tint [AOther 1])) [AOther 2]) /\
  is_generic_list (TAnnot (TList (TAnnot tint [AOther 1])) [AOther 2]) = true /\
  unwrap_generic_list (TAnnot (TList (TAnnot tint [AOther 1])) [AOther 2]) = Ok (TAnnot tint [AOther 1; AOther 2]) /\
  canonical (TAnnot (TSet tstr) [AOther 2]) /\ unwrap_generic_set (TAnnot (TSet tstr) [AOther 2]) = Ok (TAnnot tstr [AOther 2]) /\
  canonical (TAnnot (TDict tstr tint) [AOther 2]) /\ unwrap_generic_dict (TAnnot (TDict tstr tint) [AOther 2]) = Ok (tstr, tint) /\
  is_type_literal (TAnnot (TLiteral [LStr (str "a"); LInt 1]) [AOther 2]) = true /\
  unwrap_literal_types (TAnnot (TLiteral [LStr (str "a"); LInt 1]) [AOther 2]) = Ok [tstr; tint] /\
  unwrap_generic_list (TDict tstr tint) = Err EValue.
Proof.
  split; [prove_canonical; intros []|]. split; [reflexivity|]. split; [reflexivity|]. split; [prove_canonical; intros []|]. split; [reflexivity|].
  split; [prove_canonical; intros []|]. repeat split; reflexivity.
Qed.

Example C66_witness_fields : env_ok Zoo /\ exists cl fs, get_class Zoo 2 = Some cl /\ c_from_json cl = None /\ dataclass_fields Zoo cl = Ok fs /\ fs <> [] /\
  exists t, dataclass_field_by_name Zoo cl (str "value") = Ok (Some (str "value", t)).
Proof.
  split; [exact zoo_ok|]. exists Node. exists_result (dataclass_fields Zoo Node). split; [reflexivity|]. split; [reflexivity|]. split; [vm_compute; reflexivity|].
  split; [discriminate|]. eexists. vm_compute. reflexivity.
Qed.
