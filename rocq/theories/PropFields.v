(** C07, C08, C15, C41, C48: classes field by field. *)
From Coq Require Import String List NArith ZArith Bool Lia.
From Verif Require Import Base Json PyTypes TypeAlgebra Mapping Deser Lists SpecTyping SpecRecursion DeserUnfold SpecDeser
  SpecTypes TypeAlgebraProofs SpecFields FieldProofs Samples PropDeser.
Import ListNotations.
Open Scope list_scope.
Open Scope nat_scope.

(** * The sample program *)

Ltac prove_canonical :=
  repeat first
    [ assumption | apply cn_scalar | apply cn_list | apply cn_set | apply cn_dict | apply cn_literal | apply cn_class
    | apply cn_ref | apply cn_annot | apply cn_tuple | apply cn_union | apply Forall_cons | apply Forall_nil
    | (split; [|intros []]) | (intros []; fail) | (cbn; lia) | (unfold tint, tstr, tnone; nodup; fail) | progress unfold tint, tstr, tnone ].

Lemma zoo_canonical : canonical_env Zoo.
Proof.
  split.
  - intros m s a t L. apply zoo_refs in L. destruct L as [->|[->|[_ ->]]]; unfold JsonAlias; prove_canonical.
  - intros c cl x t G I. zoo_class c G; cbn [raw_fields c_kind map f_name f_type In Color Point Node Pair Dog Cat Version Plain] in I;
      repeat (destruct I as [I|I]; [injection I as <- <-|]); try contradiction; prove_canonical.
Qed.

Definition point_layout : list (pystr * typ * option (res value)) :=
  [(str "x", tint, None); (str "y", TUnion false [tint; tnone], Some (Ok VNone)); (str "class_", tstr, Some (Ok (vstr "p")))].

Lemma point_ready : ready Zoo 0 (TClass 1).
Proof. prove_ready. Qed.

Lemma none_member : forall ts, existsb (typ_eqb (TScalar KNone)) ts = true <-> In none_type ts.
Proof.
  intros ts. rewrite existsb_exists. split.
  - intros (t & I & Q). apply typ_eqb_iff in Q. subst. exact I.
  - intros I. exists none_type. split; [exact I | apply typ_eqb_iff; reflexivity].
Qed.

Lemma nodup_left : forall {A} (l r : list A), NoDup (l ++ r) -> NoDup l.
Proof.
  intros A l r. induction l as [|a l IH]; intros N; [constructor|]. inversion N as [|? ? NI N']; subst.
  constructor; [|exact (IH N')]. intros I. apply NI. apply in_app_iff. left. exact I.
Qed.

(** * C15: names *)

(** C15.  The JSON name of a field is its alias, or else its name less the
    underscore that follows a keyword. *)
Theorem C15_property_name : forall x t p, json_property x (Some t) = p <-> prop_name x t p.
Proof. exact json_property_spec. Qed.
Print Assumptions C15_property_name.

(** C15.  Fields without aliases have distinct JSON names (field names are not
    keywords). *)
Theorem C15_names_distinct : forall x y t u p, prop_name x t p -> prop_name y u p ->
  no_alias t -> no_alias u -> ~ In x python_keywords -> ~ In y python_keywords -> x = y.
Proof. exact prop_names_distinct. Qed.
Print Assumptions C15_names_distinct.

(** Without the condition on keywords names clash: [class] and [class_]. *)
Example C15_witness_clash : json_property (str "class") (Some tint) = json_property (str "class_") (Some tint).
Proof. reflexivity. Qed.

Example C15_witness : json_property (str "from_") (Some tint) = str "from" /\
  json_property (str "class__") (Some tint) = str "class__" /\ ~ In (str "from_") python_keywords /\
  json_property (str "x") (Some (TAnnot tint [AOther 0; AAlias (str "y"); AAlias (str "z")])) = str "y".
Proof. repeat split. intros I. apply keyword_in in I. discriminate. Qed.

(** * C41: unions *)

(** C41.  [unwrap_optional_type] removes exactly None from a union. *)
Theorem C41_unwrap_optional : forall t u, canonical t -> (unwrap_optional t = Ok u <-> drops_none t u).
Proof. exact unwrap_optional_spec. Qed.
Print Assumptions C41_unwrap_optional.

(** C41.  The result has exactly the members other than None. *)
Theorem C41_members : forall op ts us u, without_none ts us -> union_of us u -> canonical (TUnion op ts) ->
  unwrap_optional (TUnion op ts) = Ok u /\ (forall t, In t us <-> In t ts /\ t <> none_type).
Proof.
  intros op ts us u W U C. split.
  - apply unwrap_optional_spec; [exact C|]. econstructor; eassumption.
  - intros t. apply without_none_in. exact W.
Qed.
Print Assumptions C41_members.

(** C41.  It fails with TypeError, and only on types that are not unions. *)
Theorem C41_unwrap_optional_fails : forall t e, canonical t -> unwrap_optional t = Err e ->
  e = EType /\ ~ is_union (unwrap_annotated t).
Proof.
  intros t e C H. split; [eapply unwrap_optional_fails; exact H|].
  assert (X : forall op ts, canonical (TUnion op ts) -> exists u, unwrap_optional_inner (TUnion op ts) = Ok u).
  { intros op ts C'. destruct (unwrap_optional_inner (TUnion op ts)) as [u|e'] eqn:Q; [eauto|]. exfalso.
    inversion C' as [| | | | | |? ? LEN N F| | | | |]; subst. cbn [unwrap_optional_inner] in Q.
    pose proof (none_filter ts) as W. set (us := filter _ ts) in *.
    rewrite mk_union_of in Q.
    - destruct us as [|a [|b r]]; try discriminate.
      destruct ts as [|a [|b r]]; cbn in LEN; try lia. inversion W; subst.
      match goal with Z : without_none (b :: r) [] |- _ => inversion Z; subst end.
      inversion N as [|? ? NI _]; subst. apply NI. left. reflexivity.
    - eapply without_none_sub; [exact W|]. eapply Forall_impl; [|exact F]. cbn. tauto.
    - eapply without_none_nodup; eassumption. }
  destruct t; cbn; try (intros []; fail).
  - destruct (X _ _ C) as (u & Q). cbn [unwrap_optional] in H. congruence.
  - inversion C as [| | | | | | | |? ? C' _| | |]; subst. destruct t; try (intros []; fail).
    destruct (X _ _ C') as (u & Q). cbn [unwrap_optional] in H. rewrite Q in H. discriminate.
Qed.
Print Assumptions C41_unwrap_optional_fails.

(** C41.  A type is optional iff None is a member of the union it is. *)
Theorem C41_is_optional : forall t, is_type_optional t = true <-> optional t.
Proof. exact is_type_optional_spec. Qed.
Print Assumptions C41_is_optional.

(** C41.  Members of a union are returned in order. *)
Theorem C41_unwrap_union : forall t ts, unwrap_union_types t = Ok ts <-> exists op, t = TUnion op ts.
Proof.
  intros t ts. split.
  - destruct t; try discriminate. intros H. injection H as <-. eauto.
  - intros (op & ->). reflexivity.
Qed.
Print Assumptions C41_unwrap_union.

(** C41.  A type is either optional of one type, a union of others, or no union. *)
Theorem C41_is_union : forall t, canonical t ->
  (is_type_union t = true <-> exists op ts, unwrap_annotated t = TUnion op ts /\
     ~ (length ts = 2 /\ In none_type ts)).
Proof.
  intros t C. unfold is_type_union. split.
  - intros H. destruct (unwrap_annotated t) as [| | | | | |op ts| | | | |]; try discriminate. exists op, ts. split; [reflexivity|].
    intros [L I]. apply none_member in I. rewrite I, L in H. discriminate.
  - intros (op & ts & UA & N). rewrite UA. destruct (existsb (typ_eqb (TScalar KNone)) ts) eqn:X; [|rewrite orb_true_r; reflexivity].
    apply none_member in X.
    destruct (Nat.ltb_spec 2 (length ts)); [reflexivity|]. exfalso. apply N. split; [|exact X].
    assert (2 <= length ts); [|lia].
    destruct t; cbn [unwrap_annotated] in *; try discriminate.
    + match goal with Q : TUnion _ _ = TUnion _ _ |- _ => injection Q as <- <- end. inversion C; subst. assumption.
    + subst. inversion C as [| | | | | | | |? ? C' _| | |]; subst. inversion C'; subst. assumption.
Qed.
Print Assumptions C41_is_union.

(** C41.  Rewrapping with a function that changes nothing changes nothing;
    metadata is kept. *)
Theorem C41_rewrap : forall t, canonical t ->
  rewrap_annotated (fun u => Ok u) t = Ok t /\
  forall f u md w, t = TAnnot u md -> (rewrap_annotated f t = Ok w <-> exists u', f u = Ok u' /\ carrying u' md w).
Proof.
  intros t C. split.
  - destruct t; try reflexivity. cbn. inversion C as [| | | | | | | |? ? C' NA| | |]; subst. destruct t; try reflexivity. destruct NA. exact I.
  - intros f u md w ->. cbn [rewrap_annotated]. split.
    + intros H. apply bind_ok in H. destruct H as (u' & A & B). injection B as <-. exists u'. split; [exact A|].
      apply mk_annot_carrying. reflexivity.
    + intros (u' & A & B). rewrite A. cbn [bind]. apply mk_annot_carrying in B. subst. reflexivity.
Qed.
Print Assumptions C41_rewrap.

(** C41.  Annotations evaluated by Python are of the form assumed. *)
Theorem C41_hints_canonical : forall E c cl hs x t, canonical_env E -> get_class E c = Some cl -> hints E cl = Ok hs ->
  In (x, t) hs -> canonical t.
Proof. intros E c cl hs x t CE. exact (hints_canonical E CE c cl hs x t). Qed.
Print Assumptions C41_hints_canonical.

Example C41_witness : canonical (TAnnot (TUnion true [tint; tnone; tstr]) [AOther 1]) /\
  unwrap_optional (TAnnot (TUnion true [tint; tnone; tstr]) [AOther 1]) = Ok (TAnnot (TUnion false [tint; tstr]) [AOther 1]).
Proof. split; [prove_canonical; intros [] | reflexivity]. Qed.

(** * C08: what each field receives *)

(** C08.  An object is created exactly if every field receives a value (and all
    properties are known, or unknown ones are to be skipped); it holds those
    values. *)
Theorem C08_fields : forall E skip m c cl L o v,
  canonical_env E -> guarded_env E -> calm E ->
  ready E m (TClass c) -> get_class E c = Some cl -> ordinary cl -> layout E cl L -> NoDup (map fst o) ->
  (json_to_object E skip m (TClass c) (JObj o) = Ok v <->
   exists vs, v = VObj c (combine (map (fun f => fst (fst f)) L) vs) /\
     Forall2 (fun f v => received E skip (c_module cl) o f (Ok v)) L vs /\
     (skip = true \/ forall p, In p (map fst o) -> known E cl p)).
Proof. intros E skip m c cl L o v CE GE C R G O LAY ND. exact (class_ok_spec E CE GE C skip m c cl L o R G O LAY ND v). Qed.
Print Assumptions C08_fields.

(** C08.  Otherwise the exception is that of the first field, in definition
    order, that receives none; unknown properties are reported last. *)
Theorem C08_errors : forall E skip m c cl L o e,
  canonical_env E -> guarded_env E -> calm E ->
  ready E m (TClass c) -> get_class E c = Some cl -> ordinary cl -> layout E cl L -> NoDup (map fst o) ->
  (json_to_object E skip m (TClass c) (JObj o) = Err e <->
   (exists L1 f L2, L = L1 ++ f :: L2 /\ received E skip (c_module cl) o f (Err e) /\
      Forall (fun f => exists v, received E skip (c_module cl) o f (Ok v)) L1) \/
   (e = EJsonKey /\ skip = false /\ (exists p, In p (map fst o) /\ ~ known E cl p) /\
    Forall (fun f => exists v, received E skip (c_module cl) o f (Ok v)) L)).
Proof. intros E skip m c cl L o e CE GE C R G O LAY ND. exact (class_err_spec E CE GE C skip m c cl L o R G O LAY ND e). Qed.
Print Assumptions C08_errors.

(** C08.  What a field receives is determined. *)
Theorem C08_received_once : forall E skip m o f r r', NoDup (map fst o) -> canonical (snd (fst f)) ->
  received E skip m o f r -> received E skip m o f r' -> r = r'.
Proof.
  intros E skip m o [[x t] d] r r' ND C A B. cbn [fst snd] in C.
  assert (X : exists fp, field_parser x t d = Ok fp).
  { unfold field_parser. destruct (is_type_optional t) eqn:O; [|cbn [bind]; eauto].
    destruct (unwrap_optional t) as [u|e] eqn:U; [cbn [bind]; eauto|]. exfalso.
    destruct (C41_unwrap_optional_fails _ _ C U) as [_ N]. apply N.
    unfold is_type_optional in O. destruct (unwrap_annotated t); try discriminate. exact I. }
  destruct X as (fp & F). apply (parse_field_spec E skip m x t d fp o) in A, B; try assumption. congruence.
Qed.
Print Assumptions C08_received_once.

Example C08_witness_layout : layout Zoo Point point_layout /\ ordinary Point /\ get_class Zoo 1 = Some Point.
Proof. repeat split. Qed.

Example C08_witness :
  json_to_object Zoo false 0 (TClass 1) (JObj [(str "class", JNull); (str "x", JInt 3)]) =
  Ok (VObj 1 [(str "x", VInt 3); (str "y", VNone); (str "class_", vstr "p")]) /\
  json_to_object Zoo false 0 (TClass 1) (JObj [(str "x", JNull)]) = Err EJsonValue /\
  json_to_object Zoo false 0 (TClass 1) (JObj [(str "y", JInt 1)]) = Err EJsonKey.
Proof. repeat split. Qed.

(** * C07: unknown properties *)

(** C07.  Unless they are to be skipped, unknown properties are rejected. *)
Theorem C07_unknown_rejected : forall E m c cl o v p,
  canonical_env E -> guarded_env E -> calm E ->
  ready E m (TClass c) -> get_class E c = Some cl -> fieldwise cl ->
  json_to_object E false m (TClass c) (JObj o) = Ok v -> In p (map fst o) -> known E cl p.
Proof. intros E m c cl o v p CE GE C R G F H. exact (class_known E CE GE C m c cl o v R G F H p). Qed.
Print Assumptions C07_unknown_rejected.

(** C07.  If they are skipped they have no influence, at any depth. *)
Theorem C07_unknown_ignored : forall E m t j j',
  canonical_env E -> guarded_env E -> calm E -> (forall ps p, In p (e_order E ps) -> In p ps) ->
  ready E m t -> json_wf j -> json_wf j' -> alike E m t j j' ->
  json_to_object E true m t j = json_to_object E true m t j'.
Proof. intros E m t j j' CE GE C ORD R W W' A. exact (alike_jto E CE GE C ORD m t j j' A W W' R). Qed.
Print Assumptions C07_unknown_ignored.

(** C07.  In particular properties may be added to an object. *)
Theorem C07_extra_ignored : forall E m c cl o xs,
  canonical_env E -> guarded_env E -> calm E -> (forall ps p, In p (e_order E ps) -> In p ps) ->
  ready E m (TClass c) -> get_class E c = Some cl -> fieldwise cl -> json_wf (JObj (o ++ xs)) ->
  (forall p, In p (map fst xs) -> ~ known E cl p) ->
  json_to_object E true m (TClass c) (JObj (o ++ xs)) = json_to_object E true m (TClass c) (JObj o).
Proof.
  intros E m c cl o xs CE GE C ORD R G F W N. symmetry. apply C07_unknown_ignored; try assumption.
  - inversion W as [| | | | | |? ND W']; subst. constructor.
    + rewrite map_app in ND. apply nodup_left in ND. exact ND.
    + apply Forall_app in W'. tauto.
  - apply (al_class E m c cl); try assumption.
    + intros p K. unfold absent. rewrite map_app, in_app_iff. split; [|tauto].
      intros A [I|I]; [contradiction | exact (N p I K)].
    + intros hs x t u p a b H I JN RD IA IB.
      assert (KN : known E cl p) by (exists hs, x, t; auto).
      apply in_app_iff in IB. destruct IB as [IB|IB]; [|exfalso; apply (N p); [apply (in_map fst) in IB; exact IB | exact KN]].
      assert (Q : a = b).
      { inversion W as [| | | | | |? ND _]; subst. rewrite map_app in ND. apply nodup_left in ND.
        apply (dict_get_present _ _ _ ND) in IA, IB. congruence. }
      subst b. apply al_same.
Qed.
Print Assumptions C07_extra_ignored.

Example C07_witness :
  json_to_object Zoo false 0 (TClass 1) (JObj [(str "x", JInt 3); (str "z", JNull)]) = Err EJsonKey /\
  json_to_object Zoo true 0 (TClass 1) (JObj [(str "x", JInt 3); (str "z", JNull)]) =
    Ok (VObj 1 [(str "x", VInt 3); (str "y", VNone); (str "class_", vstr "p")]) /\
  fieldwise Point /\ ~ known Zoo Point (str "z").
Proof.
  split; [reflexivity|]. split; [reflexivity|]. split; [reflexivity|].
  intros (hs & x & t & H & I & J). vm_compute in H. injection H as <-. unfold json_name in J. cbn [Point c_kind] in J.
  apply json_property_spec in J. repeat (destruct I as [I|I]; [injection I as <- <-; vm_compute in J; discriminate J|]). exact I.
Qed.

(** * C48: named tuples *)

(** C48.  A named tuple is created exactly if every field is present, not null
    and readable, under its own name. *)
Theorem C48_namedtuple_fields : forall E skip m c cl ts hs o v,
  guarded_env E -> calm E -> ready E m (TClass c) -> get_class E c = Some cl -> c_kind cl = CTuple ts ->
  hints E cl = Ok hs -> NoDup (map fst o) ->
  (json_to_object E skip m (TClass c) (JObj o) = Ok v <->
   exists vs, v = VObj c (combine (map fst hs) vs) /\
     Forall2 (fun h v => exists j, In (fst h, j) o /\ j <> JNull /\ json_to_object E skip (c_module cl) (snd h) j = Ok v) hs vs /\
     (skip = true \/ forall p, In p (map fst o) -> In p (map fst hs))).
Proof. intros E skip m c cl ts hs o v GE C R G K H ND. exact (tuple_ok_spec E GE C skip m c cl ts hs o R G K H ND v). Qed.
Print Assumptions C48_namedtuple_fields.

(** class Span(NamedTuple): start: int; end: Optional[int] *)
Definition Span := mkClass 0 (str "Span") (CTuple [(str "start", tint); (str "end", TUnion false [tint; tnone])]) None None.
Definition SpanEnv : env := mkEnv [Span] [] (fun ps => ps).

(** An Optional field of a named tuple may be neither absent nor null. *)
Theorem C48_namedtuple_optional_refuted :
  exists E m c cl x t o, get_class E c = Some cl /\ In (x, t) (raw_fields (c_kind cl)) /\ optional t /\
  has_type E m (TClass c) (VObj c [(str "start", VInt 1); (str "end", VNone)]) /\
  json_to_object E false m (TClass c) (JObj o) = Err EJsonKey /\
  json_to_object E false m (TClass c) (JObj (o ++ [(x, JNull)])) = Err EJsonValue /\
  (exists v, json_to_object E false m (TClass c) (JObj (o ++ [(x, JInt 5)])) = Ok v).
Proof.
  exists SpanEnv, 0, 0, Span, (str "end"), (TUnion false [tint; tnone]), [(str "start", JInt 1)].
  split; [reflexivity|]. split; [right; left; reflexivity|]. split.
  - exists false, [tint; tnone]. split; [right; left; reflexivity | left; reflexivity].
  - split; [|split; [reflexivity|]; split; [reflexivity|]; eexists; reflexivity].
    eapply ht_obj; [reflexivity | exact I | reflexivity |]. cbn. constructor; [constructor; exact I|].
    constructor; [|constructor]. apply (ht_union _ _ _ _ tnone); [right; left; reflexivity | constructor; exact I].
Qed.
Print Assumptions C48_namedtuple_optional_refuted.

Example C48_witness : ready Zoo 0 (TClass 3) /\
  json_to_object Zoo false 0 (TClass 3) (JObj [(str "second", JArr [JInt 1]); (str "first", jstr "red")]) =
  Ok (VObj 3 [(str "first", VEnum 0 (str "RED")); (str "second", VSet [VInt 1])]).
Proof. split; [prove_ready | reflexivity]. Qed.
