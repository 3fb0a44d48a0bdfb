(** Types made from schemas read the documents that satisfy the schemas. *)
From Coq Require Import String List NArith ZArith Bool Lia Permutation.
From Verif Require Import Base Json PyTypes Mapping Deser ClassDef Lists TypingFacts DeserSound SpecTypes TypeAlgebraProofs SpecFields FieldProofs SpecNumbers NumbersProofs
  SpecRecursion SpecDeser DeserFuel DeserBuild DeserUnfold SpecTagged SpecGenerate SpecClassDef ClassDefProofs SpecSchema SchemaSem SchemaProofs SchemaRead SpecReadable
  Flatten TypeDef SpecTypeDef TypeDefNodes TypeDefEnv TypeDefGrow TypeDefParts.
Import ListNotations.
Open Scope list_scope.
Open Scope nat_scope.

(** Documents without null. *)
Fixpoint null_free (j : json) : bool :=
  match j with
  | JNull => false
  | JArr js => forallb null_free js
  | JObj o => forallb (fun px => null_free (snd px)) o
  | _ => true
  end.

Lemma null_free_value : forall o k j, null_free (JObj o) = true -> dict_get o k = Some j -> null_free j = true.
Proof. intros o k j H D. cbn [null_free] in H. rewrite forallb_forall in H. apply dict_get_in in D. exact (H _ D). Qed.

Lemma plain_value : forall o k j, plain_json (JObj o) = true -> dict_get o k = Some j -> plain_json j = true.
Proof. intros o k j H D. cbn [plain_json] in H. rewrite forallb_forall in H. apply dict_get_in in D. exact (H _ D). Qed.

Lemma plain_float : forall j, plain_json j = true -> is_type (str "number") j = Some true -> exists v, parse_scalar KFloat j = Ok v.
Proof.
  intros j P T. destruct j; try discriminate T; cbn [parse_scalar]; [|eauto].
  pose proof (plain_json_numbers (mkEnv [] [] (fun l => l)) 0 (TScalar KFloat) (JInt z) P KFloat (JInt z) (lf_here _ _ _ _)) as B.
  destruct (int_to_float z) as [f|e] eqn:Q; cbn [bind]; [eauto|].
  apply (proj1 (int_to_float_overflow _ _)) in Q. unfold plain_number in B. destruct Q as [_ Q]. destruct (Zle_not_lt _ _ Q B).
Qed.

Lemma same_int : forall a b, same (JInt a) (JInt b) = true -> a = b.
Proof.
  intros a b H. cbn [same num_of] in H. unfold num_eqb, num_cmp in H. change (Z.min 0 0) with 0%Z in H. change (2 ^ (0 - 0))%Z with 1%Z in H.
  rewrite !Z.mul_1_r in H. destruct (a ?= b)%Z eqn:Q; try discriminate H. apply Z.compare_eq. exact Q.
Qed.

Lemma last_occurrence : forall (a : pystr) l, In a l -> exists l1 l2, l = l1 ++ a :: l2 /\ ~ In a l2.
Proof.
  intros a l. induction l as [|b l IH]; intros I; [destruct I|]. destruct (in_dec (list_eq_dec N.eq_dec) a l) as [Y|NO].
  - destruct (IH Y) as (l1 & l2 & -> & N). exists (b :: l1), l2. auto.
  - destruct I as [->|I]; [|contradiction]. exists [], l. auto.
Qed.

Lemma enum_read : forall U ctx vs ms a, enum_values_to_type (u_word U) ctx vs = Ok ms ->
  (forall b, In b vs -> enum_safe_name (u_word U) a = enum_safe_name (u_word U) b -> a = b) ->
  ~ private ctx (enum_safe_name (u_word U) a) -> In a vs -> exists n, enum_find ms (JStr a) = Some n.
Proof.
  intros U ctx vs ms a H L P I.
  assert (NM : ~ In (str "mro") vs) by (intros X; rewrite enum_from_strings_fails in H; [discriminate | auto]).
  assert (NE : ~ In [] vs) by (intros X; rewrite enum_from_strings_fails in H; [discriminate | auto]).
  destruct (enum_from_strings (u_word U) ctx vs NM NE) as (ms' & Q & _ & M). rewrite H in Q. injection Q as <-.
  assert (J : In (enum_safe_name (u_word U) a, JStr a) ms).
  { apply M. exists a. split; [reflexivity|]. split; [|exact P]. split; [reflexivity|].
    destruct (last_occurrence a vs I) as (l1 & l2 & Q & N). exists l1, l2. split; [exact Q|]. intros w W X. apply N.
    rewrite (L w); [exact W | | congruence]. rewrite Q. apply in_or_app. right. right. exact W. }
  clear - J. induction ms as [|[n v] ms IH]; [destruct J|]. cbn [enum_find]. destruct (scalar_eqb v (JStr a)) eqn:Q; [eauto|].
  destruct J as [J|J]; [|auto]. injection J as _ ->. rewrite scalar_str, pystr_eqb_refl in Q. discriminate.
Qed.

Section Types.
  Variables (U : unicode) (m : nat) (asserts : pystr -> pystr -> json -> bool) (doc : json) (skip : bool) (E : env).
  Hypothesis SND : sound m E.
  Hypothesis SH : shuffles (e_order E).
  Hypothesis STRICT : strict_formats asserts.
  Hypothesis IMP : importable U doc.
  Hypothesis WF : json_wf doc.

  Notation jto := (json_to_object E skip m).
  Notation accepts := (accepts asserts doc).

  Let GE := sn_guarded _ _ SND.
  Let CALM := sn_calm _ _ SND.

  (** The type [t] is right for the schema [s]. *)
  Record good (s : json) (t : typ) : Prop := {
    g_ready : ready E m t;
    g_canonical : canonical t;
    g_flat : flat t;
    g_none : t <> none_type;
    g_optional : is_type_optional t = false;
    g_alias : get_alias t = None;
    g_op : forall op ts, t = TUnion op ts -> op = false;
    g_reads : forall j, plain_json j = true -> json_wf j -> accepts s j -> exists v, jto t j = Ok v;
    g_null : forall j, accepts s j -> null_free j = true;
    g_steady : steady doc s -> forall j, null_free j = true -> (exists v, jto t j = Ok v) \/ exists e, jto t j = Err e /\ soft e;
    g_direct : direct doc s -> ~ is_union t;
    g_varied : varied doc s -> literal_values t = None;
    g_fixed : forall c, fixed doc s c -> t = TLiteral [LStr c];
    g_literals : exists ps, literal_properties E t = Ok ps;
    g_plain : simple doc s \/ unmarked doc s -> is_class_type t = false \/ literal_properties E t = Ok [];
    g_marked : forall x c, marked doc s x c -> tagged E x c t;
    g_mark : forall x c j, marked doc s x c -> accepts s j -> exists o, j = JObj o /\ dict_get o x = Some (JStr c)
  }.

  Lemma has_fun : forall kws k x y, json_wf (JObj kws) -> has (JObj kws) k x -> dict_get kws (str k) = Some y -> x = y.
  Proof. intros kws k x y W H D. apply wf_has in H; [|exact W]. congruence. Qed.

  Lemma has_no : forall kws k x, dict_get kws (str k) = None -> has (JObj kws) k x -> False.
  Proof. intros kws k x D (o & Q & I). injection Q as <-. apply (proj1 (dict_get_none _ _) D). apply in_map_iff. exists (str k, x). auto. Qed.

  Lemma accepts_get : forall kws j k x, accepts (JObj kws) j -> dict_get kws k = Some x -> holds asserts doc kws j k x.
  Proof. intros kws j k x A D. eapply accepts_elim; [exact A|]. apply dict_get_in. exact D. Qed.

  Lemma leads_here : forall kws s', dict_get kws (str "$ref") = None -> leads_to doc (JObj kws) s' -> s' = JObj kws.
  Proof. intros kws s' D L. inversion L as [|? r ? ? H]; subst; [reflexivity|]. destruct (has_no _ _ _ D H). Qed.

  (** A schema of a type, without reference. *)
  Section Leaf.
    Variables (kws : list (pystr * json)) (ty : string).
    Hypothesis W : json_wf (JObj kws).
    Hypothesis T : typed ty kws.
    Hypothesis NR : dict_get kws (str "$ref") = None.
    Hypothesis NU : dict_get kws (str "oneOf") = None.

    Lemma of_type_is : forall ty', of_type (JObj kws) ty' -> str ty' = str ty.
    Proof. intros ty' H. pose proof (has_fun _ _ _ _ W H T) as Q. congruence. Qed.

    Lemma leaf_varied : varied doc (JObj kws) -> dict_get kws (str "const") = None.
    Proof.
      intros V. inversion V as [? s' ty' L _ N|? s' ss q L H _ _]; subst; apply leads_here in L; try exact NR; subst s'.
      - destruct (dict_get kws (str "const")) as [x|] eqn:D; [|reflexivity]. destruct (N x (get_has _ _ _ D)).
      - destruct (has_no _ _ _ NU H).
    Qed.

    Lemma good_leaf : forall t, str ty <> str "object" -> ready E m t -> canonical t -> flat t -> t <> none_type -> ~ is_union t -> is_type_optional t = false ->
      get_alias t = None -> (forall j, plain_json j = true -> json_wf j -> accepts (JObj kws) j -> exists v, jto t j = Ok v) ->
      (forall j, accepts (JObj kws) j -> null_free j = true) ->
      (steady doc (JObj kws) -> forall j, null_free j = true -> (exists v, jto t j = Ok v) \/ exists e, jto t j = Err e /\ soft e) ->
      (dict_get kws (str "const") = None -> literal_values t = None) ->
      (forall c, str ty = str "string" -> dict_get kws (str "const") = Some (JStr c) -> t = TLiteral [LStr c]) ->
      literal_properties E t = Ok [] -> good (JObj kws) t.
    Proof.
      intros t NO R C F N NUT O A RD NL ST V FX LP. constructor; auto.
      - intros op ts ->. destruct (NUT Logic.I).
      - intros Vd. apply V. apply leaf_varied. exact Vd.
      - intros c (s' & L & OT & CN). apply leads_here in L; [|exact NR]. subst s'. apply of_type_is in OT. apply wf_has in CN; [|exact W]. auto.
      - eauto.
      - intros x c (s' & ps & p & L & OT & _). apply leads_here in L; [|exact NR]. subst s'. apply of_type_is in OT. congruence.
      - intros x c j (s' & ps & p & L & OT & _). apply leads_here in L; [|exact NR]. subst s'. apply of_type_is in OT. congruence.
    Qed.

    Lemma type_of : forall j, accepts (JObj kws) j -> is_type (str ty) j = Some true.
    Proof. intros j A. eapply type_holds. eapply accepts_get; [exact A | exact T]. Qed.
  End Leaf.

  Lemma scalar_soft : forall k j, In k [KBool; KInt; KStr] -> (exists v, jto (TScalar k) j = Ok v) \/ exists e, jto (TScalar k) j = Err e /\ soft e.
  Proof.
    intros k j I. rewrite jto_scalar. unfold soft. destruct I as [<-|[<-|[<-|[]]]]; destruct j; cbn [parse_scalar]; eauto.
  Qed.

  Lemma literal_soft : forall l k j, literal_type [l] = Ok (TScalar k) -> In k [KBool; KInt; KStr] ->
    (exists v, jto (TLiteral [l]) j = Ok v) \/ exists e, jto (TLiteral [l]) j = Err e /\ soft e.
  Proof.
    intros l k j L I. rewrite (jto_literal E GE CALM skip m [l] j (TypeDefParts.literal_ready E GE m l k L)), L. cbn [bind].
    destruct (scalar_soft k j I) as [(v & ->)|(e & -> & SF)]; cbn [bind]; [|eauto].
    destruct (existsb _ _); [eauto|]. right. exists EJsonType. unfold soft. auto.
  Qed.

  Lemma annot_jto : forall k md j, jto (TAnnot (TScalar k) md) j = jto (TScalar k) j.
  Proof. intros k md j. apply (jto_annot E GE CALM). apply (annot_ready E GE m); [cbn; auto | apply (scalar_ready E GE)]. Qed.

  Ltac key_absent K :=
    match goal with |- dict_get ?kws ?k = None =>
      let x := fresh in let d := fresh in
      destruct (dict_get kws k) as [x|] eqn:d; [|reflexivity]; apply dict_get_in in d; apply K in d; cbn in d;
      repeat (destruct d as [d|d]; [discriminate d|]); destruct d
    end.

  Ltac leaf W T K ty :=
    match goal with |- good (JObj ?kws) _ =>
      apply (good_leaf kws ty W T ltac:(key_absent K) ltac:(key_absent K));
      [ discriminate | | try (repeat constructor; intros []; fail) | try (cbn; auto; fail) | discriminate | intros [] | try reflexivity | try reflexivity | | | | try (intros _; reflexivity) | | try reflexivity ]
    end.

  Lemma literal_reads : forall l k j v, literal_type [l] = Ok (TScalar k) -> parse_scalar k j = Ok v -> py_eq E (lit_value l) v = true ->
    exists v, jto (TLiteral [l]) j = Ok v.
  Proof.
    intros l k j v L P Q. rewrite (jto_literal E GE CALM skip m [l] j (TypeDefParts.literal_ready E GE m l k L)), L. cbn [bind].
    rewrite jto_scalar, P. cbn [bind existsb]. rewrite Q. cbn [orb]. eauto.
  Qed.

  Lemma boolean_good : forall kws v E0 E' t d attrs, v = VObj 1 attrs -> json_wf (JObj kws) -> typed "boolean" kws -> att kws v "const" (TScalar KBool) ->
    (forall k x, In (k, x) kws -> In k (keywords_of 1)) -> boolean_node E0 m v = Ok (E', (t, d)) -> good (JObj kws) t.
  Proof.
    intros kws v E0 E' t d attrs -> W T A K H. apply boolean_inv in H. destruct H as (const & C & _ & ->).
    pose proof (att_none _ _ _ _ _ _ _ A C (fun j => scalar_some KBool j ltac:(discriminate))) as CC.
    assert (TY : forall j, accepts (JObj kws) j -> exists b, j = JBool b).
    { intros j AC. pose proof (type_of _ _ T _ AC) as Q. destruct j; try discriminate Q. eauto. }
    assert (NL : forall j, accepts (JObj kws) j -> null_free j = true).
    { intros j AC. destruct (TY j AC) as (b & ->). reflexivity. }
    destruct const as [b|]; leaf W T K "boolean"%string.
    - apply (TypeDefParts.literal_ready E GE m _ KBool). reflexivity.
    - intros j _ _ AC. destruct (TY j AC) as (b' & ->). destruct CC as (jc & w & D & _ & R & CV). rewrite jto_scalar in R.
      destruct jc as [|bc| | | | |]; try discriminate R. injection R as <-. injection CV as ->.
      pose proof (const_holds _ _ _ _ _ (accepts_get _ _ _ _ AC D)) as SM. cbn [same] in SM. apply eqb_prop in SM. subst b'.
      apply (literal_reads (LBool b) KBool (JBool b) (VBool b)); try reflexivity. destruct b; reflexivity.
    - exact NL.
    - intros _ j _. apply (literal_soft _ KBool); [reflexivity | cbn; auto].
    - destruct CC as (jc & w & D & _). intros D'. congruence.
    - discriminate.
    - apply (scalar_ready E GE).
    - intros j _ _ AC. destruct (TY j AC) as (b' & ->). rewrite jto_scalar. cbn. eauto.
    - exact NL.
    - intros _ j _. apply scalar_soft. cbn. auto.
    - discriminate.
  Qed.

  Lemma integer_good : forall kws v E0 E' t d attrs, v = VObj 2 attrs -> json_wf (JObj kws) -> typed "integer" kws -> att kws v "const" (TScalar KInt) ->
    (forall k x, In (k, x) kws -> In k (keywords_of 2)) -> integer_node E0 m v = Ok (E', (t, d)) -> good (JObj kws) t.
  Proof.
    intros kws v E0 E' t d attrs -> W T A K H. apply integer_inv in H. destruct H as (const & C & _ & H).
    pose proof (att_none _ _ _ _ _ _ _ A C (fun j => scalar_some KInt j ltac:(discriminate))) as CC.
    assert (TY : forall j, plain_json j = true -> accepts (JObj kws) j -> exists z, j = JInt z).
    { intros j P AC. pose proof (type_of _ _ T _ AC) as Q. destruct j; try discriminate Q; [eauto|].
      cbn [plain_json] in P. cbn in Q. injection Q as Q. rewrite Q in P. discriminate P. }
    assert (NL : forall j, accepts (JObj kws) j -> null_free j = true).
    { intros j AC. pose proof (type_of _ _ T _ AC) as Q. destruct j; try discriminate Q; reflexivity. }
    destruct const as [z|].
    - subst t. leaf W T K "integer"%string.
      + apply (TypeDefParts.literal_ready E GE m _ KInt). reflexivity.
      + intros j P _ AC. destruct (TY j P AC) as (z' & ->). destruct CC as (jc & w & D & _ & R & CV). rewrite jto_scalar in R.
        pose proof (const_holds _ _ _ _ _ (accepts_get _ _ _ _ AC D)) as SM.
        destruct jc as [|bc|zc| | | |]; try discriminate R; [discriminate SM|]. injection R as <-. injection CV as ->.
        apply same_int in SM. subst z'. apply (literal_reads (LInt z) KInt (JInt z) (VInt z)); try reflexivity. cbn. apply Z.eqb_refl.
      + exact NL.
      + intros _ j _. apply (literal_soft _ KInt); [reflexivity | cbn; auto].
      + destruct CC as (jc & w & D & _). intros D'. congruence.
      + discriminate.
    - destruct H as (ity & ->).
      assert (X : integer_type ity = TScalar KInt \/ exists md, integer_type ity = TAnnot (TScalar KInt) md /\ get_alias (integer_type ity) = None).
      { destruct ity; cbn; eauto 6. }
      destruct X as [->|(md & -> & AL)]; leaf W T K "integer"%string.
      + apply (scalar_ready E GE).
      + intros j P _ AC. destruct (TY j P AC) as (z & ->). rewrite jto_scalar. cbn. eauto.
      + exact NL.
      + intros _ j _. apply scalar_soft. cbn. auto.
      + discriminate.
      + apply (annot_ready E GE); [cbn; auto | apply (scalar_ready E GE)].
      + exact AL.
      + intros j P _ AC. destruct (TY j P AC) as (z & ->). rewrite annot_jto, jto_scalar. cbn. eauto.
      + exact NL.
      + intros _ j _. rewrite annot_jto. apply scalar_soft. cbn. auto.
      + discriminate.
  Qed.

  Lemma number_good : forall kws v E0 E' t d attrs, v = VObj 3 attrs -> json_wf (JObj kws) -> typed "number" kws -> att kws v "const" (TScalar KFloat) ->
    (forall k x, In (k, x) kws -> In k (keywords_of 3)) -> number_node E0 m v = Ok (E', (t, d)) -> good (JObj kws) t.
  Proof.
    intros kws v E0 E' t d attrs -> W T A K H. apply number_inv in H. destruct H as (_ & _ & H).
    assert (NL : forall j, accepts (JObj kws) j -> null_free j = true).
    { intros j AC. pose proof (type_of _ _ T _ AC) as Q. destruct j; try discriminate Q; reflexivity. }
    assert (NS : ~ steady doc (JObj kws)).
    { intros X. inversion X as [? O|? O|? O|? ? O|? ? O|? r ? O]; subst;
        try (pose proof (of_type_is _ _ W T _ O) as Q; discriminate Q). eapply has_no; [|exact O]. key_absent K. }
    destruct H as [->|(n & ->)]; leaf W T K "number"%string.
    + apply (scalar_ready E GE).
    + intros j P _ AC. rewrite jto_scalar. apply plain_float; [exact P | apply (type_of _ _ T _ AC)].
    + exact NL.
    + intros X. destruct (NS X).
    + discriminate.
    + apply (annot_ready E GE); [cbn; auto | apply (scalar_ready E GE)].
    + intros j P _ AC. rewrite annot_jto, jto_scalar. apply plain_float; [exact P | apply (type_of _ _ T _ AC)].
    + exact NL.
    + intros X. destruct (NS X).
    + discriminate.
  Qed.

  Lemma format_types : forall f k, format_type f = Some k -> exists g, f = str g /\ In (g, k) text_formats.
  Proof.
    intros f k H. unfold format_type in H.
    repeat match type of H with (if pystr_eqb f ?x then _ else _) = _ =>
      destruct (pystr_eqb f x) eqn:Q; [apply pystr_eqb_eq in Q; injection H as <-; eexists; split; [exact Q | cbn; tauto] | clear Q] end.
    discriminate H.
  Qed.

  Lemma format_scalars : forall g k, In (g, k) text_formats -> k <> KNone.
  Proof. intros g k I. cbn in I. repeat (destruct I as [I|I]; [injection I as _ <-; discriminate|]). destruct I. Qed.

  Lemma string_good : forall kws v ctx E0 E' t d attrs, v = VObj 4 attrs -> json_wf (JObj kws) -> part doc (JObj kws) -> typed "string" kws ->
    att kws v "const" (TScalar KStr) -> att kws v "format" (TScalar KStr) -> att kws v "enum" (TList (TScalar KStr)) ->
    (forall k x, In (k, x) kws -> In k (keywords_of 4)) -> sound m E0 -> ext E' E -> string_node U E0 m ctx v = Ok (E', (t, d)) -> good (JObj kws) t.
  Proof.
    intros kws v ctx E0 E' t d attrs -> W PT T AC AF AE K S0 X H. apply string_inv in H.
    assert (TY : forall j, accepts (JObj kws) j -> exists s, j = JStr s).
    { intros j Q. apply (type_of _ _ T) in Q. destruct j; try discriminate Q. eauto. }
    assert (NL : forall j, accepts (JObj kws) j -> null_free j = true).
    { intros j Q. destruct (TY j Q) as (s & ->). reflexivity. }
    assert (ST : steady doc (JObj kws) -> dict_get kws (str "format") = None /\ dict_get kws (str "enum") = None).
    { intros Y. inversion Y as [? O|? O|? O NF NE|? ? O|? ? O|? r ? O]; subst;
        try (pose proof (of_type_is _ _ W T _ O) as Q; discriminate Q).
      - split; [destruct (dict_get kws (str "format")) eqn:D | destruct (dict_get kws (str "enum")) eqn:D]; try reflexivity;
          apply get_has in D; [destruct (NF _ D) | destruct (NE _ D)].
      - exfalso. eapply has_no; [|exact O]. key_absent K. }
    assert (NC : forall const, optional_attr as_str (VObj 4 attrs) (str "const") = Ok const -> match const with
        | Some c => dict_get kws (str "const") = Some (JStr c) | None => forall c, dict_get kws (str "const") <> Some (JStr c) end).
    { intros const Q. pose proof (att_none _ _ _ _ _ _ _ AC Q (fun j => scalar_some KStr j ltac:(discriminate))) as CC. destruct const as [c|].
      - destruct CC as (j & w & D & _ & R & CV). rewrite jto_scalar in R. destruct j; try discriminate R. injection R as <-. injection CV as ->. exact D.
      - intros c D. destruct CC; congruence. }
    destruct H as [c C _ ->|f k C F FT _ ->|fm vs ms C F EN EV NW|fm C F EN _ TT].
    - apply NC in C. leaf W T K "string"%string.
      + apply (TypeDefParts.literal_ready E GE m _ KStr). reflexivity.
      + intros j _ _ A. destruct (TY j A) as (s & ->). pose proof (const_holds _ _ _ _ _ (accepts_get _ _ _ _ A C)) as SM.
        cbn [same] in SM. apply pystr_eqb_eq in SM. subst s. apply (literal_reads (LStr c) KStr (JStr c) (VStr c)); try reflexivity. apply pystr_eqb_refl.
      + exact NL.
      + intros _ j _. apply (literal_soft _ KStr); [reflexivity | cbn; auto].
      + intros D. congruence.
      + intros c' _ D. congruence.
    - apply NC in C. apply format_types in FT. destruct FT as (g & -> & IF).
      pose proof (att_none _ _ _ _ _ _ _ AF F (fun j => scalar_some KStr j ltac:(discriminate))) as CF.
      destruct CF as (j & w & D & _ & R & CV). rewrite jto_scalar in R. destruct j; try discriminate R. injection R as <-. injection CV as ->.
      assert (NN : TScalar k <> none_type) by (intros Q; injection Q; apply (format_scalars _ _ IF)).
      apply (good_leaf kws "string" W T ltac:(key_absent K) ltac:(key_absent K)); try discriminate; try reflexivity; auto.
      + apply (scalar_ready E GE).
      + constructor.
      + cbn. auto.
      + intros j _ _ A. destruct (TY j A) as (s & ->). rewrite jto_scalar. apply (STRICT g k s IF).
        eapply format_holds; [left; reflexivity|]. eapply accepts_get; [exact A | exact D].
      + intros Y. destruct (ST Y) as [Y' _]. congruence.
      + intros c _ D'. destruct (C c D').
    - apply NC in C. destruct (new_class_ok _ _ _ _ _ _ NW S0) as (_ & _ & _ & c & -> & G); [intros y u [] | intros; discriminate|].
      apply (ext_class _ _ _ _ X) in G.
      pose proof (att_none _ _ _ _ _ _ _ AE EN strings_some) as CE. destruct CE as (j & w & D & _ & R & CV).
      apply read_strings in R. destruct R as (ss & -> & ->). cbn [as_list] in CV. rewrite all_some_map in CV. injection CV as ->.
      leaf W T K "string"%string.
      + eapply (enum_ready E GE); [exact G | reflexivity].
      + intros j _ _ A. destruct (TY j A) as (s & ->). pose proof (enum_holds _ _ _ _ _ (accepts_get _ _ _ _ A D)) as EH.
        apply existsb_exists in EH. destruct EH as (y & I & SM). apply in_map_iff in I. destruct I as (s' & <- & I). cbn [same] in SM.
        apply pystr_eqb_eq in SM. subst s'.
        assert (IJ : forall b, In b vs -> In (JStr b) (map JStr vs)) by (intros; apply in_map; assumption).
        destruct (enum_read U ctx vs ms s EV) as (n & N).
        * intros b Ib Q. eapply (im_labels _ _ IMP); [exact PT | apply get_has; exact T | apply get_has; exact D | auto | auto | exact Q].
        * eapply (im_private _ _ IMP); [exact PT | apply get_has; exact T | apply get_has; exact D | auto].
        * exact I.
        * rewrite (jto_enum E skip m c _ ms _ G eq_refl). unfold parse_enum. rewrite N. eauto.
      + exact NL.
      + intros Y. destruct (ST Y) as [_ Y']. congruence.
      + intros c' _ D'. destruct (C c' D').
      + unfold literal_properties. rewrite G. reflexivity.
    - apply NC in C. destruct TT as [->|(n & ->)]; leaf W T K "string"%string.
      + apply (scalar_ready E GE).
      + intros j _ _ A. destruct (TY j A) as (s & ->). rewrite jto_scalar. cbn. eauto.
      + exact NL.
      + intros _ j _. apply scalar_soft. cbn. auto.
      + intros c' _ D'. destruct (C c' D').
      + apply (annot_ready E GE); [cbn; auto | apply (scalar_ready E GE)].
      + intros j _ _ A. destruct (TY j A) as (s & ->). rewrite annot_jto, jto_scalar. cbn. eauto.
      + exact NL.
      + intros _ j _. rewrite annot_jto. apply scalar_soft. cbn. auto.
      + intros c' _ D'. destruct (C c' D').
  Qed.

  Lemma array_good : forall kws p t, json_wf (JObj kws) -> typed "array" kws -> dict_get kws (str "items") = Some p ->
    (forall k x, In (k, x) kws -> In k (keywords_of 5)) -> good p t -> good (JObj kws) (TList t).
  Proof.
    intros kws p t W T D K G.
    assert (R : ready E m (TList t)) by (apply (TypeDefParts.list_ready E GE); [apply (g_flat _ _ G) | apply (g_ready _ _ G)]).
    assert (TY : forall j, accepts (JObj kws) j -> exists js, j = JArr js /\ forall x, In x js -> accepts p x).
    { intros j A. pose proof (type_of _ _ T _ A) as Q. apply array_of in Q. destruct Q as (js & ->). exists js. split; [reflexivity|].
      eapply items_holds; [|eapply accepts_get; [exact A | exact D]]. key_absent K. }
    assert (NR : dict_get kws (str "$ref") = None) by key_absent K.
    leaf W T K "array"%string.
    - exact R.
    - constructor. apply (g_canonical _ _ G).
    - split; [intros [] | apply (g_flat _ _ G)].
    - intros j P WJ A. destruct (TY j A) as (js & -> & Q). rewrite (jto_list E GE CALM skip m t _ R).
      assert (M : exists vs, mapM (jto t) js = Ok vs).
      { apply mapM_total. intros x I. apply (g_reads _ _ G); [|eapply wf_element; [exact WJ | exact I] | apply Q; exact I].
        cbn [plain_json] in P. rewrite forallb_forall in P. exact (P _ I). }
      destruct M as (vs & ->). cbn [bind]. eauto.
    - intros j A. destruct (TY j A) as (js & -> & Q). cbn [null_free]. apply forallb_forall. intros x I. apply (g_null _ _ G). auto.
    - intros Y j NF. rewrite (jto_list E GE CALM skip m t _ R).
      assert (SP : steady doc p).
      { inversion Y as [? O|? O|? O|? p' O IT SP|? ? O|? r ? O]; subst; try (pose proof (of_type_is _ _ W T _ O) as Q; discriminate Q).
        - rewrite <- (has_fun _ _ _ _ W IT D). exact SP.
        - destruct (has_no _ _ _ NR O). }
      destruct j as [| | | | |js|]; try (right; exists EJsonType; unfold soft; auto; fail).
      cbn [null_free] in NF. rewrite forallb_forall in NF.
      destruct (mapM (jto t) js) as [vs|e] eqn:M; cbn [bind]; [eauto|]. right. exists e. split; [reflexivity|].
      apply mapM_err in M. destruct M as (x & I & Q). destruct (g_steady _ _ G SP x (NF x I)) as [(v & V)|(e' & V & SF)]; congruence.
    - discriminate.
  Qed.

  Lemma ref_good : forall kws r d t, json_wf (JObj kws) -> dict_get kws (str "$ref") = Some (JStr r) ->
    (forall k x, In (k, x) kws -> In k (keywords_of 0)) -> points_to doc r = Some d -> good d t -> good (JObj kws) t.
  Proof.
    intros kws r d t W D K P G.
    assert (AC : forall j, accepts (JObj kws) j -> accepts d j).
    { intros j A. pose proof (ref_holds _ _ _ _ _ (accepts_get _ _ _ _ A D)) as (d' & P' & A'). congruence. }
    assert (NT : dict_get kws (str "type") = None) by key_absent K.
    assert (LD : forall s', leads_to doc (JObj kws) s' -> leads_to doc d s').
    { intros s' L. inversion L as [? N|? r' ? ? H P' L']; subst; [destruct (N _ (get_has _ _ _ D))|].
      pose proof (has_fun _ _ _ _ W H D) as Q. injection Q as ->. rewrite P in P'. injection P' as <-. exact L'. }
    constructor; try apply G.
    - intros j PJ WJ A. apply (g_reads _ _ G); auto.
    - intros j A. apply (g_null _ _ G). auto.
    - intros Y. apply (g_steady _ _ G). inversion Y as [? O|? O|? O|? p' O IT SP|? ? O|? r' ? O P' SP]; subst; try (destruct (has_no _ _ _ NT O)).
      pose proof (has_fun _ _ _ _ W O D) as Q. injection Q as ->. congruence.
    - intros (s' & ty & L & H). apply (g_direct _ _ G). exists s', ty. auto.
    - intros Y. apply (g_varied _ _ G). inversion Y as [? s' ty L H N|? s' ss q L H I V]; subst; [eapply vr_type | eapply vr_member]; eauto.
    - intros c (s' & L & H). apply (g_fixed _ _ G). exists s'. auto.
    - intros [(s' & ty & L & H)|(s' & ps & L & H)]; apply (g_plain _ _ G); [left; exists s', ty | right; exists s', ps]; auto.
    - intros x c (s' & ps & p & L & H). apply (g_marked _ _ G). exists s', ps, p. auto.
    - intros x c j (s' & ps & p & L & H) A. apply (g_mark _ _ G); [|auto]. exists s', ps, p. auto.
  Qed.

  (** ** Objects *)

  Lemma without_none_same : forall ts, ~ In none_type ts -> without_none ts ts.
  Proof. induction ts as [|t ts IH]; intros N; constructor; [intros ->; apply N; left; reflexivity | apply IH; intros I; apply N; right; exact I]. Qed.

  Lemma optional_type : forall p t u, good p t -> mk_union false [TScalar KNone; t] = Ok u ->
    is_type_optional u = true /\ unwrap_optional u = Ok t /\ canonical u /\ flat u /\ get_alias u = None /\ literal_values u = None.
  Proof.
    intros p t u G H. pose proof (g_canonical _ _ G) as C.
    assert (CU : canonical u) by (eapply mk_union_canonical; [|exact H]; repeat constructor; exact C).
    assert (FU : flat u).
    { eapply mk_union_flat; [|exact H]. constructor; [cbn; auto|]. constructor; [apply (g_flat _ _ G) | constructor]. }
    assert (X : exists ts, u = TUnion false (none_type :: ts) /\ ~ In none_type ts /\ union_of ts t).
    { destruct (match t with TUnion _ _ => true | _ => false end) eqn:Q.
      - destruct t; try discriminate Q. rewrite (g_op _ _ G _ _ eq_refl) in *. inversion C as [| | | | | |? ? LE ND F| | | | |]; subst.
        pose proof (g_optional _ _ G) as O. cbn [is_type_optional unwrap_annotated] in O.
        assert (NI : ~ In none_type ts).
        { intros I. rewrite (proj2 (existsb_exists _ _)) in O; [discriminate O|]. exists none_type. split; [exact I | reflexivity]. }
        exists ts. split; [|split; [exact NI|]].
        + unfold mk_union in H. cbn [flatten_union flat_map app] in H. rewrite app_nil_r in H. rewrite dedup_nodup in H.
          * destruct ts; cbn [length] in LE; [lia|]. injection H as <-. reflexivity.
          * constructor; assumption.
          * intros t _ [].
        + destruct ts as [|a [|b r]]; cbn [length] in LE; try lia. constructor.
      - assert (NU : ~ is_union t) by (destruct t; try discriminate Q; intros []).
        exists [t]. split; [|split; [intros [Q'|[]]; destruct (g_none _ _ G Q') | constructor]].
        rewrite mk_union_of in H; [injection H as <-; reflexivity | |].
        + constructor; [intros [] | constructor; [exact NU | constructor]].
        + constructor; [intros [Q'|[]]; destruct (g_none _ _ G Q') | constructor; [intros [] | constructor]]. }
    destruct X as (ts & -> & NI & UO). split; [reflexivity|]. split; [|split; [exact CU|split; [exact FU|split; reflexivity]]].
    apply unwrap_optional_spec; [exact CU|]. eapply dn_union; [|exact UO]. constructor. apply without_none_same. exact NI.
  Qed.

  (** A property and its field. *)
  Definition property_of (req : list pystr) (xp : pystr * json) (f : PyTypes.field) : Prop :=
    f_name f = fst xp /\ exists t d, good (snd xp) t /\ f_default f = option_map Ok d /\
    if mem_str (fst xp) req then f_type f = t else mk_union false [TScalar KNone; t] = Ok (f_type f).

  Definition parses (req : list pystr) (x : pystr) (t : typ) (fp : fparser) : Prop :=
    fp_prop fp = x /\ fp_name fp = x /\ fp_type fp = t /\ (fp_mode fp = FRequired -> In x req) /\ forall e, fp_mode fp <> FDefault (Err e).

  Lemma property_parser : forall req x p f, property_of req (x, p) f -> (forall k, In k python_keywords -> x <> k ++ str "_") ->
    exists t fp, good p t /\ field_parser (f_name f) (f_type f) (f_default f) = Ok fp /\ parses req x t fp.
  Proof.
    intros req x p f (N & t & d & G & D & M) NK. cbn [fst snd] in *. subst x. exists t.
    assert (SK : strip_keyword (f_name f) = f_name f).
    { apply (strip_keyword_spec (f_name f) (TScalar KNone)); [intros a (? & ? & ? & Q & _); discriminate Q|].
      apply pn_same; [intros a (? & ? & ? & Q & _); discriminate Q | exact NK]. }
    unfold field_parser, parses. destruct (mem_str (f_name f) req) eqn:R.
    - rewrite M, (g_optional _ _ G). cbn [bind json_property]. rewrite (g_alias _ _ G), SK, D.
      eexists. split; [exact G|]. split; [reflexivity|]. cbn [fp_prop fp_name fp_type fp_mode]. repeat (split; [reflexivity|]). split.
      + intros _. apply mem_str_in. exact R.
      + intros e. destruct d; discriminate.
    - destruct (optional_type _ _ _ G M) as (O & UW & _ & _ & A & _). rewrite O, UW. cbn [bind json_property]. rewrite A, SK, D.
      eexists. split; [exact G|]. split; [reflexivity|]. cbn [fp_prop fp_name fp_type fp_mode]. repeat (split; [reflexivity|]). split.
      + destruct d; discriminate.
      + intros e. destruct d; discriminate.
  Qed.

  Lemma property_flat : forall req xp f, property_of req xp f -> flat (f_type f) /\ canonical (f_type f).
  Proof.
    intros req [x p] f (N & t & d & G & D & M). cbn [fst snd] in *. destruct (mem_str x req).
    - rewrite M. split; apply G.
    - destruct (optional_type _ _ _ G M) as (_ & _ & C & F & _). auto.
  Qed.

  Lemma data_parsers : forall x sfs, Forall (fun f => flat (f_type f) /\ canonical (f_type f)) sfs ->
    field_parsers E (mkClass m x (CData false sfs) None None) = mapM (fun f => field_parser (f_name f) (f_type f) (f_default f)) sfs.
  Proof.
    intros x sfs F. unfold field_parsers, hints. cbn [c_kind c_module raw_fields].
    assert (H : mapM (fun '(x, t) => do t' <- resolve_hint E m t; Ok (x, t')) (map (fun f => (f_name f, f_type f)) sfs) = Ok (map (fun f => (f_name f, f_type f)) sfs)).
    { apply mapM_id. rewrite Forall_map. eapply Forall_impl; [|exact F]. intros f [A B]. unfold resolve_hint. rewrite resolve_flat by assumption. reflexivity. }
    rewrite H. cbn [bind]. clear. induction sfs as [|f sfs IH]; [reflexivity|]. cbn [map combine mapM]. rewrite IH. reflexivity.
  Qed.

  Lemma sort_permutation : forall fs, Permutation (sort_fields fs) fs.
  Proof.
    unfold sort_fields. induction fs as [|f fs IH]; [reflexivity|]. cbn [filter]. destruct (f_default f).
    - symmetry. etransitivity; [|apply Permutation_middle]. constructor. symmetry. exact IH.
    - cbn [app]. constructor. exact IH.
  Qed.

  Lemma filter_one : forall A (g : A -> bool) l a, NoDup l -> In a l -> g a = true -> (forall b, In b l -> b <> a -> g b = false) -> filter g l = [a].
  Proof.
    intros A g l a. induction l as [|b l IH]; intros ND I GA O; [destruct I|]. inversion ND as [|? ? N1 N2]; subst. cbn [filter]. destruct I as [->|I].
    - rewrite GA. f_equal. assert (X : forall c, In c l -> g c = false).
      { intros c C. apply O; [right; exact C | intros ->; contradiction]. }
      clear - X. induction l as [|c l IH]; [reflexivity|]. cbn [filter]. rewrite (X c (or_introl eq_refl)). apply IH. intros d D. apply X. right. exact D.
    - rewrite (O b (or_introl eq_refl)) by (intros ->; contradiction). apply IH; auto. intros c C. apply O. right. exact C.
  Qed.

  Lemma filter_none : forall A (g : A -> bool) l, (forall b, In b l -> g b = false) -> filter g l = [].
  Proof. intros A g l. induction l as [|b l IH]; intros O; [reflexivity|]. cbn [filter]. rewrite (O b (or_introl eq_refl)). apply IH. intros c C. apply O. right. exact C. Qed.

  Lemma leads_accepts : forall s s' j, leads_to doc s s' -> accepts s j -> accepts s' j.
  Proof.
    intros s s' j L. induction L as [s N|s r s1 s2 (kws & -> & I) P L IH]; intros A; [exact A|]. apply IH.
    pose proof (ref_holds _ _ _ _ _ (accepts_elim _ _ _ _ _ _ A I)) as (s' & P' & A'). congruence.
  Qed.

  Lemma fixed_accepts : forall s c j, fixed doc s c -> accepts s j -> j = JStr c.
  Proof.
    intros s c j (s' & L & _ & (kws & -> & I)) A. pose proof (leads_accepts _ _ _ L A) as A'.
    pose proof (const_holds _ _ _ _ _ (accepts_elim _ _ _ _ _ _ A' I)) as Q. destruct j; try discriminate Q. cbn [same] in Q. apply pystr_eqb_eq in Q. congruence.
  Qed.

  Lemma object_good : forall kws ps req c ctx fs, json_wf (JObj kws) -> part doc (JObj kws) -> typed "object" kws ->
    dict_get kws (str "properties") = Some (JObj ps) -> dict_get kws (str "additionalProperties") = Some (JBool false) ->
    (dict_get kws (str "required") = Some (JArr (map JStr req)) \/
      req = [] /\ (dict_get kws (str "required") = None \/ dict_get kws (str "required") = Some JNull)) ->
    dict_get kws (str "$ref") = None -> dict_get kws (str "oneOf") = None -> dict_get kws (str "const") = None ->
    Forall2 (property_of req) ps fs -> get_class E c = Some (mkClass m ctx (CData false (sort_fields fs)) None None) ->
    good (JObj kws) (TClass c).
  Proof.
    intros kws ps req c ctx fs W PT T DP DA DR NR NU NC F2 G. set (cl := mkClass m ctx (CData false (sort_fields fs)) None None) in *.
    assert (WP : json_wf (JObj ps)) by (eapply wf_value; [exact W | apply dict_get_in; exact DP]).
    assert (NDP : NoDup (map fst ps)) by (inversion WP; assumption).
    assert (NDF : NoDup (map f_name (sort_fields fs))).
    { eapply Permutation_NoDup; [apply Permutation_map; symmetry; apply sort_permutation|].
      replace (map f_name fs) with (map fst ps); [exact NDP|]. clear - F2. induction F2 as [|xp f ps fs (N & _) F IH]; [reflexivity|]. cbn [map]. congruence. }
    assert (BF : forall f, In f (sort_fields fs) -> exists x p, In (x, p) ps /\ property_of req (x, p) f).
    { intros f I. apply (proj1 (sort_in _ _)) in I. destruct (Forall2_in_r _ _ _ _ _ _ F2 I) as ([x p] & I' & H). eauto. }
    assert (FB : forall x p, In (x, p) ps -> exists f, In f (sort_fields fs) /\ property_of req (x, p) f).
    { intros x p I. destruct (Forall2_in_l _ _ _ _ _ _ F2 I) as (f & I' & H). exists f. split; [apply sort_in; exact I' | exact H]. }
    assert (NK : forall x p k, In (x, p) ps -> In k python_keywords -> x <> k ++ str "_").
    { intros x p k I IK. eapply (im_named _ _ IMP); [exact PT | apply get_has; exact DP | exact I | exact IK]. }
    assert (FP : field_parsers E cl = mapM (fun f => field_parser (f_name f) (f_type f) (f_default f)) (sort_fields fs)).
    { apply data_parsers. apply Forall_forall. intros f I. destruct (BF f I) as (x & p & _ & H). eapply property_flat. exact H. }
    assert (X : exists fps, field_parsers E cl = Ok fps /\
      (forall fp, In fp fps -> exists x p t, In (x, p) ps /\ good p t /\ parses req x t fp) /\
      (forall x p, In (x, p) ps -> exists fp, In fp fps /\ fp_prop fp = x)).
    { rewrite FP. destruct (mapM_total _ _ (fun f => field_parser (f_name f) (f_type f) (f_default f)) (sort_fields fs)) as (fps & M).
      - intros f I. destruct (BF f I) as (x & p & I' & H). destruct (property_parser _ _ _ _ H (fun k => NK x p k I')) as (t & fp & _ & Q & _). eauto.
      - exists fps. split; [exact M|]. apply mapM_ok in M. split.
        + intros fp I. destruct (Forall2_in_r _ _ _ _ _ _ M I) as (f & If & Q). destruct (BF f If) as (x & p & I' & H).
          destruct (property_parser _ _ _ _ H (fun k => NK x p k I')) as (t & fp' & Gt & Q' & PS). rewrite Q in Q'. injection Q' as <-. exists x, p, t. auto.
        + intros x p I. destruct (FB x p I) as (f & If & H). destruct (Forall2_in_l _ _ _ _ _ _ M If) as (fp & Ifp & Q).
          destruct (property_parser _ _ _ _ H (fun k => NK x p k I)) as (t & fp' & Gt & Q' & PS). rewrite Q in Q'. injection Q' as <-. exists fp. split; [exact Ifp | apply PS]. }
    destruct X as (fps & FPS & PF & PB).
    assert (R : ready E m (TClass c)).
    { apply (class_ready E GE m c cl (sort_fields fs) fps G eq_refl eq_refl FPS). apply Forall_forall. intros fp I.
      destruct (PF fp I) as (x & p & t & _ & Gt & (_ & _ & -> & _)). apply (g_ready _ _ Gt). }
    assert (J : forall j, jto (TClass c) j = parse_object (jto) skip c cl fps j).
    { intros j. apply (jto_class E GE CALM skip m c cl fps j R G); [exact Logic.I | exact FPS]. }
    assert (OB : forall j, accepts (JObj kws) j -> exists o, j = JObj o /\ (forall x y, In (x, y) o -> In x (map fst ps)) /\
        (forall x y p, In (x, y) o -> In (x, p) ps -> accepts p y) /\ forall x, In x req -> In x (map fst o)).
    { intros j A. pose proof (type_of _ _ T _ A) as Q. apply object_of in Q. destruct Q as (o & ->). exists o. split; [reflexivity|]. split; [|split].
      - intros x y I. pose proof (accepts_get _ _ _ _ A DA) as H. destruct (in_dec (list_eq_dec N.eq_dec) x (map fst ps)) as [Y|NO]; [exact Y|]. exfalso.
        pose proof (additional_holds _ _ _ _ _ H x y I) as H'. unfold known_properties in H'. rewrite DP in H'. specialize (H' NO).
        eapply accepts_rejects; [exact H' | apply rejects_false].
      - intros x y p I Ip. pose proof (accepts_get _ _ _ _ A DP) as H. eapply properties_holds; [exact H | exact I|]. apply dict_get_nodup; assumption.
      - intros x I. destruct DR as [DR|[-> _]]; [|destruct I]. eapply required_holds; [eapply accepts_get; [exact A | exact DR] | exact I]. }
    assert (CP : class_properties E cl = Ok (map (fun f => (f_name f, f_type f)) (sort_fields fs))) by reflexivity.
    assert (LV : forall x p f, In (x, p) ps -> property_of req (x, p) f -> (demanded (JObj kws) x -> varied doc p) -> literal_values (f_type f) = None).
    { intros x p f I (N & t & d & Gt & _ & M) V. cbn [fst snd] in *. destruct (mem_str x req) eqn:MR.
      - rewrite M. apply (g_varied _ _ Gt). apply V. destruct DR as [DR|[-> _]]; [|discriminate MR].
        exists (map JStr req). split; [apply get_has; exact DR | apply in_map; apply mem_str_in; exact MR].
      - apply (optional_type _ _ _ Gt M). }
    assert (DM : forall x, demanded (JObj kws) x -> In x req).
    { intros x (l & H & I). apply wf_has in H; [|exact W]. destruct DR as [DR|[_ [DR|DR]]]; try congruence.
      rewrite DR in H. injection H as <-. apply in_map_iff in I. destruct I as (y & Q & I). injection Q as ->. exact I. }
    assert (MK : forall x c', marked doc (JObj kws) x c' -> exists p, In (x, p) ps /\ In x req /\ fixed doc p c' /\
      forall y q, In (y, q) ps -> y <> x -> demanded (JObj kws) y -> varied doc q).
    { intros x c' (s' & ps' & p & L & _ & HP & I & D & FX & O). apply leads_here in L; [|exact NR]. subst s'.
      pose proof (has_fun _ _ _ _ W HP DP) as Q. injection Q as ->. exists p. auto. }
    constructor; auto.
    - constructor.
    - cbn. auto.
    - discriminate.
    - discriminate.
    - intros j P WJ A. destruct (OB j A) as (o & -> & KN & PR & RQ). rewrite J. unfold parse_object.
      assert (M : exists vals, mapM (fun fp => do v <- parse_field jto fp o; Ok (fp_name fp, v)) fps = Ok vals).
      { apply mapM_total. intros fp I. destruct (PF fp I) as (x & p & t & Ip & Gt & (Q1 & Q2 & Q3 & Q4 & Q5)).
        assert (Y : exists v, parse_field jto fp o = Ok v).
        { unfold parse_field. rewrite Q1, Q3. destruct (dict_get o x) as [y|] eqn:D.
          - pose proof (dict_get_in _ _ _ D) as Iy. pose proof (PR _ _ _ Iy Ip) as Ay. pose proof (g_null _ _ Gt _ Ay) as NF.
            destruct (g_reads _ _ Gt y (plain_value _ _ _ P D) (wf_value _ _ _ WJ Iy) Ay) as (v & V).
            destruct (fp_mode fp); destruct y; try discriminate NF; eauto.
          - destruct (fp_mode fp) as [| |[v|e]] eqn:Md; eauto.
            + exfalso. apply (proj1 (dict_get_none _ _) D). apply RQ. apply Q4. reflexivity.
            + destruct (Q5 e eq_refl). }
        destruct Y as (v & ->). cbn [bind]. eauto. }
      destruct M as (vals & ->). cbn [bind c_kind cl].
      assert (KB : forallb (fun kv => mem_str (fst kv) (map fp_prop fps)) o = true).
      { apply forallb_forall. intros [x y] I. cbn [fst]. apply mem_str_in. pose proof (KN x y I) as Ix. apply in_map_iff in Ix.
        destruct Ix as ([x' p] & Q & Ip). cbn [fst] in Q. subst x'. destruct (PB x p Ip) as (fp & If & <-). apply in_map. exact If. }
      rewrite KB, orb_true_r. eauto.
    - intros j A. destruct (OB j A) as (o & -> & KN & PR & _). cbn [null_free]. apply forallb_forall. intros [x y] I. cbn [snd].
      pose proof (KN x y I) as Ix. apply in_map_iff in Ix. destruct Ix as ([x' p] & Q & Ip). cbn [fst] in Q. subst x'.
      destruct (FB x p Ip) as (f & _ & (_ & t & d & Gt & _)). apply (g_null _ _ Gt). eapply PR; eassumption.
    - intros Y j NF. rewrite J.
      assert (SP : forall x p, In (x, p) ps -> steady doc p).
      { inversion Y as [? O|? O|? O|? p' O IT SP|? ps' O HP SP|? r ? O]; subst; try (pose proof (of_type_is _ _ W T _ O) as Q; discriminate Q).
        - pose proof (has_fun _ _ _ _ W HP DP) as Q. injection Q as ->. exact SP.
        - destruct (has_no _ _ _ NR O). }
      destruct j as [| | | | | |o]; try (right; exists EJsonType; unfold soft; auto; fail). unfold parse_object.
      destruct (mapM _ fps) as [vals|e] eqn:M; cbn [bind].
      + destruct (skip || _); cbn [c_kind cl]; [eauto|]. right. exists EJsonKey. unfold soft. auto.
      + right. exists e. split; [reflexivity|]. apply mapM_err in M. destruct M as (fp & I & Q).
        destruct (PF fp I) as (x & p & t & Ip & Gt & (Q1 & Q2 & Q3 & Q4 & Q5)).
        assert (Z : (exists v, parse_field jto fp o = Ok v) \/ exists e', parse_field jto fp o = Err e' /\ soft e').
        { unfold parse_field. rewrite Q1, Q3. destruct (dict_get o x) as [y|] eqn:D.
          - pose proof (null_free_value _ _ _ NF D) as NY. pose proof (g_steady _ _ Gt (SP x p Ip) y NY) as V.
            destruct (fp_mode fp); destruct y; try discriminate NY; exact V.
          - destruct (fp_mode fp) as [| |[v|e']] eqn:Md; eauto.
            + right. exists EJsonKey. unfold soft. auto.
            + destruct (Q5 e' eq_refl). }
        destruct Z as [(v & V)|(e' & V & SF)]; rewrite V in Q; cbn [bind] in Q; [discriminate Q | congruence].
    - intros c' (s' & L & OT & _). apply leads_here in L; [|exact NR]. subst s'. pose proof (of_type_is _ _ W T _ OT) as Q. discriminate Q.
    - unfold literal_properties. rewrite G, CP. cbn [bind]. eauto.
    - intros Y. right. unfold literal_properties. rewrite G, CP. cbn [bind].
      destruct Y as [(s' & ty & L & HT & N)|(s' & ps' & L & _ & HP & V)]; apply leads_here in L; try exact NR; subst s'.
      + pose proof (has_fun _ _ _ _ W HT T) as Q. congruence.
      + pose proof (has_fun _ _ _ _ W HP DP) as Q. injection Q as ->.
        rewrite filter_none; [reflexivity|]. intros [x u] I. apply in_map_iff in I. destruct I as (f & Q & I). injection Q as <- <-.
        destruct (BF f I) as (x & p & Ip & H). cbn [snd]. rewrite (LV x p f Ip H); [reflexivity|]. apply V. exact Ip.
    - intros x c' M. destruct (MK x c' M) as (p & Ip & IR & FX & O). destruct (FB x p Ip) as (f & If & H).
      assert (TF : f_type f = TLiteral [LStr c'] /\ f_name f = x).
      { destruct H as (N & t & d & Gt & _ & Ty). cbn [fst snd] in *. rewrite (proj2 (mem_str_in _ _) IR) in Ty. rewrite Ty. split; [apply (g_fixed _ _ Gt); exact FX | exact N]. }
      destruct TF as [TF NF].
      assert (II : In (x, TLiteral [LStr c']) (map (fun f => (f_name f, f_type f)) (sort_fields fs))).
      { apply in_map_iff. exists f. rewrite TF, NF. auto. }
      assert (NDM : NoDup (map fst (map (fun f => (f_name f, f_type f)) (sort_fields fs)))) by (rewrite map_map; exact NDF).
      exists c, cl, (map (fun f => (f_name f, f_type f)) (sort_fields fs)). split; [reflexivity|]. split; [exact G|]. split; [exact CP|]. split.
      + apply filter_one; [eapply NoDup_map_inv; exact NDM | exact II | reflexivity|].
        intros [y u] I NQ. cbn [snd]. apply in_map_iff in I. destruct I as (g & Q & I). injection Q as <- <-.
        destruct (BF g I) as (y & q & Iq & Hg). destruct (list_eq_dec N.eq_dec y x) as [->|NY].
        * exfalso. apply NQ. assert (Q : g = f).
          { destruct Hg as (Ng & _). cbn [fst] in Ng. clear - NDF I If Ng NF. revert NDF I If. generalize (sort_fields fs). intros l. induction l as [|h l IH]; intros ND I If; [destruct I|].
            cbn [map] in ND. apply NoDup_cons_iff in ND. destruct ND as [N1 N2]. destruct I as [->|I], If as [->|If]; auto.
            - exfalso. apply N1. rewrite Ng, <- NF. apply in_map. exact If.
            - exfalso. apply N1. rewrite NF, <- Ng. apply in_map. exact I. }
          subst g. rewrite TF, NF. reflexivity.
        * rewrite (LV y q g Iq Hg); [reflexivity|]. apply O; assumption.
      + apply dict_get_nodup; [exact NDM | exact II].
    - intros x c' j M A. destruct (MK x c' M) as (p & Ip & IR & FX & _). destruct (OB j A) as (o & -> & _ & PR & RQ). exists o. split; [reflexivity|].
      destruct (dict_get o x) as [y|] eqn:D.
      + f_equal. eapply fixed_accepts; [exact FX|]. eapply PR; [apply dict_get_in; exact D | exact Ip].
      + destruct (proj1 (dict_get_none _ _) D). apply RQ. exact IR.
  Qed.

  (** ** Unions *)

  Section Unions.
    Variables (kws : list (pystr * json)) (ss : list json).
    Hypothesis W : json_wf (JObj kws).
    Hypothesis D : dict_get kws (str "oneOf") = Some (JArr ss).
    Hypothesis NT : dict_get kws (str "type") = None.
    Hypothesis NR : dict_get kws (str "$ref") = None.

    Lemma one_member : forall j, accepts (JObj kws) j -> exists s, In s ss /\ accepts s j.
    Proof. intros j A. eapply one_holds. eapply accepts_get; [exact A | exact D]. Qed.

    Lemma union_not_steady : ~ steady doc (JObj kws).
    Proof.
      intros Y. inversion Y as [? O|? O|? O|? p' O|? ? O|? r' ? O]; subst; try (destruct (has_no _ _ _ NT O)). destruct (has_no _ _ _ NR O).
    Qed.

    Lemma union_untyped : forall s' ty, leads_to doc (JObj kws) s' -> has s' "type" ty -> False.
    Proof. intros s' ty L H. apply leads_here in L; [|exact NR]. subst s'. exact (has_no _ _ _ NT H). Qed.

    Lemma union_varied : varied doc (JObj kws) -> exists q, In q ss /\ varied doc q.
    Proof.
      intros Y. inversion Y as [? s' ty L H N|? s' ss' q L H I V]; subst; [destruct (union_untyped _ _ L H)|].
      apply leads_here in L; [|exact NR]. subst s'. pose proof (has_fun _ _ _ _ W H D) as Q. injection Q as ->. eauto.
    Qed.

    Lemma union_good_by : forall t, ready E m t -> canonical t -> flat t -> t <> none_type -> is_type_optional t = false -> get_alias t = None ->
      (forall op ts, t = TUnion op ts -> op = false) ->
      (forall s j, In s ss -> plain_json j = true -> json_wf j -> accepts s j -> exists v, jto t j = Ok v) ->
      (forall s j, In s ss -> accepts s j -> null_free j = true) ->
      (forall q, In q ss -> varied doc q -> literal_values t = None) ->
      (exists ps, literal_properties E t = Ok ps) -> good (JObj kws) t.
    Proof.
      intros t R C F N O A OP RD NL V LP. constructor; auto.
      - intros j P WJ AC. destruct (one_member j AC) as (s & I & AS). eauto.
      - intros j AC. destruct (one_member j AC) as (s & I & AS). eauto.
      - intros Y. destruct (union_not_steady Y).
      - intros (s' & ty & L & H). destruct (union_untyped _ _ L H).
      - intros Y. destruct (union_varied Y) as (q & I & Vq). eauto.
      - intros c (s' & L & H & _). destruct (union_untyped _ _ L H).
      - intros [(s' & ty & L & H & _)|(s' & ps & L & H & _)]; destruct (union_untyped _ _ L H).
      - intros x c (s' & ps & p & L & H & _). destruct (union_untyped _ _ L H).
      - intros x c j (s' & ps & p & L & H & _). destruct (union_untyped _ _ L H).
    Qed.

    Lemma all_same_good : forall t, ss <> [] -> (forall s, In s ss -> good s t) -> good (JObj kws) t.
    Proof.
      intros t NE G. assert (X : exists s0, In s0 ss) by (clear - NE; destruct ss as [|s0 r]; [congruence | exists s0; left; reflexivity]).
      destruct X as (s0 & I0). pose proof (G s0 I0) as G0.
      apply union_good_by; try apply G0.
      - intros s j I P WJ AC. apply (g_reads _ _ (G s I)); assumption.
      - intros s j I AC. apply (g_null _ _ (G s I)). exact AC.
      - intros q I V. apply (g_varied _ _ (G q I)). exact V.
    Qed.

    Lemma many_good : forall ts, Forall2 good ss ts -> (forall t, In t ts -> ~ is_union t) -> 2 <= length (dedup [] ts) -> ready E m (TUnion false (dedup [] ts)) ->
      (forall s j, In s ss -> plain_json j = true -> json_wf j -> accepts s j -> exists v, jto (TUnion false (dedup [] ts)) j = Ok v) ->
      good (JObj kws) (TUnion false (dedup [] ts)).
    Proof.
      intros ts F2 NU LN R RD.
      assert (B : forall t, In t (dedup [] ts) -> exists s, In s ss /\ good s t).
      { intros t I. apply dedup_in in I. eapply Forall2_in_r; [exact F2 | exact I]. }
      apply union_good_by; auto; try discriminate.
      - constructor; [exact LN | apply nodup_dedup|]. apply Forall_forall. intros t I. destruct (B t I) as (s & _ & G). split; [apply G|].
        apply NU. apply dedup_in in I. exact I.
      - apply flat_union_members. apply Forall_forall. intros t I. destruct (B t I) as (s & _ & G). apply G.
      - cbn [is_type_optional unwrap_annotated]. apply not_true_is_false. intros Q. apply existsb_exists in Q. destruct Q as (t & I & Q).
        apply typ_eqb_eq in Q. subst t. destruct (B _ I) as (s & _ & G). exact (g_none _ _ G eq_refl).
      - intros op ts' Q. injection Q as <- _. reflexivity.
      - intros s j I AC. destruct (Forall2_in_l _ _ _ _ _ _ F2 I) as (t & _ & G). apply (g_null _ _ G). exact AC.
      - cbn. eauto.
    Qed.

    Lemma union_cases : forall ts t, Forall2 good ss ts -> (forall t, In t ts -> ~ is_union t) -> mk_union false ts = Ok t ->
      (2 <= length (dedup [] ts) -> ready E m (TUnion false (dedup [] ts)) /\
        forall s j, In s ss -> plain_json j = true -> json_wf j -> accepts s j -> exists v, jto (TUnion false (dedup [] ts)) j = Ok v) ->
      good (JObj kws) t.
    Proof.
      intros ts t F2 NU H MANY. unfold mk_union in H. rewrite flatten_none in H by (apply Forall_forall; exact NU).
      destruct (dedup [] ts) as [|a [|b r]] eqn:Q; [discriminate H| |].
      - injection H as <-. apply all_same_good.
        + intros X. rewrite X in F2. inversion F2; subst. discriminate Q.
        + intros s I. destruct (Forall2_in_l _ _ _ _ _ _ F2 I) as (t & It & G).
          assert (X : In t (dedup [] ts)) by (apply in_dedup; [exact It | intros []]). rewrite Q in X. destruct X as [->|[]]. exact G.
      - injection H as <-. rewrite <- Q in *. destruct MANY as [R RD]; [rewrite Q; cbn; lia|]. apply many_good; auto. rewrite Q. cbn. lia.
    Qed.

    Lemma trial_good : forall ts t, Forall2 good ss ts -> by_trial doc ss -> mk_union false ts = Ok t -> good (JObj kws) t.
    Proof.
      intros ts t F2 (DI & ST & PL) H.
      assert (NU : forall t, In t ts -> ~ is_union t).
      { intros u I. destruct (Forall2_in_r _ _ _ _ _ _ F2 I) as (s & Is & G). apply (g_direct _ _ G). apply DI. exact Is. }
      apply (union_cases ts); auto. intros _.
      assert (B : forall t, In t (dedup [] ts) -> exists s, In s ss /\ good s t).
      { intros u I. apply dedup_in in I. eapply Forall2_in_r; [exact F2 | exact I]. }
      assert (DP : discriminating_properties E (dedup [] ts) = Ok []).
      { apply no_tags.
        - apply Forall_forall. intros u I. destruct (B u I) as (s & _ & G). apply G.
        - destruct PL as (s & Is & P). destruct (Forall2_in_l _ _ _ _ _ _ F2 Is) as (u & Iu & G). exists u. split; [apply in_dedup; [exact Iu | intros []]|].
          apply (g_plain _ _ G). exact P. }
      assert (R : ready E m (TUnion false (dedup [] ts))).
      { eapply (union_ready_i E GE); [| |exact DP | left; reflexivity]; apply Forall_forall; intros u I; destruct (B u I) as (s & _ & G); apply G. }
      split; [exact R|]. intros s j Is P WJ A. rewrite (jto_union E GE CALM skip m false _ j R), DP. cbn [bind].
      destruct (Forall2_in_l _ _ _ _ _ _ F2 Is) as (u & Iu & G). destruct (g_reads _ _ G j P WJ A) as (v & V).
      apply (try_dedup (fun u => jto u j) ts [] u v); [|exact Iu | intros [] | exact V].
      intros a w b b' Q. subst ts. apply Forall2_app_inv_r in F2. destruct F2 as (s1 & s2 & _ & F2 & Qs). inversion F2 as [|sw ? s3 ? Gw F3]; subst.
      inversion F3 as [|sb ? s4 ? Gb F4]; subst. apply (g_steady _ _ Gw); [|apply (g_null _ _ G _ A)]. eapply ST. reflexivity.
    Qed.

    Lemma mark_good : forall ts t, Forall2 good ss ts -> by_mark doc ss -> mk_union false ts = Ok t -> good (JObj kws) t.
    Proof.
      intros ts t F2 (x & cs & MK & ND) H.
      assert (TG : Forall2 (fun c t => tagged E x c t) cs ts).
      { clear - F2 MK. revert ts F2. induction MK as [|s c ss cs M MK IH]; intros ts F2; inversion F2; subst; constructor; auto.
        eapply g_marked; eassumption. }
      assert (NU : forall t, In t ts -> ~ is_union t).
      { intros u I. destruct (Forall2_in_r _ _ _ _ _ _ TG I) as (c & _ & (k & cl & ps & -> & _)). intros []. }
      assert (NDT : NoDup ts).
      { clear - TG ND. induction TG as [|c t cs ts T TG IH]; [constructor|]. inversion ND as [|? ? N1 N2]; subst. constructor; [|auto].
        intros I. destruct (Forall2_in_r _ _ _ _ _ _ TG I) as (c' & Ic & T'). apply N1. rewrite (tagged_fun _ _ _ _ _ T T'). exact Ic. }
      apply (union_cases ts); auto. rewrite dedup_nodup; [|exact NDT | intros ? _ []]. intros LN.
      assert (DP : discriminating_properties E ts = Ok [x]).
      { eapply marks_properties; [exact TG|]. intros ->. cbn in LN. lia. }
      assert (R : ready E m (TUnion false ts)).
      { eapply (union_ready_i E GE); [| |exact DP|right].
        - apply Forall_forall. intros u I. destruct (Forall2_in_r _ _ _ _ _ _ F2 I) as (s & _ & G). apply G.
        - apply Forall_forall. intros u I. destruct (Forall2_in_r _ _ _ _ _ _ F2 I) as (s & _ & G). apply G.
        - eexists. rewrite (order_one E SH x). split; [apply marks_table; exact TG|]. apply marks_distinct; [exact ND | intros c _ [] | intros p l []]. }
      split; [exact R|]. intros s j Is P WJ A. rewrite (jto_union E GE CALM skip m false _ j R), DP. cbn [bind].
      rewrite (order_one E SH x), (marks_table E x cs ts TG). cbn [bind].
      assert (X : exists c u, In (c, u) (combine cs ts) /\ marked doc s x c /\ good s u).
      { clear - F2 MK Is. revert ts F2. induction MK as [|s' c ss cs M MK IH]; intros ts F2; [destruct Is|]. inversion F2; subst. destruct Is as [->|Is].
        - exists c, y. cbn [combine]. split; [left; reflexivity | auto].
        - destruct (IH Is _ H3) as (c' & u & I & Q). exists c', u. cbn [combine]. split; [right; exact I | exact Q]. }
      destruct X as (c & u & Ic & M & G). destruct (g_mark _ _ G x c j M A) as (o & -> & DO).
      cbn [tag_select]. rewrite DO, (marks_find E x cs ts c u TG ND Ic). cbn [bind]. apply (g_reads _ _ G); assumption.
    Qed.
  End Unions.

  Lemma union_good : forall kws ss ts t, json_wf (JObj kws) -> part doc (JObj kws) -> dict_get kws (str "oneOf") = Some (JArr ss) ->
    dict_get kws (str "type") = None -> dict_get kws (str "$ref") = None -> Forall2 good ss ts -> mk_union false ts = Ok t -> good (JObj kws) t.
  Proof.
    intros kws ss ts t W PT D NT NR F2 H. destruct (im_union _ _ IMP _ _ PT (get_has _ _ _ D)) as [L|[BT|BM]].
    - destruct ss as [|s [|s' ss]]; try discriminate L. inversion F2 as [|? t1 ? r G F]; subst. inversion F; subst.
      assert (Q : t = t1).
      { pose proof (g_canonical _ _ G) as C. unfold mk_union in H. destruct t1; cbn [flatten_union flat_map app dedup existsb] in H; try congruence.
        rewrite (g_op _ _ G _ _ eq_refl) in *. inversion C as [| | | | | |? ? LE ND FA| | | | |]; subst. rewrite app_nil_r in H.
        rewrite dedup_nodup in H; [|exact ND | intros ? _ []]. destruct ts as [|a [|b r]]; cbn [length] in LE; try lia. congruence. }
      subst t1. apply (all_same_good kws [s] W D NT NR); [discriminate|]. intros s' [<-|[]]. exact G.
    - eapply trial_good; eassumption.
    - eapply mark_good; eassumption.
  Qed.

  (** ** Nodes *)

  Definition parts (s : json) : Prop := forall p, inside s p -> part doc p.

  (** References meet the types of their definitions. *)
  Definition refs_ok (E' : env) (s : json) : Prop := forall p x d b u, inside s p -> has p "$ref" (JStr (path x)) -> definition doc x d ->
    lookup E' m x = Some (b, u) -> good d u.

  Lemma refs_mono : forall E1 E2 s, keeps m E1 E2 -> refs_ok E2 s -> refs_ok E1 s.
  Proof. intros E1 E2 s K R p x d b u I H D L. eapply R; [exact I | exact H | exact D | apply K; exact L]. Qed.

  Lemma wf_listed : forall s, json_wf s -> parts s -> listed s.
  Proof. intros s W P. split; [exact W|]. intros p I. apply (im_listed _ _ IMP). apply P. exact I. Qed.

  Lemma sub_property : forall kws ps x p, parts (JObj kws) -> dict_get kws (str "properties") = Some (JObj ps) -> In (x, p) ps -> parts p.
  Proof. intros kws ps x p P D I q Q. apply P. eapply in_property; [apply get_has; exact D | exact I | exact Q]. Qed.

  Lemma sub_items : forall kws p, parts (JObj kws) -> dict_get kws (str "items") = Some p -> parts p.
  Proof. intros kws p P D q Q. apply P. eapply in_items; [apply get_has; exact D | exact Q]. Qed.

  Lemma sub_member : forall kws ss p, parts (JObj kws) -> dict_get kws (str "oneOf") = Some (JArr ss) -> In p ss -> parts p.
  Proof. intros kws ss p P D I q Q. apply P. eapply in_member; [apply get_has; exact D | exact I | exact Q]. Qed.

  Section Parts.
    Variable n : nat.
    Let rec := node_to_typedef U m n.
    Hypothesis REC : forall E0 ctx v s E' t d, rec E0 ctx v = Ok (E', (t, d)) -> nd s v -> json_wf s -> parts s -> sound m E0 -> refs_ok E' s -> ext E' E -> good s t.

    Let GROW := grow U m n.

    Lemma fields_good : forall ctx req ps vs E0 E' fs, property_fields rec E0 ctx req vs = Ok (E', fs) -> pair_read ps vs ->
      (forall x p, In (x, p) ps -> json_wf p /\ parts p /\ refs_ok E' p) -> sound m E0 -> ext E' E -> Forall2 (property_of req) ps fs.
    Proof.
      intros ctx req ps vs E0 E' fs H F. revert E0 E' fs H. induction F as [|[x p] [y v] ps vs [Q R] F IH]; intros E0 E' fs H L S0 X; cbn [property_fields] in H.
      - injection H as <- <-. constructor.
      - apply bind_ok in H. destruct H as ([E1 [t d]] & H1 & H). apply bind_ok in H. destruct H as (u & HU & H).
        apply bind_ok in H. destruct H as ([E2 fs'] & H2 & H). cbn [fst snd] in H. injection H as <- <-. cbn [fst snd] in *. subst y.
        destruct (L x p (or_introl eq_refl)) as (Wp & Pp & Rp).
        destruct (GROW _ _ _ _ _ _ _ H1 (union_nd _ _ R) (wf_listed _ Wp Pp) S0) as [(S1 & X1 & K1) _].
        assert (L' : forall x p, In (x, p) ps -> listed p).
        { intros x' p' I. destruct (L x' p' (or_intror I)) as (A & B & _). apply wf_listed; assumption. }
        destruct (fields_grow m rec GROW ctx req ps vs E1 E2 fs' H2 F L' S1) as [(S2 & X2 & K2) _].
        constructor; [|eapply IH; [exact H2 | | exact S1 | exact X]; intros x' p' I; apply (L x' p'); right; exact I].
        split; [reflexivity|]. exists t, d. cbn [fst snd f_default f_type]. split; [|split; [reflexivity|]].
        + eapply REC; [exact H1 | apply union_nd; exact R | exact Wp | exact Pp | exact S0 | eapply refs_mono; [exact K2 | exact Rp] | eapply ext_trans; eassumption].
        + destruct (mem_str x req); congruence.
    Qed.

    Lemma members_good : forall ctx ss vs E0 E' ds, member_types rec E0 ctx vs = Ok (E', ds) -> Forall2 (fun s v => read schemas_union s = Ok v) ss vs ->
      (forall p, In p ss -> json_wf p /\ parts p /\ refs_ok E' p) -> sound m E0 -> ext E' E -> Forall2 good ss (map fst ds).
    Proof.
      intros ctx ss vs E0 E' ds H F. revert E0 E' ds H. induction F as [|s v ss vs R F IH]; intros E0 E' ds H L S0 X; cbn [member_types] in H.
      - injection H as <- <-. constructor.
      - apply bind_ok in H. destruct H as ([E1 [t d]] & H1 & H). apply bind_ok in H. destruct H as ([E2 ds'] & H2 & H). cbn [fst snd] in *. injection H as <- <-.
        destruct (L s (or_introl eq_refl)) as (Wp & Pp & Rp).
        destruct (GROW _ _ _ _ _ _ _ H1 (union_nd _ _ R) (wf_listed _ Wp Pp) S0) as [(S1 & X1 & K1) _].
        assert (L' : forall p, In p ss -> listed p).
        { intros p' I. destruct (L p' (or_intror I)) as (A & B & _). apply wf_listed; assumption. }
        destruct (members_grow m rec GROW ctx ss vs E1 E2 ds' H2 F L' S1) as [(S2 & X2 & K2) _].
        cbn [map fst]. constructor; [|eapply IH; [exact H2 | | exact S1 | exact X]; intros p' I; apply (L p'); right; exact I].
        eapply REC; [exact H1 | apply union_nd; exact R | exact Wp | exact Pp | exact S0 | eapply refs_mono; [exact K2 | exact Rp] | eapply ext_trans; eassumption].
    Qed.
  End Parts.

  Lemma path_skip : forall x, skipn (length (str "#/definitions/")) (path x) = x.
  Proof. reflexivity. Qed.

  Lemma reference_word : forall x y, reference_name U (path x) = Some y -> ~ In 10%N x -> y = x /\ plain_name x.
  Proof.
    intros x y H N. unfold reference_name in H. rewrite path_skip in H.
    destruct (starts_with (str "#/definitions/") (path x)); [|discriminate H].
    assert (Q : match rev x with c :: q => if N.eqb c 10 then rev q else x | [] => x end = x).
    { destruct (rev x) as [|c q] eqn:R; [reflexivity|]. destruct (N.eqb_spec c 10) as [->|_]; [|reflexivity].
      exfalso. apply N. apply in_rev. rewrite R. left. reflexivity. }
    rewrite Q in H. destruct x as [|a x]; [discriminate H|]. destruct (forallb _ (a :: x)) eqn:F; [|discriminate H]. injection H as <-.
    split; [reflexivity|]. rewrite forallb_forall in F. intros c I. specialize (F c I). unfold word_char in F.
    repeat split; intros ->; discriminate F.
  Qed.

  Lemma definition_target : forall x d, definition doc x d -> plain_name x -> points_to doc (path x) = Some d.
  Proof.
    intros x d (ds & (kws & Q & I) & J) P. unfold path. rewrite pointer by exact P. pose proof WF as W. rewrite Q in *. cbn [walk].
    rewrite (proj2 (wf_get _ _ _ W) I). cbn [walk].
    rewrite (proj2 (wf_get _ _ _ (wf_value _ _ _ W I)) J). reflexivity.
  Qed.

  Ltac no_key K :=
    match goal with |- dict_get ?kws ?k = None =>
      let x := fresh in let d := fresh in
      destruct (dict_get kws k) as [x|] eqn:d; [|reflexivity]; apply dict_get_in in d; apply K in d; cbn in d;
      repeat (destruct d as [d|d]; [discriminate d|]); destruct d
    end.

  Lemma node_good : forall n E0 ctx v s E' t d, node_to_typedef U m n E0 ctx v = Ok (E', (t, d)) -> nd s v -> json_wf s -> parts s -> sound m E0 ->
    refs_ok E' s -> ext E' E -> good s t.
  Proof.
    induction n as [|n IH]; intros E0 ctx v s E' t d H (kws & -> & V & c0 & attrs0 & QV & K) W P S0 RO X; [discriminate H|].
    pose proof (P _ (in_self _)) as PT.
    destruct V as [attrs r -> D G|attrs -> T A|attrs -> T A|attrs -> T A|attrs -> T A F N|attrs j w -> T D G R|c attrs -> C T AP AA AR|attrs ss vs -> D G F];
      injection QV as <- <-.
    - cbn [node_to_typedef] in H. rewrite G in H. cbn [bind] in H.
      destruct (im_refs _ _ IMP _ _ PT (get_has _ _ _ D)) as (x & d' & -> & DF & NN).
      destruct (reference_name U (path x)) as [y|] eqn:RN; [|discriminate H]. destruct (reference_word _ _ RN NN) as [-> PN].
      apply bind_ok in H. destruct H as (u & M & H). injection H as <- <- _.
      unfold module_get in M. destruct (lookup E0 m x) as [[[|] u']|] eqn:LK; try discriminate M. injection M as <-.
      apply (ref_good _ _ d' _ W D K (definition_target _ _ DF PN)). eapply RO; [apply in_self | apply get_has; exact D | exact DF | exact LK].
    - eapply boolean_good; try eassumption. reflexivity.
    - eapply integer_good; try eassumption. reflexivity.
    - eapply number_good; try eassumption. reflexivity.
    - eapply string_good; try eassumption. reflexivity.
    - cbn [node_to_typedef] in H. rewrite G in H. cbn [bind] in H. apply bind_ok in H. destruct H as ([E1 [t1 d1]] & H1 & H). cbn [fst snd] in H.
      destruct (has_default (t1, d1)); [discriminate H|]. injection H as <- <- _.
      apply (array_good _ j _ W T D K). eapply IH; [exact H1 | apply union_nd; exact R | eapply wf_value; [exact W | apply dict_get_in; exact D] |
        eapply sub_items; eassumption | exact S0 | | exact X].
      intros p x d' b u I. apply RO. eapply in_items; [apply get_has; exact D | exact I].
    - rewrite node_object in H by exact C.
      destruct (object_inv _ _ _ _ _ _ _ _ _ _ H (wf_listed _ W P) T AP AA AR) as (ps & vs & req & E1 & fs & D & PR & DA & DR & PF & _ & NC).
      assert (LI : forall x p, In (x, p) ps -> listed p) by (intros x p I; eapply listed_property; [apply wf_listed; [exact W | exact P] | exact D | exact I]).
      destruct (fields_grow m _ (grow U m n) _ _ _ _ _ _ _ PF PR LI S0) as [(S1 & X1 & K1) Ff].
      destruct (new_class_ok _ _ _ _ _ _ NC S1) as (S' & X' & K' & k & -> & GC).
      + intros y u I. cbn [raw_fields] in I. apply in_map_iff in I. destruct I as (f & Q & I). injection Q as <- <-. apply (proj1 (sort_in _ _)) in I. apply (Ff f I).
      + intros fr fs' f Q I. injection Q as <- <-. apply (proj1 (sort_in _ _)) in I. apply (Ff f I).
      + eapply (object_good kws ps req); try eassumption.
        * destruct C as [->| ->]; no_key K.
        * destruct C as [->| ->]; no_key K.
        * destruct C as [->| ->]; no_key K.
        * eapply (fields_good n IH); [exact PF | exact PR | | exact S0 | eapply ext_trans; [exact X' | exact X]].
          intros x p I. destruct (LI x p I) as [Wp _]. split; [exact Wp|]. split; [eapply sub_property; eassumption|].
          eapply refs_mono; [exact K'|]. intros q x' d' b u I'. apply RO. eapply in_property; [apply get_has; exact D | exact I | exact I'].
        * eapply ext_class; [exact X | exact GC].
    - cbn [node_to_typedef] in H. rewrite G in H. cbn [bind] in H. apply bind_ok in H. destruct H as ([E1 ds] & H1 & H). cbn [fst snd] in H.
      destruct (existsb has_default ds); [discriminate H|]. apply bind_ok in H. destruct H as (u & HU & H). injection H as <- <- _.
      eapply union_good; [exact W | exact PT | exact D | no_key K | no_key K | | exact HU].
      eapply (members_good n IH); [exact H1 | exact F | | exact S0 | exact X].
      intros p I. pose proof (listed_member _ _ _ (wf_listed _ W P) D I) as [Wp _]. split; [exact Wp|]. split; [eapply sub_member; eassumption|].
      intros q x' d' b u' I'. apply RO. eapply in_member; [apply get_has; exact D | exact I | exact I'].
  Qed.
End Types.

(** ** Definitions *)

Section Definitions.
  Variables (U : unicode) (m : nat) (doc : json).
  Hypothesis IMP : importable U doc.
  Hypothesis WF : json_wf doc.

  Lemma defined_parts : forall x s, definition doc x s -> parts doc s.
  Proof. intros x s D p I. right. exists x, s. auto. Qed.

  Lemma defined_wf : forall x s, definition doc x s -> json_wf s.
  Proof.
    intros x s (ds & (kws & -> & I) & J). eapply wf_value; [|exact J]. eapply wf_value; [exact WF | exact I].
  Qed.

  Lemma defined_listed : forall x s, definition doc x s -> listed s.
  Proof. intros x s D. eapply wf_listed; [exact IMP | eapply defined_wf; exact D | eapply defined_parts; exact D]. Qed.

  Lemma define_grow : forall n dss vs, pair_read dss vs -> (forall y d, In (y, d) dss -> definition doc y d) -> NoDup (map fst dss) ->
    forall E0 E1, define_types U m n E0 vs = Ok E1 -> sound m E0 ->
    sound m E1 /\ ext E0 E1 /\ (forall y, In y (map fst dss) -> lookup E0 m y = None) /\
    (forall y b, ~ In y (map fst dss) -> lookup E0 m y = Some b -> lookup E1 m y = Some b).
  Proof.
    intros n dss vs F. induction F as [|[x s] [x' v] dss vs [Q R] F IH]; intros DF ND E0 E1 H S0; cbn [define_types] in H.
    - injection H as <-. split; [exact S0|]. split; [apply ext_refl|]. split; [intros y [] | auto].
    - cbn [fst snd] in *. subst x'. destruct (taken E0 m x) eqn:TK; [discriminate H|].
      apply bind_ok in H. destruct H as ([E2 [t d]] & H1 & H). cbn [fst snd] in H. destruct (has_default (t, d)); [discriminate H|].
      apply bind_ok in H. destruct H as (u & _ & H).
      destruct (grow U m _ _ _ _ _ _ _ _ H1 (union_nd _ _ R) (defined_listed _ _ (DF _ _ (or_introl eq_refl))) S0) as [(S2 & X2 & K2) FL].
      cbn [map fst] in ND. apply NoDup_cons_iff in ND. destruct ND as [NI ND].
      destruct (IH (fun y e I => DF y e (or_intror I)) ND _ _ H (set_sound _ _ x t S2 FL)) as (S1 & X1 & N1 & K1).
      assert (LS : forall y, y <> x -> lookup (module_set E2 m x t) m y = lookup E2 m y).
      { intros y NE. rewrite lookup_set, Nat.eqb_refl. cbn [andb]. destruct (pystr_eqb x y) eqn:Q; [apply pystr_eqb_eq in Q; congruence | reflexivity]. }
      split; [exact S1|]. split; [eapply ext_trans; [exact X2 | eapply ext_trans; [apply set_ext | exact X1]]|]. split.
      + intros y [<-|I]; [apply untaken_lookup; exact TK|]. pose proof (N1 y I) as L. rewrite LS in L by (intros ->; contradiction).
        destruct (lookup E0 m y) as [b|] eqn:L0; [|reflexivity]. apply K2 in L0. congruence.
      + intros y b NY L. apply K1; [intros I; apply NY; right; exact I|]. rewrite LS by (intros ->; apply NY; left; reflexivity). apply K2. exact L.
  Qed.

  Variables (asserts : pystr -> pystr -> json -> bool) (skip : bool) (E : env).
  Hypothesis SND : sound m E.
  Hypothesis SH : shuffles (e_order E).
  Hypothesis STRICT : strict_formats asserts.

  Let good := good m asserts doc skip E.

  Lemma define_good : forall n all dss vs done E0 E1, pair_read dss vs -> all = done ++ dss -> (forall y d, definition doc y d <-> In (y, d) all) ->
    NoDup (map fst all) -> define_types U m n E0 vs = Ok E1 -> sound m E0 -> ext E1 E ->
    (forall y d, In (y, d) done -> exists b, lookup E0 m y = Some b /\ good d (snd b)) ->
    forall y d, definition doc y d -> exists b, lookup E1 m y = Some b /\ good d (snd b).
  Proof.
    intros n all dss vs done E0 E1 F QA DF ND. subst all. revert done E0 E1 DF ND.
    induction F as [|[x s] [x' v] dss vs [Q R] F IH]; intros done E0 E1 DF ND H S0 X1 DN; cbn [define_types] in H.
    - injection H as <-. intros y d D. apply DF in D. rewrite app_nil_r in D. apply DN. exact D.
    - cbn [fst snd] in *. subst x'. destruct (taken E0 m x) eqn:TK; [discriminate H|].
      apply bind_ok in H. destruct H as ([E2 [t d0]] & H1 & H). cbn [fst snd] in H. destruct (has_default (t, d0)); [discriminate H|].
      apply bind_ok in H. destruct H as (u & _ & H).
      assert (DX : definition doc x s) by (apply DF; apply in_or_app; right; left; reflexivity).
      destruct (grow U m _ _ _ _ _ _ _ _ H1 (union_nd _ _ R) (defined_listed _ _ DX) S0) as [(S2 & X2 & K2) FL].
      assert (ND' : NoDup (map fst dss) /\ ~ In x (map fst dss) /\ ~ In x (map fst done)).
      { rewrite map_app in ND. cbn [map fst] in ND. pose proof (NoDup_remove _ _ _ ND) as [A B]. rewrite in_app_iff in B.
        split; [|tauto]. clear - A. induction (map fst done) as [|a l IH]; [exact A|]. cbn [app] in A. apply NoDup_cons_iff in A. apply IH. apply A. }
      destruct ND' as (ND' & NX & NY).
      assert (DS : forall y d, In (y, d) dss -> definition doc y d) by (intros y d I; apply DF; apply in_or_app; right; right; exact I).
      destruct (define_grow n dss vs F DS ND' _ _ H (set_sound _ _ x t S2 FL)) as (S1 & X3 & N1 & _).
      assert (LS : forall y, y <> x -> lookup (module_set E2 m x t) m y = lookup E2 m y).
      { intros y NE. rewrite lookup_set, Nat.eqb_refl. cbn [andb]. destruct (pystr_eqb x y) eqn:Q; [apply pystr_eqb_eq in Q; congruence | reflexivity]. }
      assert (XF : ext E2 E) by (eapply ext_trans; [apply (set_ext m E2 x t) | eapply ext_trans; [exact X3 | exact X1]]).
      assert (GS : good s t).
      { eapply (node_good U m asserts doc skip E SND SH STRICT IMP WF); [exact H1 | apply union_nd; exact R | eapply defined_wf; exact DX |
          eapply defined_parts; exact DX | exact S0 | | exact XF].
        intros p y d b w I HR D L. assert (NE : y <> x) by (intros ->; exact (im_self _ _ IMP _ _ _ DX I HR)).
        apply DF in D. apply in_app_iff in D. destruct D as [D|[D|D]].
        - destruct (DN _ _ D) as (b' & L' & G). apply K2 in L'. rewrite L in L'. injection L' as <-. exact G.
        - congruence.
        - pose proof (N1 y (in_map fst _ _ D)) as L'. rewrite LS in L' by exact NE. congruence. }
      apply (IH (done ++ [(x, s)]) (module_set E2 m x t) E1); try rewrite <- app_assoc; cbn [app]; auto.
      + apply set_sound; assumption.
      + intros y d I. apply in_app_iff in I. destruct I as [I|[I|[]]].
        * destruct (DN _ _ I) as (b & L & G). exists b. split; [|exact G]. rewrite LS; [apply K2; exact L|]. intros ->. apply NY. apply (in_map fst _ _ I).
        * injection I as <- <-. exists (true, t). split; [rewrite lookup_set, Nat.eqb_refl, pystr_eqb_refl; reflexivity | exact GS].
  Qed.
End Definitions.

(** ** Schemas *)

Lemma top_definitions : forall doc top, read (TClass c_top) doc = Ok top -> json_wf doc -> exists dss vs, get_definitions top = Ok vs /\ pair_read dss vs /\
  (forall y d, definition doc y d <-> In (y, d) dss) /\ NoDup (map fst dss).
Proof.
  intros doc top R W. apply class_parsed in R; [|unfold c_top; lia]. destruct R as (kws & -> & P).
  assert (A : att kws top "definitions" (TDict (TScalar KStr) schemas_union)).
  { eapply parsed_att; [|exact P|]; [unfold c_top; lia|]. cbn. tauto. }
  destruct A as (w & G & D). unfold get_definitions. rewrite G. cbn [bind]. destruct D as [[D ->]|(j & D & _ & R)].
  - exists [], []. split; [reflexivity|]. split; [constructor|]. split; [|constructor]. intros y d. split; [|intros []].
    intros (ds & H & I). apply wf_has in H; [|exact W]. destruct D; congruence.
  - apply read_dict in R. destruct R as (ps & vs & -> & -> & PR). rewrite dict_pairs. exists ps, vs. split; [reflexivity|]. split; [exact PR|].
    split.
    + intros y d. split.
      * intros (ds & H & I). apply wf_has in H; [|exact W]. congruence.
      * intros I. exists ps. split; [apply get_has; exact D | exact I].
    + assert (WP : json_wf (JObj ps)) by (eapply wf_value; [exact W | apply dict_get_in; exact D]). inversion WP. assumption.
Qed.

Theorem schema_type_good : forall U E m name doc E' t asserts skip, schema_to_type U E m name doc = Ok (E', t) ->
  sound m E -> shuffles (e_order E) -> json_wf doc -> importable U doc -> strict_formats asserts ->
  sound m E' /\ ext E E' /\ keeps m E E' /\ good m asserts doc skip E' doc t.
Proof.
  intros U E m name doc E' t asserts skip H S SH W IMP ST. unfold schema_to_type in H. apply bind_ok in H. destruct H as (top & R & H).
  destruct (top_definitions _ _ R W) as (dss & vs & GD & PR & DF & ND). rewrite GD in H. cbn [bind] in H.
  apply bind_ok in H. destruct H as (E1 & H1 & H). apply bind_ok in H. destruct H as ([E2 [t' d]] & H2 & H). cbn [fst snd] in H. injection H as -> ->.
  pose proof (top_nd _ _ R) as TN.
  destruct (define_grow U m doc IMP W _ dss vs PR (fun y d => proj2 (DF y d)) ND _ _ H1 S) as (S1 & X1 & N1 & K1).
  assert (PD : parts doc doc) by (intros p I; left; exact I).
  destruct (grow U m _ _ _ _ _ _ _ _ H2 TN (wf_listed _ _ IMP _ W PD) S1) as [(S2 & X2 & K2) _].
  split; [exact S2|]. split; [eapply ext_trans; eassumption|]. split.
  { intros x b L. apply K2. apply K1; [|exact L]. intros I. apply N1 in I. congruence. }
  assert (SH' : shuffles (e_order E')) by (destruct X1 as [_ Q1]; destruct X2 as [_ Q2]; rewrite Q2, Q1; exact SH).
  eapply (node_good U m asserts doc skip E' S2 SH' ST IMP W); [exact H2 | exact TN | exact W | exact PD | exact S1 | | apply ext_refl].
  intros p x d' b u _ _ D L.
  destruct (define_good U m doc IMP W asserts skip E' S2 SH' ST _ dss dss vs [] _ _ PR eq_refl DF ND H1 S X2 (fun _ _ F => match F with end) _ _ D) as (b' & L' & G).
  apply K2 in L'. rewrite L in L'. injection L' as <-. exact G.
Qed.

Lemma required_texts : forall kws req, json_wf (JObj kws) ->
  dict_get kws (str "required") = Some (JArr (map JStr req)) \/ req = [] /\ (dict_get kws (str "required") = None \/ dict_get kws (str "required") = Some JNull) ->
  forall x, mem_str x req = true <-> demanded (JObj kws) x.
Proof.
  intros kws req W D x. rewrite mem_str_in. split.
  - intros I. destruct D as [D|[-> _]]; [|destruct I]. exists (map JStr req). split; [apply get_has; exact D | apply in_map; exact I].
  - intros (l & H & I). apply wf_has in H; [|exact W]. destruct D as [D|[_ [D|D]]]; try congruence. rewrite D in H. injection H as <-.
    apply in_map_iff in I. destruct I as (y & Q & I). injection Q as <-. exact I.
Qed.

Theorem schema_class : forall U E m name doc E' t asserts ps, schema_to_type U E m name doc = Ok (E', t) ->
  sound m E -> shuffles (e_order E) -> json_wf doc -> importable U doc -> strict_formats asserts -> has doc "properties" (JObj ps) ->
  exists c fs, t = TClass c /\ get_class E c = None /\ get_class E' c = Some (mkClass m name (CData false fs) None None) /\ lookup E' m name = Some (true, t) /\
  Permutation (map f_name fs) (map fst ps) /\
  (forall f, In f fs -> (demanded doc (f_name f) <-> ~ optional (f_type f))) /\
  exists fs1 fs2, fs = fs1 ++ fs2 /\ (forall f, In f fs1 -> f_default f = None) /\ (forall f, In f fs2 -> f_default f <> None).
Proof.
  intros U E m name doc E' t asserts ps H S SH W IMP ST HP. pose proof (schema_type_good _ _ _ _ _ _ _ _ false H S SH W IMP ST) as (S' & _).
  assert (SH' : shuffles (e_order E')).
  { destruct (schema_type_good _ _ _ _ _ _ _ _ false H S SH W IMP ST) as (_ & [_ Q] & _). rewrite Q. exact SH. }
  unfold schema_to_type in H. apply bind_ok in H. destruct H as (top & R & H).
  destruct (top_definitions _ _ R W) as (dss & vs & GD & PR & DF & ND). rewrite GD in H. cbn [bind] in H.
  apply bind_ok in H. destruct H as (E1 & H1 & H). apply bind_ok in H. destruct H as ([E2 [t' d]] & H2 & H). cbn [fst snd] in H. injection H as -> ->.
  destruct (define_grow U m doc IMP W _ dss vs PR (fun y d => proj2 (DF y d)) ND _ _ H1 S) as (S1 & X1 & _).
  assert (PD : parts doc doc) by (intros p I; left; exact I).
  pose proof (grow U m _ _ _ _ _ _ _ _ H2 (top_nd _ _ R) (wf_listed _ _ IMP _ W PD) S1) as [(_ & X2 & K2) _].
  apply class_parsed in R; [|unfold c_top; lia]. destruct R as (kws & -> & P).
  assert (V : view kws top) by (eapply parsed_view; [|exact P]; unfold c_top; lia).
  destruct P as (attrs & -> & _ & KW).
  destruct V as [? ? Q|? Q|? Q|? Q|? Q|? ? ? Q|c attrs' Q C T AP AA AR|? ? ? Q]; try discriminate Q. injection Q as <- <-.
  rewrite node_object in H2 by exact C.
  destruct (object_inv _ _ _ _ _ _ _ _ _ _ H2 (wf_listed _ _ IMP _ W PD) T AP AA AR) as (ps' & vs' & req & E3 & fs & D & PR' & DA & DR & PF & _ & NC).
  apply wf_has in HP; [|exact W]. rewrite HP in D. injection D as <-.
  assert (LI : forall x p, In (x, p) ps -> listed p) by (intros x p I; eapply listed_property; [apply (wf_listed _ _ IMP); [exact W | exact PD] | exact HP | exact I]).
  destruct (fields_grow m _ (grow U m _) _ _ _ _ _ _ _ PF PR' LI S1) as [(S3 & X3 & K3) Ff].
  pose proof NC as NC'. unfold new_class in NC'. destruct (taken E3 m name); [discriminate NC'|]. injection NC' as QE QT.
  assert (GC : get_class E' (length (e_classes E3)) = Some (mkClass m name (CData false (sort_fields fs)) None None)).
  { rewrite <- QE. unfold get_class. cbn. rewrite nth_error_app2, Nat.sub_diag by apply le_n. reflexivity. }
  assert (X4 : ext E3 E').
  { rewrite <- QE. split; [exists [mkClass m name (CData false (sort_fields fs)) None None]; reflexivity | reflexivity]. }
  assert (K4 : keeps m E3 E').
  { destruct (new_class_ok _ _ _ _ _ _ NC S3) as (_ & _ & K & _).
    - intros y u I. cbn [raw_fields] in I. apply in_map_iff in I. destruct I as (f & Q & I). injection Q as <- <-. apply (proj1 (sort_in _ _)) in I. apply (Ff f I).
    - intros fr fs' f Q I. injection Q as <- <-. apply (proj1 (sort_in _ _)) in I. apply (Ff f I).
    - exact K. }
  assert (PO : Forall2 (property_of m asserts (JObj kws) false E' req) ps fs).
  { eapply (fields_good U m asserts (JObj kws) false E' IMP _ (node_good U m asserts (JObj kws) false E' S' SH' ST IMP W _)); [exact PF | exact PR' | | exact S1 | exact X4].
    intros x p I. destruct (LI x p I) as [Wp _]. split; [exact Wp|]. split; [eapply sub_property; eassumption|].
    intros q x' d' b u _ _ DX L.
    destruct (define_good U m (JObj kws) IMP W asserts false E' S' SH' ST _ dss dss vs [] _ _ PR eq_refl DF ND H1 S X2 (fun _ _ F => match F with end) _ _ DX) as (b' & L' & G).
    apply K2 in L'. apply K4 in L. rewrite L in L'. injection L' as <-. exact G. }
  exists (length (e_classes E3)), (sort_fields fs). split; [symmetry; exact QT|]. split; [|split; [exact GC|]].
  { unfold get_class. apply nth_error_None. destruct X1 as [[cs1 Q1] _]. destruct X3 as [[cs3 Q3] _]. rewrite Q3, Q1, !app_length. lia. }
  split; [rewrite <- QE, <- QT, lookup_set, Nat.eqb_refl, pystr_eqb_refl; reflexivity|]. split; [|split].
  - replace (map fst ps) with (map f_name fs); [apply Permutation_map; apply sort_permutation|].
    clear - PO. induction PO as [|xp f ps fs (N & _) F IH]; [reflexivity|]. cbn [map]. congruence.
  - intros f I. apply (proj1 (sort_in _ _)) in I. destruct (Forall2_in_r _ _ _ _ _ _ PO I) as ([x p] & _ & N & t' & d' & G & _ & Q). cbn [fst snd] in *.
    rewrite <- (required_texts _ _ W DR), N. rewrite <- is_type_optional_spec. destruct (mem_str x req).
    + rewrite Q, (g_optional _ _ _ _ _ _ _ G). split; [discriminate | reflexivity].
    + destruct (optional_type _ _ _ _ _ _ _ _ G Q) as [O _]. rewrite O. split; [discriminate | intros NO; destruct NO; reflexivity].
  - eexists _, _. split; [reflexivity|]. split; intros f I; apply filter_In in I; destruct I as [_ I]; destruct (f_default f); congruence || discriminate.
Qed.
