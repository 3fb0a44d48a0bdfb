(** Types made from schemas have the shape of the schema. *)
From Coq Require Import String List NArith ZArith Bool Lia.
From Verif Require Import Base Json PyTypes TypeAlgebra Mapping Deser ClassDef Lists TypingFacts SerFacts DeserSound SpecTypes TypeAlgebraProofs FieldProofs SpecRecursion DeserFuel DeserBuild DeserUnfold
  Flatten TypeDef SpecClassDef ClassDefProofs SpecTypeDef TypeDefNodes TypeDefEnv TypeDefGrow TypeDefParts TypeDefProofs SpecTypeShape.
Import ListNotations.
Open Scope list_scope.
Open Scope nat_scope.

(** ** Attributes *)

Lemma none_lacks : forall kws k, json_wf (JObj kws) -> dict_get kws (str k) = None \/ dict_get kws (str k) = Some JNull -> lacks (JObj kws) k.
Proof. intros kws k W D x H. apply wf_has in H; [|exact W]. destruct D; congruence. Qed.

Lemma opt_bool : forall kws v x r, json_wf (JObj kws) -> att kws v x (TScalar KBool) -> optional_attr as_bool v (str x) = Ok r ->
  match r with None => lacks (JObj kws) x | Some b => has (JObj kws) x (JBool b) end.
Proof.
  intros kws v x r W A H. pose proof (att_none _ _ _ _ _ _ _ A H (fun j => scalar_some KBool j ltac:(discriminate))) as C.
  destruct r as [b|]; [|apply none_lacks; assumption]. destruct C as (j & w & D & _ & R & CV). rewrite jto_scalar in R.
  destruct j; try discriminate R. injection R as <-. injection CV as ->. apply get_has. exact D.
Qed.

Lemma whole_read : forall j w z, parse_scalar KInt j = Ok w -> as_int w = Some z -> whole j z.
Proof. intros j w z R C. destruct j; try discriminate R; injection R as <-; injection C as <-; constructor. Qed.

Lemma opt_int : forall kws v x r, json_wf (JObj kws) -> att kws v x (TScalar KInt) -> optional_attr as_int v (str x) = Ok r ->
  match r with None => lacks (JObj kws) x | Some z => exists j, has (JObj kws) x j /\ whole j z end.
Proof.
  intros kws v x r W A H. pose proof (att_none _ _ _ _ _ _ _ A H (fun j => scalar_some KInt j ltac:(discriminate))) as C.
  destruct r as [b|]; [|apply none_lacks; assumption]. destruct C as (j & w & D & _ & R & CV). rewrite jto_scalar in R.
  exists j. split; [apply get_has; exact D | eapply whole_read; eassumption].
Qed.

Lemma opt_str : forall kws v x r, json_wf (JObj kws) -> att kws v x (TScalar KStr) -> optional_attr as_str v (str x) = Ok r ->
  match r with None => lacks (JObj kws) x | Some s => has (JObj kws) x (JStr s) end.
Proof.
  intros kws v x r W A H. pose proof (att_none _ _ _ _ _ _ _ A H (fun j => scalar_some KStr j ltac:(discriminate))) as C.
  destruct r as [b|]; [|apply none_lacks; assumption]. destruct C as (j & w & D & _ & R & CV). rewrite jto_scalar in R.
  destruct j; try discriminate R. injection R as <-. injection CV as ->. apply get_has. exact D.
Qed.

Lemma ints_ready : ready Nodes 0 (TList (TScalar KInt)).
Proof. split; [cbn [every_part]; Samples.prove_guarded | eexists; vm_compute; reflexivity]. Qed.

Lemma ints_inv : forall j w, read (TList (TScalar KInt)) j = Ok w -> exists js vs, j = JArr js /\ w = VList vs /\ Forall2 (fun j v => parse_scalar KInt j = Ok v) js vs.
Proof.
  intros j w H. rewrite (jto_list Nodes nodes_guarded nodes_calm false 0 _ _ ints_ready) in H. destruct j as [| | | | |js|]; try discriminate H.
  apply bind_ok in H. destruct H as (vs & M & H). injection H as <-. apply mapM_ok in M. exists js, vs. split; [reflexivity|]. split; [reflexivity|].
  induction M as [|j v js vs Q M IH]; constructor; [rewrite jto_scalar in Q; exact Q | exact IH].
Qed.

Lemma all_some_whole : forall js vs zs, Forall2 (fun j v => parse_scalar KInt j = Ok v) js vs -> all_some (map as_int vs) = Some zs -> Forall2 whole js zs.
Proof.
  intros js vs zs F. revert zs. induction F as [|j v js vs R F IH]; intros zs H; cbn [map all_some] in H.
  - injection H as <-. constructor.
  - destruct (as_int v) as [z|] eqn:C; [|discriminate H]. destruct (all_some (map as_int vs)) as [zs'|]; [|discriminate H]. injection H as <-.
    constructor; [eapply whole_read; eassumption | apply IH; reflexivity].
Qed.

Lemma opt_ints : forall kws v x r, json_wf (JObj kws) -> att kws v x (TList (TScalar KInt)) -> optional_attr (as_list as_int) v (str x) = Ok r ->
  match r with None => lacks (JObj kws) x | Some zs => exists js, has (JObj kws) x (JArr js) /\ Forall2 whole js zs end.
Proof.
  intros kws v x r W A H.
  assert (N : forall j, read (TList (TScalar KInt)) j <> Ok VNone) by (intros j Q; apply ints_inv in Q; destruct Q as (? & ? & _ & Q & _); discriminate Q).
  pose proof (att_none _ _ _ _ _ _ _ A H N) as C.
  destruct r as [zs|]; [|apply none_lacks; assumption]. destruct C as (j & w & D & _ & R & CV).
  apply ints_inv in R. destruct R as (js & vs & -> & -> & F). exists js. split; [apply get_has; exact D | eapply all_some_whole; eassumption].
Qed.

Lemma opt_strs : forall kws v x r, json_wf (JObj kws) -> att kws v x (TList (TScalar KStr)) -> optional_attr (as_list as_str) v (str x) = Ok r ->
  match r with None => lacks (JObj kws) x | Some ss => has (JObj kws) x (JArr (map JStr ss)) end.
Proof.
  intros kws v x r W A H. pose proof (att_none _ _ _ _ _ _ _ A H strings_some) as C.
  destruct r as [ss|]; [|apply none_lacks; assumption]. destruct C as (j & w & D & _ & R & CV).
  apply read_strings in R. destruct R as (ss' & -> & ->). cbn [as_list] in CV. rewrite all_some_map in CV. injection CV as ->. apply get_has. exact D.
Qed.

(** ** Defaults *)

Lemma preset_read : forall (F E0 : env) m kws v A (conv : value -> option A) inj k t d0 E' t' d, json_wf (JObj kws) -> k <> KNone ->
  att kws v "default" (TScalar k) -> optional_attr conv v (str "default") = Ok d0 -> with_default E0 m t (option_map inj d0) = Ok (E', (t', d)) ->
  lacks (JObj kws) "const" -> (forall j, json_to_object E0 false m t j = json_to_object F false m t j) ->
  (forall j w a, parse_scalar k j = Ok w -> conv w = Some a -> json_to_object F false m t (inj a) = json_to_object F false m t j) ->
  preset F m (JObj kws) t (option_map Ok d).
Proof.
  intros F E0 m kws v A conv inj k t d0 E' t' d W NK AT O H LC EQ RR.
  pose proof (att_none _ _ _ _ _ _ _ AT O (fun j => scalar_some k j NK)) as C. split; [|split].
  - intros L. destruct d0 as [a|]; [|injection H as _ _ <-; reflexivity].
    destruct C as (j & w & D & NJ & _). destruct (NJ (L _ (get_has _ _ _ D))).
  - intros c NC HC. destruct (NC (LC _ HC)).
  - intros j NJ HD _. apply wf_has in HD; [|exact W]. destruct d0 as [a|]; [|destruct C; congruence].
    destruct C as (j' & w & D & _ & R & CV). rewrite jto_scalar in R. rewrite HD in D. injection D as <-.
    cbn [option_map with_default] in H. apply bind_ok in H. destruct H as (y & Y & H). injection H as _ _ <-.
    exists y. split; [reflexivity|]. rewrite EQ, (RR _ _ _ R CV) in Y. exact Y.
Qed.

Lemma preset_none : forall F m kws t, (forall x, ~ has (JObj kws) "default" x) -> preset F m (JObj kws) t None.
Proof. intros F m kws t N. split; [auto|]. split; [auto|]. intros j _ H. destruct (N _ H). Qed.

Lemma preset_const : forall F m kws t c, c <> JNull -> has (JObj kws) "const" c -> preset F m (JObj kws) t None.
Proof. intros F m kws t c NC H. split; [auto|]. split; [auto|]. intros j _ _ L. destruct (NC (L _ H)). Qed.

(** ** Integers *)

Lemma integer_int_typ : forall w, integer_type w = int_typ w.
Proof. intros []; reflexivity. Qed.

Lemma range_smallest : forall lo hi, smallest lo hi (integer_range_to_type lo hi).
Proof.
  intros lo hi. unfold integer_range_to_type.
  destruct ((- 2 ^ 15 <=? lo)%Z && (hi <? 2 ^ 15)%Z) eqn:Q1.
  - left. split; [exists 16%Z; split; [reflexivity|]; powers; lia|]. intros [] NR; cbn in NR; lia.
  - assert (C1 : ~ covers Int16 lo hi) by (intros (b & B & L); injection B as <-; powers; lia).
    destruct ((- 2 ^ 31 <=? lo)%Z && (hi <? 2 ^ 31)%Z) eqn:Q2.
    + left. split; [exists 32%Z; split; [reflexivity|]; powers; lia|]. intros [] NR; cbn in NR; try lia. exact C1.
    + assert (C2 : ~ covers Int32 lo hi) by (intros (b & B & L); injection B as <-; powers; lia).
      destruct ((- 2 ^ 63 <=? lo)%Z && (hi <? 2 ^ 63)%Z) eqn:Q3.
      * left. split; [exists 64%Z; split; [reflexivity|]; powers; lia|]. intros [] NR; cbn in NR; try lia; assumption.
      * right. split; [reflexivity|]. intros []; [exact C1 | exact C2 | | intros (b & B & _); discriminate B].
        intros (b & B & L); injection B as <-; powers; lia.
Qed.

Lemma min_in : forall zs lo, min_of zs = Ok lo -> In lo zs /\ forall z, In z zs -> (lo <= z)%Z.
Proof.
  intros [|x r] lo H; [discriminate H|]. injection H as <-. destruct (fold_min r x) as (A & B & C). split.
  - destruct C as [->|C]; [left; reflexivity | right; exact C].
  - intros z [<-|I]; auto.
Qed.

Lemma max_in : forall zs hi, max_of zs = Ok hi -> In hi zs /\ forall z, In z zs -> (z <= hi)%Z.
Proof.
  intros [|x r] lo H; [discriminate H|]. injection H as <-. destruct (fold_max r x) as (A & B & C). split.
  - destruct C as [->|C]; [left; reflexivity | right; exact C].
  - intros z [<-|I]; auto.
Qed.

Lemma unlisted_none : forall A (fs : list (string * A)) s, lacks s "format" -> unlisted fs s.
Proof. intros A fs s L f a _ H. pose proof (L _ H) as Q. discriminate Q. Qed.

Lemma unlisted_other : forall A (fs : list (string * A)) kws f, json_wf (JObj kws) -> has (JObj kws) "format" (JStr f) -> (forall g a, In (g, a) fs -> f <> str g) ->
  unlisted fs (JObj kws).
Proof.
  intros A fs kws f W H N g a I H'. apply wf_has in H; [|exact W]. apply wf_has in H'; [|exact W]. rewrite H in H'. injection H' as Q. exact (N _ _ I Q).
Qed.

Lemma node_type_shape : forall kws v fm en lo hi w, json_wf (JObj kws) ->
  match fm with None => lacks (JObj kws) "format" | Some f => has (JObj kws) "format" (JStr f) end ->
  match en with None => lacks (JObj kws) "enum" | Some zs => exists js, has (JObj kws) "enum" (JArr js) /\ Forall2 whole js zs end ->
  match lo with None => lacks (JObj kws) "minimum" | Some z => exists j, has (JObj kws) "minimum" j /\ whole j z end ->
  match hi with None => lacks (JObj kws) "maximum" | Some z => exists j, has (JObj kws) "maximum" j /\ whole j z end ->
  v = Ok w -> integer_node_type fm en lo hi = v -> int_shape (JObj kws) w.
Proof.
  intros kws v fm en lo hi w W HF HE HL HH -> H. unfold integer_node_type in H.
  set (other := match en with Some vs => _ | None => _ end) in H.
  assert (X : unlisted int_formats (JObj kws) -> other = Ok w -> int_shape (JObj kws) w).
  { intros UL Q. subst other. destruct en as [zs|].
    - destruct HE as (js & HE & F). apply bind_ok in Q. destruct Q as (l & L & Q). apply bind_ok in Q. destruct Q as (h & G & Q). injection Q as <-.
      destruct (min_in _ _ L) as [A B]. destruct (max_in _ _ G) as [C D].
      apply (is_enum _ js zs l h); auto using range_smallest.
    - destruct lo as [l|]; [destruct hi as [h|]|]; injection Q as <-.
      + destruct HL as (jl & HL & WL). destruct HH as (jh & HH & WH). eapply is_bounds; try eassumption. apply range_smallest.
      + apply is_plain; auto.
      + apply is_plain; auto. }
  destruct fm as [f|]; [|apply X; [apply unlisted_none; exact HF | exact H]].
  destruct (pystr_eqb f (str "int16")) eqn:Q1; [apply pystr_eqb_eq in Q1; subst f; injection H as <-; apply (is_format _ "int16"); [cbn; auto | exact HF]|].
  destruct (pystr_eqb f (str "int32")) eqn:Q2; [apply pystr_eqb_eq in Q2; subst f; injection H as <-; apply (is_format _ "int32"); [cbn; auto | exact HF]|].
  destruct (pystr_eqb f (str "int64")) eqn:Q3; [apply pystr_eqb_eq in Q3; subst f; injection H as <-; apply (is_format _ "int64"); [cbn; auto | exact HF]|].
  apply X; [|exact H]. eapply unlisted_other; [exact W | exact HF|].
  intros g a [I|[I|[I|[]]]]; injection I as <- _; intros ->; rewrite pystr_eqb_refl in *; discriminate.
Qed.

Section Simple.
  Variables (U : unicode) (m : nat) (F : env).
  Hypothesis SF : sound m F.

  Let shaped := shaped U F m.

  Lemma annot_sound : forall E k md j, sound m E -> json_to_object E false m (TAnnot (TScalar k) md) j = parse_scalar k j.
  Proof.
    intros E k md j S. rewrite (annot_jto m false E S), jto_scalar. reflexivity.
  Qed.

  Lemma boolean_shape : forall ctx kws v E0 E' t d, json_wf (JObj kws) -> parsed 1 kws v -> boolean_node E0 m v = Ok (E', (t, d)) ->
    shaped ctx (JObj kws) t /\ preset F m (JObj kws) t (option_map Ok d).
  Proof.
    intros ctx kws v E0 E' t d W P H. unfold boolean_node in H. apply bind_ok in H. destruct H as (const & C & H).
    assert (T : typed "boolean" kws) by (eapply parsed_typed; [|exact P|]; [lia | inl]).
    apply get_has in T. apply (opt_bool kws) in C; [|exact W | eapply parsed_att; [|exact P|]; [lia | inl]].
    destruct const as [b|].
    - injection H as _ <- <-. split; [apply sh_boolean_const; assumption | eapply preset_const; [|exact C]; discriminate].
    - apply bind_ok in H. destruct H as (d0 & D0 & H). pose proof (with_default_inv _ _ _ _ _ _ _ H) as [-> ->].
      split; [apply sh_boolean; assumption|]. eapply (preset_read F E0 m kws v _ as_bool JBool KBool); try eassumption; try discriminate.
      + eapply parsed_att; [|exact P|]; [lia | inl].
      + intros j. rewrite !jto_scalar. reflexivity.
      + intros j w a R CV. rewrite !jto_scalar. destruct j; try discriminate R. injection R as <-. injection CV as <-. reflexivity.
  Qed.

  Lemma integer_shape : forall ctx kws v E0 E' t d, json_wf (JObj kws) -> parsed 2 kws v -> sound m E0 -> integer_node E0 m v = Ok (E', (t, d)) ->
    shaped ctx (JObj kws) t /\ preset F m (JObj kws) t (option_map Ok d).
  Proof.
    intros ctx kws v E0 E' t d W P S0 H. unfold integer_node in H. apply bind_ok in H. destruct H as (const & C & H).
    assert (T : typed "integer" kws) by (eapply parsed_typed; [|exact P|]; [lia | inl]).
    apply get_has in T. apply (opt_int kws) in C; [|exact W | eapply parsed_att; [|exact P|]; [lia | inl]].
    destruct const as [b|].
    - injection H as _ <- <-. destruct C as (j & C & WH). split; [eapply sh_integer_const; eassumption | eapply preset_const; [|exact C]; destruct WH; discriminate].
    - apply bind_ok in H. destruct H as (fm & FM & H). apply (opt_str kws) in FM; [|exact W | eapply parsed_att; [|exact P|]; [lia | inl]].
      apply bind_ok in H. destruct H as (en & EN & H). apply (opt_ints kws) in EN; [|exact W | eapply parsed_att; [|exact P|]; [lia | inl]].
      apply bind_ok in H. destruct H as (lo & LO & H). apply (opt_int kws) in LO; [|exact W | eapply parsed_att; [|exact P|]; [lia | inl]].
      apply bind_ok in H. destruct H as (hi & HI & H). apply (opt_int kws) in HI; [|exact W | eapply parsed_att; [|exact P|]; [lia | inl]].
      apply bind_ok in H. destruct H as (w & NT & H). apply bind_ok in H. destruct H as (d0 & D0 & H).
      pose proof (with_default_inv _ _ _ _ _ _ _ H) as [-> ->]. rewrite integer_int_typ in *.
      split; [apply sh_integer; auto; eapply node_type_shape; try eassumption; reflexivity|].
      assert (RD : forall E j, sound m E -> json_to_object E false m (int_typ w) j = parse_scalar KInt j).
      { intros E j S. destruct w; try (apply annot_sound; exact S). apply jto_scalar. }
      eapply (preset_read F E0 m kws v _ as_int JInt KInt); try eassumption; try discriminate.
      + eapply parsed_att; [|exact P|]; [lia | inl].
      + intros j. rewrite !RD by assumption. reflexivity.
      + intros j x a R CV. rewrite !RD by assumption. destruct j; try discriminate R; injection R as <-; injection CV as <-; reflexivity.
  Qed.

  Lemma number_shape : forall ctx kws v E0 E' t d, json_wf (JObj kws) -> parsed 3 kws v -> sound m E0 -> number_node E0 m v = Ok (E', (t, d)) ->
    shaped ctx (JObj kws) t /\ preset F m (JObj kws) t (option_map Ok d).
  Proof.
    intros ctx kws v E0 E' t d W P S0 H. unfold number_node in H. apply bind_ok in H. destruct H as (const & C & H).
    destruct const as [c|]; [discriminate H|].
    assert (T : typed "number" kws) by (eapply parsed_typed; [|exact P|]; [lia | inl]). apply get_has in T.
    assert (LC : lacks (JObj kws) "const").
    { apply none_lacks; [exact W|]. apply (att_none _ as_float kws v "const" (TScalar KFloat) None); [eapply parsed_att; [|exact P|]; [lia | inl] | exact C|].
      intros j. apply scalar_some. discriminate. }
    apply bind_ok in H. destruct H as (fm & FM & H). apply (opt_str kws) in FM; [|exact W | eapply parsed_att; [|exact P|]; [lia | inl]].
    apply bind_ok in H. destruct H as (x & XN & H). apply bind_ok in H. destruct H as (x0 & XM & H). apply bind_ok in H. destruct H as (x1 & XS & H).
    assert (NF : forall y z, optional_attr as_float v (str y) = Ok z -> att kws v y (TScalar KFloat) -> z = None -> lacks (JObj kws) y).
    { intros y z Q AT ->. apply none_lacks; [exact W|]. apply (att_none _ as_float kws v y (TScalar KFloat) None); [exact AT | exact Q|].
      intros j. apply scalar_some. discriminate. }
    assert (NS := NF _ _ XS ltac:(eapply parsed_att; [|exact P|]; [lia | inl])).
    assert (NN := NF _ _ XN ltac:(eapply parsed_att; [|exact P|]; [lia | inl])).
    assert (NM := NF _ _ XM ltac:(eapply parsed_att; [|exact P|]; [lia | inl])). clear NF.
    apply bind_ok in H. destruct H as (ot & A & H). apply bind_ok in H. destruct H as (t1 & B & H). apply bind_ok in H. destruct H as (d0 & D0 & H).
    pose proof (with_default_inv _ _ _ _ _ _ _ H) as [-> ->].
    assert (RD : (forall E j, sound m E -> json_to_object E false m t1 j = parse_scalar KFloat j) -> preset F m (JObj kws) t1 (option_map Ok d)).
    { intros RD. eapply (preset_read F E0 m kws v _ as_float JFloat KFloat); try eassumption; try discriminate.
      + eapply parsed_att; [|exact P|]; [lia | inl].
      + intros j. rewrite !RD by assumption. reflexivity.
      + intros j y a R CV. rewrite !RD by assumption. rewrite R. cbn [parse_scalar]. destruct y; try discriminate CV. injection CV as ->. reflexivity. }
    assert (N : ot = None -> t1 = TScalar KFloat) by (intros ->; destruct x, x0, x1; congruence).
    assert (NB : ot = None -> lacks (JObj kws) "multipleOf" /\ (lacks (JObj kws) "exclusiveMinimum" \/ lacks (JObj kws) "exclusiveMaximum")).
    { intros ->. destruct x, x0, x1; try discriminate B; auto. }
    destruct fm as [f|].
    - destruct (pystr_eqb f (str "float32")) eqn:Q1; [|destruct (pystr_eqb f (str "float64")) eqn:Q2].
      + injection A as <-. injection B as <-. apply pystr_eqb_eq in Q1. subst f. split; [|apply RD; intros E j S; apply annot_sound; exact S].
        eapply (sh_number_format _ _ _ _ _ "float32"); auto. cbn. auto.
      + injection A as <-. injection B as <-. apply pystr_eqb_eq in Q2. subst f. split; [|apply RD; intros E j S; apply annot_sound; exact S].
        eapply (sh_number_format _ _ _ _ _ "float64"); auto. cbn. auto.
      + injection A as <-. rewrite (N eq_refl) in *. split; [|apply RD; intros; apply jto_scalar]. destruct (NB eq_refl). apply sh_number; auto.
        eapply unlisted_other; [exact W | exact FM|]. intros g a [I|[I|[]]]; injection I as <- _; intros ->; rewrite pystr_eqb_refl in *; discriminate.
    - injection A as <-. rewrite (N eq_refl) in *. split; [|apply RD; intros; apply jto_scalar]. destruct (NB eq_refl). apply sh_number; auto. apply unlisted_none. exact FM.
  Qed.

  Lemma format_none : forall f g k, format_type f = None -> In (g, k) text_formats -> f <> str g.
  Proof.
    intros f g k H I ->. cbn in I. repeat (destruct I as [I|I]; [injection I as <- _; discriminate H|]). destruct I.
  Qed.

  Lemma string_shape : forall ctx kws v E0 E' t d, json_wf (JObj kws) -> parsed 4 kws v -> sound m E0 -> ext E' F -> string_node U E0 m ctx v = Ok (E', (t, d)) ->
    shaped ctx (JObj kws) t /\ preset F m (JObj kws) t (option_map Ok d).
  Proof.
    intros ctx kws v E0 E' t d W P S0 X H. unfold string_node in H. apply bind_ok in H. destruct H as (const & C & H).
    assert (T : typed "string" kws) by (eapply parsed_typed; [|exact P|]; [lia | inl]).
    apply get_has in T. apply (opt_str kws) in C; [|exact W | eapply parsed_att; [|exact P|]; [lia | inl]].
    destruct const as [b|].
    { injection H as _ <- <-. split; [eapply sh_string_const; eassumption | eapply preset_const; [|exact C]; discriminate]. }
    apply bind_ok in H. destruct H as (fm & FM & H). apply (opt_str kws) in FM; [|exact W | eapply parsed_att; [|exact P|]; [lia | inl]].
    apply bind_ok in H. destruct H as (en & EN & H). apply (opt_strs kws) in EN; [|exact W | eapply parsed_att; [|exact P|]; [lia | inl]].
    apply bind_ok in H. destruct H as (lg & LG & H). apply (opt_int kws) in LG; [|exact W | eapply parsed_att; [|exact P|]; [lia | inl]].
    apply bind_ok in H. destruct H as ([E1 t1] & A & H). apply bind_ok in H. destruct H as (d0 & D0 & H). cbn [fst snd] in H.
    pose proof (with_default_inv _ _ _ _ _ _ _ H) as [-> ->].
    assert (RD : (forall j, json_to_object E1 false m t1 j = json_to_object F false m t1 j) -> preset F m (JObj kws) t1 (option_map Ok d)).
    { intros RD. eapply (preset_read F E1 m kws v _ as_str JStr KStr); try eassumption; try discriminate.
      + eapply parsed_att; [|exact P|]; [lia | inl].
      + intros j w a R CV. destruct j; try discriminate R. injection R as <-. injection CV as <-. reflexivity. }
    destruct (match fm with Some f => format_type f | None => None end) as [k|] eqn:K.
    - destruct fm as [f|]; [|discriminate K]. injection A as <- <-. apply format_types in K. destruct K as (g & -> & IF).
      split; [eapply sh_string_format; eassumption | apply RD; intros j; rewrite !jto_scalar; reflexivity].
    - assert (UL : unlisted text_formats (JObj kws)).
      { destruct fm as [f|]; [|apply unlisted_none; exact FM]. eapply unlisted_other; [exact W | exact FM|]. intros g a I. eapply format_none; eassumption. }
      destruct en as [vs|]; [|destruct lg as [n|]].
      + apply bind_ok in A. destruct A as (ms & EV & NW).
        destruct (new_class_ok _ _ _ _ _ _ NW S0) as (_ & _ & _ & c & -> & G); [intros y u [] | intros; discriminate|].
        pose proof (ext_class _ _ _ _ X G) as GF.
        split; [|apply RD; intros j; rewrite (jto_enum E1 false m c _ ms j G eq_refl), (jto_enum F false m c _ ms j GF eq_refl); reflexivity].
        assert (NM : ~ In (str "mro") vs) by (intros I; rewrite (enum_from_strings_fails (u_word U) ctx vs (or_introl I)) in EV; discriminate EV).
        assert (NE : ~ In [] vs) by (intros I; rewrite (enum_from_strings_fails (u_word U) ctx vs (or_intror I)) in EV; discriminate EV).
        destruct (enum_from_strings (u_word U) ctx vs NM NE) as (ms' & EV' & ND & MS). rewrite EV in EV'. injection EV' as <-.
        eapply sh_string_enum; try eassumption.
      + destruct (Z.ltb_spec n 0) as [L|L]; [discriminate A|]. injection A as <- <-. destruct LG as (j & HJ & WJ).
        split; [|apply RD; intros j'; rewrite !annot_sound by assumption; reflexivity].
        eapply sh_string_bound; try eassumption. rewrite Z2N.id by exact L. exact WJ.
      + injection A as <- <-. split; [|apply RD; intros j; rewrite !jto_scalar; reflexivity]. apply sh_string; assumption.
  Qed.
End Simple.

(** ** Nodes *)

Definition pnd (s : json) (v : value) : Prop := exists c kws, c < 9 /\ s = JObj kws /\ parsed c kws v.

Lemma union_pnd : forall s v, read schemas_union s = Ok v -> pnd s v.
Proof. intros s v H. apply union_parsed in H. destruct H as (c & kws & L & -> & P). exists c, kws. split; [lia | auto]. Qed.

Lemma top_pnd : forall s v, read (TClass c_top) s = Ok v -> pnd s v.
Proof. intros s v H. apply class_parsed in H; [|unfold c_top; lia]. destruct H as (kws & -> & P). exists c_top, kws. unfold c_top in *. split; [lia | auto]. Qed.

Lemma pnd_nd : forall s v, pnd s v -> nd s v.
Proof.
  intros s v (c & kws & L & -> & P). exists kws. split; [reflexivity|]. split; [eapply parsed_view; eassumption|].
  destruct P as (attrs & Q & _ & K). eauto.
Qed.

Lemma reference_path : forall U r x, reference_name U r = Some x -> ~ In 10%N r -> r = path x.
Proof.
  intros U r x H N. unfold reference_name in H. destruct (starts_with (str "#/definitions/") r) eqn:S; [|discriminate H].
  apply starts_with_spec in S. destruct S as (rest & ->). 
  change (skipn _ _) with rest in H.
  assert (NR : ~ In 10%N rest) by (intros I; apply N; apply in_or_app; right; exact I).
  assert (Q : match rev rest with c :: q => if N.eqb c 10 then rev q else rest | [] => rest end = rest).
  { destruct (rev rest) as [|c q] eqn:R; [reflexivity|]. destruct (N.eqb_spec c 10) as [->|_]; [|reflexivity].
    exfalso. apply NR. apply in_rev. rewrite R. left. reflexivity. }
  rewrite Q in H. destruct rest as [|a y]; [discriminate H|]. destruct (forallb _ _); [|discriminate H]. injection H as <-. reflexivity.
Qed.

Lemma named_checked : forall U fs us f, mapM (fun f => check_field_name U (f_name f)) fs = Ok us -> In f fs -> nameable U (f_name f).
Proof.
  intros U fs us f H I. apply mapM_ok in H. destruct (Forall2_in_l _ _ _ _ _ _ H I) as (u & _ & Q). unfold check_field_name in Q. unfold nameable.
  destruct (u_identifier U (f_name f)); [|discriminate Q]. split; [reflexivity|]. intros K. apply keyword_in in K. rewrite K in Q. discriminate Q.
Qed.

Section Nodes.
  Variables (U : unicode) (m : nat) (F : env).
  Hypothesis SF : sound m F.

  Definition whole_shape (ctx : pystr) (s : json) (t : typ) (d : option value) : Prop :=
    shaped U F m ctx s t /\ preset F m s t (option_map Ok d).

  (** Names that the schema refers to mean the same in the end. *)
  Definition settled (E : env) (s : json) : Prop := forall p x b, inside s p -> has p "$ref" (JStr (path x)) -> lookup E m x = Some b -> lookup F m x = Some b.
  Definition breaks (s : json) : Prop := forall p r, inside s p -> has p "$ref" (JStr r) -> ~ In 10%N r.

  Lemma settled_mono : forall E E' s, keeps m E E' -> settled E' s -> settled E s.
  Proof. intros E E' s K S p x b I H L. eapply S; [exact I | exact H | apply K; exact L]. Qed.

  Section Parts.
    Variable n : nat.
    Hypothesis IH : forall E0 ctx v s E' t d, node_to_typedef U m n E0 ctx v = Ok (E', (t, d)) -> pnd s v -> listed s -> breaks s -> sound m E0 ->
      settled E' s -> ext E' F -> whole_shape ctx s t d.

    Lemma fields_shape : forall ctx req ps vs E0 E' fs, property_fields (node_to_typedef U m n) E0 ctx req vs = Ok (E', fs) -> pair_read ps vs ->
      (forall x p, In (x, p) ps -> listed p /\ breaks p /\ settled E' p) -> sound m E0 -> ext E' F ->
      Forall2 (fun xp f => f_name f = fst xp /\ exists t, shaped U F m (ctx ++ str "__" ++ fst xp) (snd xp) t /\
        (if mem_str (fst xp) req then f_type f = t else mk_union false [TScalar KNone; t] = Ok (f_type f)) /\
        preset F m (snd xp) t (f_default f)) ps fs.
    Proof.
      intros ctx req ps vs E0 E' fs H PR. revert E0 E' fs H.
      induction PR as [|[x p] [y v] ps vs [Q R] PR IHp]; intros E0 E' fs H L S X; cbn [property_fields] in H.
      - injection H as <- <-. constructor.
      - apply bind_ok in H. destruct H as ([E1 [t d]] & H1 & H). apply bind_ok in H. destruct H as (u & HU & H).
        apply bind_ok in H. destruct H as ([E2 fs'] & H2 & H). cbn [fst snd] in H. injection H as <- <-. cbn [fst snd] in *. subst y.
        destruct (L x p (or_introl eq_refl)) as (Lp & Bp & Sp).
        destruct (grow U m _ _ _ _ _ _ _ _ H1 (union_nd _ _ R) Lp S) as [(S1 & X1 & K1) _].
        destruct (fields_grow m _ (grow U m n) _ _ _ _ _ _ _ H2 PR (fun x p I => proj1 (L x p (or_intror I))) S1) as [(S2 & X2 & K2) _].
        destruct (IH _ _ _ _ _ _ _ H1 (union_pnd _ _ R) Lp Bp S (settled_mono _ _ _ K2 Sp) (ext_trans _ _ _ X2 X)) as [A B].
        constructor; [|eapply IHp; [exact H2 | intros z q I; apply (L z q (or_intror I)) | exact S1 | exact X]].
        cbn [fst snd f_name f_type f_default]. split; [reflexivity|]. exists t. split; [exact A|]. split; [|exact B].
        destruct (mem_str x req); [congruence | exact HU].
    Qed.

    Lemma members_shape : forall ctx ss vs E0 E' ds, member_types (node_to_typedef U m n) E0 ctx vs = Ok (E', ds) -> Forall2 (fun s v => read schemas_union s = Ok v) ss vs ->
      (forall p, In p ss -> listed p /\ breaks p /\ settled E' p) -> sound m E0 -> ext E' F -> Forall2 (shaped U F m ctx) ss (map fst ds).
    Proof.
      intros ctx ss vs E0 E' ds H PR. revert E0 E' ds H.
      induction PR as [|s v ss vs R PR IHp]; intros E0 E' ds H L S X; cbn [member_types] in H.
      - injection H as <- <-. constructor.
      - apply bind_ok in H. destruct H as ([E1 [t d]] & H1 & H). apply bind_ok in H. destruct H as ([E2 ds'] & H2 & H). cbn [fst snd] in *. injection H as <- <-.
        destruct (L s (or_introl eq_refl)) as (Lp & Bp & Sp).
        destruct (grow U m _ _ _ _ _ _ _ _ H1 (union_nd _ _ R) Lp S) as [(S1 & X1 & K1) _].
        destruct (members_grow m _ (grow U m n) _ _ _ _ _ _ H2 PR (fun p I => proj1 (L p (or_intror I))) S1) as [(S2 & X2 & K2) _].
        destruct (IH _ _ _ _ _ _ _ H1 (union_pnd _ _ R) Lp Bp S (settled_mono _ _ _ K2 Sp) (ext_trans _ _ _ X2 X)) as [A _].
        cbn [map fst]. constructor; [exact A | eapply IHp; [exact H2 | intros q I; apply (L q (or_intror I)) | exact S1 | exact X]].
    Qed.
  End Parts.

  Ltac no_default K := intros ? HD; destruct HD as (kws' & QD & ID); injection QD as <-; apply K in ID; cbn in ID;
    repeat (destruct ID as [ID|ID]; [discriminate ID|]); destruct ID.

  Lemma node_shape : forall n E0 ctx v s E' t d, node_to_typedef U m n E0 ctx v = Ok (E', (t, d)) -> pnd s v -> listed s -> breaks s -> sound m E0 ->
    settled E' s -> ext E' F -> whole_shape ctx s t d.
  Proof.
    induction n as [|n IH]; intros E0 ctx v s E' t d H (c & kws & LC & -> & P) LI B S0 ST X; [discriminate H|].
    pose proof LI as [W _]. pose proof P as (attrs & QV & _ & K). pose proof (parsed_view _ _ _ LC P) as V.
    destruct V as [attrs' r Q D G|attrs' Q T A|attrs' Q T A|attrs' Q T A|attrs' Q T A AF AN|attrs' j w Q T D G R|c' attrs' Q C T AP AA AR|attrs' ss vs Q D G R];
      rewrite QV in Q; injection Q as -> <-; subst v.
    - cbn [node_to_typedef] in H. rewrite G in H. cbn [bind] in H. destruct (reference_name U r) as [x|] eqn:RN; [|discriminate H].
      apply bind_ok in H. destruct H as (u & M & H). injection H as <- <- <-.
      unfold module_get in M. destruct (lookup E0 m x) as [[[|] u']|] eqn:LK; try discriminate M. injection M as <-.
      apply get_has in D. pose proof (reference_path _ _ _ RN (B _ _ (in_self _) D)) as ->.
      split; [|apply preset_none; no_default K]. eapply sh_ref; [exact D | eapply ST; [apply in_self | exact D | exact LK]].
    - eapply boolean_shape; eassumption.
    - eapply integer_shape; eassumption.
    - eapply number_shape; eassumption.
    - eapply string_shape; eassumption.
    - cbn [node_to_typedef] in H. rewrite G in H. cbn [bind] in H. apply bind_ok in H. destruct H as ([E1 [t1 d1]] & H1 & H). cbn [fst snd] in H.
      destruct (has_default (t1, d1)); [discriminate H|]. injection H as <- <- <-.
      split; [|apply preset_none; no_default K]. eapply sh_array; [apply get_has; exact T | apply get_has; exact D|].
      eapply IH; [exact H1 | apply union_pnd; exact R | eapply listed_items; eassumption | | exact S0 | | exact X].
      + intros p r I. apply B. eapply in_items; [apply get_has; exact D | exact I].
      + intros p x b I. apply ST. eapply in_items; [apply get_has; exact D | exact I].
    - rewrite node_object in H by exact C.
      assert (ND : d = None).
      { unfold object_node in H. apply bind_ok in H. destruct H as (ops & _ & H). destruct ops as [ps|]; [|injection H as _ _ <-; reflexivity].
        apply bind_ok in H. destruct H as (ex & _ & H). destruct ex as [[|]|]; try discriminate H.
        repeat (apply bind_ok in H; destruct H as (? & _ & H)). injection H as _ _ <-. reflexivity. }
      subst d. destruct (object_inv _ _ _ _ _ _ _ _ _ _ H LI T AP AA AR) as (ps & vs & req & E1 & fs & D & PR & DA & DR & PF & CF & NC).
      assert (LP : forall x p, In (x, p) ps -> listed p) by (intros x p I; eapply listed_property; [exact LI | exact D | exact I]).
      destruct (fields_grow m _ (grow U m n) _ _ _ _ _ _ _ PF PR LP S0) as [(S1 & X1 & K1) Ff].
      destruct (new_class_ok _ _ _ _ _ _ NC S1) as (S' & X' & K' & k & -> & GC).
      + intros y u I. cbn [raw_fields] in I. apply in_map_iff in I. destruct I as (f & Q & I). injection Q as <- <-. apply (proj1 (sort_in _ _)) in I. apply (Ff f I).
      + intros fr fs' f Q I. injection Q as <- <-. apply (proj1 (sort_in _ _)) in I. apply (Ff f I).
      + split; [|apply preset_none; destruct C as [->| ->]; no_default K].
        eapply (sh_object U F m ctx (JObj kws) ps k fs); [apply get_has; exact T | apply get_has; exact D | apply get_has; exact DA | | exact (ext_class _ _ _ _ X GC)].
        assert (FS := fields_shape n IH _ _ _ _ _ _ _ PF PR (fun x p I => conj (LP x p I) (conj
          (fun q r J => B q r (in_property _ _ _ _ _ (get_has _ _ _ D) I J))
          (settled_mono _ _ _ K' (fun q y b J => ST q y b (in_property _ _ _ _ _ (get_has _ _ _ D) I J))))) S0 (ext_trans _ _ _ X' X)).
        eapply Forall2_impl_in; [|exact FS]. intros [x p] f _ IF (NQ & t & SH & TY & PS). cbn [fst snd] in *. split; [exact NQ|].
        split; [rewrite <- NQ; eapply named_checked; [exact CF | apply sort_in; exact IF]|].
        exists t. split; [exact SH|]. pose proof (required_texts _ _ W DR x) as RT. destruct (mem_str x req).
        * split; [auto|]. split; [intros ND; destruct ND; apply RT; reflexivity | exact PS].
        * split; [intros DM; apply RT in DM; discriminate DM|]. auto.
    - cbn [node_to_typedef] in H. rewrite G in H. cbn [bind] in H. apply bind_ok in H. destruct H as ([E1 ds] & H1 & H). cbn [fst snd] in H.
      destruct (existsb has_default ds); [discriminate H|]. apply bind_ok in H. destruct H as (u & HU & H). injection H as <- <- <-.
      split; [|apply preset_none; no_default K].
      eapply sh_union; [apply get_has; exact D | | exact HU]. eapply (members_shape n IH); [exact H1 | exact R | | exact S0 | exact X].
      intros p I. split; [eapply listed_member; eassumption|]. split.
      + intros q r J. apply B. eapply in_member; [apply get_has; exact D | exact I | exact J].
      + intros q x b J. apply ST. eapply in_member; [apply get_has; exact D | exact I | exact J].
  Qed.
End Nodes.

(** ** Definitions *)

Section Definitions.
  Variables (U : unicode) (m : nat) (doc : json).
  Hypothesis RG : regular doc.
  Hypothesis WF : json_wf doc.

  Lemma def_listed : forall x s, definition doc x s -> listed s.
  Proof.
    intros x s D. split.
    - destruct D as (ds & (kws & -> & I) & J). eapply wf_value; [|exact J]. eapply wf_value; [exact WF | exact I].
    - intros p I. apply (rg_listed _ RG). right. exists x, s. auto.
  Qed.

  Lemma def_breaks : forall x s, definition doc x s -> breaks s.
  Proof. intros x s D p r I. apply (rg_refs _ RG). right. exists x, s. auto. Qed.

  Lemma defs_grow : forall n dss vs, pair_read dss vs -> (forall y d, In (y, d) dss -> definition doc y d) -> NoDup (map fst dss) ->
    forall E0 E1, define_types U m n E0 vs = Ok E1 -> sound m E0 ->
    sound m E1 /\ ext E0 E1 /\ (forall y, In y (map fst dss) -> lookup E0 m y = None) /\
    (forall y b, ~ In y (map fst dss) -> lookup E0 m y = Some b -> lookup E1 m y = Some b).
  Proof.
    intros n dss vs F. induction F as [|[x s] [x' v] dss vs [Q R] F IH]; intros DF ND E0 E1 H S0; cbn [define_types] in H.
    - injection H as <-. split; [exact S0|]. split; [apply ext_refl|]. split; [intros y [] | auto].
    - cbn [fst snd] in *. subst x'. destruct (taken E0 m x) eqn:TK; [discriminate H|].
      apply bind_ok in H. destruct H as ([E2 [t d]] & H1 & H). cbn [fst snd] in H. destruct (has_default (t, d)); [discriminate H|].
      apply bind_ok in H. destruct H as (u & _ & H).
      destruct (grow U m _ _ _ _ _ _ _ _ H1 (union_nd _ _ R) (def_listed _ _ (DF _ _ (or_introl eq_refl))) S0) as [(S2 & X2 & K2) FL].
      cbn [map fst] in ND. apply NoDup_cons_iff in ND. destruct ND as [NI ND].
      destruct (IH (fun y e I => DF y e (or_intror I)) ND _ _ H (set_sound _ _ x t S2 FL)) as (S1 & X1 & N1 & K1).
      assert (LS : forall y, y <> x -> lookup (module_set E2 m x t) m y = lookup E2 m y).
      { intros y NE. rewrite lookup_set, Nat.eqb_refl. cbn [andb]. destruct (pystr_eqb x y) eqn:Q; [apply pystr_eqb_eq in Q; congruence | reflexivity]. }
      split; [exact S1|]. split; [eapply ext_trans; [exact X2 | eapply ext_trans; [apply set_ext | exact X1]]|]. split.
      + intros y [<-|I]; [apply untaken_lookup; exact TK|]. pose proof (N1 y I) as L. rewrite LS in L by (intros ->; contradiction).
        destruct (lookup E0 m y) as [b|] eqn:L0; [|reflexivity]. apply K2 in L0. congruence.
      + intros y b NY L. apply K1; [intros I; apply NY; right; exact I|]. rewrite LS by (intros ->; apply NY; left; reflexivity). apply K2. exact L.
  Qed.

  Variable F : env.
  Hypothesis SF : sound m F.

  (** Every definition becomes a name of the module, for a type of its shape. *)
  Lemma defs_shape : forall n dss vs E0 E1, pair_read dss vs -> (forall y d, In (y, d) dss -> definition doc y d) ->
    NoDup (map fst dss) -> define_types U m n E0 vs = Ok E1 -> sound m E0 -> ext E1 F -> keeps m E1 F ->
    forall y d, In (y, d) dss -> exists t, lookup F m y = Some (true, t) /\ shaped U F m y d t.
  Proof.
    intros n dss vs E0 E1 PR. revert E0 E1.
    induction PR as [|[x s] [x' v] dss vs [Q R] PR IH]; intros E0 E1 DF ND H S0 X1 K1; cbn [define_types] in H.
    - intros y d [].
    - cbn [fst snd] in *. subst x'. destruct (taken E0 m x) eqn:TK; [discriminate H|].
      apply bind_ok in H. destruct H as ([E2 [t d0]] & H1 & H). cbn [fst snd] in H. destruct (has_default (t, d0)); [discriminate H|].
      apply bind_ok in H. destruct H as (u & _ & H).
      assert (DX : definition doc x s) by (apply DF; left; reflexivity).
      destruct (grow U m _ _ _ _ _ _ _ _ H1 (union_nd _ _ R) (def_listed _ _ DX) S0) as [(S2 & X2 & K2) FL].
      cbn [map fst] in ND. apply NoDup_cons_iff in ND. destruct ND as [NI ND].
      assert (DS : forall y d, In (y, d) dss -> definition doc y d) by (intros y d I; apply DF; right; exact I).
      destruct (defs_grow n dss vs PR DS ND _ _ H (set_sound _ _ x t S2 FL)) as (S1 & X3 & N1 & K3).
      assert (LS : forall y, y <> x -> lookup (module_set E2 m x t) m y = lookup E2 m y).
      { intros y NE. rewrite lookup_set, Nat.eqb_refl. cbn [andb]. destruct (pystr_eqb x y) eqn:Q; [apply pystr_eqb_eq in Q; congruence | reflexivity]. }
      intros y d [I|I]; [|eapply IH; eauto using set_sound]. injection I as <- <-. exists t. split.
      + apply K1. apply K3; [exact NI|]. rewrite lookup_set, Nat.eqb_refl, pystr_eqb_refl. reflexivity.
      + eapply (node_shape U m F SF); [exact H1 | apply union_pnd; exact R | apply (def_listed _ _ DX) | apply (def_breaks _ _ DX) | exact S0 | |].
        * intros p y b I HR L. assert (NE : y <> x) by (intros ->; exact (rg_self _ RG _ _ _ DX I HR)).
          apply K1. apply K3; [|rewrite LS by exact NE; exact L]. intros J. apply N1 in J. rewrite LS in J by exact NE. congruence.
        * eapply ext_trans; [apply (set_ext m E2 x t) | eapply ext_trans; [exact X3 | exact X1]].
  Qed.
End Definitions.

Theorem schema_shape : forall U E m name doc E' t, schema_to_type U E m name doc = Ok (E', t) ->
  sound m E -> json_wf doc -> regular doc ->
  shaped U E' m name doc t /\ forall x d, definition doc x d -> exists u, lookup E' m x = Some (true, u) /\ shaped U E' m x d u.
Proof.
  intros U E m name doc E' t H S W RG. unfold schema_to_type in H. apply bind_ok in H. destruct H as (top & R & H).
  destruct (top_definitions _ _ R W) as (dss & vs & GD & PR & DF & ND). rewrite GD in H. cbn [bind] in H.
  apply bind_ok in H. destruct H as (E1 & H1 & H). apply bind_ok in H. destruct H as ([E2 [t' d]] & H2 & H). cbn [fst snd] in H. injection H as -> ->.
  destruct (defs_grow U m doc RG W _ dss vs PR (fun y d => proj2 (DF y d)) ND _ _ H1 S) as (S1 & X1 & N1 & K1).
  assert (LD : listed doc) by (split; [exact W | intros p I; apply (rg_listed _ RG); left; exact I]).
  destruct (grow U m _ _ _ _ _ _ _ _ H2 (top_nd _ _ R) LD S1) as [(S2 & X2 & K2) _]. split.
  - eapply (node_shape U m E' S2); [exact H2 | apply top_pnd; exact R | exact LD | | exact S1 | | apply ext_refl].
    + intros p r I. apply (rg_refs _ RG). left. exact I.
    + intros p x b _ _ L. exact L.
  - intros x d' D. eapply (defs_shape U m doc RG W E' S2); [exact PR | intros y e; apply DF | exact ND | exact H1 | exact S | exact X2 | exact K2 | apply DF; exact D].
Qed.

Lemma importable_regular : forall U doc, importable U doc -> regular doc.
Proof.
  intros U doc I. constructor; [apply (im_listed _ _ I) | | apply (im_self _ _ I)].
  intros s r P H J. destruct (im_refs _ _ I _ _ P H) as (x & d & -> & _ & N). unfold path in J. apply in_app_or in J. destruct J as [J|J]; [|contradiction].
  cbn in J. repeat (destruct J as [J|J]; [discriminate J|]). exact J.
Qed.
