(** Types are made from the schemas of SpecMake.v: all nodes. *)
From Coq Require Import String List NArith ZArith Bool Lia.
From Verif Require Import Base Json PyTypes Mapping Deser ClassDef Lists TypingFacts DeserSound SpecTypes SpecRecursion Samples DeserFuel DeserBuild DeserUnfold Flatten TypeDef
  SpecClassDef ClassDefProofs SpecTypeDef TypeDefNodes TypeDefEnv TypeDefGrow SpecMake MakeRead MakeProofs.
Import ListNotations.
Open Scope list_scope.
Open Scope nat_scope.

Lemma depth_arr : forall l x, In x l -> jdepth x < jdepth (JArr l).
Proof.
  intros l x I. cbn [jdepth]. induction l as [|y l IH]; [destruct I|]. cbn [fold_right]. destruct I as [-> | I]; [lia | apply IH in I; lia].
Qed.

Lemma depth_obj : forall o k x, In (k, x) o -> jdepth x < jdepth (JObj o).
Proof.
  intros l k x I. cbn [jdepth]. induction l as [|[k' y] l IH]; [destruct I|]. cbn [fold_right].
  destruct I as [I | I]; [injection I as -> ->; cbn [snd]; lia | apply IH in I; lia].
Qed.

(** ** The class of a node *)

Lemma keyword_of : forall c kws v k j, parsed c kws v -> has (JObj kws) k j -> mem_str (str k) (map fp_prop (node_fps c)) = true.
Proof.
  intros c kws v k j (attrs & _ & _ & K) (kws' & Q & I). injection Q as <-. apply mem_str_in. exact (K _ _ I).
Qed.

Lemma typed_parsed : forall c kws v, 1 <= c <= 6 -> json_wf (JObj kws) -> has (JObj kws) "type" (JStr (str (type_of_node c))) ->
  read schemas_union (JObj kws) = Ok v -> parsed c kws v.
Proof.
  intros c kws v B W T R. destruct (union_parsed _ _ R) as (c' & kws' & L & Q & P). injection Q as <-.
  pose proof (keyword_of _ _ _ _ _ P T) as K. pose proof (wf_has _ _ _ W T) as G.
  destruct c' as [|[|[|[|[|[|[|[|c']]]]]]]]; [discriminate K | | | | | | | discriminate K | lia].
  all: match type of P with parsed ?i _ _ => assert (X : typed (type_of_node i) kws) by (eapply parsed_typed; [|exact P|inl]; lia) end.
  all: unfold typed in X; rewrite G in X; destruct c as [|[|[|[|[|[|[|c]]]]]]]; try lia; try exact P; discriminate X.
Qed.

Lemma ref_parsed : forall kws v j, has (JObj kws) "$ref" j -> read schemas_union (JObj kws) = Ok v -> parsed 0 kws v.
Proof.
  intros kws v j H R. destruct (union_parsed _ _ R) as (c' & kws' & L & Q & P). injection Q as <-. pose proof (keyword_of _ _ _ _ _ P H) as K.
  destruct c' as [|[|[|[|[|[|[|[|c']]]]]]]]; [exact P | discriminate K.. | lia].
Qed.

Lemma one_of_parsed : forall kws v j, has (JObj kws) "oneOf" j -> read schemas_union (JObj kws) = Ok v -> parsed 7 kws v.
Proof.
  intros kws v j H R. destruct (union_parsed _ _ R) as (c' & kws' & L & Q & P). injection Q as <-. pose proof (keyword_of _ _ _ _ _ P H) as K.
  destruct c' as [|[|[|[|[|[|[|[|c']]]]]]]]; [discriminate K.. | exact P | lia].
Qed.

Lemma reference_ok : forall U x, x <> [] -> (forall c, In c x -> word_char (u_word U) c = true) -> reference_name U (path x) = Some x.
Proof.
  intros U x N W. unfold reference_name. assert (S : starts_with (str "#/definitions/") (path x) = true) by (apply starts_with_iff; exists x; reflexivity).
  rewrite S. assert (K : skipn (length (str "#/definitions/")) (path x) = x) by reflexivity. rewrite K.
  assert (Q : match rev x with c :: q => if N.eqb c 10 then rev q else x | [] => x end = x).
  { destruct (rev x) as [|c q] eqn:R; [reflexivity|]. destruct (N.eqb_spec c 10) as [->|_]; [|reflexivity].
    assert (I : In 10%N x) by (apply in_rev; rewrite R; left; reflexivity). specialize (W _ I). discriminate W. }
  rewrite Q. destruct x as [|a x]; [destruct (N eq_refl)|]. destruct (forallb (word_char (u_word U)) (a :: x)) eqn:F; [reflexivity|].
  exfalso. assert (X : forallb (word_char (u_word U)) (a :: x) = true) by (apply forallb_forall; exact W). congruence.
Qed.

Lemma check_ok : forall U x, field_name U x -> check_field_name U x = Ok tt.
Proof.
  intros U x (I & K & N). unfold check_field_name. rewrite I, K. cbn [negb]. destruct (starts_with (str "__") x) eqn:S; [|reflexivity].
  apply starts_with_iff in S. destruct S as (r & ->). destruct (N r eq_refl).
Qed.

Lemma properties_ok : forall kws v, att kws v "properties" (TDict (TScalar KStr) schemas_union) ->
  (lacks (JObj kws) "properties" -> get_properties v = Ok None) /\
  (forall ps, dict_get kws (str "properties") = Some (JObj ps) -> exists vs, get_properties v = Ok (Some vs) /\ pair_read ps vs).
Proof.
  intros kws v (w & G & D). unfold get_properties. rewrite G. cbn [bind]. split.
  - intros L. destruct D as [[_ ->] | (j & D & _)]; [reflexivity|]. rewrite (lacks_get _ _ L) in D. discriminate D.
  - intros ps H. destruct D as [[[D | D] _] | (j & D & NJ & R)]; try congruence. assert (j = JObj ps) by congruence. subst j.
    apply read_dict in R. destruct R as (ps' & vs & Q & -> & F). injection Q as <-. exists vs. split; [|exact F].
    rewrite dict_pairs. reflexivity.
Qed.

Lemma required_ok : forall kws v, att kws v "required" (TList (TScalar KStr)) -> exists o, get_required v = Ok o.
Proof.
  intros kws v (w & G & D). unfold get_required. rewrite G. cbn [bind]. destruct D as [[_ ->] | (j & D & NJ & R)]; [eauto|].
  apply read_strings in R. destruct R as (ss & _ & ->). rewrite str_values. cbn [bind]. eauto.
Qed.

Lemma closed_ok : forall kws v, att kws v "additionalProperties" (TScalar KBool) -> dict_get kws (str "additionalProperties") = Some (JBool false) ->
  optional_attr as_bool v (str "additionalProperties") = Ok (Some false).
Proof.
  intros kws v (w & G & D) H. unfold optional_attr. rewrite G. cbn [bind]. destruct D as [[[D | D] _] | (j & D & NJ & R)]; try congruence.
  assert (j = JBool false) by congruence. subst j. rewrite jto_scalar in R. injection R as <-. reflexivity.
Qed.

Section All.
  Variable U : unicode.
  Variable m : nat.

  Notation made := (made m).
  Notation grown := (grown m).
  Notation available := (available m).
  Notation untaken := (untaken m).

  Definition class_made (E : env) (ctx : pystr) (s : json) (o : res (env * (typ * option value))) (names : list pystr) : Prop :=
    exists E' c d, o = Ok (E', (TClass c, d)) /\ grown E E' names /\ (lacks s "default" -> d = None) /\ lookup E' m ctx = Some (true, TClass c).

  Lemma class_made_made : forall E ctx s o names, class_made E ctx s o names -> made E s o names.
  Proof. intros E ctx s o names (E' & c & d & -> & G & L & _). exists E', (TClass c), d. split; [reflexivity|]. split; [exact G|]. split; [exact Logic.I | exact L]. Qed.

  Lemma nodup_app : forall A (a b : list A), NoDup (a ++ b) -> NoDup a /\ NoDup b.
  Proof.
    intros A a b. induction a as [|x a IH]; intros N; [split; [constructor | exact N]|]. cbn [app] in N. inversion N as [|? ? N1 N2]; subst. destruct (IH N2) as [Na Nb].
    split; [|exact Nb]. constructor; [|exact Na]. intros I. apply N1. apply in_or_app. left. exact I.
  Qed.

  Lemma untaken_app : forall E a b, untaken E (a ++ b) -> untaken E a.
  Proof. intros E a b H x I. apply H. apply in_or_app. left. exact I. Qed.

  Section At.
  Variable D : list pystr.

  Definition node_ok (context : pystr) (s : json) (names : list pystr) : Prop :=
    forall E n v, json_wf s -> jdepth s < n -> read schemas_union s = Ok v -> available E D -> NoDup names -> untaken E names ->
    made E s (node_to_typedef U m n E context v) names.
  Definition class_ok (context : pystr) (s : json) (names : list pystr) : Prop :=
    forall E n v, json_wf s -> jdepth s < n -> read schemas_union s = Ok v -> available E D -> NoDup names -> untaken E names ->
    class_made E context s (node_to_typedef U m n E context v) names.
  Definition properties_made (context : pystr) (ps : list (pystr * json)) (names : list pystr) : Prop :=
    forall E n required vs, (forall x s, In (x, s) ps -> json_wf s /\ jdepth s < n) -> pair_read ps vs -> available E D -> NoDup names -> untaken E names ->
    exists E' fs, property_fields (node_to_typedef U m n) E context required vs = Ok (E', fs) /\ grown E E' names /\ forall f, In f fs -> field_name U (f_name f).
  Definition members_made (context : pystr) (ss : list json) (names : list pystr) : Prop :=
    forall E n vs, (forall s, In s ss -> json_wf s /\ jdepth s < n) -> Forall2 (fun s v => read schemas_union s = Ok v) ss vs -> available E D -> NoDup names -> untaken E names ->
    exists E' ds, member_types (node_to_typedef U m n) E context vs = Ok (E', ds) /\ grown E E' names /\ length ds = length ss /\
      forall d, In d ds -> solid (fst d) /\ snd d = None.

  (** Classes of objects, of either kind of node. *)
  Lemma object_made : forall E n ctx c kws v ps names, c = 6 \/ c = 8 -> parsed c kws v -> json_wf (JObj kws) -> jdepth (JObj kws) < S n ->
    has (JObj kws) "properties" (JObj ps) -> has (JObj kws) "additionalProperties" (JBool false) ->
    properties_made ctx ps names -> available E D -> NoDup (names ++ [ctx]) -> untaken E (names ++ [ctx]) ->
    class_made E ctx (JObj kws) (node_to_typedef U m (S n) E ctx v) (names ++ [ctx]).
  Proof.
    intros E n ctx c kws v ps names C P W L HP HA PM A N T.
    assert (AP : att kws v "properties" (TDict (TScalar KStr) schemas_union)) by (destruct C as [-> | ->]; eapply parsed_att; [|exact P|inl|  |exact P|inl]; lia).
    assert (AA : att kws v "additionalProperties" (TScalar KBool)) by (destruct C as [-> | ->]; eapply parsed_att; [|exact P|inl| |exact P|inl]; lia).
    assert (AR : att kws v "required" (TList (TScalar KStr))) by (destruct C as [-> | ->]; eapply parsed_att; [|exact P|inl| |exact P|inl]; lia).
    assert (X : exists attrs, v = VObj c attrs) by (destruct P as (attrs & -> & _); eauto). destruct X as (attrs & QV).
    pose proof (wf_has _ _ _ W HP) as GP. pose proof (wf_has _ _ _ W HA) as GA. apply dict_get_in in GP as IP.
    destruct (proj2 (properties_ok _ _ AP) ps GP) as (vs & GV & PR). destruct (required_ok _ _ AR) as (ors & GR). pose proof (closed_ok _ _ AA GA) as GC.
    destruct (PM E n (match ors with Some l => l | None => [] end) vs) as (E1 & fs & F & G & FN).
    - intros x s I. split; [eapply wf_value; [|exact I]; eapply wf_value; eassumption|]. apply depth_obj in I. apply depth_obj in IP. lia.
    - exact PR.
    - exact A.
    - exact (proj1 (nodup_app _ _ _ N)).
    - exact (untaken_app _ _ _ T).
    - assert (CH : mapM (fun f => check_field_name U (f_name f)) (sort_fields fs) = Ok (map (fun _ => tt) (sort_fields fs))).
      { assert (FN' : forall f, In f (sort_fields fs) -> field_name U (f_name f)) by (intros f I; apply FN; apply sort_in; exact I).
        clear - FN'. induction (sort_fields fs) as [|f l IH]; [reflexivity|]. cbn [mapM map]. rewrite (check_ok U _ (FN' f (or_introl eq_refl))), IH; [reflexivity|].
        intros g I. apply FN'. right. exact I. }
      assert (TC : taken E1 m ctx = false) by (apply (untaken_grown m E E1 names [ctx] T N G); left; reflexivity).
      destruct (new_class_makes m E1 ctx (CData false (sort_fields fs)) TC) as (E2 & k & NC & G2 & _ & LK).
      exists E2, k, None. split; [|split; [eapply grown_trans; eassumption | split; [reflexivity | exact LK]]].
      destruct C as [-> | ->]; rewrite QV in *; cbn [node_to_typedef]; rewrite GV; cbn [bind]; rewrite GC; cbn [bind]; rewrite GR; cbn [bind]; rewrite F; cbn [bind fst snd];
        rewrite CH; cbn [bind]; rewrite NC; reflexivity.
  Qed.

  Ltac of_node c := match goal with W : json_wf (JObj ?kws), R : read schemas_union (JObj ?kws) = Ok ?v, T : has (JObj ?kws) "type" _ |- _ =>
    let P := fresh "P" in let attrs := fresh "attrs" in let QV := fresh "QV" in
    pose proof (typed_parsed c kws v ltac:(lia) W T R) as P; assert (QV : exists attrs, v = VObj c attrs) by (destruct P as (attrs & QV & _); eauto); destruct QV as (attrs & QV) end.
  Ltac at_ := match goal with P : parsed _ ?kws ?v |- att ?kws ?v _ _ => eapply parsed_att; [|exact P|inl]; lia end.
  Ltac no_word := match goal with O : only (JObj ?kws) ?ks |- lacks (JObj ?kws) ?x => apply (only_lacks _ ks x O); reflexivity end.

  Lemma all_made :
    (forall context s names, makes U D context s names -> node_ok context s names) /\
    (forall context s names, makes_class U D context s names -> class_ok context s names) /\
    (forall context ps names, makes_properties U D context ps names -> properties_made context ps names) /\
    (forall context ss names, makes_members U D context ss names -> members_made context ss names).
  Proof.
    apply makes_all.
    - intros context s x O _ H NX WX ID E [|n] v W L R A N T; [lia|]. open_schema O. pose proof (ref_parsed _ _ _ H R) as P.
      destruct (parsed_view 0 kws v ltac:(lia) P) as [attrs r -> D1 G|? -> ? ?|? -> ? ?|? -> ? ?|? -> ? ? ? ?|? ? ? -> ? ? ? ?|? ? -> ? ? ? ? ?|? ? ? -> ? ? ?];
        try (destruct P as (? & Q & _); discriminate Q).
      2:{ destruct P as (? & Q & _). injection Q as -> _. destruct H0 as [X | X]; discriminate X. }
      apply wf_has in H; [|exact W]. assert (r = path x) by congruence. subst r.
      destruct (A x ID) as (t & LK & S). exists E, t, None. split; [|split; [apply grown_refl | split; [exact S | reflexivity]]].
      cbn [node_to_typedef]. rewrite G. cbn [bind]. rewrite (reference_ok U x NX WX). unfold module_get. rewrite LK. reflexivity.
    - intros context s O (_ & TY & _) V E [|n] v W L R A N T; [lia|]. open_schema O. of_node 1.
      assert (X : made E (JObj kws) (boolean_node E m v) []) by (apply boolean_made; [at_ | at_ | exact V]). subst v. exact X.
    - intros context s O (_ & TY & TF) V M1 M2 M3 E [|n] v W L R A N T; [lia|]. open_schema O. of_node 2.
      assert (X : made E (JObj kws) (integer_node E m v) []) by (apply integer_made; try at_; assumption). subst v. exact X.
    - intros context s O (_ & TY & TF) V M1 M2 E [|n] v W L R A N T; [lia|]. open_schema O. of_node 3.
      assert (X : made E (JObj kws) (number_node E m v) []) by (apply number_made; try at_; try no_word; try assumption; apply V). subst v. exact X.
    - intros context s O (_ & TY & TF) V M1 M2 DF E [|n] v W L R A N T; [lia|]. open_schema O. of_node 4.
      assert (X : made E (JObj kws) (string_node U E m context v) []) by (apply text_made; try at_; try no_word; assumption). subst v. exact X.
    - intros context s i names O (_ & TY & TF) HI LD _ IH E [|n] v W L R A N T; [lia|]. open_schema O. of_node 5.
      destruct (parsed_req 5 _ _ (fr "items" schemas_union) ltac:(lia) P ltac:(inl) eq_refl) as (j & w & G & _ & GW & RW). cbn [fr fp_prop fp_name fp_type] in *.
      apply wf_has in HI; [|exact W]. assert (j = i) by congruence. subst j. apply dict_get_in in HI.
      destruct (IH E n w) as (E' & t & d & Q & GR & S & ND); try assumption.
      { eapply wf_value; eassumption. } { apply depth_obj in HI. lia. }
      exists E', (TList t), None. split; [|split; [exact GR | split; [exact Logic.I | reflexivity]]]. subst v. cbn [node_to_typedef]. rewrite GW. cbn [bind]. rewrite Q. cbn [bind fst snd].
      rewrite (ND LD). reflexivity.
    - intros context s O (_ & TY & TF) MA MR E [|n] v W L R A N T; [lia|]. open_schema O. of_node 6.
      assert (AP : att kws v "properties" (TDict (TScalar KStr) schemas_union)) by at_.
      pose proof (proj1 (properties_ok _ _ AP) ltac:(no_word)) as GP. exists E, JsonType, None.
      split; [subst v; cbn [node_to_typedef]; rewrite GP; reflexivity|]. split; [apply grown_refl|]. split; [|reflexivity].
      split; [discriminate|]. intros u I. cbn in I. repeat (destruct I as [<- | I]; [exact (fun X => X)|]). destruct I.
    - intros context s ss names O _ HO NS _ IH E [|n] v W L R A N T; [lia|]. open_schema O. pose proof (one_of_parsed _ _ _ HO R) as P.
      assert (QV : exists attrs, v = VObj 7 attrs) by (destruct P as (attrs & QV & _); eauto). destruct QV as (attrs & QV).
      destruct (parsed_req 7 _ _ (fr "oneOf" (TList schemas_union)) ltac:(lia) P ltac:(inl) eq_refl) as (j & w & G & _ & GW & RW). cbn [fr fp_prop fp_name fp_type] in *.
      apply wf_has in HO; [|exact W]. assert (j = JArr ss) by congruence. subst j. apply read_list in RW. destruct RW as (ss' & vs & Q & -> & F). injection Q as <-. apply dict_get_in in HO.
      destruct (IH E n vs) as (E' & ds & Q & GR & LN & DS); try assumption.
      { intros s I. split; [eapply wf_element; [eapply wf_value; eassumption | exact I]|]. apply depth_arr in I. apply depth_obj in HO. lia. }
      assert (ND : existsb has_default ds = false).
      { destruct (existsb has_default ds) eqn:X; [|reflexivity]. apply existsb_exists in X. destruct X as (d & I & X). unfold has_default in X. rewrite (proj2 (DS d I)) in X. discriminate X. }
      destruct (mk_union_ok false (map fst ds)) as (u & MU & SU).
      { destruct ds as [|d ds]; [|discriminate]. destruct ss; [destruct (NS eq_refl) | discriminate LN]. }
      { intros t I. apply in_map_iff in I. destruct I as (d & <- & I). apply DS. exact I. }
      exists E', u, None. split; [|split; [exact GR | split; [exact SU | reflexivity]]]. subst v. cbn [node_to_typedef]. rewrite GW. cbn [bind]. rewrite Q. cbn [bind fst snd].
      rewrite ND, MU. reflexivity.
    - intros context s names _ IH E n v W L R A N T. apply (class_made_made E context). apply IH; assumption.
    - intros context s values O (_ & TY & TF) V HE MF MD M1 M2 E [|n] v W L R A N T; [lia|]. open_schema O. of_node 4.
      assert (X : class_made E context (JObj kws) (string_node U E m context v) [context]).
      { apply (enum_made U m E context kws v values); try at_; try no_word; try assumption. apply T. left. reflexivity. }
      subst v. exact X.
    - intros context s ps names O (_ & TY & TF) HP HA MR _ IH E [|n] v W L R A N T; [lia|]. open_schema O. of_node 6.
      eapply (object_made E n context 6); eauto.
    - intros context E n required vs B F A N T. inversion F; subst. exists E, []. split; [reflexivity|]. split; [apply grown_refl | intros f []].
    - intros context x s ps n1 n2 FN _ IH _ IHs E n required vs B F A N T. inversion F as [|p [y v] ps' vs' [QX R] F']; subst. cbn [fst snd] in *. subst y.
      destruct (B x s (or_introl eq_refl)) as [W L]. destruct (nodup_app _ _ _ N) as [N1 N2].
      destruct (IH E n v W L R A N1 (untaken_app _ _ _ T)) as (E1 & t & d & Q & G & S & _).
      destruct (IHs E1 n required vs') as (E2 & fs & Q2 & G2 & FS); [intros y q I; apply (B y q); right; exact I | exact F' | eapply available_grown; eassumption | exact N2 | eapply untaken_grown; eassumption|].
      assert (X : exists u, (if mem_str x required then Ok t else mk_union false [TScalar KNone; t]) = Ok u).
      { destruct (mem_str x required); [eauto|]. destruct (mk_union_ok false [TScalar KNone; t]) as (u & MU & _); [discriminate | intros w [<- | [<- | []]]; [exact Logic.I | exact S] | eauto]. }
      destruct X as (u & X). exists E2. eexists. split; [|split; [eapply grown_trans; eassumption|]].
      + cbn [property_fields]. assert (QB : context ++ str "__" ++ x = below context x) by reflexivity. rewrite QB, Q. cbn [bind]. rewrite X. cbn [bind]. rewrite Q2. cbn [bind fst snd]. reflexivity.
      + intros f [<- | I]; [exact FN | exact (FS f I)].
    - intros context E n vs B F A N T. inversion F; subst. exists E, []. split; [reflexivity|]. split; [apply grown_refl|]. split; [reflexivity | intros f []].
    - intros context s ss n1 n2 _ IH LD _ IHs E n vs B F A N T. inversion F as [|p v ss' vs' R F']; subst.
      destruct (B s (or_introl eq_refl)) as [W L]. destruct (nodup_app _ _ _ N) as [N1 N2].
      destruct (IH E n v W L R A N1 (untaken_app _ _ _ T)) as (E1 & t & d & Q & G & S & ND).
      destruct (IHs E1 n vs') as (E2 & ds & Q2 & G2 & LN & DS); [intros q I; apply (B q); right; exact I | exact F' | eapply available_grown; eassumption | exact N2 | eapply untaken_grown; eassumption|].
      exists E2, ((t, d) :: ds). split; [cbn [member_types]; rewrite Q; cbn [bind fst snd]; rewrite Q2; reflexivity|]. split; [eapply grown_trans; eassumption|].
      split; [cbn [length]; rewrite LN; reflexivity|]. intros e [<- | I]; [split; [exact S | exact (ND LD)] | exact (DS e I)].
  Qed.
  End At.

  (** ** Definitions *)

  Lemma again_grown : forall E x t, lookup E m x = Some (true, t) -> grown E (module_set E m x t) [].
  Proof.
    intros E x t L. assert (LS : forall s, lookup (module_set E m x t) m s = lookup E m s).
    { intros s. rewrite lookup_set, Nat.eqb_refl. cbn [andb]. destruct (pystr_eqb x s) eqn:Q; [|reflexivity]. apply pystr_eqb_eq in Q. subst s. congruence. }
    split.
    - exists []. rewrite app_nil_r. split; [reflexivity|]. split; [reflexivity | intros cl []].
    - intros s. unfold taken. rewrite LS. cbn [module_set e_classes In]. tauto.
    - intros s b H. rewrite LS. exact H.
  Qed.

  Definition defined (E : env) (x : pystr) : Prop := exists c, lookup E m x = Some (true, TClass c).

  Lemma makes_class_last : forall D context s names, makes_class U D context s names -> In context names.
  Proof. intros D context s names H. inversion H; subst; [left; reflexivity | apply in_or_app; right; left; reflexivity]. Qed.

  Lemma definitions_made : forall D ds names, makes_definitions U D ds names -> forall E n vs, (forall x s, In (x, s) ds -> json_wf s /\ jdepth s < n) -> pair_read ds vs ->
    available E D -> NoDup names -> untaken E names ->
    exists E', define_types U m n E vs = Ok E' /\ grown E E' names /\ available E' (rev (map fst ds) ++ D) /\ forall x, In x (map fst ds) -> defined E' x.
  Proof.
    intros D ds names H. induction H as [D|D x s ds n1 n2 MC LD _ IH]; intros E n vs B F A N T.
    - inversion F; subst. exists E. split; [reflexivity|]. split; [apply grown_refl|]. split; [exact A | intros x []].
    - inversion F as [|p [y v] ds' vs' [QX R] F']; subst. cbn [fst snd] in *. subst y. destruct (B x s (or_introl eq_refl)) as [W L]. destruct (nodup_app _ _ _ N) as [N1 N2].
      destruct (proj1 (proj2 (all_made D)) _ _ _ MC E n v W L R A N1 (untaken_app _ _ _ T)) as (E1 & c & d & Q & G & ND & LK).
      pose proof (again_grown E1 x (TClass c) LK) as G1. pose proof (grown_trans m _ _ _ _ _ G G1) as G2. rewrite app_nil_r in G2.
      assert (A2 : available (module_set E1 m x (TClass c)) (x :: D)).
      { intros y [<- | I]; [|exact (available_grown m _ _ _ _ A G2 y I)]. exists (TClass c). split; [apply (gw_keeps _ _ _ _ G1); exact LK | exact Logic.I]. }
      destruct (IH (module_set E1 m x (TClass c)) n vs') as (E2 & Q2 & G3 & A3 & DF); [intros y q I; apply (B y q); right; exact I | exact F' | exact A2 | exact N2 | eapply untaken_grown; eassumption|].
      exists E2. split; [|split; [eapply grown_trans; eassumption | split]].
      + cbn [define_types]. rewrite (T x) by (apply in_or_app; left; eapply makes_class_last; eassumption). rewrite Q. cbn [bind fst snd]. rewrite (ND LD). exact Q2.
      + cbn [map rev fst]. rewrite <- app_assoc. exact A3.
      + intros y [<- | I]; [|exact (DF y I)]. exists c. apply (gw_keeps _ _ _ _ G3). apply (gw_keeps _ _ _ _ G1). exact LK.
  Qed.

  Lemma definitions_read : forall D ds names, makes_definitions U D ds names -> forall x s, In (x, s) ds -> reads s.
  Proof.
    intros D ds names H. induction H as [D|D x s ds n1 n2 MC LD _ IH]; intros y q I; [destruct I|]. destruct I as [Q | I]; [|exact (IH y q I)]. injection Q as <- <-.
    exact (proj1 (proj2 (reads_all U D)) _ _ _ MC).
  Qed.

  Lemma dict_reads : forall ps, json_wf (JObj ps) -> (forall x s, In (x, s) ps -> reads s) -> exists w, read (TDict (TScalar KStr) schemas_union) (JObj ps) = Ok w.
  Proof.
    intros ps WP IH. rewrite (jto_dict Nodes nodes_guarded nodes_calm false 0 _ _ _ dict_ready).
    match goal with |- context [mapM ?f ps] => assert (Y : exists vs, mapM f ps = Ok vs) end; [|destruct Y as (vs & ->); eexists; reflexivity].
    apply mapM_total. intros [x p] I. cbn [parse_key bind]. destruct (IH x p I (wf_value _ _ _ WP I)) as (v & ->). eexists. reflexivity.
  Qed.

  Lemma definitions_ok : forall kws v, att kws v "definitions" (TDict (TScalar KStr) schemas_union) ->
    (lacks (JObj kws) "definitions" -> get_definitions v = Ok []) /\
    (forall ps, dict_get kws (str "definitions") = Some (JObj ps) -> exists vs, get_definitions v = Ok vs /\ pair_read ps vs).
  Proof.
    intros kws v (w & G & D). unfold get_definitions. rewrite G. cbn [bind]. split.
    - intros L. destruct D as [[_ ->] | (j & D & _)]; [reflexivity|]. rewrite (lacks_get _ _ L) in D. discriminate D.
    - intros ps H. destruct D as [[[D | D] _] | (j & D & NJ & R)]; try congruence. assert (j = JObj ps) by congruence. subst j.
      apply read_dict in R. destruct R as (ps' & vs & Q & -> & F). injection Q as <-. exists vs. split; [|exact F]. apply dict_pairs.
  Qed.

  (** ** Documents *)

  Lemma schema_reads : forall name doc ds ps n1 n2, json_wf doc -> makes_schema U name doc ds ps n1 n2 -> exists kws v, doc = JObj kws /\ read (TClass c_top) doc = Ok v /\ parsed 8 kws v.
  Proof.
    intros name doc ds ps n1 n2 W [O ((LT & LD) & TY & TF) (sc & HS) HD HP HA MR MD MP]. open_schema O.
    pose proof (wf_has _ _ _ W HP) as GP. pose proof (wf_value _ _ _ W (dict_get_in _ _ _ GP)) as WP.
    destruct (dict_reads ps WP (proj1 (proj2 (proj2 (reads_all U _))) _ _ _ MP)) as (w & RW).
    assert (MA : may (JObj kws) "additionalProperties" truth).
    { intros j H. apply wf_has in H; [|exact W]. apply wf_has in HA; [|exact W]. exists false. congruence. }
    assert (R : exists v, read (TClass 8) (JObj kws) = Ok v).
    { apply class_reads; [lia | | eapply only_props; [exact O | reflexivity]].
      unfold node_fps. fields_read.
      - unfold field_reads, parse_field. cbn [fo fp_mode fp_prop fp_type]. rewrite GP. exists w. exact RW.
      - eapply alias_reads. apply wf_has; eassumption.
      - unfold field_reads, parse_field. cbn [fo fp_mode fp_prop fp_type]. destruct HD as [HD | [_ HD]].
        + pose proof (wf_has _ _ _ W HD) as GD. rewrite GD. pose proof (wf_value _ _ _ W (dict_get_in _ _ _ GD)) as WD.
          destruct (dict_reads ds WD (definitions_read _ _ _ MD)) as (u & RU). exists u. exact RU.
        + rewrite (lacks_get _ _ HD). eexists. reflexivity. }
    destruct R as (v & R). exists kws, v. split; [reflexivity|]. split; [exact R|]. destruct (class_parsed 8 _ _ ltac:(lia) R) as (kws' & Q & P). injection Q as <-. exact P.
  Qed.

  Lemma schema_made : forall E name doc ds ps n1 n2, json_wf doc -> makes_schema U name doc ds ps n1 n2 -> NoDup (n1 ++ n2 ++ [name]) -> untaken E (n1 ++ n2 ++ [name]) ->
    exists E' c, schema_to_type U E m name doc = Ok (E', TClass c) /\ grown E E' (n1 ++ n2 ++ [name]) /\ lookup E' m name = Some (true, TClass c) /\
    forall x, In x (map fst ds) -> defined E' x.
  Proof.
    intros E name doc ds ps n1 n2 W MS N T. destruct (schema_reads _ _ _ _ _ _ W MS) as (kws & v & -> & R & P).
    destruct MS as [O ((LT & LD) & TY & TF) (sc & HS) HD HP HA MR MD MP].
    assert (AD : att kws v "definitions" (TDict (TScalar KStr) schemas_union)) by (eapply (parsed_att 8); [lia | exact P | inl]).
    assert (X : exists vs, get_definitions v = Ok vs /\ pair_read ds vs /\ forall x s, In (x, s) ds -> json_wf s /\ jdepth s < S (jdepth (JObj kws))).
    { destruct HD as [HD | [-> HD]].
      - pose proof (wf_has _ _ _ W HD) as GD. pose proof (dict_get_in _ _ _ GD) as ID. destruct (proj2 (definitions_ok _ _ AD) ds GD) as (vs & GV & PR). exists vs. split; [exact GV|]. split; [exact PR|].
        intros x s I. split; [eapply wf_value; [|exact I]; eapply wf_value; eassumption|]. apply depth_obj in I. apply depth_obj in ID. lia.
      - exists []. split; [exact (proj1 (definitions_ok _ _ AD) HD)|]. split; [constructor | intros x s []]. }
    destruct X as (vs & GV & PR & B). destruct (nodup_app _ _ _ N) as [N1 N2].
    destruct (definitions_made [] ds n1 MD E (S (jdepth (JObj kws))) vs B PR) as (E1 & Q1 & G1 & A1 & D1); [intros x [] | exact N1 | exact (untaken_app _ _ _ T)|].
    rewrite app_nil_r in A1.
    destruct (object_made (rev (map fst ds)) E1 (jdepth (JObj kws)) name 8 kws v ps n2) as (E2 & c & d & Q2 & G2 & _ & LK);
      [right; reflexivity | exact P | exact W | lia | exact HP | exact HA | exact (proj1 (proj2 (proj2 (all_made _))) _ _ _ MP) | exact A1 | exact N2 | eapply untaken_grown; eassumption|].
    exists E2, c. split; [|split; [eapply grown_trans; eassumption | split; [exact LK|]]].
    - unfold schema_to_type. rewrite R. cbn [bind]. rewrite GV. cbn [bind]. rewrite Q1. cbn [bind]. rewrite Q2. reflexivity.
    - intros x I. destruct (D1 x I) as (k & L). exists k. apply (gw_keeps _ _ _ _ G2). exact L.
  Qed.
End All.
