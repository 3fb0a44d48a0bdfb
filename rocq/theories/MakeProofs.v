(** Types are made from the schemas of SpecMake.v. *)
From Coq Require Import String List NArith ZArith Bool Lia.
From Verif Require Import Base Json PyTypes Mapping Deser ClassDef Lists TypingFacts DeserSound SpecTypes SpecRecursion Samples DeserFuel DeserBuild DeserUnfold Flatten TypeDef
  SpecClassDef ClassDefProofs SpecTypeDef TypeDefNodes TypeDefEnv TypeDefGrow SpecMake MakeRead.
Import ListNotations.
Open Scope list_scope.
Open Scope nat_scope.

(** ** Attributes *)

Definition converts {A} (conv : value -> option A) (t : typ) (P : json -> Prop) (Q : A -> Prop) : Prop :=
  forall j, P j -> j <> JNull /\ exists w a, read t j = Ok w /\ w <> VNone /\ conv w = Some a /\ Q a.

Lemma attr_ok : forall A (conv : value -> option A) kws v x t P Q, att kws v x t -> may (JObj kws) x P -> converts conv t P Q ->
  exists r, optional_attr conv v (str x) = Ok r /\ (lacks (JObj kws) x -> r = None) /\ match r with Some a => Q a | None => True end.
Proof.
  intros A conv kws v x t P Q (w & G & D) M C. unfold optional_attr. rewrite G. cbn [bind]. destruct D as [[D ->] | (j & D & NJ & R)].
  - exists None. auto.
  - destruct (C j (may_get _ _ _ _ M D)) as (_ & w' & a & R' & NN & CA & QA). assert (w' = w) by congruence. subst w'.
    exists (Some a). split; [destruct w; try (rewrite CA; reflexivity); destruct (NN eq_refl)|]. split; [|exact QA].
    intros L. rewrite (lacks_get _ _ L) in D. discriminate D.
Qed.

Lemma attr_none : forall A (conv : value -> option A) kws v x t, att kws v x t -> lacks (JObj kws) x -> optional_attr conv v (str x) = Ok None.
Proof.
  intros A conv kws v x t (w & G & D) L. unfold optional_attr. rewrite G. cbn [bind]. destruct D as [[D ->] | (j & D & NJ & R)]; [reflexivity|].
  rewrite (lacks_get _ _ L) in D. discriminate D.
Qed.

Lemma attr_text : forall kws v x s, att kws v x (TScalar KStr) -> optional_attr as_str v (str x) = Ok (Some s) -> has (JObj kws) x (JStr s).
Proof.
  intros kws v x s (w & G & D) H. unfold optional_attr in H. rewrite G in H. cbn [bind] in H. destruct D as [[D ->] | (j & D & NJ & R)]; [discriminate H|].
  exists kws. split; [reflexivity|]. apply dict_get_in in D. destruct j; try discriminate R. injection R as <-. injection H as ->. exact D.
Qed.

Lemma format_named : forall f k, format_type f = Some k -> exists g, f = str g /\ In (g, k) text_formats.
Proof.
  intros f k H. unfold format_type in H.
  repeat match type of H with (if pystr_eqb ?a ?b then _ else _) = _ => let Q := fresh in destruct (pystr_eqb a b) eqn:Q; [apply pystr_eqb_eq in Q; subst f; injection H as <-; eexists; split; [reflexivity|]; cbn; tauto|] end.
  discriminate H.
Qed.

Lemma conv_text : converts as_str (TScalar KStr) text (fun _ => True).
Proof. intros j (s & ->). split; [discriminate|]. exists (VStr s), s. rewrite jto_scalar. repeat split. discriminate. Qed.
Lemma conv_truth : converts as_bool (TScalar KBool) truth (fun _ => True).
Proof. intros j (s & ->). split; [discriminate|]. exists (VBool s), s. rewrite jto_scalar. repeat split. discriminate. Qed.
Lemma conv_whole : converts as_int (TScalar KInt) whole (fun _ => True).
Proof. intros j (s & ->). split; [discriminate|]. exists (VInt s), s. rewrite jto_scalar. repeat split. discriminate. Qed.
Lemma conv_natural : converts as_int (TScalar KInt) natural (fun z => (0 <= z)%Z).
Proof. intros j (s & -> & L). split; [discriminate|]. exists (VInt s), s. rewrite jto_scalar. repeat split; [discriminate | exact L]. Qed.
Lemma conv_real : converts as_float (TScalar KFloat) real (fun _ => True).
Proof. intros j (s & ->). split; [discriminate|]. exists (VFloat s), s. rewrite jto_scalar. repeat split. discriminate. Qed.
Lemma conv_wholes : converts (as_list as_int) (TList (TScalar KInt)) (fun j => each whole j /\ j <> JArr []) (fun l => l <> []).
Proof.
  intros j ((js & -> & F) & N). split; [discriminate|].
  assert (X : exists zs, js = map JInt zs).
  { clear N. induction js as [|x js IH]; [exists []; reflexivity|]. destruct (F x (or_introl eq_refl)) as (z & ->). destruct IH as (zs & ->); [intros y I; apply F; right; exact I|].
    exists (z :: zs). reflexivity. }
  destruct X as (zs & ->). exists (VList (map VInt zs)), zs. split.
  - rewrite (jto_list Nodes nodes_guarded nodes_calm false 0 _ _ (scalars_ready KInt)).
    assert (Y : mapM (json_to_object Nodes false 0 (TScalar KInt)) (map JInt zs) = Ok (map VInt zs)); [|rewrite Y; reflexivity].
    clear. induction zs as [|z zs IH]; [reflexivity|]. cbn [map mapM]. rewrite IH, jto_scalar. reflexivity.
  - split; [discriminate|]. split; [|intros ->; apply N; reflexivity]. unfold as_list. clear. induction zs as [|z zs IH]; [reflexivity|]. cbn [map all_some as_int] in *. rewrite IH. reflexivity.
Qed.
Lemma conv_exact : forall values, converts (as_list as_str) (TList (TScalar KStr)) (fun j => j = JArr (map JStr values)) (fun l => l = values).
Proof.
  intros values j ->. split; [discriminate|]. exists (VList (map VStr values)), values. split.
  - rewrite (jto_list Nodes nodes_guarded nodes_calm false 0 _ _ strings_ready).
    assert (Y : mapM (json_to_object Nodes false 0 (TScalar KStr)) (map JStr values) = Ok (map VStr values)); [|rewrite Y; reflexivity].
    clear. induction values as [|z zs IH]; [reflexivity|]. cbn [map mapM]. rewrite IH, jto_scalar. reflexivity.
  - split; [discriminate|]. split; [|reflexivity]. unfold as_list. apply all_some_map.
Qed.

Section Make.
  Variable U : unicode.
  Variable m : nat.

  (** ** The program *)

  Definition is_union (t : typ) : Prop := match t with TUnion _ _ => True | _ => False end.
  Definition solid (t : typ) : Prop := match t with TUnion _ us => us <> [] /\ forall u, In u us -> ~ is_union u | _ => True end.

  Record grown (E E' : env) (names : list pystr) : Prop := {
    gw_classes : exists cls, e_classes E' = e_classes E ++ cls /\ map c_name cls = names /\ forall cl, In cl cls -> c_module cl = m;
    gw_taken : forall x, taken E' m x = true <-> taken E m x = true \/ In x names;
    gw_keeps : keeps m E E'
  }.

  Definition available (E : env) (D : list pystr) : Prop := forall x, In x D -> exists t, lookup E m x = Some (true, t) /\ solid t.

  Lemma grown_refl : forall E, grown E E [].
  Proof.
    intros E. split; [exists []; rewrite app_nil_r; repeat split; intros cl [] | intros x; cbn [In]; tauto | apply keeps_refl].
  Qed.

  Lemma grown_trans : forall E F G a b, grown E F a -> grown F G b -> grown E G (a ++ b).
  Proof.
    intros E F G a b [(c1 & Q1 & N1 & M1) T1 K1] [(c2 & Q2 & N2 & M2) T2 K2]. split.
    - exists (c1 ++ c2). rewrite Q2, Q1, app_assoc, map_app, N1, N2. split; [reflexivity|]. split; [reflexivity|]. intros cl I. apply in_app_or in I. destruct I; auto.
    - intros x. rewrite T2, T1, in_app_iff. tauto.
    - eapply keeps_trans; eassumption.
  Qed.

  Lemma available_grown : forall E E' D names, available E D -> grown E E' names -> available E' D.
  Proof. intros E E' D names A G x I. destruct (A x I) as (t & L & S). exists t. split; [apply (gw_keeps _ _ _ G), L | exact S]. Qed.

  Definition untaken (E : env) (names : list pystr) : Prop := forall x, In x names -> taken E m x = false.

  Lemma untaken_grown : forall E E' a b, untaken E (a ++ b) -> NoDup (a ++ b) -> grown E E' a -> untaken E' b.
  Proof.
    intros E E' a b T N G x I. destruct (taken E' m x) eqn:Q; [|reflexivity]. apply (gw_taken _ _ _ G) in Q. destruct Q as [Q | Q].
    - rewrite (T x) in Q; [discriminate Q | apply in_or_app; right; exact I].
    - exfalso. clear - N I Q. induction a as [|y a IH]; [destruct Q|]. cbn [app] in N. inversion N as [|? ? N1 N2]; subst. destruct Q as [-> | Q]; [|exact (IH N2 Q)].
      apply N1. apply in_or_app. right. exact I.
  Qed.

  Lemma new_class_makes : forall E x k, taken E m x = false -> exists E' c, new_class E m x k = Ok (E', TClass c) /\ grown E E' [x] /\
    get_class E' c = Some (mkClass m x k None None) /\ lookup E' m x = Some (true, TClass c).
  Proof.
    intros E x k T. unfold new_class. rewrite T. eexists. exists (length (e_classes E)). split; [reflexivity|].
    assert (LK : forall s, lookup (module_set (mkEnv (e_classes E ++ [mkClass m x k None None]) (e_refs E) (e_order E)) m x (TClass (length (e_classes E)))) m s =
      if pystr_eqb x s then Some (true, TClass (length (e_classes E))) else lookup E m s).
    { intros s. rewrite lookup_set, Nat.eqb_refl. cbn [andb]. reflexivity. }
    split; [split|split].
    - exists [mkClass m x k None None]. repeat split. intros cl [<- | []]. reflexivity.
    - intros y. unfold taken at 1. rewrite LK. cbn [e_classes module_set]. rewrite existsb_app. cbn [existsb c_module c_name]. rewrite Nat.eqb_refl. cbn [andb]. rewrite orb_false_r.
      destruct (pystr_eqb x y) eqn:Q.
      + apply pystr_eqb_eq in Q. subst y. split; [intros _; right; left; reflexivity | reflexivity].
      + rewrite orb_false_r. change (taken E m y = true <-> taken E m y = true \/ In y [x]). split; [auto|]. intros [H | [-> | []]]; [exact H|]. rewrite pystr_eqb_refl in Q. discriminate Q.
    - intros y b L. rewrite LK. destruct (pystr_eqb x y) eqn:Q; [|exact L]. apply pystr_eqb_eq in Q. subst y. rewrite (untaken_lookup _ _ _ T) in L. discriminate L.
    - unfold get_class. cbn [e_classes module_set]. rewrite nth_error_app2, Nat.sub_diag; [reflexivity | lia].
    - rewrite LK, pystr_eqb_refl. reflexivity.
  Qed.

  (** ** Unions *)

  Lemma dedup_some : forall t ts, dedup [] (t :: ts) <> [].
  Proof. intros t ts. cbn [dedup existsb]. discriminate. Qed.

  Lemma dedup_in : forall ts seen t, In t (dedup seen ts) -> In t ts.
  Proof.
    induction ts as [|u ts IH]; intros seen t I; cbn [dedup] in I; [destruct I|]. destruct (existsb (typ_eqb u) seen); [right; exact (IH _ _ I)|].
    destruct I as [-> | I]; [left; reflexivity | right; exact (IH _ _ I)].
  Qed.

  Lemma solid_leaf : forall t, ~ is_union t -> solid t.
  Proof. intros [k|b|w|w|k w|us|o us|ls|w md|x|s|] N; try exact Logic.I. destruct (N Logic.I). Qed.

  Lemma flatten_leaves : forall ts, (forall t, In t ts -> solid t) -> forall u, In u (flatten_union ts) -> ~ is_union u.
  Proof.
    intros ts S u I. unfold flatten_union in I. apply in_flat_map in I. destruct I as (t & J & I). pose proof (S t J) as St.
    destruct t as [k|b|w|w|k w|us|o us|ls|w md|x|s|]; try (destruct I as [<- | []]; exact (fun X => X)). exact (proj2 St u I).
  Qed.

  Lemma mk_union_ok : forall op ts, ts <> [] -> (forall t, In t ts -> solid t) -> exists u, mk_union op ts = Ok u /\ solid u.
  Proof.
    intros op ts N S. unfold mk_union. pose proof (flatten_leaves ts S) as FL. assert (X : exists a l, flatten_union ts = a :: l).
    { destruct ts as [|t ts]; [destruct (N eq_refl)|]. pose proof (S t (or_introl eq_refl)) as St. unfold flatten_union. cbn [flat_map].
      destruct t as [k|b|w|w|k w|us|o us|ls|w md|x|s|]; try (eexists; eexists; reflexivity). destruct us as [|u us]; [destruct (proj1 St eq_refl)|]. eexists. eexists. reflexivity. }
    destruct X as (a & l & X). rewrite X in *. pose proof (dedup_some a l) as D. pose proof (fun u => dedup_in (a :: l) [] u) as DI.
    destruct (dedup [] (a :: l)) as [|u [|u2 us]]; [destruct (D eq_refl) | |].
    - exists u. split; [reflexivity|]. apply solid_leaf. apply FL. apply DI. left. reflexivity.
    - eexists. split; [reflexivity|]. split; [discriminate|]. intros w I. apply FL. apply DI. exact I.
  Qed.

  (** ** Simple nodes *)

  Definition made (E : env) (s : json) (o : res (env * (typ * option value))) (names : list pystr) : Prop :=
    exists E' t d, o = Ok (E', (t, d)) /\ grown E E' names /\ solid t /\ (lacks s "default" -> d = None).

  Ltac attr conv_lemma A M := 
    let r := fresh "r" in let R := fresh "R" in let N := fresh "N" in let Q := fresh "Q" in
    destruct (attr_ok _ _ _ _ _ _ _ _ A M conv_lemma) as (r & R & N & Q); rewrite R; cbn [bind].

  Lemma boolean_made : forall E kws v, att kws v "const" (TScalar KBool) -> att kws v "default" (TScalar KBool) -> valued (JObj kws) truth ->
    made E (JObj kws) (boolean_node E m v) [].
  Proof.
    intros E kws v A1 A2 (V1 & V2 & _). unfold boolean_node. attr conv_truth A1 V1. destruct r as [b|].
    - exists E, (TLiteral [LBool b]), None. split; [reflexivity|]. split; [apply grown_refl|]. split; [exact Logic.I | reflexivity].
    - attr conv_truth A2 V2. destruct r as [b|]; cbn [option_map with_default].
      + exists E, (TScalar KBool), (Some (VBool b)). split; [reflexivity|]. split; [apply grown_refl|]. split; [exact Logic.I|]. intros L. discriminate (N0 L).
      + exists E, (TScalar KBool), None. split; [reflexivity|]. split; [apply grown_refl|]. split; [exact Logic.I | reflexivity].
  Qed.

  Lemma integer_type_ok : forall f enum lo hi, match enum with Some l => l <> [] | None => True end -> exists t, integer_node_type f enum lo hi = Ok t.
  Proof.
    intros f enum lo hi N. unfold integer_node_type.
    assert (X : exists t, match enum with
      | Some vs => do lo <- min_of vs; do hi <- max_of vs; Ok (integer_range_to_type lo hi)
      | None => match lo, hi with Some lo, Some hi => Ok (integer_range_to_type lo hi) | _, _ => Ok PlainInt end end = Ok t).
    { destruct enum as [[|z zs]|]; [destruct (N eq_refl) | eexists; reflexivity|]. destruct lo, hi; eexists; reflexivity. }
    destruct f as [f|]; [|exact X]. destruct (pystr_eqb f (str "int16")); [eauto|]. destruct (pystr_eqb f (str "int32")); [eauto|]. destruct (pystr_eqb f (str "int64")); [eauto | exact X].
  Qed.

  Lemma integer_made : forall E kws v, att kws v "const" (TScalar KInt) -> att kws v "default" (TScalar KInt) -> att kws v "format" (TScalar KStr) ->
    att kws v "enum" (TList (TScalar KInt)) -> att kws v "minimum" (TScalar KInt) -> att kws v "maximum" (TScalar KInt) ->
    valued (JObj kws) whole -> may (JObj kws) "format" text -> may (JObj kws) "minimum" whole -> may (JObj kws) "maximum" whole ->
    may (JObj kws) "enum" (fun j => each whole j /\ j <> JArr []) -> made E (JObj kws) (integer_node E m v) [].
  Proof.
    intros E kws v A1 A2 A3 A4 A5 A6 (V1 & V2 & _) M1 M2 M3 M4. unfold integer_node. attr conv_whole A1 V1. destruct r as [b|].
    - exists E, (TLiteral [LInt b]), None. split; [reflexivity|]. split; [apply grown_refl|]. split; [exact Logic.I | reflexivity].
    - attr conv_text A3 M1. attr conv_wholes A4 M4. attr conv_whole A5 M2. attr conv_whole A6 M3.
      destruct (integer_type_ok r r0 r1 r2 Q1) as (t & T). rewrite T. cbn [bind]. attr conv_whole A2 V2.
      assert (SO : solid (integer_type t)) by (destruct t; exact Logic.I).
      destruct r3 as [z|]; cbn [option_map with_default].
      + exists E, (integer_type t), (Some (VInt z)). assert (X : json_to_object E false m (integer_type t) (JInt z) = Ok (VInt z)) by (destruct t; reflexivity).
        rewrite X. split; [reflexivity|]. split; [apply grown_refl|]. split; [exact SO|]. intros L. discriminate (N4 L).
      + exists E, (integer_type t), None. split; [reflexivity|]. split; [apply grown_refl|]. split; [exact SO | reflexivity].
  Qed.

  Lemma number_made : forall E kws v, att kws v "const" (TScalar KFloat) -> att kws v "default" (TScalar KFloat) -> att kws v "format" (TScalar KStr) ->
    att kws v "exclusiveMinimum" (TScalar KFloat) -> att kws v "exclusiveMaximum" (TScalar KFloat) -> att kws v "multipleOf" (TScalar KFloat) ->
    lacks (JObj kws) "const" -> lacks (JObj kws) "exclusiveMinimum" -> lacks (JObj kws) "exclusiveMaximum" -> lacks (JObj kws) "multipleOf" ->
    may (JObj kws) "default" real -> may (JObj kws) "format" text -> made E (JObj kws) (number_node E m v) [].
  Proof.
    intros E kws v A1 A2 A3 A4 A5 A6 L1 L2 L3 L4 V2 M1. unfold number_node.
    rewrite (attr_none _ as_float _ _ _ _ A1 L1). cbn [bind]. attr conv_text A3 M1.
    rewrite (attr_none _ as_float _ _ _ _ A4 L2). cbn [bind]. rewrite (attr_none _ as_float _ _ _ _ A5 L3). cbn [bind]. rewrite (attr_none _ as_float _ _ _ _ A6 L4). cbn [bind].
    attr conv_real A2 V2.
    assert (X : exists t, (do t <- match r with
              | Some f =>
                  if pystr_eqb f (str "float32") then Ok (Some (TAnnot (TScalar KFloat) [AStorage 4]))
                  else if pystr_eqb f (str "float64") then Ok (Some (TAnnot (TScalar KFloat) [AStorage 8]))
                  else Ok None
              | None => Ok None
              end; match t with Some t => Ok t | None => Ok (TScalar KFloat) end) = Ok t /\ (t = TScalar KFloat \/ exists md, t = TAnnot (TScalar KFloat) md)).
    { destruct r as [f|]; [|eexists; split; [reflexivity | left; reflexivity]]. destruct (pystr_eqb f (str "float32")); [eexists; split; [reflexivity | right; eexists; reflexivity]|].
      destruct (pystr_eqb f (str "float64")); [eexists; split; [reflexivity | right; eexists; reflexivity]|]. eexists. split; [reflexivity | left; reflexivity]. }
    destruct X as (t & X & T). apply bind_ok in X. destruct X as (ot & X1 & X2). rewrite X1. cbn [bind].
    assert (Y : match ot with Some t => Ok t | None => Ok (TScalar KFloat) end = Ok t) by exact X2. 
    assert (SO : solid t) by (destruct T as [-> | (md & ->)]; exact Logic.I).
    destruct ot as [t'|]; injection Y as <-; cbn [bind]; destruct r0 as [z|]; cbn [option_map with_default].
    - exists E, t', (Some (VFloat z)). assert (X : json_to_object E false m t' (JFloat z) = Ok (VFloat z)) by (destruct T as [-> | (md & ->)]; reflexivity).
      rewrite X. split; [reflexivity|]. split; [apply grown_refl|]. split; [exact SO|]. intros L. discriminate (N0 L).
    - exists E, t', None. split; [reflexivity|]. split; [apply grown_refl|]. split; [exact SO | reflexivity].
    - exists E, (TScalar KFloat), (Some (VFloat z)). split; [reflexivity|]. split; [apply grown_refl|]. split; [exact SO|]. intros L. discriminate (N0 L).
    - exists E, (TScalar KFloat), None. split; [reflexivity|]. split; [apply grown_refl|]. split; [exact SO | reflexivity].
  Qed.

  Lemma text_made : forall E ctx kws v, att kws v "const" (TScalar KStr) -> att kws v "default" (TScalar KStr) -> att kws v "format" (TScalar KStr) ->
    att kws v "enum" (TList (TScalar KStr)) -> att kws v "maxLength" (TScalar KInt) ->
    valued (JObj kws) text -> may (JObj kws) "format" text -> lacks (JObj kws) "enum" -> may (JObj kws) "maxLength" natural ->
    timely (JObj kws) -> made E (JObj kws) (string_node U E m ctx v) [].
  Proof.
    intros E ctx kws v A1 A2 A3 A4 A5 (V1 & V2 & _) M1 L1 M2 DF. unfold string_node. attr conv_text A1 V1. destruct r as [b|].
    - exists E, (TLiteral [LStr b]), None. split; [reflexivity|]. split; [apply grown_refl|]. split; [exact Logic.I | reflexivity].
    - attr conv_text A3 M1. rewrite (attr_none _ (as_list as_str) _ _ _ _ A4 L1). cbn [bind]. attr conv_natural A5 M2. attr conv_text A2 V2.
      destruct (match r with Some f => format_type f | None => None end) as [k|] eqn:K.
      + cbn [bind]. destruct r as [f|]; [|discriminate K]. destruct r1 as [z|]; cbn [option_map with_default fst snd].
        * destruct (format_named f k K) as (g & -> & I). destruct (DF g k z I (attr_text _ _ _ _ A3 R0) (attr_text _ _ _ _ A2 R2)) as (w & PW).
          exists E, (TScalar k), (Some w). assert (Y : json_to_object E false m (TScalar k) (JStr z) = Ok w) by exact PW.
          rewrite Y. split; [reflexivity|]. split; [apply grown_refl|]. split; [exact Logic.I|]. intros L. discriminate (N2 L).
        * exists E, (TScalar k), None. split; [reflexivity|]. split; [apply grown_refl|]. split; [exact Logic.I | reflexivity].
      + assert (X : exists t, match r0 with Some n => if (n <? 0)%Z then Err EUnmodelled else Ok (E, TAnnot (TScalar KStr) [AMaxLength (Z.to_N n)]) | None => Ok (E, TScalar KStr) end = Ok (E, t) /\
          (t = TScalar KStr \/ exists md, t = TAnnot (TScalar KStr) md)).
        { destruct r0 as [n|]; [|eexists; split; [reflexivity | left; reflexivity]]. destruct (n <? 0)%Z eqn:Z; [apply Z.ltb_lt in Z; lia|]. eexists. split; [reflexivity | right; eexists; reflexivity]. }
        destruct X as (t & X & T). rewrite X. cbn [bind fst snd]. assert (SO : solid t) by (destruct T as [-> | (md & ->)]; exact Logic.I).
        destruct r1 as [z|]; cbn [option_map with_default].
        * exists E, t, (Some (VStr z)). assert (Y : json_to_object E false m t (JStr z) = Ok (VStr z)) by (destruct T as [-> | (md & ->)]; reflexivity).
          rewrite Y. split; [reflexivity|]. split; [apply grown_refl|]. split; [exact SO|]. intros L. discriminate (N2 L).
        * exists E, t, None. split; [reflexivity|]. split; [apply grown_refl|]. split; [exact SO | reflexivity].
  Qed.

  Lemma find_member : forall (label : pystr -> pystr) values v, In v values -> exists x, enum_find (map (fun v => (label v, JStr v)) values) (JStr v) = Some x.
  Proof.
    intros label values v I. induction values as [|w values IH]; [destruct I|]. cbn [map enum_find]. 
    assert (Q : scalar_eqb (JStr w) (JStr v) = pystr_eqb w v) by reflexivity. rewrite Q. destruct (pystr_eqb w v) eqn:P; [eauto|].
    destruct I as [-> | I]; [rewrite pystr_eqb_refl in P; discriminate P | exact (IH I)].
  Qed.

  Lemma enum_made : forall E ctx kws v values, att kws v "const" (TScalar KStr) -> att kws v "default" (TScalar KStr) -> att kws v "format" (TScalar KStr) ->
    att kws v "enum" (TList (TScalar KStr)) -> att kws v "maxLength" (TScalar KInt) -> json_wf (JObj kws) ->
    lacks (JObj kws) "const" -> lacks (JObj kws) "format" -> has (JObj kws) "enum" (JArr (map JStr values)) -> may (JObj kws) "maxLength" whole ->
    may (JObj kws) "default" (fun j => exists v, j = JStr v /\ In v values) -> members_for U ctx values -> taken E m ctx = false ->
    exists E' c d, string_node U E m ctx v = Ok (E', (TClass c, d)) /\ grown E E' [ctx] /\ (lacks (JObj kws) "default" -> d = None) /\ lookup E' m ctx = Some (true, TClass c).
  Proof.
    intros E ctx kws v values A1 A2 A3 A4 A5 W L1 L2 HE M2 MD [MN MM] T. unfold string_node.
    rewrite (attr_none _ as_str _ _ _ _ A1 L1). cbn [bind]. rewrite (attr_none _ as_str _ _ _ _ A3 L2). cbn [bind].
    assert (ME : may (JObj kws) "enum" (fun j => j = JArr (map JStr values))).
    { intros j H. apply wf_has in H; [|exact W]. apply wf_has in HE; [|exact W]. congruence. }
    attr (conv_exact values) A4 ME. destruct r as [l|].
    2:{ exfalso. pose proof (wf_has _ _ _ W HE) as G. destruct A4 as (w & GA & [[[D|D] _] | (j & D & NJ & RR)]); try congruence. unfold optional_attr in R. rewrite GA in R. cbn [bind] in R.
        apply read_strings in RR. destruct RR as (ss & _ & ->). destruct (as_list as_str (VList (map VStr ss))); discriminate R. }
    subst l. attr conv_whole A5 M2. rewrite (enum_from_strings_all (u_word U) ctx values MN MM). cbn [bind].
    destruct (new_class_makes E ctx (CEnum (map (fun v => (enum_safe_name (u_word U) v, JStr v)) values)) T) as (E' & c & NC & G & GC & LK). rewrite NC. cbn [bind fst snd].
    assert (CD : converts as_str (TScalar KStr) (fun j => exists v, j = JStr v /\ In v values) (fun x => In x values)).
    { intros j (x & -> & I). split; [discriminate|]. exists (VStr x), x. rewrite jto_scalar. repeat split; [discriminate | exact I]. }
    attr CD A2 MD. destruct r0 as [x|]; cbn [option_map with_default].
    - rewrite (jto_enum E' false m c _ _ (JStr x) GC eq_refl). unfold parse_enum. destruct (find_member (enum_safe_name (u_word U)) values x Q0) as (y & ->). cbn [bind].
      exists E', c, (Some (VEnum c y)). split; [reflexivity|]. split; [exact G|]. split; [|exact LK]. intros L. discriminate (N1 L).
    - exists E', c, None. split; [reflexivity|]. split; [exact G|]. split; [reflexivity | exact LK].
  Qed.
End Make.
