(** Deserialization of each kind of type. *)
From Coq Require Import String List NArith ZArith QArith Qabs Bool Lia Permutation.
From Verif Require Import Base Json PyTypes Mapping Deser Lists SpecTyping TypingFacts DeserSound
  SpecRecursion DeserFuel DeserBuild DeserUnfold SpecNumbers NumbersProofs SpecDeser.
Import ListNotations.
Open Scope list_scope.
Open Scope nat_scope.

Lemma exn_eq_dec : forall a b : exn, {a = b} + {a <> b}.
Proof. repeat decide equality. Qed.

(** * Enumerations *)

Lemma enum_find_some : forall ms j x w, In (x, w) ms -> scalar_eqb w j = true ->
  ForallOrdPairs (fun a b => forall d, scalar_eqb (snd a) d = true -> scalar_eqb (snd b) d = false) ms ->
  enum_find ms j = Some x.
Proof.
  induction ms as [|[y u] ms IH]; intros j x w I S F; [destruct I|]. cbn [enum_find].
  inversion F as [|? ? F1 F2]; subst. destruct I as [I|I].
  - injection I as -> ->. rewrite S. reflexivity.
  - rewrite Forall_forall in F1. destruct (scalar_eqb u j) eqn:X.
    + specialize (F1 _ I j X). cbn [snd] in F1. congruence.
    + eapply IH; eassumption.
Qed.

Lemma numeric_fun : forall j q q', numeric j q -> numeric j q' -> q = q'.
Proof.
  intros j q q' A B. destruct A; inversion B; subst; try reflexivity. congruence.
Qed.

Lemma json_equal_sym : forall a b, json_equal a b -> json_equal b a.
Proof.
  intros a b H. destruct H; try constructor. eapply je_num; try eassumption. symmetry. assumption.
Qed.

Lemma json_equal_trans : forall a b c, json_equal a b -> json_equal b c -> json_equal a c.
Proof.
  intros a b c H K. destruct H as [|s|a b q q' A B Q|neg].
  - inversion K; subst; try constructor. match goal with X : numeric JNull _ |- _ => inversion X end.
  - inversion K; subst; try constructor. match goal with X : numeric (JStr _) _ |- _ => inversion X end.
  - destruct K as [|s|b c r r' A' B' Q'|neg].
    + inversion B.
    + inversion B.
    + pose proof (numeric_fun _ _ _ B A') as <-. eapply je_num; try eassumption. rewrite Q. exact Q'.
    + inversion B; subst. discriminate.
  - inversion K; subst; try constructor.
    match goal with X : numeric (JFloat (FInf _)) _ |- _ => inversion X; subst; discriminate end.
Qed.

Lemma scalar_eqb_distinct : forall ms : list (pystr * json),
  ForallOrdPairs (fun a b => scalar_eqb (snd a) (snd b) = false) ms ->
  ForallOrdPairs (fun a b => forall d, scalar_eqb (snd a) d = true -> scalar_eqb (snd b) d = false) ms.
Proof.
  intros ms F. induction F as [|a l A _ IH]; constructor; [|exact IH].
  rewrite Forall_forall in *. intros b I d S. specialize (A b I).
  destruct (scalar_eqb (snd b) d) eqn:X; [|reflexivity].
  apply scalar_eqb_spec in S, X. apply json_equal_sym in X.
  assert (Y : scalar_eqb (snd a) (snd b) = true) by (apply scalar_eqb_spec; eapply json_equal_trans; eassumption).
  congruence.
Qed.

Lemma parse_enum_spec : forall c ms j x,
  ForallOrdPairs (fun a b => scalar_eqb (snd a) (snd b) = false) ms -> NoDup (map fst ms) ->
  (parse_enum c ms j = Ok (VEnum c x) <-> exists w, In (x, w) ms /\ json_equal w j).
Proof.
  intros c ms j x D N. unfold parse_enum. split.
  - destruct (enum_find ms j) as [y|] eqn:X; [|discriminate]. intros Q. injection Q as <-.
    apply enum_find_in in X. destruct X as (w & I & S). exists w. split; [exact I|]. apply scalar_eqb_spec. exact S.
  - intros (w & I & S). apply scalar_eqb_spec in S.
    rewrite (enum_find_some ms j x w I S (scalar_eqb_distinct _ D)). reflexivity.
Qed.

Lemma parse_enum_none : forall c ms j, (forall x w, In (x, w) ms -> ~ json_equal w j) -> parse_enum c ms j = Err EValue.
Proof.
  intros c ms j N. unfold parse_enum. destruct (enum_find ms j) as [y|] eqn:X; [|reflexivity].
  apply enum_find_in in X. destruct X as (w & I & S). apply scalar_eqb_spec in S. destruct (N _ _ I S).
Qed.

Lemma parse_enum_out : forall c ms j v, parse_enum c ms j = Ok v -> exists x, v = VEnum c x.
Proof. intros c ms j v. unfold parse_enum. destruct (enum_find ms j); [|discriminate]. intros Q. injection Q as <-. eauto. Qed.

(** * Kinds *)

Lemma json_equal_kind : forall w j, json_equal w j -> member_kind w (kind_of j).
Proof.
  intros w j H. destruct H; try (left; reflexivity). right.
  split; [destruct H | destruct H0]; cbn [kind_of]; tauto.
Qed.

Lemma parse_admits : forall E skip n m t j v, parse E skip n m t j = Ok v -> admits E m t (kind_of j).
Proof.
  intros E skip. induction n as [|n IH]; intros m t j v H; [discriminate|].
  destruct t; cbn [parse] in H.
  - constructor. destruct k, j; try discriminate; cbn [scalar_kind kind_of]; auto.
  - discriminate.
  - destruct j; try discriminate. constructor.
  - destruct j; try discriminate. constructor.
  - destruct j; try discriminate. constructor.
  - destruct j; try discriminate. constructor.
  - apply bind_ok in H. destruct H as (ps & D & H). destruct ps as [|p ps].
    + apply union_try_ok in H. destruct H as (t & I & H). eapply ad_union; [exact I|]. eapply IH. exact H.
    + apply bind_ok in H. destruct H as (tbl & T & H). destruct j as [| | | | | |o]; try discriminate.
      apply bind_ok in H. destruct H as (u & S & H). eapply ad_union; [|eapply IH; exact H].
      apply tag_select_in in S. destruct S as (p' & l & x & _ & I & _).
      apply (tag_table_in _ _ _ _ _ _ _ T) in I. tauto.
  - apply bind_ok in H. destruct H as (u & L & H). apply bind_ok in H. destruct H as (w & P & H).
    destruct ls as [|l ls]; [discriminate|]. cbn [literal_type] in L.
    destruct (forallb _ ls); [|discriminate]. injection L as <-.
    eapply ad_literal; [left; reflexivity|]. eapply IH. exact P.
  - constructor. destruct t; try discriminate; eapply IH; exact H.
  - destruct (get_class E c) as [cl|] eqn:G; [|discriminate].
    assert (X : (do fps <- field_parsers E cl; parse_object (parse E skip n (c_module cl)) skip c cl fps j) = Ok v ->
      (match c_kind cl with CEnum _ => False | _ => True end) -> admits E m (TClass c) (kind_of j)).
    { intros Q K. apply bind_ok in Q. destruct Q as (fps & _ & Q). destruct j; try discriminate.
      eapply ad_object; eassumption. }
    destruct (c_kind cl) as [ms|hs|xs|fr fs|hs] eqn:K; destruct (c_from_json cl) as [h|] eqn:F.
    1,2: unfold parse_enum in H; destruct (enum_find ms j) as [y|] eqn:Y; [|discriminate];
      apply enum_find_in in Y; destruct Y as (w & I & S); apply scalar_eqb_spec in S;
      eapply ad_enum; try eassumption; apply json_equal_kind; exact S.
    all: try (apply X; [exact H | exact I]).
    all: eapply ad_hook; try eassumption; rewrite K; exact I.
  - destruct (lookup E m s) as [[a u]|] eqn:L; [|discriminate]. eapply ad_ref; [exact L|].
    assert (D : admits E m (deref u) (kind_of j)).
    { destruct (deref u) eqn:DU; try discriminate; eapply IH; exact H. }
    destruct u; try exact D. constructor. exact D.
  - discriminate.
Qed.

(** * Keys *)

Lemma parse_key_spec : forall E k s v, env_ok E -> check_key_type E k = Ok tt ->
  (parse_key E k s = Ok v <-> key_of E k s v).
Proof.
  intros E k s v OK C. split.
  - intros H. destruct k; try discriminate; cbn [parse_key] in H.
    + destruct k; try discriminate. injection H as <-. constructor.
    + destruct (get_class E c) as [cl|] eqn:G; [|discriminate]. destruct (c_kind cl) as [ms| | | |] eqn:K; try discriminate.
      destruct (parse_enum_out _ _ _ _ H) as (x & ->).
      destruct (ok_members _ _ _ (OK _ _ G) _ K) as (N & _ & D).
      apply (parse_enum_spec c ms (JStr s) x D N) in H. destruct H as (w & I & S).
      inversion S; subst; [econstructor; eassumption|].
      match goal with X : numeric (JStr _) _ |- _ => inversion X end.
  - intros H. destruct H as [s|c cl ms x s G K I]; cbn [parse_key]; [reflexivity|].
    rewrite G, K. destruct (ok_members _ _ _ (OK _ _ G) _ K) as (N & _ & D).
    apply (parse_enum_spec c ms (JStr s) x D N). exists (JStr s). split; [exact I | constructor].
Qed.

(** * Sets *)

Lemma set_of_cover : forall E vs acc w, In w acc \/ In w vs ->
  exists u, In u (set_of E acc vs) /\ (u = w \/ py_eq E u w = true).
Proof.
  intros E. induction vs as [|v vs IH]; intros acc w [I|I]; cbn [set_of].
  - exists w. split; [apply in_rev in I; exact I | auto].
  - destruct I.
  - destruct (existsb (fun u => py_eq E u v) acc); apply IH; left; [exact I | right; exact I].
  - destruct I as [->|I].
    + destruct (existsb (fun u => py_eq E u w) acc) eqn:X.
      * apply existsb_exists in X. destruct X as (u & Iu & Q).
        assert (Y : forall vs acc, In u acc -> In u (set_of E acc vs)).
        { clear. induction vs as [|v vs IH]; intros acc I; cbn [set_of]; [apply in_rev in I; exact I|].
          destruct (existsb _ acc); apply IH; [exact I | right; exact I]. }
        exists u. split; [apply Y; exact Iu | auto].
      * apply IH. left. left. reflexivity.
    + destruct (existsb (fun u => py_eq E u v) acc); apply IH; right; exact I.
Qed.

(** * Tags *)

Lemma filter_mem_in : forall (ps qs : list pystr) p, In p (filter (fun p => mem_str p qs) ps) <-> In p ps /\ In p qs.
Proof. intros ps qs p. rewrite filter_In, mem_str_in. tauto. Qed.

Lemma literal_properties_in : forall E c ps p, literal_properties E (TClass c) = Ok ps ->
  (In p ps <-> exists ls, literal_property E c p ls).
Proof.
  intros E c ps p H. cbn [literal_properties] in H. destruct (get_class E c) as [cl|] eqn:G; [|discriminate].
  apply bind_ok in H. destruct H as (qs & C & H). injection H as <-. rewrite in_map_iff. split.
  - intros ([p' t] & <- & I). apply filter_In in I. destruct I as [I L]. cbn [fst snd] in *.
    destruct (literal_values t) as [ls|] eqn:LV; [|discriminate]. exists ls, cl, t, qs. auto.
  - intros (ls & cl' & t & qs' & G' & C' & I & LV). rewrite G in G'. injection G' as <-. rewrite C in C'. injection C' as <-.
    exists (p, t). split; [reflexivity|]. apply filter_In. split; [exact I|]. cbn [snd]. rewrite LV. reflexivity.
Qed.

Lemma common_properties_in : forall E ts qs ps p, common_properties E qs ts = Ok ps ->
  Forall (fun t => exists c, t = TClass c \/ is_class_type t = true) ts ->
  (In p ps <-> In p qs /\ Forall (fun t => exists c ls, t = TClass c /\ literal_property E c p ls) ts).
Proof.
  intros E. induction ts as [|t ts IH]; intros qs ps p H F; cbn [common_properties] in H.
  - injection H as <-. split; [intros I; split; [exact I | constructor] | tauto].
  - apply bind_ok in H. destruct H as (rs & L & H). inversion F as [|? ? F1 F2]; subst.
    rewrite (IH _ _ p H F2), filter_mem_in. split.
    + intros ((I1 & I2) & A). split; [exact I1|]. constructor; [|exact A].
      destruct t; try (injection L as <-; destruct I2). apply (literal_properties_in E c rs p L) in I2.
      destruct I2 as (ls & I2). exists c, ls. auto.
    + intros (I1 & A). inversion A as [|? ? A1 A2]; subst. destruct A1 as (c & ls & -> & A1).
      split; [|exact A2]. split; [exact I1|]. apply (literal_properties_in E c rs p L). exists ls. exact A1.
Qed.

Lemma discriminating_spec : forall E ts ps p, discriminating_properties E ts = Ok ps -> (In p ps <-> tag E ts p).
Proof.
  intros E [|t ts] ps p H; cbn [discriminating_properties] in H.
  - injection H as <-. split; [intros []|]. intros [N _]. destruct N. reflexivity.
  - destruct (forallb is_class_type (t :: ts)) eqn:FB.
    + apply bind_ok in H. destruct H as (qs & L & H).
      rewrite (common_properties_in E ts qs ps p H).
      * unfold tag. split.
        -- intros (I & A). split; [discriminate|]. constructor; [|exact A].
           destruct t; try (injection L as <-; destruct I). apply (literal_properties_in E c qs p L) in I.
           destruct I as (ls & I). exists c, ls. auto.
        -- intros (_ & A). inversion A as [|? ? A1 A2]; subst. destruct A1 as (c & ls & -> & A1).
           split; [|exact A2]. apply (literal_properties_in E c qs p L). exists ls. exact A1.
      * apply Forall_forall. intros u I. exists 0. right.
        rewrite forallb_forall in FB. apply FB. right. exact I.
    + injection H as <-. split; [intros []|]. intros [_ A].
      assert (X : forallb is_class_type (t :: ts) = true); [|congruence].
      apply forallb_forall. intros u I. rewrite Forall_forall in A. destruct (A u I) as (c & ls & -> & _). reflexivity.
Qed.

Lemma untagged_iff : forall E ts ps, discriminating_properties E ts = Ok ps -> (ps = [] <-> untagged E ts).
Proof.
  intros E ts ps D. split.
  - intros -> p T. apply (discriminating_spec E ts [] p D) in T. destruct T.
  - intros U. destruct ps as [|p ps]; [reflexivity|]. destruct (U p).
    apply (discriminating_spec E ts _ p D). left. reflexivity.
Qed.

(** * Unions *)

Lemma union_try_spec : forall p ts v, union_try p ts = Ok v <->
  exists ts1 t ts2, ts = ts1 ++ t :: ts2 /\ p t = Ok v /\ Forall (fun u => exists e, p u = Err e /\ soft e) ts1.
Proof.
  intros p. unfold soft. induction ts as [|t ts IH]; intros v; cbn [union_try]; split.
  - discriminate.
  - intros (ts1 & t & ts2 & Q & _). destruct ts1; discriminate.
  - destruct (p t) as [w|e] eqn:X.
    + intros Q. injection Q as ->. exists [], t, ts. split; [reflexivity|]. split; [exact X | constructor].
    + assert (Y : e = EJsonKey \/ e = EJsonType -> union_try p ts = Ok v ->
        exists ts1 t' ts2, t :: ts = ts1 ++ t' :: ts2 /\ p t' = Ok v /\
          Forall (fun u => exists e, p u = Err e /\ (e = EJsonKey \/ e = EJsonType)) ts1).
      { intros S Q. apply IH in Q. destruct Q as (ts1 & t' & ts2 & -> & P & F). exists (t :: ts1), t', ts2.
        split; [reflexivity|]. split; [exact P|]. constructor; [|exact F]. exists e. auto. }
      destruct e; try discriminate; intros Q; apply Y; auto.
  - intros (ts1 & t' & ts2 & Q & P & F). destruct ts1 as [|u ts1].
    + injection Q as -> ->. rewrite P. reflexivity.
    + injection Q as -> ->. inversion F as [|? ? (e & X & S) F']; subst. rewrite X.
      assert (Y : union_try p (ts1 ++ t' :: ts2) = Ok v) by (apply IH; exists ts1, t', ts2; auto).
      destruct S as [->| ->]; exact Y.
Qed.

Lemma union_try_fail : forall p ts e, union_try p ts = Err e <->
  (e = EJsonKey /\ Forall (fun u => exists e', p u = Err e' /\ soft e') ts) \/
  (~ soft e /\ exists ts1 t ts2, ts = ts1 ++ t :: ts2 /\ p t = Err e /\
     Forall (fun u => exists e', p u = Err e' /\ soft e') ts1).
Proof.
  intros p. unfold soft. induction ts as [|t ts IH]; intros e; cbn [union_try]; split.
  - intros Q. injection Q as <-. left. auto.
  - intros [(-> & _)|(_ & ts1 & t & ts2 & Q & _)]; [reflexivity | destruct ts1; discriminate].
  - destruct (p t) as [w|e'] eqn:X; [discriminate|].
    destruct (exn_eq_dec e' EJsonKey) as [->|N1]; [|destruct (exn_eq_dec e' EJsonType) as [->|N2]].
    1,2: intros Q; apply IH in Q; destruct Q as [(-> & F)|(N & ts1 & t' & ts2 & -> & P & F)];
      [left; split; [reflexivity|]; constructor; [eexists; split; [exact X | auto] | exact F]
      |right; split; [exact N|]; exists (t :: ts1), t', ts2; split; [reflexivity|]; split; [exact P|];
       constructor; [eexists; split; [exact X | auto] | exact F]].
    intros Q. right. assert (e' = e) by (destruct e'; congruence). subst e'. split; [intuition congruence|].
    exists [], t, ts. split; [reflexivity|]. split; [exact X | constructor].
  - intros [(-> & F)|(N & ts1 & t' & ts2 & Q & P & F)].
    + inversion F as [|? ? (e' & X & S) F']; subst. rewrite X.
      assert (Y : union_try p ts = Err EJsonKey) by (apply IH; auto). destruct S as [->| ->]; exact Y.
    + destruct ts1 as [|u ts1].
      * injection Q as -> ->. rewrite P. destruct e; try reflexivity; destruct N; auto.
      * injection Q as -> ->. inversion F as [|? ? (e' & X & S) F']; subst. rewrite X.
        assert (Y : union_try p (ts1 ++ t' :: ts2) = Err e) by (apply IH; right; split; [exact N | exists ts1, t', ts2; auto]).
        destruct S as [->| ->]; exact Y.
Qed.

(** * Deserialization, type by type *)

Lemma jto_int : forall E skip m j,
  json_to_object E skip m (TScalar KInt) j =
  match j with
  | JInt z => Ok (VInt z)
  | JBool b => Ok (VInt (if b then 1 else 0))
  | _ => Err EJsonType
  end.
Proof. reflexivity. Qed.

Lemma jto_float_int : forall E skip m z f,
  json_to_object E skip m (TScalar KFloat) (JInt z) = Ok (VFloat f) ->
  exists q, flt_q f = Some q /\ nearest_double z q.
Proof.
  intros E skip m z f H. rewrite jto_scalar in H. cbn [parse_scalar] in H. apply bind_ok in H.
  destruct H as (g & H & Q). injection Q as ->. apply int_to_float_nearest. exact H.
Qed.

Lemma jto_float_overflow : forall E skip m z e,
  json_to_object E skip m (TScalar KFloat) (JInt z) = Err e <->
  e = EOverflow /\ (2 ^ 1024 - 2 ^ 970 <= Z.abs z)%Z.
Proof.
  intros E skip m z e. rewrite jto_scalar. cbn [parse_scalar]. rewrite <- int_to_float_overflow, bind_err. split.
  - intros [H|(f & _ & H)]; [exact H | discriminate].
  - intros H. left. exact H.
Qed.

Lemma jto_float_total : forall E skip m j,
  match json_to_object E skip m (TScalar KFloat) j with
  | Ok (VFloat f) =>
      j = JFloat f \/ exists z, (j = JInt z \/ exists b, j = JBool b /\ z = (if b then 1 else 0)%Z) /\
      exists q, flt_q f = Some q /\ nearest_double z q
  | Ok _ => False
  | Err e =>
      (e = EOverflow /\ exists z, j = JInt z /\ (2 ^ 1024 - 2 ^ 970 <= Z.abs z)%Z) \/
      (e = EJsonType /\ kind_of j <> NumberKind /\ kind_of j <> BoolKind)
  end.
Proof.
  intros E skip m j. rewrite jto_scalar. destruct j as [|b|z|f|s|l|o]; cbn [parse_scalar kind_of].
  - right. repeat split; discriminate.
  - destruct (int_to_float (if b then 1 else 0)) as [f|e] eqn:X; cbn [bind].
    + right. exists (if b then 1 else 0)%Z. split; [right; exists b; auto|]. apply int_to_float_nearest. exact X.
    + destruct b; discriminate.
  - destruct (int_to_float z) as [f|e] eqn:X; cbn [bind].
    + right. exists z. split; [left; reflexivity|]. apply int_to_float_nearest. exact X.
    + left. apply int_to_float_overflow in X. destruct X as [-> X]. split; [reflexivity|]. exists z. auto.
  - left. reflexivity.
  - right. repeat split; discriminate.
  - right. repeat split; discriminate.
  - right. repeat split; discriminate.
Qed.

Lemma jto_admits : forall E skip m t j v, json_to_object E skip m t j = Ok v -> admits E m t (kind_of j).
Proof.
  intros E skip m t j v H. unfold json_to_object in H. apply bind_ok in H. destruct H as (vis & _ & H).
  eapply parse_admits. exact H.
Qed.

Lemma jto_enum_spec : forall E skip m c cl ms j v, env_ok E -> get_class E c = Some cl -> c_kind cl = CEnum ms ->
  (json_to_object E skip m (TClass c) j = Ok v <-> exists x w, v = VEnum c x /\ In (x, w) ms /\ json_equal w j).
Proof.
  intros E skip m c cl ms j v OK G K. rewrite (jto_enum E skip m c cl ms j G K).
  destruct (ok_members _ _ _ (OK _ _ G) _ K) as (N & _ & D). split.
  - intros H. destruct (parse_enum_out _ _ _ _ H) as (x & ->). apply (parse_enum_spec c ms j x D N) in H.
    destruct H as (w & H). exists x, w. tauto.
  - intros (x & w & -> & H). apply (parse_enum_spec c ms j x D N). exists w. exact H.
Qed.

Lemma jto_enum_reject : forall E skip m c cl ms j, get_class E c = Some cl -> c_kind cl = CEnum ms ->
  (forall x w, In (x, w) ms -> ~ json_equal w j) -> json_to_object E skip m (TClass c) j = Err EValue.
Proof.
  intros E skip m c cl ms j G K N. rewrite (jto_enum E skip m c cl ms j G K). apply parse_enum_none. exact N.
Qed.

Section Types.
  Variable E : env.
  Hypothesis GE : guarded_env E.
  Hypothesis CALM : calm E.
  Variable skip : bool.
  Notation jto := (json_to_object E skip).

  Lemma jto_list_spec : forall m t js v, ready E m (TList t) ->
    (jto m (TList t) (JArr js) = Ok v <-> exists vs, v = VList vs /\ Forall2 (fun j v => jto m t j = Ok v) js vs).
  Proof.
    intros m t js v R. rewrite (jto_list E GE CALM skip m t _ R), bind_ok. split.
    - intros (vs & H & Q). injection Q as <-. exists vs. split; [reflexivity|]. apply mapM_ok. exact H.
    - intros (vs & -> & H). exists vs. split; [apply mapM_ok; exact H | reflexivity].
  Qed.

  Lemma Forall2_zip : forall A B C (R : A -> B -> C -> Prop) ts js vs, length js = length ts ->
    (Forall2 (fun tj v => R (fst tj) (snd tj) v) (combine ts js) vs <->
     length vs = length ts /\ forall i t j v, nth_error ts i = Some t -> nth_error js i = Some j ->
       nth_error vs i = Some v -> R t j v).
  Proof.
    intros A B C R. induction ts as [|t ts IH]; intros [|j js] vs L; try discriminate; cbn [combine length].
    - split; intros H; [inversion H; subst; split; [reflexivity | intros [] ? ? ?; discriminate]|].
      destruct H as [H _]. destruct vs; [constructor | discriminate].
    - injection L as L. split; intros H.
      + inversion H as [|? v ? vs' Hd Tl]; subst. apply (IH js vs' L) in Tl. destruct Tl as [Tl1 Tl2].
        split; [cbn [length]; congruence|]. intros [|i] t' j' v' H1 H2 H3; cbn [nth_error] in *.
        * injection H1 as <-. injection H2 as <-. injection H3 as <-. exact Hd.
        * eapply Tl2; eassumption.
      + destruct H as [H1 H2]. destruct vs as [|v vs]; [discriminate|]. constructor.
        * apply (H2 0); reflexivity.
        * apply (IH js vs L). split; [cbn [length] in H1; congruence|]. intros i t' j' v' X Y Z.
          apply (H2 (S i)); assumption.
  Qed.

  Lemma jto_tuple_spec : forall m ts js v, ready E m (TTuple ts) ->
    (jto m (TTuple ts) (JArr js) = Ok v <->
     exists vs, v = VTuple vs /\ length js = length ts /\ length vs = length ts /\
       forall i t j w, nth_error ts i = Some t -> nth_error js i = Some j -> nth_error vs i = Some w ->
         jto m t j = Ok w).
  Proof.
    intros m ts js v R. rewrite (jto_tuple E GE CALM skip m ts _ R). destruct (Nat.eqb (length js) (length ts)) eqn:L.
    - apply Nat.eqb_eq in L. rewrite bind_ok. split.
      + intros (vs & H & Q). injection Q as <-. apply (zip_parse_ok _ ts js vs L) in H.
        apply (Forall2_zip _ _ _ (fun t j v => jto m t j = Ok v) ts js vs L) in H. exists vs. tauto.
      + intros (vs & -> & _ & H). exists vs. split; [|reflexivity]. apply (zip_parse_ok _ ts js vs L).
        apply (Forall2_zip _ _ _ (fun t j v => jto m t j = Ok v) ts js vs L). exact H.
    - apply Nat.eqb_neq in L. split; [discriminate|]. intros (vs & _ & X & _). congruence.
  Qed.

  Lemma jto_tuple_mismatch : forall m ts js, ready E m (TTuple ts) -> length js <> length ts ->
    jto m (TTuple ts) (JArr js) = Err EJsonValue.
  Proof.
    intros m ts js R L. rewrite (jto_tuple E GE CALM skip m ts _ R).
    apply Nat.eqb_neq in L. rewrite L. reflexivity.
  Qed.

  Lemma jto_dict_spec : forall m k t o v, env_ok E -> ready E m (TDict k t) ->
    (jto m (TDict k t) (JObj o) = Ok v <->
     exists kvs, v = VDict kvs /\
       Forall2 (fun sx kv => key_of E k (fst sx) (fst kv) /\ jto m t (snd sx) = Ok (snd kv)) o kvs).
  Proof.
    intros m k t o v OK R. rewrite (jto_dict E GE CALM skip m k t _ R), bind_ok.
    destruct (ready_dict E GE m k t R) as [_ CK].
    assert (X : forall o kvs, mapM (fun '(s, x) => do kv <- parse_key E k s; do w <- jto m t x; Ok (kv, w)) o = Ok kvs <->
      Forall2 (fun sx kv => key_of E k (fst sx) (fst kv) /\ jto m t (snd sx) = Ok (snd kv)) o kvs).
    { clear o. intros o kvs. rewrite mapM_ok. split; intros F.
      - eapply Forall2_impl_in; [|exact F]. intros [s x] [kv w] _ _ H. apply bind_ok in H. destruct H as (kv' & H1 & H).
        apply bind_ok in H. destruct H as (w' & H2 & H). injection H as -> ->. cbn [fst snd].
        split; [apply (parse_key_spec E k s _ OK CK); exact H1 | exact H2].
      - eapply Forall2_impl_in; [|exact F]. intros [s x] [kv w] _ _ [H1 H2]. cbn [fst snd] in *.
        apply (parse_key_spec E k s _ OK CK) in H1. rewrite H1, H2. reflexivity. }
    split.
    - intros (kvs & H & Q). injection Q as <-. exists kvs. split; [reflexivity|]. apply X. exact H.
    - intros (kvs & -> & H). exists kvs. split; [apply X; exact H | reflexivity].
  Qed.

  Lemma hashable_spec : forall v, hashable E v = true <-> ~ unhashable E v.
  Proof.
    apply (value_induct (fun v => hashable E v = true <-> ~ unhashable E v)).
    - intros v. destruct v; try exact I; (split; [intros _ U; inversion U | reflexivity]).
    - intros vs _. split; [discriminate|]. intros H. exfalso. apply H. constructor.
    - intros vs F. cbn [hashable]. rewrite forallb_forall. rewrite Forall_forall in F. split.
      + intros H U. inversion U as [| | | |? w I W|]; subst. apply (proj1 (F w I) (H w I)). exact W.
      + intros H w I. apply F; [exact I|]. intros W. apply H. econstructor; eassumption.
    - intros vs _. split; [discriminate|]. intros H. exfalso. apply H. constructor.
    - intros vs _. split; [discriminate|]. intros H. exfalso. apply H. constructor.
    - intros c attrs F. rewrite Forall_forall in F.
      assert (X : (forall cl, get_class E c = Some cl -> match c_kind cl with CData _ _ | CTuple _ | CRawTuple _ => True | _ => False end) ->
        (forall cl fs, get_class E c = Some cl -> c_kind cl <> CData false fs) -> (exists cl, get_class E c = Some cl) ->
        (forallb (fun kv => hashable E (snd kv)) attrs = true <-> ~ unhashable E (VObj c attrs))).
      { intros K NM (cl & G). rewrite forallb_forall. split.
        - intros H U. inversion U as [| | |c' cl' fs' at' G' K'| |c' cl' at' x w G' K' I W]; subst.
          + exact (NM _ _ G' K').
          + apply (proj1 (F _ I) (H _ I)). exact W.
        - intros H [x w] I. apply (F _ I). intros W. apply H. econstructor; [exact G | apply K; exact G | exact I | exact W]. }
      assert (Y : (forall cl, get_class E c = Some cl -> match c_kind cl with CData _ _ | CTuple _ | CRawTuple _ => False | _ => True end) ->
        (true = true <-> ~ unhashable E (VObj c attrs))).
      { intros K. split; [|reflexivity]. intros _ U. inversion U as [| | |c' cl' fs' at' G' K'| |c' cl' at' x w G' K' I W]; subst;
          pose proof (K _ G') as Z; [rewrite K' in Z; exact Z|]. destruct (c_kind cl'); contradiction. }
      cbn [hashable]. destruct (get_class E c) as [cl|] eqn:G; [|apply Y; discriminate].
      destruct (c_kind cl) as [ms|fs|fs|fr fs|fs] eqn:K.
      + apply Y. intros cl' Q. injection Q as <-. rewrite K. exact I.
      + apply X; [| |eauto]; intros cl'; [intros Q | intros fs' Q]; injection Q as <-; rewrite K; [exact I | discriminate].
      + apply X; [| |eauto]; intros cl'; [intros Q | intros fs' Q]; injection Q as <-; rewrite K; [exact I | discriminate].
      + destruct fr; cbn [andb].
        * apply X; [| |eauto]; intros cl'; [intros Q | intros fs' Q]; injection Q as <-; rewrite K; [exact I | discriminate].
        * split; [discriminate|]. intros H. exfalso. apply H. eapply uh_mutable; eassumption.
      + apply Y. intros cl' Q. injection Q as <-. rewrite K. exact I.
  Qed.

  Lemma jto_set_spec : forall m t js v, ready E m (TSet t) -> jto m (TSet t) (JArr js) = Ok v ->
    exists vs us, v = VSet us /\ Forall2 (fun j v => jto m t j = Ok v) js vs /\ Forall (fun v => ~ unhashable E v) vs /\
      incl us vs /\ ForallOrdPairs (fun a b => py_eq E a b = false) us /\
      (forall w, In w vs -> exists u, In u us /\ (u = w \/ py_eq E u w = true)).
  Proof.
    intros m t js v R. rewrite (jto_set E GE CALM skip m t _ R), bind_ok.
    intros (vs & H & Q). injection Q as <-. exists vs, (set_of E [] vs). split; [reflexivity|].
    assert (F : Forall2 (fun j v => jto m t j = Ok v /\ ~ unhashable E v) js vs).
    { apply mapM_ok in H. eapply Forall2_impl_in; [|exact H]. intros j w _ _ X. apply bind_ok in X.
      destruct X as (w' & X & Y). destruct (hashable E w') eqn:HS; [|discriminate]. injection Y as <-.
      split; [exact X | apply hashable_spec; exact HS]. }
    split; [eapply Forall2_impl_in; [|exact F]; intros ? ? _ _ [X _]; exact X|].
    split; [clear - F; induction F as [|? ? ? ? [_ X]]; constructor; assumption|].
    destruct (set_of_spec E vs []) as (l & E1 & E2 & E3). cbn [rev app] in *. rewrite E1. split; [exact E2|].
    split; [apply E3; constructor|]. intros w I. rewrite <- E1. apply set_of_cover. right. exact I.
  Qed.

  Lemma jto_set_accepts : forall m t js vs, ready E m (TSet t) ->
    Forall2 (fun j v => jto m t j = Ok v) js vs -> Forall (fun v => ~ unhashable E v) vs ->
    exists us, jto m (TSet t) (JArr js) = Ok (VSet us).
  Proof.
    intros m t js vs R F HS. rewrite (jto_set E GE CALM skip m t _ R). exists (set_of E [] vs).
    apply bind_ok. exists vs. split; [|reflexivity]. apply mapM_ok. eapply Forall2_impl_in; [|exact F].
    intros j w _ I X. rewrite X. cbn [bind]. rewrite Forall_forall in HS.
    rewrite (proj2 (hashable_spec w) (HS _ I)). reflexivity.
  Qed.

  Lemma jto_set_unhashable : forall m t js vs j v js', ready E m (TSet t) ->
    Forall2 (fun j v => jto m t j = Ok v) js vs -> jto m t j = Ok v -> unhashable E v ->
    jto m (TSet t) (JArr (js ++ j :: js')) = Err EType.
  Proof.
    intros m t js vs j v js' R F Q U. rewrite (jto_set E GE CALM skip m t _ R).
    assert (X : mapM (fun x => do v <- jto m t x; if hashable E v then Ok v else Err EType) (js ++ j :: js') = Err EType);
      [|rewrite X; reflexivity].
    induction F as [|x w js vs H F IH]; cbn [app mapM].
    - rewrite Q. cbn [bind]. destruct (hashable E v) eqn:HS; [|reflexivity]. apply hashable_spec in HS. contradiction.
    - rewrite H. cbn [bind]. destruct (hashable E w); [|reflexivity]. rewrite IH. reflexivity.
  Qed.

  Lemma py_eq_lit : forall l, py_eq E (lit_value l) (lit_value l) = true.
  Proof.
    intros []; cbn [lit_value py_eq value_number number_eqb]; try reflexivity;
      rewrite ?Z.eqb_refl, ?pystr_eqb_refl, ?Nat.eqb_refl; reflexivity.
  Qed.

  Lemma literal_type_all : forall ls u, literal_type ls = Ok u -> forall l, In l ls -> lit_type l = u.
  Proof.
    intros [|l0 ls] u Q l I; [discriminate|]. cbn [literal_type] in Q.
    destruct (forallb (fun l' => typ_eqb (lit_type l0) (lit_type l')) ls) eqn:FB; [|discriminate].
    injection Q as <-. destruct I as [<-|I]; [reflexivity|].
    rewrite forallb_forall in FB. symmetry. apply typ_eqb_eq. apply FB. exact I.
  Qed.

  Lemma jto_literal_spec : forall m ls j v, env_ok E -> json_wf j -> ready E m (TLiteral ls) ->
    (jto m (TLiteral ls) j = Ok v <-> exists l, In l ls /\ v = lit_value l /\ jto m (lit_type l) j = Ok (lit_value l)).
  Proof.
    intros m ls j v OK WJ R. split.
    - intros H. pose proof (json_to_object_sound E skip OK m _ j v WJ H) as T. apply ht_literal_iff in T.
      destruct T as (l & I & ->). exists l. split; [exact I|]. split; [reflexivity|].
      rewrite (jto_literal E GE CALM skip m ls j R) in H. apply bind_ok in H. destruct H as (u & L & H).
      apply bind_ok in H. destruct H as (w & P & H). destruct (existsb _ ls); [|discriminate]. injection H as ->.
      rewrite (literal_type_all _ _ L _ I). exact P.
    - intros (l & I & -> & P). rewrite (jto_literal E GE CALM skip m ls j R).
      destruct (ready_literal E GE m ls R) as (u & L & _). rewrite L. cbn [bind].
      rewrite <- (literal_type_all _ _ L _ I), P. cbn [bind].
      assert (X : existsb (fun l0 => py_eq E (lit_value l0) (lit_value l)) ls = true).
      { apply existsb_exists. exists l. split; [exact I | apply py_eq_lit]. }
      rewrite X. reflexivity.
  Qed.

  Lemma jto_untagged : forall m op ts j, ready E m (TUnion op ts) -> untagged E ts ->
    jto m (TUnion op ts) j = union_try (fun u => jto m u j) ts.
  Proof.
    intros m op ts j R U. rewrite (jto_union E GE CALM skip m op ts j R).
    destruct (ready_static E m _ R) as (vis & CL & SO). inversion SO as [| | | | |? ? ps D _ _| | | | | |]; subst.
    rewrite D. cbn [bind]. apply (untagged_iff E ts ps D) in U. subst ps. reflexivity.
  Qed.
End Types.
