(** Types made from parts: the deserializers of compound types. *)
From Coq Require Import String List NArith ZArith Bool Lia Permutation.
From Verif Require Import Base Json PyTypes Mapping Deser ClassDef Lists TypingFacts DeserSound SpecTypes TypeAlgebraProofs SpecRecursion SpecDeser DeserFuel DeserBuild DeserUnfold SpecTagged SpecTypeDef TypeDefEnv.
Import ListNotations.
Open Scope list_scope.
Open Scope nat_scope.

Section Ready.
  Variable E : env.
  Hypothesis GE : guarded_env E.
  Variable m : nat.

  Lemma closed_app : forall a b, closed E (fun k => In k a) -> closed E (fun k => In k b) -> closed E (fun k => In k (a ++ b)).
  Proof.
    intros a b A B k I. apply in_app_or in I. destruct I as [I|I].
    - eapply key_mono; [|apply A; exact I]. intros k' I'. apply in_or_app. auto.
    - eapply key_mono; [|apply B; exact I]. intros k' I'. apply in_or_app. auto.
  Qed.

  Lemma ready_parts : forall m' ts, Forall (ready E m') ts -> exists vis, closed E (fun k => In k vis) /\ Forall (static_ok E (fun k => In k vis) m') ts.
  Proof.
    intros m' ts F. induction F as [|t ts R F (vis & CL & SO)]; [exists []; split; [intros k [] | constructor]|].
    destruct (ready_static _ _ _ R) as (vis' & CL' & SO'). exists (vis' ++ vis). split; [apply closed_app; assumption|]. constructor.
    - eapply static_mono; [|exact SO']. intros k I. apply in_or_app. auto.
    - eapply Forall_impl; [|exact SO]. intros u H. eapply static_mono; [|exact H]. intros k I. apply in_or_app. auto.
  Qed.

  Lemma flat_ready : forall vis t, flat t -> closed E (fun k => In k vis) -> static_ok E (fun k => In k vis) m t -> ready E m t.
  Proof. intros vis t F CL SO. eapply static_ready; [exact GE | exact CL | exact SO | apply flat_guarded; exact F]. Qed.

  Lemma scalar_ready : forall k, ready E m (TScalar k).
  Proof. intros k. apply (flat_ready []); [cbn; auto | intros ? [] | constructor]. Qed.

  Lemma literal_ready : forall l k, literal_type [l] = Ok (TScalar k) -> ready E m (TLiteral [l]).
  Proof. intros l k H. apply (flat_ready []); [cbn; auto | intros ? [] | econstructor; [exact H | constructor]]. Qed.

  Lemma list_ready : forall t, flat t -> ready E m t -> ready E m (TList t).
  Proof.
    intros t F R. destruct (ready_static _ _ _ R) as (vis & CL & SO). apply (flat_ready vis); [split; [intros [] | exact F] | exact CL | constructor; exact SO].
  Qed.

  Lemma annot_ready : forall t md, flat t -> ready E m t -> ready E m (TAnnot t md).
  Proof.
    intros t md F R. destruct (ready_static _ _ _ R) as (vis & CL & SO).
    apply (flat_ready vis); [split; [intros [] | exact F] | exact CL | constructor; [|exact SO]]. apply every_part_top in F. exact F.
  Qed.

  Lemma union_ready_i : forall ts ps, Forall flat ts -> Forall (ready E m) ts -> discriminating_properties E ts = Ok ps ->
    (ps = [] \/ exists tbl, tag_table E (e_order E ps) ts = Ok tbl /\ tags_distinct [] tbl = true) -> ready E m (TUnion false ts).
  Proof.
    intros ts ps F R D T. destruct (ready_parts _ _ R) as (vis & CL & SO).
    apply (flat_ready vis); [apply flat_union_members; exact F | exact CL | econstructor; eassumption].
  Qed.

  Lemma class_ready : forall c cl fs fps, get_class E c = Some cl -> c_kind cl = CData false fs -> c_from_json cl = None -> field_parsers E cl = Ok fps ->
    Forall (fun fp => ready E (c_module cl) (fp_type fp)) fps -> ready E m (TClass c).
  Proof.
    intros c cl fs fps G K J P R. assert (R' : Forall (ready E (c_module cl)) (map fp_type fps)) by (rewrite Forall_map; exact R).
    destruct (ready_parts _ _ R') as (vis & CL & SO). rewrite Forall_map in SO.
    apply (flat_ready (KeyClass c :: vis)); [cbn; auto | | econstructor; [exact G | left; reflexivity]].
    intros k [<-|I].
    - cbn [key_ok]. exists cl. split; [exact G|]. rewrite K, J. exists fps. split; [exact P|].
      eapply Forall_impl; [|exact SO]. intros fp H. eapply static_mono; [|exact H]. intros k I. right. exact I.
    - eapply key_mono; [|apply CL; exact I]. intros k' I'. right. exact I'.
  Qed.

  Lemma enum_ready : forall c cl ms, get_class E c = Some cl -> c_kind cl = CEnum ms -> ready E m (TClass c).
  Proof.
    intros c cl ms G K. apply (flat_ready [KeyClass c]); [cbn; auto | | econstructor; [exact G | left; reflexivity]].
    intros k [<-|[]]. cbn [key_ok]. exists cl. split; [exact G|]. rewrite K. exact Logic.I.
  Qed.
End Ready.

(** ** Members tried in turn *)

Lemma in_dedup : forall ts seen t, In t ts -> ~ In t seen -> In t (dedup seen ts).
Proof.
  induction ts as [|u ts IH]; intros seen t I N; [destruct I|]. cbn [dedup]. destruct (existsb (typ_eqb u) seen) eqn:X.
  - apply existsb_exists in X. destruct X as (u' & Iu & Q). apply typ_eqb_eq in Q. subst u'. destruct I as [->|I]; [contradiction | auto].
  - destruct (typ_eqb u t) eqn:Q; [apply typ_eqb_eq in Q; left; exact Q|]. right. destruct I as [->|I]; [rewrite typ_eqb_refl in Q; discriminate|].
    apply IH; [exact I|]. intros [->|I']; [rewrite typ_eqb_refl in Q; discriminate | contradiction].
Qed.

Lemma try_dedup : forall (f : typ -> res value) ts seen t v,
  (forall a u b b', ts = a ++ u :: b :: b' -> (exists w, f u = Ok w) \/ exists e, f u = Err e /\ soft e) ->
  In t ts -> ~ In t seen -> f t = Ok v -> exists w, union_try f (dedup seen ts) = Ok w.
Proof.
  intros f ts. induction ts as [|u ts IH]; intros seen t v S I N H; [destruct I|]. cbn [dedup].
  assert (S' : forall a u b b', ts = a ++ u :: b :: b' -> (exists w, f u = Ok w) \/ exists e, f u = Err e /\ soft e).
  { intros a u' b b' ->. apply (S (u :: a) u' b b'). reflexivity. }
  destruct (existsb (typ_eqb u) seen) eqn:X.
  - apply existsb_exists in X. destruct X as (u' & Iu & Q). apply typ_eqb_eq in Q. subst u'.
    destruct I as [->|I]; [contradiction|]. eapply IH; eassumption.
  - cbn [union_try]. destruct (f u) as [w|e] eqn:Q; [eauto|].
    destruct I as [->|I]; [congruence|]. destruct ts as [|b b']; [destruct I|].
    destruct (S [] u b b' eq_refl) as [(w & W)|(e' & W & SF)]; rewrite W in Q; [discriminate|]. injection Q as <-.
    assert (R : exists w, union_try f (dedup (u :: seen) (b :: b')) = Ok w).
    { eapply IH; [exact S' | exact I | | exact H]. intros [->|I']; [congruence | contradiction]. }
    destruct SF as [->| ->]; exact R.
Qed.

(** ** Tags *)

Lemma scalar_str : forall a b, scalar_eqb (JStr a) (JStr b) = pystr_eqb a b.
Proof. reflexivity. Qed.

Lemma common_nil : forall E ts, Forall (fun t => exists ps, literal_properties E t = Ok ps) ts -> common_properties E [] ts = Ok [].
Proof. intros E ts F. induction F as [|t ts (ps & H) F IH]; cbn [common_properties]; [reflexivity|]. rewrite H. exact IH. Qed.

Lemma common_empty : forall E ts t props, Forall (fun t => exists ps, literal_properties E t = Ok ps) ts -> In t ts -> literal_properties E t = Ok [] ->
  common_properties E props ts = Ok [].
Proof.
  intros E ts. induction ts as [|u ts IH]; intros t props F I H; [destruct I|]. inversion F as [|? ? (ps & Q) F']; subst.
  cbn [common_properties]. rewrite Q. cbn [bind]. destruct I as [->|I].
  - rewrite H in Q. injection Q as <-. cbn [mem_str existsb]. replace (filter (fun _ => false) props) with (@nil pystr) by (induction props; auto).
    apply common_nil. exact F'.
  - eapply IH; eassumption.
Qed.

Lemma no_tags : forall E ts, Forall (fun t => exists ps, literal_properties E t = Ok ps) ts ->
  (exists t, In t ts /\ (is_class_type t = false \/ literal_properties E t = Ok [])) -> discriminating_properties E ts = Ok [].
Proof.
  intros E ts F (t & I & H). destruct ts as [|u ts]; [destruct I|]. unfold discriminating_properties.
  destruct (forallb is_class_type (u :: ts)) eqn:Q; [|reflexivity]. rewrite forallb_forall in Q.
  destruct H as [H|H]; [rewrite (Q _ I) in H; discriminate|]. inversion F as [|? ? (ps & P) F']; subst. rewrite P. cbn [bind]. destruct I as [->|I].
  - rewrite H in P. injection P as <-. apply common_nil. exact F'.
  - eapply common_empty; eassumption.
Qed.

(** A class told apart by the value [c] of the property [x]. *)
Definition tagged (E : env) (x c : pystr) (t : typ) : Prop :=
  exists k cl ps, t = TClass k /\ get_class E k = Some cl /\ class_properties E cl = Ok ps /\
  filter (fun p => match literal_values (snd p) with Some _ => true | None => false end) ps = [(x, TLiteral [LStr c])] /\
  dict_get ps x = Some (TLiteral [LStr c]).

Lemma tagged_literals : forall E x c t, tagged E x c t -> literal_properties E t = Ok [x].
Proof. intros E x c t (k & cl & ps & -> & G & P & F & _). unfold literal_properties. rewrite G, P. cbn [bind]. rewrite F. reflexivity. Qed.

Lemma tagged_values : forall E x c t, tagged E x c t -> tag_values E t x = Ok [LStr c].
Proof. intros E x c t (k & cl & ps & -> & G & P & _ & D). unfold tag_values. rewrite G, P. cbn [bind]. rewrite D. reflexivity. Qed.

Lemma tagged_fun : forall E x c c' t, tagged E x c t -> tagged E x c' t -> c = c'.
Proof. intros E x c c' t A B. apply tagged_values in A, B. congruence. Qed.

Section Marks.
  Variable E : env.
  Hypothesis SH : shuffles (e_order E).
  Variable x : pystr.

  Lemma marks_common : forall cs ts, Forall2 (fun c t => tagged E x c t) cs ts -> common_properties E [x] ts = Ok [x].
  Proof.
    intros cs ts F. induction F as [|c t cs ts T F IH]; [reflexivity|]. cbn [common_properties].
    rewrite (tagged_literals _ _ _ _ T). cbn [bind filter mem_str existsb]. rewrite pystr_eqb_refl. exact IH.
  Qed.

  Lemma marks_properties : forall cs ts, Forall2 (fun c t => tagged E x c t) cs ts -> ts <> [] -> discriminating_properties E ts = Ok [x].
  Proof.
    intros cs ts F NE. destruct F as [|c t cs ts T F]; [congruence|]. unfold discriminating_properties.
    assert (Q : forallb is_class_type (t :: ts) = true).
    { apply forallb_forall. assert (F' : Forall2 (fun c t => tagged E x c t) (c :: cs) (t :: ts)) by (constructor; assumption).
      intros u I. destruct (Forall2_in_r _ _ _ _ _ _ F' I) as (c' & _ & (k & cl & ps & -> & _)). reflexivity. }
    rewrite Q, (tagged_literals _ _ _ _ T). cbn [bind]. eapply marks_common. exact F.
  Qed.

  Lemma order_one : e_order E [x] = [x].
  Proof. apply Permutation_length_1_inv. symmetry. apply SH. Qed.

  Lemma marks_table : forall cs ts, Forall2 (fun c t => tagged E x c t) cs ts ->
    tag_table E [x] ts = Ok (map (fun ct => (x, LStr (fst ct), snd ct)) (combine cs ts)).
  Proof.
    intros cs ts F. unfold tag_table.
    assert (M : mapM (tag_row E [x]) ts = Ok (map (fun ct => [(x, LStr (fst ct), snd ct)]) (combine cs ts))).
    { induction F as [|c t cs ts T F IH]; [reflexivity|]. cbn [mapM combine map]. unfold tag_row at 1. cbn [mapM].
      rewrite (tagged_values _ _ _ _ T). cbn [bind map concat app fst snd]. rewrite IH. reflexivity. }
    rewrite M. cbn [bind]. f_equal. clear M F. induction (combine cs ts) as [|a r IH]; [reflexivity|]. cbn [map concat app]. f_equal. exact IH.
  Qed.

  Lemma marks_distinct : forall cs (ts : list typ) seen, NoDup cs -> (forall c, In c cs -> ~ In (x, LStr c) seen) ->
    (forall p l, In (p, l) seen -> exists c, l = LStr c) ->
    tags_distinct seen (map (fun ct => (x, LStr (fst ct), snd ct)) (combine cs ts)) = true.
  Proof.
    induction cs as [|c cs IH]; intros ts seen ND S T; [reflexivity|]. destruct ts as [|t ts]; [reflexivity|]. inversion ND as [|? ? N1 N2]; subst.
    cbn [combine map tags_distinct fst snd].
    destruct (existsb (fun q => pystr_eqb (fst q) x && lit_pyeq (snd q) (LStr c)) seen) eqn:X.
    - apply existsb_exists in X. destruct X as ([p l] & I & Q). cbn [fst snd] in Q. apply andb_prop in Q. destruct Q as [Q1 Q2].
      apply pystr_eqb_eq in Q1. subst p. destruct (T _ _ I) as (c' & ->). cbn in Q2. apply pystr_eqb_eq in Q2. subst c'.
      exfalso. apply (S c); [left; reflexivity | exact I].
    - apply IH; [exact N2 | |].
      + intros c' I [Q|I']; [injection Q as <-; contradiction|]. apply (S c'); [right; exact I | exact I'].
      + intros p l [Q|I]; [injection Q as <- <-; eauto | eapply T; exact I].
  Qed.

  Lemma marks_find : forall cs ts c t, Forall2 (fun c t => tagged E x c t) cs ts -> NoDup cs -> In (c, t) (combine cs ts) ->
    tag_find (map (fun ct => (x, LStr (fst ct), snd ct)) (combine cs ts)) x (JStr c) = Some t.
  Proof.
    intros cs ts c t F. induction F as [|c' t' cs ts T F IH]; intros ND I; [destruct I|]. inversion ND as [|? ? N1 N2]; subst.
    cbn [combine map tag_find fst snd]. rewrite pystr_eqb_refl. cbn [andb lit_json_eqb].
    destruct I as [Q|I].
    - injection Q as -> ->. rewrite scalar_str, pystr_eqb_refl. reflexivity.
    - destruct (scalar_eqb (JStr c') (JStr c)) eqn:X; [|auto]. rewrite scalar_str in X. apply pystr_eqb_eq in X. subst c'.
      apply in_combine_l in I. contradiction.
  Qed.
End Marks.
