(** Serialization yields the JSON image of a value. *)
From Coq Require Import String List NArith ZArith Bool Lia Permutation Sorted.
From Verif Require Import Base Json PyTypes Mapping Deser Ser Lists SpecTyping TypingFacts SpecTypes SpecFields
  TypeAlgebraProofs FieldProofs SpecSer.
Import ListNotations.
Open Scope list_scope.
Open Scope nat_scope.

(** * Objects written property by property *)

Lemma dict_of_snoc : forall ps k j, dict_of (ps ++ [(k, j)]) = dict_set (dict_of ps) k j.
Proof. intros ps k j. unfold dict_of. rewrite fold_left_app. reflexivity. Qed.

Lemma dict_set_cases : forall (o : list (pystr * json)) k j,
  (~ In k (map fst o) /\ dict_set o k j = o ++ [(k, j)]) \/
  (exists o1 i o2, o = o1 ++ (k, i) :: o2 /\ ~ In k (map fst o1) /\ dict_set o k j = o1 ++ (k, j) :: o2).
Proof.
  induction o as [|[k' i] o IH]; intros k j; cbn [dict_set map fst].
  - left. split; [intros []|reflexivity].
  - destruct (pystr_eqb k' k) eqn:Q.
    + apply pystr_eqb_eq in Q. subst k'. right. exists [], i, o. repeat split. intros [].
    + apply pystr_eqb_neq in Q. destruct (IH k j) as [[N ->]|(o1 & i' & o2 & -> & N & ->)].
      * left. split; [|reflexivity]. intros [H|H]; [exact (Q H) | exact (N H)].
      * right. exists ((k', i) :: o1), i', o2. repeat split. cbn [map fst]. intros [H|H]; [exact (Q H) | exact (N H)].
Qed.

Lemma merged_dict_of : forall ps, merged ps (dict_of ps).
Proof.
  induction ps as [|[k j] ps IH] using rev_ind; [constructor|].
  rewrite dict_of_snoc. destruct (dict_set_cases (dict_of ps) k j) as [[N ->]|(o1 & i & o2 & Q & N & ->)].
  - apply me_new; assumption.
  - eapply me_again; [rewrite <- Q; exact IH | exact N].
Qed.

Lemma merged_fun : forall ps o, merged ps o -> o = dict_of ps.
Proof.
  intros ps o H. induction H as [|ps o k j _ IH N|ps o1 k i o2 j _ IH N]; [reflexivity|..]; rewrite dict_of_snoc, <- IH.
  - symmetry. apply dict_set_fresh. exact N.
  - clear IH. induction o1 as [|[k' i'] o1 IH]; cbn [app dict_set].
    + rewrite pystr_eqb_refl. reflexivity.
    + cbn [map fst In] in N. destruct (pystr_eqb k' k) eqn:Q.
      * apply pystr_eqb_eq in Q. tauto.
      * f_equal. apply IH. tauto.
Qed.

Lemma merged_keys : forall ps o, merged ps o -> NoDup (map fst o) /\ (forall k, In k (map fst o) <-> In k (map fst ps)).
Proof.
  intros ps o H. induction H as [|ps o k j _ [ND IH] N|ps o1 k i o2 j _ [ND IH] N].
  - split; [constructor|tauto].
  - split.
    + rewrite map_app. cbn [map fst]. apply (Permutation_NoDup (l := k :: map fst o)); [apply Permutation_cons_append|constructor; assumption].
    + intros x. rewrite !map_app, !in_app_iff, IH. tauto.
  - split.
    + rewrite map_app in *. exact ND.
    + intros x. specialize (IH x). rewrite map_app, in_app_iff in *. rewrite (map_app fst ps), in_app_iff.
      cbn [map fst In] in *. tauto.
Qed.

Lemma merged_distinct : forall ps, NoDup (map fst ps) -> dict_of ps = ps.
Proof.
  induction ps as [|[k j] ps IH] using rev_ind; intros N; [reflexivity|].
  rewrite dict_of_snoc. rewrite map_app in N. cbn [map fst] in N.
  assert (N' : NoDup (k :: map fst ps)).
  { eapply Permutation_NoDup; [|exact N]. symmetry. apply Permutation_cons_append. }
  inversion N' as [|? ? N1 N2]; subst. rewrite IH by exact N2. apply dict_set_fresh. exact N1.
Qed.

(** * Sorted attributes *)

Lemma str_leb_before : forall a b, str_leb a b = true <-> before a b.
Proof.
  induction a as [|x a IH]; intros [|y b]; cbn [str_leb before]; try (split; intros; solve [reflexivity | exact I | discriminate | contradiction]).
  destruct (N.ltb_spec x y) as [L|L]; [intuition lia|].
  destruct (N.ltb_spec y x) as [L'|L']; [split; [discriminate|lia]|].
  rewrite IH. intuition lia.
Qed.

Lemma str_leb_total : forall a b, str_leb a b = false -> str_leb b a = true.
Proof.
  induction a as [|x a IH]; intros [|y b]; cbn [str_leb]; try discriminate; try reflexivity.
  destruct (N.ltb_spec x y) as [L|L]; [discriminate|].
  destruct (N.ltb_spec y x) as [L'|L']; [reflexivity|]. apply IH.
Qed.

Section SortFacts.
  Context {A : Type}.
  Lemma insert_perm : forall (x : pystr * A) l, Permutation (x :: l) (insert_attr x l).
  Proof.
    intros x l. induction l as [|y l IH]; cbn [insert_attr]; [apply Permutation_refl|].
    destruct (str_leb (fst x) (fst y)); [apply Permutation_refl|].
    rewrite perm_swap. apply perm_skip. exact IH.
  Qed.

  Lemma sort_perm : forall l : list (pystr * A), Permutation l (sort_attrs l).
  Proof.
    induction l as [|x l IH]; cbn [sort_attrs fold_right]; [constructor|].
    rewrite <- insert_perm. apply perm_skip. exact IH.
  Qed.

  Lemma insert_sorted : forall (x : pystr * A) l, Sorted (fun a b => before (fst a) (fst b)) l ->
    Sorted (fun a b => before (fst a) (fst b)) (insert_attr x l).
  Proof.
    intros x l H. induction H as [|y l S IH Hd]; cbn [insert_attr].
    - repeat constructor.
    - destruct (str_leb (fst x) (fst y)) eqn:Q.
      + constructor; [constructor; assumption|]. constructor. apply str_leb_before. exact Q.
      + constructor; [exact IH|]. apply str_leb_total, str_leb_before in Q.
        destruct l as [|z l]; cbn [insert_attr]; [constructor; exact Q|].
        destruct (str_leb (fst x) (fst z)); constructor; [exact Q|]. inversion Hd; assumption.
  Qed.

  Lemma sort_sorted : forall l : list (pystr * A), Sorted (fun a b => before (fst a) (fst b)) (sort_attrs l).
  Proof. induction l as [|x l IH]; cbn [sort_attrs fold_right]; [constructor | apply insert_sorted; exact IH]. Qed.
End SortFacts.

Lemma starts_with_spec : forall p s, starts_with p s = true <-> exists r, s = p ++ r.
Proof.
  intros p s. unfold starts_with. rewrite pystr_eqb_eq. split.
  - intros H. exists (skipn (length p) s). rewrite <- H at 1. symmetry. apply firstn_skipn.
  - intros (r & ->). rewrite firstn_app, Nat.sub_diag, firstn_all, firstn_O. apply app_nil_r.
Qed.

Lemma ends_with_spec : forall p s, ends_with p s = true <-> exists r, s = r ++ p.
Proof.
  intros p s. unfold ends_with. rewrite starts_with_spec. split; intros (r & H); exists (rev r).
  - rewrite <- (rev_involutive s), H, rev_app_distr, rev_involutive. reflexivity.
  - rewrite H, rev_app_distr. reflexivity.
Qed.

Lemma is_reserved_spec : forall x, is_reserved x = true <-> dunder x.
Proof.
  intros x. unfold is_reserved, dunder. rewrite orb_true_iff, !andb_true_iff, starts_with_spec, ends_with_spec, pystr_eqb_eq, Nat.leb_le.
  split.
  - intros [[[(r & ->) (q & Q)] L]|H]; [right|left; exact H].
    destruct (Nat.le_gt_cases 2 (length r)) as [Hr|Hr].
    2:{ rewrite app_length in L. cbn in L. lia. }
    assert (R : exists y, r = y ++ str "__").
    { exists (firstn (length r - 2) r).
      assert (Q' : skipn (length r) (str "__" ++ r) = str "__").
      { rewrite Q. rewrite skipn_app. replace (length r - length q) with 0.
        - cbn [skipn]. replace (skipn (length r) q) with (@nil N); [reflexivity|].
          symmetry. apply skipn_all2. pose proof (f_equal (@length _) Q) as G. rewrite !app_length in G. cbn in G. lia.
        - pose proof (f_equal (@length _) Q) as G. rewrite !app_length in G. cbn in G. lia. }
      rewrite skipn_app in Q'. replace (skipn (length r) (str "__")) with (@nil N) in Q'.
      - cbn [app] in Q'. cbn [length str map list_ascii_of_string] in Q'. rewrite <- Q' at 1. symmetry. apply firstn_skipn.
      - symmetry. apply skipn_all2. cbn. lia. }
    destruct R as (y & ->). exists y. split; [|reflexivity]. intros ->. cbn in L. lia.
  - intros [H|(y & N & ->)]; [right; exact H|left]. repeat split.
    + exists (y ++ str "__"). reflexivity.
    + exists (str "__" ++ y). rewrite app_assoc. reflexivity.
    + rewrite !app_length. destruct y; [congruence|]. cbn. lia.
Qed.

(** * Results of the serializer *)

Lemma Forall2_app_inv_r1 : forall A B (R : A -> B -> Prop) l r, Forall2 R l r ->
  forall x y, R x y -> Forall2 R (l ++ [x]) (r ++ [y]).
Proof. intros. apply Forall2_app; [assumption | constructor; [assumption | constructor]]. Qed.

Lemma typeof_scalar : forall k v, scalar_type k v -> typeof v = TScalar k.
Proof. intros k v H. destruct k, v; try contradiction; reflexivity. Qed.

Lemma typeof_lit : forall l, typeof (lit_value l) = lit_type l.
Proof. intros []; reflexivity. Qed.

Lemma typeof_class : forall E m c v, has_type E m (TClass c) v -> typeof v = TClass c.
Proof. intros E m c v H. inversion H; subst; reflexivity. Qed.

Lemma gen_fields_spec : forall (g : ser -> value -> res json) attrs fs acc o,
  gen_fields g attrs fs acc = Ok o -> exists ps,
  o = fold_left (fun d kv => dict_set d (fst kv) (snd kv)) ps acc /\
  Forall2 (fun f p => snd (fst f) = fst p /\ exists v, dict_get attrs (fst (fst f)) = Some v /\ g (snd f) v = Ok (snd p))
    (filter (fun f => match dict_get attrs (fst (fst f)) with Some VNone => false | _ => true end) fs) ps /\
  Forall (fun f => dict_get attrs (fst (fst f)) <> None) fs.
Proof.
  intros g attrs. induction fs as [|[[x p] s] fs IH]; intros acc o H; cbn [gen_fields] in H.
  - injection H as <-. exists []. repeat split; constructor.
  - destruct (dict_get attrs x) as [v|] eqn:Q; [|discriminate].
    assert (D : v = VNone \/ v <> VNone) by (destruct v; (left; reflexivity) || (right; discriminate)).
    destruct D as [->|D].
    + apply IH in H. destruct H as (ps & -> & F & G). exists ps. split; [reflexivity|]. split.
      * cbn [filter fst snd]. rewrite Q. exact F.
      * constructor; [cbn [fst]; rewrite Q; discriminate | exact G].
    + assert (H' : match g s v with Err e => Err e | Ok j => gen_fields g attrs fs (dict_set acc p j) end = Ok o)
        by (destruct v; try congruence; exact H).
      destruct (g s v) as [j|] eqn:Gs; [|discriminate]. apply IH in H'. destruct H' as (ps & -> & F & G).
      exists ((p, j) :: ps). split; [reflexivity|]. split.
      * cbn [filter fst snd]. rewrite Q. replace (match v with VNone => false | _ => true end) with true by (destruct v; congruence).
        constructor; [|exact F]. cbn [fst snd]. split; [reflexivity|]. exists v. auto.
      * constructor; [cbn [fst]; rewrite Q; discriminate | exact G].
Qed.

Lemma zip_gen_spec : forall g ss vs js, length ss = length vs -> zip_gen g ss vs = Ok js ->
  Forall2 (fun sv j => g (fst sv) (snd sv) = Ok j) (combine ss vs) js.
Proof.
  intros g. induction ss as [|s ss IH]; intros [|v vs] js L H; cbn [zip_gen combine length] in *; try discriminate.
  - injection H as <-. constructor.
  - destruct (g s v) as [j|] eqn:G; [|discriminate]. destruct (zip_gen g ss vs) as [js'|] eqn:Z; [|discriminate].
    injection H as <-. constructor; [exact G|]. apply IH; [congruence | exact Z].
Qed.

Lemma enum_value_spec : forall E v j, enum_value E v = Ok j ->
  exists c cl ms x, v = VEnum c x /\ get_class E c = Some cl /\ c_kind cl = CEnum ms /\ In (x, j) ms.
Proof.
  intros E v j H. destruct v; try discriminate. cbn [enum_value] in H.
  destruct (get_class E c) as [cl|] eqn:G; [|discriminate]. destruct (c_kind cl) as [ms| | | |] eqn:K; try discriminate.
  destruct (dict_get ms name) as [w|] eqn:D; [|discriminate]. injection H as ->.
  exists c, cl, ms, name. repeat split; try assumption. apply dict_get_in. exact D.
Qed.

Lemma enum_key_text : forall E v s, enum_key E v = Ok s -> key_text E v s.
Proof.
  intros E v s H. unfold enum_key in H. apply bind_ok in H. destruct H as (j & H & Q).
  destruct j; try discriminate. injection Q as ->. apply enum_value_spec in H.
  destruct H as (c & cl & ms & x & -> & G & K & I). econstructor; eassumption.
Qed.

Lemma str_key_text : forall E v s, str_key v = Ok s -> key_text E v s.
Proof. intros E v s H. destruct v; try discriminate. injection H as ->. constructor. Qed.

Lemma dict_image : forall E key (g : value -> res json) kvs ps,
  (forall v s, key v = Ok s -> key_text E v s) ->
  (forall k v j, In (k, v) kvs -> g v = Ok j -> image E v j) ->
  mapM (fun '(k, x) => do k' <- key k; do j <- g x; Ok (k', j)) kvs = Ok ps ->
  image E (VDict kvs) (JObj (dict_of ps)).
Proof.
  intros E key g kvs ps HK HG H. apply (im_dict E kvs ps); [|apply merged_dict_of].
  apply mapM_ok in H. eapply Forall2_impl_in; [|exact H].
  intros [k v] [s j] I _ Q. cbn [fst snd]. apply bind_ok in Q. destruct Q as (k' & Q1 & Q).
  apply bind_ok in Q. destruct Q as (j' & Q2 & Q). injection Q as -> ->.
  split; [apply HK; exact Q1 | eapply HG; eassumption].
Qed.

Lemma no_alias_form : no_alias TForm.
Proof. intros a (u & md1 & md2 & H & _). discriminate. Qed.

Lemma json_property_none : forall x, prop_name x TForm (json_property x None).
Proof. intros x. cbn [json_property]. apply strip_keyword_spec; [exact no_alias_form | reflexivity]. Qed.

Lemma json_property_some : forall x t, prop_name x t (json_property x (Some t)).
Proof. intros x t. apply json_property_spec. reflexivity. Qed.

Section Image.
  Variable E : env.
  Hypothesis OK : env_ok E.

  Lemma conforms_list : forall vs, conforms E (VList vs) -> Forall (conforms E) vs.
  Proof. intros vs H. inversion H; subst; [contradiction|assumption]. Qed.
  Lemma conforms_tuple : forall vs, conforms E (VTuple vs) -> Forall (conforms E) vs.
  Proof. intros vs H. inversion H; subst; [contradiction|assumption]. Qed.
  Lemma conforms_set : forall vs, conforms E (VSet vs) -> Forall (conforms E) vs.
  Proof. intros vs H. inversion H; subst; [contradiction|assumption]. Qed.
  Lemma conforms_dict : forall kvs, conforms E (VDict kvs) -> Forall (fun kv => conforms E (snd kv)) kvs.
  Proof. intros vs H. inversion H; subst; [contradiction|assumption]. Qed.

  (** Attributes of a conforming object have the types of the properties. *)
  Lemma conforms_fields : forall c cl attrs fs, get_class E c = Some cl -> c_to_json cl = None -> annotated cl ->
    class_properties E cl = Ok fs -> conforms E (VObj c attrs) ->
    forall x t v, In (x, t) fs -> dict_get attrs x = Some v -> has_type E (c_module cl) t v /\ conforms E v.
  Proof.
    intros c cl attrs fs G T A P C x t v I D.
    inversion C as [? B| | | | |? cl' ? ? G' T'|? cl' ? G' A' N F CF|? cl' ? G' A' CF]; subst;
      try contradiction; rewrite G in G'; injection G' as <-; try congruence; try contradiction.
    assert (R : Forall2 (fun r f => fst f = fst r /\
      forall v, has_type E (c_module cl) (snd f) v <-> has_type E (c_module cl) (snd r) v) (raw_fields (c_kind cl)) fs).
    { unfold class_properties in P. destruct (c_kind cl) eqn:K; try (apply (hints_ok _ _ _) in P; rewrite K in P; exact P).
      assert (Q : raw_fields (CData frozen fields) = fs) by congruence. rewrite Q. clear.
      induction fs; constructor; auto. split; [reflexivity | tauto]. }
    assert (U : NoDup (map fst attrs)).
    { rewrite N. exact (ok_names _ _ _ (OK _ _ G)). }
    split.
    - clear P C CF A A' T. revert fs R I. rewrite <- (map_id attrs) in F. clear U.
      assert (U : NoDup (map fst attrs)) by (rewrite N; exact (ok_names _ _ _ (OK _ _ G))).
      revert U D N F. generalize (raw_fields (c_kind cl)) as rs. rewrite map_id. clear G.
      induction attrs as [|[y w] attrs IH]; intros rs U D N F fs R I; [discriminate|].
      destruct rs as [|[z u] rs]; [discriminate|]. cbn [map fst snd] in *. injection N as <- N.
      inversion F as [|? ? ? ? F1 F2]; subst. inversion R as [|? [z' u'] ? ? [R1 R2] R3]; subst. cbn [fst snd] in *. subst z'.
      inversion U as [|? ? U1 U2]; subst. cbn [dict_get] in D. destruct (pystr_eqb y x) eqn:Q.
      + apply pystr_eqb_eq in Q. subst y. injection D as <-. destruct I as [I|I].
        * injection I as <-. apply R2. exact F1.
        * exfalso. apply U1. rewrite N. clear -R3 I. induction R3 as [|[a b] [a' b'] rs fs [H _] _ IH]; [destruct I|].
          cbn [fst] in H. subst a'. destruct I as [I|I]; [injection I as -> _; left; reflexivity | right; auto].
      + apply (IH rs U2 D N F2 _ R3). destruct I as [I|I]; [|exact I]. injection I as -> _. rewrite pystr_eqb_refl in Q. discriminate.
    - rewrite Forall_forall in CF. apply (CF (x, v)). apply dict_get_in. exact D.
  Qed.

  Definition P2 n := forall k ctx v s j, mkser E k ctx (typeof v) = Ok s -> conforms E v ->
    gen E n s v = Ok j -> image E v j.
  Definition P1 n := forall k ctx m t v s j, mkser E k ctx t = Ok s -> ctx = None \/ ctx = Some m ->
    has_type E m t v -> conforms E v -> gen E n s v = Ok j -> image E v j.

  Lemma otj_image : forall n v j, P2 n -> conforms E v ->
    (do s <- serializer_of E (typeof v); gen E n s v) = Ok j -> image E v j.
  Proof.
    intros n v j H C Q. apply bind_ok in Q. destruct Q as (s & Q1 & Q2). eapply H; eassumption.
  Qed.

  Lemma otjs_image : forall n vs js, P2 n -> Forall (conforms E) vs ->
    mapM (fun v => do s <- serializer_of E (typeof v); gen E n s v) vs = Ok js -> Forall2 (image E) vs js.
  Proof.
    intros n vs js H C Q. apply mapM_ok in Q. rewrite Forall_forall in C.
    eapply Forall2_impl_in; [|exact Q]. intros v j I _ G. eapply otj_image; eauto.
  Qed.

  Lemma fields_image : forall n c cl attrs k fs j, P1 n -> get_class E c = Some cl -> c_to_json cl = None -> annotated cl ->
    conforms E (VObj c attrs) ->
    (do ps <- class_properties E cl;
     do fs <- mapM (fun '(x, u) => do s <- mkser E k (Some (c_module cl)) u; Ok (x, json_property x (Some u), s)) ps;
     Ok (GClass fs)) = Ok (GClass fs) ->
    (do o <- gen_fields (gen E n) attrs fs []; Ok (JObj o)) = Ok j -> image E (VObj c attrs) j.
  Proof.
    intros n c cl attrs k fs j H G T A C B Q.
    apply bind_ok in B. destruct B as (ps & B1 & B). apply bind_ok in B. destruct B as (fs' & B2 & B). injection B as ->.
    apply bind_ok in Q. destruct Q as (o & Q & R). injection R as <-.
    apply gen_fields_spec in Q. destruct Q as (qs & -> & F & NA).
    apply mapM_ok in B2. change (fold_left _ qs []) with (dict_of qs).
    pose proof (conforms_fields c cl attrs ps G T A B1 C) as CF.
    assert (D : exists l, present attrs ps l /\
      Forall2 (fun f p => prop_name (fst (fst f)) (snd (fst f)) (fst p) /\ image E (snd f) (snd p)) l qs).
    { clear B1. revert qs F NA CF. induction B2 as [|[x t] [[x' p] s] ps fs B B2 IH]; intros qs F NA CF.
      - inversion F; subst. exists []. repeat constructor.
      - apply bind_ok in B. destruct B as (s' & B & Q). injection Q as <- <- ->.
        inversion NA as [|? ? N1 N2]; subst. cbn [fst snd filter] in *.
        destruct (dict_get attrs x) as [v|] eqn:D; [|congruence].
        assert (V : v = VNone \/ v <> VNone) by (destruct v; (left; reflexivity) || (right; discriminate)).
        destruct V as [->|V].
        + destruct (IH qs F N2) as (l & L1 & L2); [intros y u w I; apply CF; right; exact I|].
          exists l. split; [apply pr_none; assumption | exact L2].
        + replace (match v with VNone => false | _ => true end) with true in F by (destruct v; congruence).
          inversion F as [|? q ? qs' [F1 (w & F2 & F3)] F4]; subst. cbn [fst snd] in *. rewrite D in F2. injection F2 as <-.
          destruct (IH qs' F4 N2) as (l & L1 & L2); [intros y u w I; apply CF; right; exact I|].
          destruct (CF x t v (or_introl eq_refl) D) as [HT CV].
          exists ((x, t, v) :: l). split; [apply pr_some; assumption|]. constructor; [|exact L2]. cbn [fst snd]. split.
          * rewrite <- F1. apply json_property_some.
          * exact (H _ _ _ _ _ _ _ B (or_intror eq_refl) HT CV F3). }
    destruct D as (l & L1 & L2). eapply im_fields; try eassumption. apply merged_dict_of.
  Qed.

  Lemma image_step2 : forall n, P1 n -> P2 n -> P2 (S n).
  Proof.
    intros n H1 H2 k ctx v s j M C G. destruct k as [|k]; [discriminate|]. cbn [mkser] in M.
    destruct v; cbn [typeof] in M;
      try (injection M as <-; cbn [gen gen_scalar as_is] in G; first
        [ injection G as <-; apply im_scalar; constructor
        | apply bind_ok in G; destruct G as (x & G1 & G); injection G as <-; apply im_scalar; constructor; exact G1
        | apply bind_ok in G; destruct G as (js & G1 & G); injection G as <-;
          first [ apply im_list; apply (otjs_image n); [assumption | apply conforms_list; exact C | exact G1]
                | apply im_tuple; apply (otjs_image n); [assumption | apply conforms_tuple; exact C | exact G1]
                | apply im_set; apply (otjs_image n); [assumption | apply conforms_set; exact C | exact G1]
                | idtac ] ]; fail).
    - (* enum *)
      destruct (get_class E c) as [cl|] eqn:GC; [|discriminate].
      destruct (c_to_json cl) as [h|] eqn:T.
      { injection M as <-. cbn [gen] in G. eapply im_hook; try eassumption. reflexivity. }
      destruct (c_kind cl) as [ms|hs|xs|fr fs|hs] eqn:K.
      + injection M as <-. cbn [gen] in G. apply enum_value_spec in G.
        destruct G as (c' & cl' & ms' & x & Q & G' & K' & I). injection Q as -> ->. rewrite GC in G'. injection G' as <-.
        rewrite K in K'. injection K' as <-. eapply im_enum; eassumption.
      + exfalso. destruct hs; [injection M as <-; discriminate G|].
        apply bind_ok in M. destruct M as (ps & _ & M). apply bind_ok in M. destruct M as (fs & _ & M). injection M as <-. discriminate.
      + injection M as <-. discriminate.
      + apply bind_ok in M. destruct M as (ps & _ & M). apply bind_ok in M. destruct M as (fs' & _ & M). injection M as <-. discriminate.
      + exfalso. destruct hs; [injection M as <-; discriminate G|].
        apply bind_ok in M. destruct M as (ps & _ & M). apply bind_ok in M. destruct M as (fs & _ & M). injection M as <-. discriminate.
    - (* dict *)
      injection M as <-. cbn [gen] in G. apply bind_ok in G. destruct G as (ps & G1 & G). injection G as <-.
      apply conforms_dict in C. rewrite Forall_forall in C.
      eapply (dict_image E _ (fun v => do s <- serializer_of E (typeof v); gen E n s v)); [| |exact G1].
      + intros v s. destruct (first_is_enum kvs); [apply enum_key_text | apply str_key_text].
      + intros k' v j I. apply otj_image; [exact H2 | exact (C _ I)].
    - (* object *)
      destruct (get_class E c) as [cl|] eqn:GC; [|discriminate].
      destruct (c_to_json cl) as [h|] eqn:T.
      { injection M as <-. cbn [gen] in G. eapply im_hook; try eassumption. reflexivity. }
      assert (TY : annotated cl -> (do ps <- class_properties E cl;
          do fs <- mapM (fun '(x, u) => do s <- mkser E k (Some (c_module cl)) u; Ok (x, json_property x (Some u), s)) ps;
          Ok (GClass fs)) = Ok s -> image E (VObj c attrs) j).
      { intros A B. assert (exists fs, s = GClass fs) as (fs & ->).
        { apply bind_ok in B. destruct B as (ps & _ & B). apply bind_ok in B. destruct B as (fs & _ & B). injection B as <-. eauto. }
        eapply fields_image; eassumption. }
      unfold annotated in TY. destruct (c_kind cl) as [ms|hs|xs|fr fs|hs] eqn:K.
      + injection M as <-. cbn [gen] in G. apply enum_value_spec in G.
        destruct G as (c' & cl' & ms' & x & Q & _). discriminate.
      + destruct hs as [|h hs]; [|apply TY; [exact I | exact M]].
        injection M as <-. cbn [gen mapM bind] in G. injection G as <-.
        eapply (im_fields E c cl [] attrs [] []); try eassumption; try constructor.
        * unfold annotated. rewrite K. exact I.
        * unfold class_properties, hints. rewrite K. reflexivity.
      + injection M as <-. cbn [gen] in G. apply bind_ok in G. destruct G as (ps & G1 & G). injection G as <-.
        assert (CV : forall x v, dict_get attrs x = Some v -> conforms E v).
        { intros x v D. apply dict_get_in in D.
          inversion C as [? B| | | | |? cl' ? ? G' T'|? cl' ? G' A' N F CF|? cl' ? G' A' CF]; subst; try contradiction;
            rewrite GC in G'; injection G' as <-; try congruence.
          - rewrite Forall_forall in CF. exact (CF _ D).
          - rewrite Forall_forall in CF. exact (CF _ D). }
        eapply im_raw; try eassumption; [|apply merged_dict_of].
        apply mapM_ok in G1. rewrite Forall2_map_l in G1. eapply Forall2_impl_in; [|exact G1].
        intros x [p w] _ _ Q. cbn [fst snd] in *. destruct (dict_get attrs x) as [v|] eqn:D; [|discriminate].
        apply bind_ok in Q. destruct Q as (w' & Q1 & Q). injection Q as <- <-. split; [apply json_property_none|].
        exists v. split; [reflexivity|]. eapply otj_image; eauto.
      + apply TY; [exact I | exact M].
      + destruct hs as [|h hs]; [|apply TY; [discriminate | exact M]].
        injection M as <-. cbn [gen] in G. apply bind_ok in G. destruct G as (ps & G1 & G). injection G as <-.
        assert (CV : forall x v, In (x, v) attrs -> conforms E v).
        { intros x v D.
          inversion C as [? B| | | | |? cl' ? ? G' T'|? cl' ? G' A' N F CF|? cl' ? G' A' CF]; subst; try contradiction;
            rewrite GC in G'; injection G' as <-; try congruence.
          - rewrite Forall_forall in CF. exact (CF _ D).
          - rewrite Forall_forall in CF. exact (CF _ D). }
        eapply (im_untyped E c cl attrs (sort_attrs attrs)
                  (filter (fun a => negb (is_reserved (fst a)) && negb (is_none (snd a))) (sort_attrs attrs))); try eassumption.
        * apply sort_perm.
        * apply sort_sorted.
        * intros a. rewrite filter_In. apply and_iff_compat_l. rewrite andb_true_iff, !negb_true_iff.
          rewrite <- not_true_iff_false, is_reserved_spec. apply and_iff_compat_l. destruct (snd a); cbn [is_none]; split; intros; congruence.
        * eexists. reflexivity.
        * apply mapM_ok in G1. eapply Forall2_impl_in; [|exact G1].
          intros [x v] [p w] I _ Q. cbn [fst snd] in *. apply bind_ok in Q. destruct Q as (w' & Q1 & Q). injection Q as <- <-.
          split; [apply json_property_none|]. eapply otj_image; [exact H2| |exact Q1].
          apply filter_In in I. destruct I as [I _]. apply (CV x). eapply Permutation_in; [|exact I]. symmetry. apply sort_perm.
        * apply merged_dict_of.
    - discriminate.
  Qed.

  Lemma image_step1 : forall n, P1 n -> P2 n -> P2 (S n) -> P1 (S n).
  Proof.
    intros n H1 H2 H3. unfold P1. induction k as [|k IH]; intros ctx m t v s j M X HT C G; [discriminate|].
    destruct t as [k0|b|t|t|kt t|ts|op ts|ls|t md|c|rs|].
    - apply ht_scalar_iff in HT. rewrite <- (typeof_scalar _ _ HT) in M. eapply H3; eassumption.
    - apply ht_bare in HT. contradiction.
    - cbn [mkser] in M. apply bind_ok in M. destruct M as (s' & M & Q). injection Q as <-.
      apply ht_list_iff in HT. destruct HT as (vs & -> & HT). cbn [gen] in G.
      apply bind_ok in G. destruct G as (js & G1 & G). injection G as <-. apply im_list.
      apply conforms_list in C. rewrite Forall_forall in C, HT. apply mapM_ok in G1. eapply Forall2_impl_in; [|exact G1].
      intros w i I _ Q. exact (H1 _ _ _ _ _ _ _ M X (HT _ I) (C _ I) Q).
    - cbn [mkser] in M. apply bind_ok in M. destruct M as (s' & M & Q). injection Q as <-.
      apply ht_set_iff in HT. destruct HT as (vs & -> & HT & _). cbn [gen] in G.
      apply bind_ok in G. destruct G as (js & G1 & G). injection G as <-. apply im_set.
      apply conforms_set in C. rewrite Forall_forall in C, HT. apply mapM_ok in G1. eapply Forall2_impl_in; [|exact G1].
      intros w i I _ Q. exact (H1 _ _ _ _ _ _ _ M X (HT _ I) (C _ I) Q).
    - apply ht_dict_iff in HT. destruct HT as (kvs & -> & _ & HT & _).
      apply conforms_dict in C. rewrite Forall_forall in C, HT.
      assert (KK : forall s', mkser E k ctx t = Ok s' ->
        forall key ps, (forall v s, key v = Ok s -> key_text E v s) ->
          mapM (fun '(k, x) => do k' <- key k; do j <- gen E n s' x; Ok (k', j)) kvs = Ok ps ->
          image E (VDict kvs) (JObj (dict_of ps))).
      { intros s' M' key ps HK Q. eapply (dict_image E key (gen E n s')); [exact HK| |exact Q].
        intros k1 v1 j1 I Q1. exact (H1 _ _ _ _ _ _ _ M' X (HT _ I) (C _ I) Q1). }
      cbn [mkser] in M. destruct kt; try discriminate.
      + destruct k0; try discriminate. apply bind_ok in M. destruct M as (s' & M & Q). injection Q as <-.
        cbn [gen] in G. apply bind_ok in G. destruct G as (ps & G1 & G). injection G as <-.
        eapply KK; [exact M | apply str_key_text | exact G1].
      + destruct (get_class E c) as [cl|]; [|discriminate]. destruct (c_kind cl); try discriminate.
        apply bind_ok in M. destruct M as (s' & M & Q).
        destruct (forallb _ _ && _); [|discriminate]. injection Q as <-.
        cbn [gen] in G. apply bind_ok in G. destruct G as (ps & G1 & G). injection G as <-.
        eapply KK; [exact M | apply enum_key_text | exact G1].
    - cbn [mkser] in M. apply bind_ok in M. destruct M as (ss & M & Q). injection Q as <-.
      apply ht_tuple_iff in HT. destruct HT as (vs & -> & HT). cbn [gen] in G.
      apply bind_ok in G. destruct G as (js & G1 & G). injection G as <-. apply im_tuple.
      apply conforms_tuple in C. apply mapM_ok in M.
      assert (L : length ss = length vs).
      { rewrite <- (Forall2_length_eq _ _ _ _ _ M). exact (Forall2_length_eq _ _ _ _ _ HT). }
      apply zip_gen_spec in G1; [|exact L].
      revert ss js M G1 L C. induction HT as [|t v ts vs HT HTs IH']; intros ss js M G1 L C.
      + inversion M; subst. inversion G1; subst. constructor.
      + inversion M as [|? s ? ss' M1 M2]; subst. cbn [combine] in G1. inversion G1 as [|? j ? js' G2 G3]; subst.
        inversion C as [|? ? C1 C2]; subst. constructor.
        * exact (H1 _ _ _ _ _ _ _ M1 X HT C1 G2).
        * eapply IH'; try eassumption. cbn [length] in L. congruence.
    - cbn [mkser] in M. injection M as <-. cbn [gen] in G. exact (otj_image n _ _ H2 C G).
    - cbn [mkser] in M. apply bind_ok in M. destruct M as (u & M1 & M). apply bind_ok in M. destruct M as (s' & M & Q).
      injection Q as <-. cbn [gen] in G. apply ht_literal_iff in HT. destruct HT as (l & I & ->).
      assert (U : lit_type l = u).
      { unfold literal_type in M1. destruct ls as [|l0 ls]; [discriminate|]. destruct (forallb _ ls) eqn:F; [|discriminate].
        injection M1 as <-. destruct I as [->|I]; [reflexivity|]. rewrite forallb_forall in F. apply F in I.
        apply typ_eqb_eq in I. congruence. }
      subst u. rewrite <- typeof_lit in M. eapply H2; eassumption.
    - cbn [mkser] in M. rewrite ht_annot_iff in HT. eapply IH; try eassumption. left. reflexivity.
    - rewrite <- (typeof_class _ _ _ _ HT) in M. eapply H3; eassumption.
    - cbn [mkser] in M. destruct ctx as [m'|]; [|discriminate]. destruct X as [X|X]; [discriminate|]. injection X as ->.
      destruct (lookup E m rs) as [[a u]|] eqn:L; [|discriminate].
      apply ht_ref_iff in HT. destruct HT as (a' & u' & L' & HT). rewrite L in L'. injection L' as <- <-.
      destruct u; try discriminate; eapply IH; try eassumption; right; reflexivity.
    - apply ht_form in HT. contradiction.
  Qed.

  Lemma image_all : forall n, P1 n /\ P2 n.
  Proof.
    induction n as [|n [H1 H2]].
    - split; intros ?; intros; discriminate.
    - pose proof (image_step2 n H1 H2) as H3. split; [apply image_step1; assumption | exact H3].
  Qed.

  Theorem object_to_json_image : forall v j, conforms E v -> object_to_json E v = Ok j -> image E v j.
  Proof.
    intros v j C H. unfold object_to_json in H. apply (otj_image (gen_fuel v)); [apply image_all | exact C | exact H].
  Qed.
End Image.
