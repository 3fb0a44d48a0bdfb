(** Deserialization of a type in terms of deserialization of its parts. *)
From Coq Require Import String List NArith ZArith Bool Lia.
From Verif Require Import Base Json PyTypes Mapping Deser Lists TypingFacts DeserSound SpecRecursion DeserFuel DeserBuild.
Import ListNotations.
Open Scope list_scope.
Open Scope nat_scope.

(** The deserializer of the type can be built. *)
Definition ready (E : env) (m : nat) (t : typ) : Prop :=
  every_part (guarded E m) t /\ exists vis, create_deserializer E m t = Ok vis.

Section Unfold.
  Variable E : env.
  Hypothesis GE : guarded_env E.
  Hypothesis CALM : calm E.
  Variable skip : bool.

  Notation jto := (json_to_object E skip).

  Lemma ready_static : forall m t, ready E m t -> exists vis,
    closed E (fun k => In k vis) /\ static_ok E (fun k => In k vis) m t.
  Proof. intros m t (_ & vis & C). exists vis. apply create_closed. exact C. Qed.

  Lemma static_ready : forall vis m t, closed E (fun k => In k vis) -> static_ok E (fun k => In k vis) m t ->
    every_part (guarded E m) t -> ready E m t.
  Proof. intros vis m t CL SO P. split; [exact P|]. eapply create_part; eassumption. Qed.

  Lemma ready_list : forall m t, ready E m (TList t) -> ready E m t.
  Proof.
    intros m t R. destruct (ready_static _ _ R) as (vis & CL & SO). inversion SO; subst.
    eapply static_ready; try eassumption. exact (proj2 (proj1 R)).
  Qed.

  Lemma ready_set : forall m t, ready E m (TSet t) -> ready E m t.
  Proof.
    intros m t R. destruct (ready_static _ _ R) as (vis & CL & SO). inversion SO; subst.
    eapply static_ready; try eassumption. exact (proj2 (proj1 R)).
  Qed.

  Lemma ready_dict : forall m k t, ready E m (TDict k t) -> ready E m t /\ check_key_type E k = Ok tt.
  Proof.
    intros m k t R. destruct (ready_static _ _ R) as (vis & CL & SO). inversion SO; subst. split; [|assumption].
    eapply static_ready; try eassumption. exact (proj2 (proj2 (proj1 R))).
  Qed.

  Lemma ready_tuple : forall m ts, ready E m (TTuple ts) -> Forall (ready E m) ts.
  Proof.
    intros m ts R. destruct (ready_static _ _ R) as (vis & CL & SO). inversion SO; subst.
    destruct R as [[_ P] _]. apply every_part_list in P. rewrite Forall_forall in *. intros t I.
    eapply static_ready; eauto.
  Qed.

  Lemma ready_union : forall m op ts, ready E m (TUnion op ts) -> Forall (ready E m) ts.
  Proof.
    intros m op ts R. destruct (ready_static _ _ R) as (vis & CL & SO). inversion SO; subst.
    destruct R as [[_ P] _]. apply every_part_list in P. rewrite Forall_forall in *. intros t I.
    eapply static_ready; eauto.
  Qed.

  Lemma ready_annot : forall m t md, ready E m (TAnnot t md) -> ready E m t /\ ~ is_ref t.
  Proof.
    intros m t md R. destruct (ready_static _ _ R) as (vis & CL & SO). inversion SO; subst. split; [|assumption].
    eapply static_ready; try eassumption. exact (proj2 (proj1 R)).
  Qed.

  Lemma ready_literal : forall m ls, ready E m (TLiteral ls) -> exists u, literal_type ls = Ok u /\ ready E m u.
  Proof.
    intros m ls R. destruct (ready_static _ _ R) as (vis & CL & SO).
    inversion SO as [| | | | | |? u L SO'| | | | |]; subst. exists u. split; [exact L|].
    eapply static_ready; try eassumption.
    destruct (literal_type_cases ls) as [(l & Q)|Q]; rewrite L in Q; [|discriminate]. injection Q as ->.
    destruct l; split; try exact I; apply g_leaf; exact I.
  Qed.

  Lemma ready_ref : forall m s, ready E m (TRef s) ->
    exists a u, lookup E m s = Some (a, u) /\ ~ is_ref (deref u) /\ ready E m (deref u).
  Proof.
    intros m s R. destruct (ready_static _ _ R) as (vis & CL & SO).
    assert (PU : forall a u, lookup E m s = Some (a, u) -> every_part (guarded E m) (deref u)).
    { intros a u L. pose proof (ge_refs _ GE _ _ _ _ L) as P. destruct u; try exact P. exact (proj2 P). }
    inversion SO as [| | | | | | | | |? a u L D SO'|? u L D K|? u L D SO']; subst.
    - exists a, u. split; [exact L|]. split; [destruct (deref u); auto|].
      eapply static_ready; try eassumption. eauto.
    - exists true, u. split; [exact L|]. split; [destruct (deref u); auto|].
      apply CL in K. cbn [key_ok] in K. destruct K as (u' & L' & SO' & _). rewrite L in L'. injection L' as <-.
      eapply static_ready; try eassumption. eauto.
    - exists false, u. split; [exact L|]. split; [exact D|]. eapply static_ready; try eassumption. eauto.
  Qed.

  (** Classes whose fields are parsed one by one. *)
  Definition by_fields (cl : class) : Prop :=
    match c_kind cl, c_from_json cl with
    | CEnum _, _ | CData _ _, Some _ | CPlain _, Some _ => False
    | _, _ => True
    end.

  Lemma ready_class : forall m c, ready E m (TClass c) ->
    exists cl, get_class E c = Some cl /\
    (by_fields cl -> exists fps, field_parsers E cl = Ok fps /\
       Forall (fun fp => ready E (c_module cl) (fp_type fp)) fps).
  Proof.
    intros m c R. destruct (ready_static _ _ R) as (vis & CL & SO).
    inversion SO as [| | | | | | | |? cl G K| | |]; subst. exists cl. split; [exact G|].
    apply CL in K. cbn [key_ok] in K. destruct K as (cl' & G' & K). rewrite G in G'. injection G' as <-.
    intros B.
    assert (X : (exists fps, field_parsers E cl = Ok fps /\
                  Forall (fun fp => static_ok E (fun k => In k vis) (c_module cl) (fp_type fp)) fps) ->
                exists fps, field_parsers E cl = Ok fps /\ Forall (fun fp => ready E (c_module cl) (fp_type fp)) fps).
    { intros (fps & F & A). exists fps. split; [exact F|]. rewrite Forall_forall in *. intros fp I.
      eapply static_ready; try eassumption; [apply A; exact I|].
      exact (proj1 (field_parsers_parts E GE _ _ _ _ G F I)). }
    unfold by_fields in B. destruct (c_kind cl), (c_from_json cl); try contradiction; apply X; exact K.
  Qed.

  (** With enough fuel, parsing any of finitely many parts is deserialization. *)
  Lemma enough : forall (l : list (nat * typ * json)),
    (forall m t j, In (m, t, j) l -> ready E m t) ->
    exists N, forall n, N <= n -> forall m t j, In (m, t, j) l -> parse E skip n m t j = jto m t j.
  Proof.
    induction l as [|[[m t] j] l IH]; intros R.
    - exists 0. intros n _ m t j [].
    - destruct IH as (N & HN); [intros; apply (R m0 t0 j0); right; assumption|].
      exists (N + parse_fuel E t j). intros n L m' t' j' [Q|I]; [injection Q as <- <- <-|apply HN; [lia | exact I]].
      destruct (R m t j (or_introl eq_refl)) as [P C]. apply (jto_parse E GE CALM); [exact P | lia | exact C].
  Qed.

  Lemma jto_step : forall m t j N, ready E m t -> exists n, N <= n /\ jto m t j = parse E skip (S n) m t j.
  Proof.
    intros m t j N [P C]. exists (N + parse_fuel E t j). split; [lia|].
    symmetry. apply (jto_parse E GE CALM); [exact P | lia | exact C].
  Qed.

  Lemma jto_scalar : forall m k j, jto m (TScalar k) j = parse_scalar k j.
  Proof. reflexivity. Qed.

  Lemma jto_list : forall m t j, ready E m (TList t) -> jto m (TList t) j =
    match j with
    | JArr js => do vs <- mapM (jto m t) js; Ok (VList vs)
    | _ => Err EJsonType
    end.
  Proof.
    intros m t j R. pose proof (ready_list _ _ R) as Rt. destruct (jto_step m (TList t) j 0 R) as (n0 & _ & Q0).
    destruct j as [| | | | |js|]; try (rewrite Q0; reflexivity). clear Q0.
    destruct (enough (map (fun x => (m, t, x)) js)) as (N & HN).
    { intros m' t' x I. apply in_map_iff in I. destruct I as (y & Q & _). injection Q as <- <- <-. exact Rt. }
    destruct (jto_step m (TList t) (JArr js) N R) as (n & L & ->). cbn [parse].
    rewrite (mapM_ext _ _ _ (jto m t)); [reflexivity|].
    intros x I. apply HN; [exact L|]. apply in_map_iff. exists x. auto.
  Qed.

  Lemma jto_set : forall m t j, ready E m (TSet t) -> jto m (TSet t) j =
    match j with
    | JArr js => do vs <- mapM (fun x => do v <- jto m t x; if hashable E v then Ok v else Err EType) js;
                 Ok (VSet (set_of E [] vs))
    | _ => Err EJsonType
    end.
  Proof.
    intros m t j R. pose proof (ready_set _ _ R) as Rt. destruct (jto_step m (TSet t) j 0 R) as (n0 & _ & Q0).
    destruct j as [| | | | |js|]; try (rewrite Q0; reflexivity). clear Q0.
    destruct (enough (map (fun x => (m, t, x)) js)) as (N & HN).
    { intros m' t' x I. apply in_map_iff in I. destruct I as (y & Q & _). injection Q as <- <- <-. exact Rt. }
    destruct (jto_step m (TSet t) (JArr js) N R) as (n & L & ->). cbn [parse].
    rewrite (mapM_ext _ _ _ (fun x => do v <- jto m t x; if hashable E v then Ok v else Err EType)); [reflexivity|].
    intros x I. rewrite HN; [reflexivity | exact L |]. apply in_map_iff. exists x. auto.
  Qed.

  Lemma jto_dict : forall m k t j, ready E m (TDict k t) -> jto m (TDict k t) j =
    match j with
    | JObj o => do kvs <- mapM (fun '(s, x) => do kv <- parse_key E k s; do v <- jto m t x; Ok (kv, v)) o;
                Ok (VDict kvs)
    | _ => Err EJsonType
    end.
  Proof.
    intros m k t j R. destruct (ready_dict _ _ _ R) as [Rt _]. destruct (jto_step m (TDict k t) j 0 R) as (n0 & _ & Q0).
    destruct j as [| | | | | |o]; try (rewrite Q0; reflexivity). clear Q0.
    destruct (enough (map (fun x => (m, t, snd x)) o)) as (N & HN).
    { intros m' t' x I. apply in_map_iff in I. destruct I as (y & Q & _). injection Q as <- <- <-. exact Rt. }
    destruct (jto_step m (TDict k t) (JObj o) N R) as (n & L & ->). cbn [parse].
    rewrite (mapM_ext _ _ _ (fun '(s, x) => do kv <- parse_key E k s; do v <- jto m t x; Ok (kv, v))); [reflexivity|].
    intros [s x] I. rewrite HN; [reflexivity | exact L |]. apply in_map_iff. exists (s, x). auto.
  Qed.

  Lemma zip_parse_ext : forall p q ts js, (forall t j, In t ts -> In j js -> p t j = q t j) ->
    zip_parse p ts js = zip_parse q ts js.
  Proof.
    intros p q. induction ts as [|t ts IH]; intros [|j js] X; cbn [zip_parse]; try reflexivity.
    rewrite (X t j (or_introl eq_refl) (or_introl eq_refl)). rewrite (IH js); [reflexivity|].
    intros; apply X; right; assumption.
  Qed.

  Lemma jto_tuple : forall m ts j, ready E m (TTuple ts) -> jto m (TTuple ts) j =
    match j with
    | JArr js => if Nat.eqb (length js) (length ts)
                 then do vs <- zip_parse (jto m) ts js; Ok (VTuple vs) else Err EJsonValue
    | _ => Err EJsonType
    end.
  Proof.
    intros m ts j R. pose proof (ready_tuple _ _ R) as Rt. destruct (jto_step m (TTuple ts) j 0 R) as (n0 & _ & Q0).
    destruct j as [| | | | |js|]; try (rewrite Q0; reflexivity). clear Q0.
    destruct (enough (flat_map (fun t => map (fun x => (m, t, x)) js) ts)) as (N & HN).
    { intros m' t' x I. apply in_flat_map in I. destruct I as (u & Iu & I). apply in_map_iff in I.
      destruct I as (y & Q & _). injection Q as <- <- <-. rewrite Forall_forall in Rt. apply Rt. exact Iu. }
    destruct (jto_step m (TTuple ts) (JArr js) N R) as (n & L & ->). cbn [parse].
    rewrite (zip_parse_ext _ (jto m)); [reflexivity|].
    intros t x It Ix. apply HN; [exact L|]. apply in_flat_map. exists t. split; [exact It|]. apply in_map_iff. exists x. auto.
  Qed.

  Lemma union_try_ext : forall p q ts, (forall t, In t ts -> p t = q t) -> union_try p ts = union_try q ts.
  Proof.
    intros p q. induction ts as [|t ts IH]; intros X; cbn [union_try]; [reflexivity|].
    rewrite (X t (or_introl eq_refl)), IH; [reflexivity|]. intros; apply X; right; assumption.
  Qed.

  Lemma jto_union : forall m op ts j, ready E m (TUnion op ts) -> jto m (TUnion op ts) j =
    do ps <- discriminating_properties E ts;
    match ps with
    | [] => union_try (fun u => jto m u j) ts
    | _ => let ps' := e_order E ps in
           do tbl <- tag_table E ps' ts;
           match j with
           | JObj o => do u <- tag_select tbl ps' o; jto m u j
           | _ => Err EJsonType
           end
    end.
  Proof.
    intros m op ts j R. pose proof (ready_union _ _ _ R) as Rt. rewrite Forall_forall in Rt.
    destruct (enough (map (fun t => (m, t, j)) ts)) as (N & HN).
    { intros m' t' x I. apply in_map_iff in I. destruct I as (y & Q & Iy). injection Q as <- <- <-. apply Rt. exact Iy. }
    destruct (jto_step m (TUnion op ts) j N R) as (n & L & ->). cbn [parse].
    assert (X : forall t, In t ts -> parse E skip n m t j = jto m t j).
    { intros t I. apply HN; [exact L|]. apply in_map_iff. exists t. auto. }
    destruct (discriminating_properties E ts) as [[|p ps]|e]; cbn [bind]; try reflexivity.
    - apply union_try_ext. exact X.
    - destruct (tag_table E (e_order E (p :: ps)) ts) as [tbl|e] eqn:T; cbn [bind]; [|reflexivity].
      destruct j as [| | | | | |o]; try reflexivity.
      destruct (tag_select tbl _ o) as [u|e] eqn:S; cbn [bind]; [|reflexivity].
      apply X. apply tag_select_in in S. destruct S as (p' & l & x & _ & I & _).
      apply (tag_table_in _ _ _ _ _ _ _ T) in I. tauto.
  Qed.

  Lemma jto_literal : forall m ls j, ready E m (TLiteral ls) -> jto m (TLiteral ls) j =
    do u <- literal_type ls; do v <- jto m u j;
    if existsb (fun l => py_eq E (lit_value l) v) ls then Ok v else Err EJsonType.
  Proof.
    intros m ls j R. destruct (ready_literal _ _ R) as (u & L & Ru).
    destruct (enough [(m, u, j)]) as (N & HN).
    { intros m' t' x [Q|[]]. injection Q as <- <- <-. exact Ru. }
    destruct (jto_step m (TLiteral ls) j N R) as (n & LE & ->). cbn [parse]. rewrite L. cbn [bind].
    rewrite HN; [reflexivity | exact LE | left; reflexivity].
  Qed.

  Lemma jto_annot : forall m t md j, ready E m (TAnnot t md) -> jto m (TAnnot t md) j = jto m t j.
  Proof.
    intros m t md j R. destruct (ready_annot _ _ _ R) as (Rt & NR).
    destruct (enough [(m, t, j)]) as (N & HN).
    { intros m' t' x [Q|[]]. injection Q as <- <- <-. exact Rt. }
    destruct (jto_step m (TAnnot t md) j N R) as (n & LE & ->). cbn [parse].
    rewrite HN; [|exact LE | left; reflexivity]. destruct t; try reflexivity. destruct NR. exact I.
  Qed.

  Lemma jto_ref : forall m s a u j, ready E m (TRef s) -> lookup E m s = Some (a, u) ->
    jto m (TRef s) j = jto m (deref u) j.
  Proof.
    intros m s a u j R L. destruct (ready_ref _ _ R) as (a' & u' & L' & NR & Ru). rewrite L in L'. injection L' as <- <-.
    destruct (enough [(m, deref u, j)]) as (N & HN).
    { intros m' t' x [Q|[]]. injection Q as <- <- <-. exact Ru. }
    destruct (jto_step m (TRef s) j N R) as (n & LE & ->). cbn [parse]. rewrite L.
    rewrite <- (HN n LE m (deref u) j (or_introl eq_refl)).
    destruct (deref u); try reflexivity. destruct NR. exact I.
  Qed.

  Lemma parse_field_ext : forall p q fp o, (forall j, dict_get o (fp_prop fp) = Some j -> p (fp_type fp) j = q (fp_type fp) j) ->
    parse_field p fp o = parse_field q fp o.
  Proof.
    intros p q fp o X. unfold parse_field. destruct (dict_get o (fp_prop fp)) as [j|]; [|reflexivity].
    rewrite (X j eq_refl). reflexivity.
  Qed.

  Lemma jto_class : forall m c cl fps j, ready E m (TClass c) -> get_class E c = Some cl -> by_fields cl ->
    field_parsers E cl = Ok fps ->
    jto m (TClass c) j = parse_object (jto (c_module cl)) skip c cl fps j.
  Proof.
    intros m c cl fps j R G B F. destruct (ready_class _ _ R) as (cl' & G' & X). rewrite G in G'. injection G' as <-.
    destruct (X B) as (fps' & F' & RF). rewrite F in F'. injection F' as <-.
    destruct (enough (match j with
      | JObj o => flat_map (fun fp => map (fun kv => (c_module cl, fp_type fp, snd kv)) o) fps | _ => [] end)) as (N & HN).
    { intros m' t' x I. destruct j as [| | | | | |o]; try contradiction.
      apply in_flat_map in I. destruct I as (fp & Ifp & I). apply in_map_iff in I.
      destruct I as (y & Q & _). injection Q as <- <- <-. rewrite Forall_forall in RF. apply RF. exact Ifp. }
    destruct (jto_step m (TClass c) j N R) as (n & LE & ->). cbn [parse]. rewrite G.
    assert (Y : (do fps <- field_parsers E cl; parse_object (parse E skip n (c_module cl)) skip c cl fps j) =
                parse_object (jto (c_module cl)) skip c cl fps j).
    { rewrite F. cbn [bind]. destruct j as [| | | | | |o]; try reflexivity. cbn [parse_object].
      rewrite (mapM_ext _ _ _ (fun fp => do v <- parse_field (jto (c_module cl)) fp o; Ok (fp_name fp, v))); [reflexivity|].
      intros fp I. f_equal. apply parse_field_ext. intros x D. apply HN; [exact LE|].
      apply in_flat_map. exists fp. split; [exact I|]. apply in_map_iff. exists (fp_prop fp, x). split; [reflexivity|].
      apply dict_get_in. exact D. }
    rewrite <- Y. unfold by_fields in B. destruct (c_kind cl), (c_from_json cl); try contradiction; reflexivity.
  Qed.

  Lemma jto_enum : forall m c cl ms j, get_class E c = Some cl -> c_kind cl = CEnum ms ->
    jto m (TClass c) j = parse_enum c ms j.
  Proof.
    intros m c cl ms j G K. unfold json_to_object, create_deserializer, build_fuel, level_bound.
    cbn [plus Nat.mul build]. unfold parse_fuel, level_bound. cbn [plus Nat.mul parse].
    rewrite G, K. cbn [existsb]. destruct (c_from_json cl); reflexivity.
  Qed.
End Unfold.
