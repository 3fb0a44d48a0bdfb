(** Deserialization of classes field by field. *)
From Coq Require Import String List NArith ZArith Bool Lia.
From Verif Require Import Base Json PyTypes Mapping Deser Lists TypingFacts DeserSound SpecRecursion DeserFuel DeserBuild
  DeserUnfold SpecDeser DeserFacts SpecTypes TypeAlgebraProofs SpecFields.
Import ListNotations.
Open Scope list_scope.
Open Scope nat_scope.

(** * Property names *)

Lemma drop_underscore_spec : forall x s, drop_underscore x = Some s <-> x = s ++ str "_".
Proof.
  intros x s. unfold drop_underscore. split.
  - intros H. destruct (rev x) as [|c r] eqn:R; [discriminate|]. destruct (N.eqb_spec c 95); [|discriminate].
    subst c. injection H as <-. rewrite <- (rev_involutive x), R. reflexivity.
  - intros ->. rewrite rev_app_distr. cbn [rev app str]. change (rev (str "_")) with [95%N]. cbn [app].
    rewrite N.eqb_refl, rev_involutive. reflexivity.
Qed.

Lemma forallb_exists_false : forall A (f : A -> bool) l, forallb f l = false -> exists x, In x l /\ f x = false.
Proof.
  intros A f. induction l as [|x l IH]; [discriminate|]. cbn [forallb]. rewrite andb_false_iff. intros [H|H].
  - exists x. split; [left; reflexivity | exact H].
  - destruct (IH H) as (y & I & Q). exists y. split; [right; exact I | exact Q].
Qed.

Lemma keyword_in : forall s, iskeyword s = true <-> In s python_keywords.
Proof.
  assert (F : forall a b : list pystr, forallb (fun s => mem_str s b) a = true -> incl a b).
  { intros a b H s I. rewrite forallb_forall in H. apply mem_str_in. apply H. exact I. }
  intros s. unfold iskeyword. rewrite mem_str_in. split; apply F; reflexivity.
Qed.

Lemma strip_keyword_spec : forall x t p, no_alias t -> (strip_keyword x = p <-> prop_name x t p).
Proof.
  intros x t p NA. unfold strip_keyword. split.
  - intros H. destruct (drop_underscore x) as [s|] eqn:D.
    + apply drop_underscore_spec in D. destruct (iskeyword s) eqn:K.
      * subst s. apply pn_keyword; [exact NA | apply keyword_in; exact K | exact D].
      * subst p. apply pn_same; [exact NA|]. intros k I ->. apply app_inj_tail in D. destruct D as [<- _].
        apply keyword_in in I. congruence.
    + subst p. apply pn_same; [exact NA|]. intros k I ->.
      assert (X : drop_underscore (k ++ str "_") = Some k) by (apply drop_underscore_spec; reflexivity). congruence.
  - intros H. destruct H as [a A|k _ K ->|_ N].
    + destruct (NA _ A).
    + assert (X : drop_underscore (k ++ str "_") = Some k) by (apply drop_underscore_spec; reflexivity).
      rewrite X. apply keyword_in in K. rewrite K. reflexivity.
    + destruct (drop_underscore x) as [s|] eqn:D; [|reflexivity]. apply drop_underscore_spec in D.
      destruct (iskeyword s) eqn:K; [|reflexivity]. apply keyword_in in K. destruct (N _ K D).
Qed.

Theorem json_property_spec : forall x t p, json_property x (Some t) = p <-> prop_name x t p.
Proof.
  intros x t p. cbn [json_property]. destruct (get_alias t) as [a|] eqn:A.
  - apply get_alias_spec in A. split.
    + intros <-. apply pn_alias. exact A.
    + intros H. destruct H as [b B|k NA _ _|NA _].
      * apply get_alias_spec in A, B. congruence.
      * destruct (NA _ A).
      * destruct (NA _ A).
  - apply strip_keyword_spec. apply get_alias_none. exact A.
Qed.

Lemma prop_name_fun : forall x t p q, prop_name x t p -> prop_name x t q -> p = q.
Proof. intros x t p q P Q. apply json_property_spec in P, Q. congruence. Qed.

(** Names that are not keywords stay distinct. *)
Theorem prop_names_distinct : forall x y t u p, prop_name x t p -> prop_name y u p ->
  no_alias t -> no_alias u -> ~ In x python_keywords -> ~ In y python_keywords -> x = y.
Proof.
  intros x y t u p P Q NT NU KX KY.
  inversion P as [a A|k _ K X|_ N]; subst; [destruct (NT _ A)| |];
    (inversion Q as [b B|k' _ K' X'|_ N']; subst; [destruct (NU _ B)| |]); try reflexivity; contradiction.
Qed.

(** * Field parsers *)

Lemma field_parser_spec : forall x t d fp, canonical t -> field_parser x t d = Ok fp ->
  prop_name x t (fp_prop fp) /\ fp_name fp = x /\ read_type t (fp_type fp) /\
  fp_mode fp = match d with Some v => FDefault v | None => if is_type_optional t then FOptional else FRequired end.
Proof.
  intros x t d fp C H. unfold field_parser in H. apply bind_ok in H. destruct H as (u & A & B). injection B as <-.
  cbn [fp_prop fp_name fp_type fp_mode]. split; [apply json_property_spec; reflexivity|]. split; [reflexivity|].
  split; [|reflexivity]. destruct (is_type_optional t) eqn:O.
  - left. split; [apply is_type_optional_spec; exact O | apply unwrap_optional_spec; assumption].
  - right. split; [|congruence]. intros X. apply is_type_optional_spec in X. congruence.
Qed.

Lemma union_of_fun : forall us u w, union_of us u -> union_of us w -> u = w.
Proof. intros us u w A B. inversion A; subst; inversion B; subst; reflexivity. Qed.

Lemma carrying_fun : forall t md u w, carrying t md u -> carrying t md w -> u = w.
Proof. intros t md u w A B. apply mk_annot_carrying in A, B. congruence. Qed.

Lemma drops_none_fun : forall t u w, drops_none t u -> drops_none t w -> u = w.
Proof.
  intros t u w A B. inversion A; subst; inversion B; subst;
    match goal with X : without_none ?l ?a, Y : without_none ?l ?b |- _ =>
      assert (a = b) by (eapply without_none_fun; eassumption); subst end;
    match goal with X : union_of ?l ?a, Y : union_of ?l ?b |- _ =>
      assert (a = b) by (eapply union_of_fun; eassumption); subst end; try reflexivity.
  eapply carrying_fun; eassumption.
Qed.

Lemma read_type_fun : forall t u w, read_type t u -> read_type t w -> u = w.
Proof.
  intros t u w [[O A]|[N A]] [[O' B]|[N' B]]; try contradiction; subst; try reflexivity.
  eapply drops_none_fun; eassumption.
Qed.

Lemma dict_get_absent : forall (o : list (pystr * json)) p, absent o p <-> dict_get o p = None.
Proof. intros o p. unfold absent. symmetry. apply dict_get_none. Qed.

Lemma dict_get_present : forall (o : list (pystr * json)) p j, NoDup (map fst o) ->
  (In (p, j) o <-> dict_get o p = Some j).
Proof. intros o p j N. split; [apply dict_get_nodup; exact N | apply dict_get_in]. Qed.

Lemma parse_field_spec : forall E skip m x t d fp o r, canonical t -> field_parser x t d = Ok fp ->
  NoDup (map fst o) ->
  (parse_field (json_to_object E skip m) fp o = r <-> received E skip m o (x, t, d) r).
Proof.
  intros E skip m x t d fp o r C F ND. destruct (field_parser_spec _ _ _ _ C F) as (P & _ & R & M).
  unfold parse_field. rewrite M. set (p := fp_prop fp) in *.
  split.
  - destruct (dict_get o p) as [j|] eqn:G.
    + assert (I : In (p, j) o) by (apply dict_get_in; exact G).
      destruct (match j with JNull => true | _ => false end) eqn:Z.
      * destruct j; try discriminate. intros H. destruct d as [v|]; [subst; econstructor; eauto|].
        destruct (is_type_optional t) eqn:O; subst r.
        -- eapply rc_none; eauto. apply is_type_optional_spec. exact O.
        -- eapply rc_null; eauto. intros X. apply is_type_optional_spec in X. congruence.
      * intros H. assert (H' : json_to_object E skip m (fp_type fp) j = r).
        { destruct d as [v|]; [|destruct (is_type_optional t)]; destruct j; try discriminate; exact H. }
        rewrite <- H'. eapply rc_present; eauto. intros ->. discriminate.
    + assert (A : absent o p) by (apply dict_get_absent; exact G).
      intros H. destruct d as [v|]; [subst; econstructor; eauto|]. destruct (is_type_optional t) eqn:O; subst r.
      * eapply rc_none; eauto. apply is_type_optional_spec. exact O.
      * eapply rc_missing; eauto. intros X. apply is_type_optional_spec in X. congruence.
  - intros H. inversion H as [? ? ? q u j Q I NZ RT|? ? v q Q A|? ? q Q A O|? ? q Q A NO|? ? q Q I NO]; subst;
      rewrite (prop_name_fun _ _ _ _ Q P) in *; fold p.
    + rewrite (read_type_fun _ _ _ RT R). apply (dict_get_present _ _ _ ND) in I. rewrite I.
      destruct d as [v|]; [|destruct (is_type_optional t)]; destruct j; try reflexivity; contradiction.
    + destruct A as [A|A]; [apply dict_get_absent in A | apply (dict_get_present _ _ _ ND) in A]; rewrite A; reflexivity.
    + apply is_type_optional_spec in O. rewrite O.
      destruct A as [A|A]; [apply dict_get_absent in A | apply (dict_get_present _ _ _ ND) in A]; rewrite A; reflexivity.
    + destruct (is_type_optional t) eqn:O; [apply is_type_optional_spec in O; contradiction|].
      apply dict_get_absent in A. rewrite A. reflexivity.
    + destruct (is_type_optional t) eqn:O; [apply is_type_optional_spec in O; contradiction|].
      apply (dict_get_present _ _ _ ND) in I. rewrite I. reflexivity.
Qed.

Section Classes.
  Variable E : env.
  Hypothesis CE : canonical_env E.
  Hypothesis GE : guarded_env E.
  Hypothesis CALM : calm E.

  Lemma hints_canonical : forall c cl hs x t, get_class E c = Some cl -> hints E cl = Ok hs -> In (x, t) hs -> canonical t.
  Proof.
    intros c cl hs x t G H I. unfold hints in H. apply mapM_ok in H. eapply Forall2_in_r in I; [|exact H].
    destruct I as ((y, u) & Iy & Q). apply bind_ok in Q. destruct Q as (w & A & B). injection B as <- <-.
    eapply resolve_canonical; [intros; eapply ce_refs; eassumption | eapply ce_fields; eassumption | exact A].
  Qed.

  Lemma hints_names : forall cl hs, hints E cl = Ok hs -> map fst hs = map fst (raw_fields (c_kind cl)).
  Proof.
    intros cl hs H. unfold hints in H. apply mapM_ok in H.
    induction H as [|[x t] [y u] l r Q _ IH]; [reflexivity|]. apply bind_ok in Q. destruct Q as (w & _ & B).
    injection B as <- <-. cbn [map fst]. f_equal. exact IH.
  Qed.

  (** The parsers of an ordinary class follow its layout. *)
  Lemma layout_parsers : forall c cl L, get_class E c = Some cl -> ordinary cl -> layout E cl L ->
    field_parsers E cl = mapM (fun '((x, t), d) => field_parser x t d) L.
  Proof.
    intros c cl L G O [H D]. unfold field_parsers. rewrite H. cbn [bind].
    unfold ordinary in O. destruct (c_kind cl) as [| | |fr fs|hs]; try contradiction; cbn [defaults raw_fields] in D.
    - clear H. revert fs D. induction L as [|[[x t] d] L IH]; intros fs D; destruct fs as [|f fs]; try discriminate; [reflexivity|].
      cbn [map snd] in D. injection D as D1 D2. cbn [map fst combine mapM]. rewrite <- D1.
      rewrite (IH fs D2). reflexivity.
    - assert (A : Forall (fun f => snd f = None) L).
      { clear H. revert D. generalize (raw_fields (CPlain hs)). intros l. cbn. clear.
        intros D. apply Forall_forall. intros f I. apply (in_map snd) in I. rewrite D in I.
        apply in_map_iff in I. destruct I as (? & <- & _). reflexivity. }
      clear H D. induction A as [|[[x t] d] L Q A IH]; [reflexivity|]. cbn [snd] in Q. subst d.
      cbn [map fst mapM]. rewrite IH. reflexivity.
  Qed.

  Lemma layout_exists : forall c cl hs, get_class E c = Some cl -> hints E cl = Ok hs -> ordinary cl ->
    exists L, layout E cl L.
  Proof.
    intros c cl hs G H O. exists (combine hs (defaults (c_kind cl))).
    assert (LEN : length hs = length (defaults (c_kind cl))).
    { apply hints_names in H. apply (f_equal (@length _)) in H. rewrite !map_length in H. rewrite H.
      unfold ordinary in O. destruct (c_kind cl); try contradiction; cbn [defaults raw_fields]; rewrite ?map_length; reflexivity. }
    split.
    - rewrite H. f_equal. clear H. revert LEN. generalize (defaults (c_kind cl)). induction hs as [|h hs IH]; intros [|d l] Q; try discriminate; [reflexivity|].
      cbn [combine map fst]. f_equal. apply IH. injection Q as Q. exact Q.
    - clear H. revert LEN. generalize (defaults (c_kind cl)). induction hs as [|h hs IH]; intros [|d l] Q; try discriminate; [reflexivity|].
      cbn [combine map snd]. f_equal. apply IH. injection Q as Q. exact Q.
  Qed.

  Lemma known_ordinary : forall cl L p, ordinary cl -> layout E cl L ->
    (known E cl p <-> exists x t d, In (x, t, d) L /\ prop_name x t p).
  Proof.
    intros cl L p O [H _]. unfold known, json_name.
    assert (NT : forall x t, (match c_kind cl with CTuple _ => p = x | _ => prop_name x t p end) = prop_name x t p).
    { intros x t. unfold ordinary in O. destruct (c_kind cl); try contradiction; reflexivity. }
    split.
    - intros (hs & x & t & H' & I & J). rewrite NT in J. rewrite H in H'. injection H' as <-.
      apply in_map_iff in I. destruct I as ([[y u] d] & Q & I). injection Q as <- <-. eauto 6.
    - intros (x & t & d & I & J). exists (map fst L), x, t. split; [exact H|]. split; [|rewrite NT; exact J].
      apply in_map_iff. exists (x, t, d). auto.
  Qed.

  Lemma keys_known : forall (fps : list fparser) (o : list (pystr * json)),
    forallb (fun kv => mem_str (fst kv) (map fp_prop fps)) o = true <->
    forall p, In p (map fst o) -> In p (map fp_prop fps).
  Proof.
    intros fps o. rewrite forallb_forall. split.
    - intros H p I. apply in_map_iff in I. destruct I as (kv & <- & I). apply mem_str_in. apply H. exact I.
    - intros H kv I. apply mem_str_in. apply H. apply in_map. exact I.
  Qed.

  Variable skip : bool.
  Notation jto := (json_to_object E skip).

  Section One.
    Variables (m c : nat) (cl : class) (L : list (pystr * typ * option (res value))) (o : list (pystr * json)).
    Hypothesis R : ready E m (TClass c).
    Hypothesis G : get_class E c = Some cl.
    Hypothesis O : ordinary cl.
    Hypothesis LAY : layout E cl L.
    Hypothesis ND : NoDup (map fst o).

    Lemma one_parsers : exists fps, field_parsers E cl = Ok fps /\
      Forall2 (fun f fp => prop_name (fst (fst f)) (snd (fst f)) (fp_prop fp) /\ fp_name fp = fst (fst f) /\
        forall r, parse_field (jto (c_module cl)) fp o = r <-> received E skip (c_module cl) o f r) L fps.
    Proof.
      destruct (ready_class E GE m c R) as (cl' & G' & X). rewrite G in G'. injection G' as <-.
      destruct X as (fps & F & _).
      { unfold by_fields. unfold ordinary in O. destruct (c_kind cl); try contradiction; rewrite O; exact I. }
      exists fps. split; [exact F|]. rewrite (layout_parsers _ _ _ G O LAY) in F. apply mapM_ok in F.
      destruct LAY as [H _].
      assert (CN : forall x t d, In (x, t, d) L -> canonical t).
      { intros x t d I. eapply hints_canonical; [exact G | exact H |]. apply in_map_iff. exists (x, t, d). split; [reflexivity | exact I]. }
      eapply Forall2_impl_in; [|exact F]. intros [[x t] d] fp I _ Q. cbn [fst snd].
      destruct (field_parser_spec _ _ _ _ (CN _ _ _ I) Q) as (P & N & _). split; [exact P|]. split; [exact N|].
      intros r. apply parse_field_spec; eauto.
    Qed.

    Lemma one_known : forall fps, Forall2 (fun f fp => prop_name (fst (fst f)) (snd (fst f)) (fp_prop fp)) L fps ->
      forall p, In p (map fp_prop fps) <-> known E cl p.
    Proof.
      intros fps F p. rewrite (known_ordinary _ _ _ O LAY). split.
      - intros I. apply in_map_iff in I. destruct I as (fp & <- & I). eapply Forall2_in_r in I; [|exact F].
        destruct I as ([[x t] d] & I & P). exists x, t, d. auto.
      - intros (x & t & d & I & P). eapply Forall2_in_l in I; [|exact F]. destruct I as (fp & I & Q). cbn [fst snd] in Q.
        rewrite (prop_name_fun _ _ _ _ P Q). apply in_map. exact I.
    Qed.

    Lemma one_values : forall fps vals,
      Forall2 (fun f fp => prop_name (fst (fst f)) (snd (fst f)) (fp_prop fp) /\ fp_name fp = fst (fst f) /\
        forall r, parse_field (jto (c_module cl)) fp o = r <-> received E skip (c_module cl) o f r) L fps ->
      (mapM (fun fp => do v <- parse_field (jto (c_module cl)) fp o; Ok (fp_name fp, v)) fps = Ok vals <->
       exists vs, vals = combine (map (fun f => fst (fst f)) L) vs /\
         Forall2 (fun f v => received E skip (c_module cl) o f (Ok v)) L vs).
    Proof.
      intros fps vals F. clear LAY. revert vals. induction F as [|f fp l fps (P & N & RC) F IH]; intros vals.
      - split.
        + intros H. injection H as <-. exists []. split; [reflexivity | constructor].
        + intros (vs & -> & A). inversion A. reflexivity.
      - cbn [mapM]. split.
        + intros H. apply bind_ok in H. destruct H as ([y w] & A & B). apply bind_ok in B. destruct B as (r & B & D).
          injection D as <-. apply bind_ok in A. destruct A as (w' & A & D). injection D as <- <-.
          apply RC in A. apply IH in B. destruct B as (vs & -> & B). exists (w' :: vs). split.
          * cbn [map combine]. rewrite N. reflexivity.
          * constructor; assumption.
        + intros (vs & -> & A). inversion A as [|? v ? vs' A1 A2]; subst. apply RC in A1. rewrite A1. cbn [bind map combine].
          assert (X : exists vs0, combine (map (fun f => fst (fst f)) l) vs' = combine (map (fun f => fst (fst f)) l) vs0 /\
            Forall2 (fun f v => received E skip (c_module cl) o f (Ok v)) l vs0) by eauto.
          apply IH in X. rewrite X. cbn [bind]. rewrite N. reflexivity.
    Qed.

    Theorem class_ok_spec : forall v, jto m (TClass c) (JObj o) = Ok v <->
      exists vs, v = VObj c (combine (map (fun f => fst (fst f)) L) vs) /\
        Forall2 (fun f v => received E skip (c_module cl) o f (Ok v)) L vs /\
        (skip = true \/ forall p, In p (map fst o) -> known E cl p).
    Proof.
      intros v. destruct one_parsers as (fps & F & A).
      assert (BF : by_fields cl).
      { unfold by_fields. unfold ordinary in O. destruct (c_kind cl); try contradiction; rewrite O; exact I. }
      rewrite (jto_class E GE CALM skip m c cl fps _ R G BF F). cbn [parse_object].
      assert (K : skip || forallb (fun kv => mem_str (fst kv) (map fp_prop fps)) o = true <->
                  skip = true \/ forall p, In p (map fst o) -> known E cl p).
      { rewrite orb_true_iff, keys_known.
        assert (AP : Forall2 (fun f fp => prop_name (fst (fst f)) (snd (fst f)) (fp_prop fp)) L fps).
        { eapply Forall2_impl_in; [|exact A]. cbn. tauto. }
        split; (intros [S|S]; [left; exact S | right; intros p I; apply (one_known fps AP); auto]). }
      assert (NR : forall vals, (match c_kind cl with CRawTuple (_ :: _) => Err EType | _ => Ok (VObj c vals) end) = Ok (VObj c vals)).
      { intros vals. unfold ordinary in O. destruct (c_kind cl); try contradiction; reflexivity. }
      split.
      - intros H. apply bind_ok in H. destruct H as (vals & V & H). rewrite NR in H. apply (one_values _ _ A) in V.
        destruct V as (vs & -> & V). exists vs.
        destruct (skip || _) eqn:Q; [|discriminate]. injection H as <-. pose proof (proj1 K eq_refl). auto.
      - intros (vs & -> & V & S). apply K in S.
        assert (X : exists vs0, combine (map (fun f => fst (fst f)) L) vs = combine (map (fun f => fst (fst f)) L) vs0 /\
            Forall2 (fun f v => received E skip (c_module cl) o f (Ok v)) L vs0) by eauto.
        apply (one_values _ _ A) in X. rewrite X. cbn [bind]. rewrite S. apply NR.
    Qed.

    Lemma one_error : forall fps e,
      Forall2 (fun f fp => prop_name (fst (fst f)) (snd (fst f)) (fp_prop fp) /\ fp_name fp = fst (fst f) /\
        forall r, parse_field (jto (c_module cl)) fp o = r <-> received E skip (c_module cl) o f r) L fps ->
      (mapM (fun fp => do v <- parse_field (jto (c_module cl)) fp o; Ok (fp_name fp, v)) fps = Err e <->
       exists L1 f L2, L = L1 ++ f :: L2 /\ received E skip (c_module cl) o f (Err e) /\
         Forall (fun f => exists v, received E skip (c_module cl) o f (Ok v)) L1).
    Proof.
      intros fps e F. clear LAY. induction F as [|f fp l fps (P & N & RC) F IH].
      - split; [discriminate|]. intros ([|] & ? & ? & Q & _); discriminate.
      - cbn [mapM]. destruct (parse_field (jto (c_module cl)) fp o) as [w|e'] eqn:A; cbn [bind].
        + assert (RW : received E skip (c_module cl) o f (Ok w)) by (apply RC; reflexivity).
          split.
          * intros H. apply bind_err in H. destruct H as [H|(r & _ & H)]; [|discriminate].
            apply IH in H. destruct H as (L1 & g & L2 & -> & B & D). exists (f :: L1), g, L2.
            split; [reflexivity|]. split; [exact B|]. constructor; [eauto | exact D].
          * intros (L1 & g & L2 & Q & B & D). destruct L1 as [|h L1]; cbn [app] in Q; injection Q as <- Q.
            -- apply RC in B. congruence.
            -- inversion D as [|? ? _ D']; subst.
               assert (X : exists L1' f0 L2', L1 ++ g :: L2 = L1' ++ f0 :: L2' /\ received E skip (c_module cl) o f0 (Err e) /\
                 Forall (fun f => exists v, received E skip (c_module cl) o f (Ok v)) L1') by eauto 8.
               apply IH in X. rewrite X. reflexivity.
        + assert (RW : received E skip (c_module cl) o f (Err e')) by (apply RC; reflexivity).
          split.
          * intros H. injection H as <-. exists [], f, l. split; [reflexivity|]. split; [exact RW | constructor].
          * intros (L1 & g & L2 & Q & B & D). destruct L1 as [|h L1]; cbn [app] in Q; injection Q as <- Q.
            -- apply RC in B. congruence.
            -- inversion D as [|? ? (w & D1) _]; subst. apply RC in D1. congruence.
    Qed.

    Theorem class_err_spec : forall e, jto m (TClass c) (JObj o) = Err e <->
      (exists L1 f L2, L = L1 ++ f :: L2 /\ received E skip (c_module cl) o f (Err e) /\
         Forall (fun f => exists v, received E skip (c_module cl) o f (Ok v)) L1) \/
      (e = EJsonKey /\ skip = false /\ (exists p, In p (map fst o) /\ ~ known E cl p) /\
       Forall (fun f => exists v, received E skip (c_module cl) o f (Ok v)) L).
    Proof.
      intros e. destruct one_parsers as (fps & F & A).
      assert (BF : by_fields cl).
      { unfold by_fields. unfold ordinary in O. destruct (c_kind cl); try contradiction; rewrite O; exact I. }
      rewrite (jto_class E GE CALM skip m c cl fps _ R G BF F). cbn [parse_object].
      assert (AP : Forall2 (fun f fp => prop_name (fst (fst f)) (snd (fst f)) (fp_prop fp)) L fps).
      { eapply Forall2_impl_in; [|exact A]. cbn. tauto. }
      assert (K : skip || forallb (fun kv => mem_str (fst kv) (map fp_prop fps)) o = false <->
                  skip = false /\ exists p, In p (map fst o) /\ ~ known E cl p).
      { rewrite orb_false_iff. split; intros [S B]; (split; [exact S|]).
        - destruct (forallb_exists_false _ _ _ B) as (kv & I & Q). exists (fst kv). split; [apply in_map; exact I|].
          apply mem_str_not_in in Q. intros X. apply Q. apply (one_known fps AP). exact X.
        - destruct (forallb _ o) eqn:Q; [|reflexivity]. destruct B as (p & I & N). exfalso. apply N.
          apply (one_known fps AP). apply (proj1 (keys_known fps o) Q). exact I. }
      assert (NR : forall vals, (match c_kind cl with CRawTuple (_ :: _) => Err EType | _ => Ok (VObj c vals) end) = Ok (VObj c vals)).
      { intros vals. unfold ordinary in O. destruct (c_kind cl); try contradiction; reflexivity. }
      split.
      - intros H. apply bind_err in H. destruct H as [H|(vals & V & H)].
        + left. apply (one_error _ _ A) in H. exact H.
        + right. destruct (skip || _) eqn:Q; [rewrite NR in H; discriminate|]. injection H as <-. pose proof (proj1 K eq_refl).
          split; [reflexivity|]. split; [tauto|]. split; [tauto|].
          apply (one_values _ _ A) in V. destruct V as (vs & _ & V). clear -V.
          induction V; constructor; eauto.
      - intros [H|(-> & S & X & V)].
        + apply (one_error _ _ A) in H. rewrite H. reflexivity.
        + assert (Y : exists vals, mapM (fun fp => do v <- parse_field (jto (c_module cl)) fp o; Ok (fp_name fp, v)) fps = Ok vals).
          { apply mapM_total. intros fp I. eapply Forall2_in_r in I; [|exact A]. destruct I as (f & I & _ & _ & RC).
            rewrite Forall_forall in V. destruct (V _ I) as (v & B). apply RC in B. rewrite B. cbn [bind]. eauto. }
          destruct Y as (vals & Y). rewrite Y. cbn [bind].
          assert (Q : skip || forallb (fun kv => mem_str (fst kv) (map fp_prop fps)) o = false) by (apply K; auto).
          rewrite Q. reflexivity.
    Qed.
  End One.

  (** Classes read field by field, whatever their kind. *)
  Lemma fieldwise_by_fields : forall cl, fieldwise cl <-> by_fields cl.
  Proof.
    intros cl. unfold fieldwise, by_fields. destruct (c_kind cl), (c_from_json cl); split; intros; auto; try discriminate; contradiction.
  Qed.

  Lemma class_parsers_rel : forall c cl fps, get_class E c = Some cl -> fieldwise cl -> field_parsers E cl = Ok fps ->
    exists hs, hints E cl = Ok hs /\ Forall2 (fun h fp => json_name cl (fst h) (snd h) (fp_prop fp) /\
      reads cl (snd h) (fp_type fp)) hs fps.
  Proof.
    intros c cl fps G FW F.
    destruct (hints E cl) as [hs|e] eqn:H; [|unfold field_parsers in F; rewrite H in F; discriminate].
      exists hs. split; [reflexivity|]. destruct (c_kind cl) as [ms|ts|xs|fr fs|ps] eqn:K; unfold fieldwise in FW; rewrite K in FW; try contradiction.
      - unfold field_parsers in F. rewrite H, K in F. cbn [bind] in F. injection F as <-. clear H.
        unfold json_name, reads. rewrite K. induction hs as [|[x t] hs IH]; constructor; [split; reflexivity | exact IH].
      - unfold field_parsers in F. rewrite H, K in F. cbn [bind] in F. injection F as <-.
        apply hints_names in H. rewrite K in H. cbn in H. destruct hs; [constructor | discriminate].
      - assert (O : ordinary cl) by (unfold ordinary; rewrite K; exact FW).
        destruct (layout_exists c cl hs G H O) as (L & LAY). rewrite (layout_parsers c cl L G O LAY) in F.
        apply mapM_ok in F. destruct LAY as [H' _]. rewrite H in H'. injection H' as ->.
        apply Forall2_map_l. eapply Forall2_impl_in; [|exact F]. intros [[x t] d] fp I _ Q. cbn [fst snd].
        apply field_parser_spec in Q.
        + unfold json_name, reads. rewrite K. tauto.
        + eapply hints_canonical; [exact G | exact H|]. apply in_map_iff. exists (x, t, d). split; [reflexivity | exact I].
      - assert (O : ordinary cl) by (unfold ordinary; rewrite K; exact FW).
        destruct (layout_exists c cl hs G H O) as (L & LAY). rewrite (layout_parsers c cl L G O LAY) in F.
        apply mapM_ok in F. destruct LAY as [H' _]. rewrite H in H'. injection H' as ->.
        apply Forall2_map_l. eapply Forall2_impl_in; [|exact F]. intros [[x t] d] fp I _ Q. cbn [fst snd].
        apply field_parser_spec in Q.
        + unfold json_name, reads. rewrite K. tauto.
        + eapply hints_canonical; [exact G | exact H|]. apply in_map_iff. exists (x, t, d). split; [reflexivity | exact I].
  Qed.

  Lemma class_parsers : forall c cl fps, get_class E c = Some cl -> fieldwise cl -> field_parsers E cl = Ok fps ->
    (forall p, In p (map fp_prop fps) <-> known E cl p) /\
    forall fp, In fp fps -> exists hs x t, hints E cl = Ok hs /\ In (x, t) hs /\
      json_name cl x t (fp_prop fp) /\ reads cl t (fp_type fp).
  Proof.
    intros c cl fps G FW F. pose proof (class_parsers_rel c cl fps G FW F) as X.
    destruct X as (hs & H & A). split.
    - intros p. unfold known. split.
      + intros I. apply in_map_iff in I. destruct I as (fp & <- & I). eapply Forall2_in_r in I; [|exact A].
        destruct I as ([x t] & I & P & _). eauto 6.
      + intros (hs' & x & t & H' & I & P). rewrite H in H'. injection H' as <-.
        eapply Forall2_in_l in I; [|exact A]. destruct I as (fp & I & Q & _). cbn [fst snd] in Q.
        assert (QE : p = fp_prop fp).
        { unfold json_name in P, Q. destruct (c_kind cl); try congruence; eapply prop_name_fun; eassumption. }
        rewrite QE. apply in_map. exact I.
    - intros fp I. eapply Forall2_in_r in I; [|exact A]. destruct I as ([x t] & I & P & Q). eauto 8.
  Qed.

  (** Unknown properties are rejected. *)
  Theorem class_known : forall m c cl o v, ready E m (TClass c) -> get_class E c = Some cl -> fieldwise cl ->
    json_to_object E false m (TClass c) (JObj o) = Ok v -> forall p, In p (map fst o) -> known E cl p.
  Proof.
    intros m c cl o v R G FW H p I.
    destruct (ready_class E GE m c R) as (cl' & G' & X). rewrite G in G'. injection G' as <-.
    apply fieldwise_by_fields in FW. destruct (X FW) as (fps & F & _).
    rewrite (jto_class E GE CALM false m c cl fps _ R G FW F) in H. cbn [parse_object] in H.
    apply bind_ok in H. destruct H as (vals & _ & H). cbn [orb] in H.
    destruct (forallb _ o) eqn:Q; [|discriminate].
    apply fieldwise_by_fields in FW. apply (proj1 (class_parsers c cl fps G FW F)).
    apply (proj1 (keys_known fps o) Q). exact I.
  Qed.

  (** * Unknown properties are ignored *)

  Lemma alike_kind : forall m t j j', alike E m t j j' -> kind_of j = kind_of j'.
  Proof.
    intros m t j j' A. induction A; try reflexivity; auto.
    destruct ts as [|t ts]; [contradiction|]. match goal with H : forall t, In t _ -> kind_of _ = _ |- _ => apply (H t) end.
    left. reflexivity.
  Qed.

  Lemma mapM_nth_ext : forall A B C (f : A -> res C) (g : B -> res C) l l', length l = length l' ->
    (forall i a b, nth_error l i = Some a -> nth_error l' i = Some b -> f a = g b) -> mapM f l = mapM g l'.
  Proof.
    intros A B C f g. induction l as [|a l IH]; intros [|b l'] LEN H; try discriminate; [reflexivity|].
    cbn [mapM]. rewrite (H 0 a b eq_refl eq_refl). rewrite (IH l'); [reflexivity | injection LEN; auto|].
    intros i x y X Y. exact (H (S i) x y X Y).
  Qed.

  Lemma zip_nth_ext : forall p ts l l', length l = length l' ->
    (forall i t a b, nth_error ts i = Some t -> nth_error l i = Some a -> nth_error l' i = Some b -> p t a = p t b) ->
    zip_parse p ts l = zip_parse p ts l'.
  Proof.
    intros p. induction ts as [|t ts IH]; intros [|a l] [|b l'] LEN H; try discriminate; try reflexivity.
    cbn [zip_parse]. rewrite (H 0 t a b eq_refl eq_refl eq_refl). rewrite (IH l l'); [reflexivity | injection LEN; auto|].
    intros i u x y U X Y. exact (H (S i) u x y U X Y).
  Qed.
End Classes.

Section Ignore.
  Variable E : env.
  Hypothesis CE : canonical_env E.
  Hypothesis GE : guarded_env E.
  Hypothesis CALM : calm E.

  Notation jto := (json_to_object E true).

  Lemma tag_select_ext : forall tbl ps o o', (forall p, In p ps -> dict_get o p = dict_get o' p) ->
    tag_select tbl ps o = tag_select tbl ps o'.
  Proof.
    intros tbl. induction ps as [|p ps IH]; intros o o' H; [reflexivity|]. cbn [tag_select].
    rewrite (H p (or_introl eq_refl)), (IH o o'); [reflexivity|]. intros q I. apply H. right. exact I.
  Qed.

  Lemma parse_field_alike : forall p fp o o',
    (dict_get o (fp_prop fp) = None <-> dict_get o' (fp_prop fp) = None) ->
    (forall a b, dict_get o (fp_prop fp) = Some a -> dict_get o' (fp_prop fp) = Some b ->
       p (fp_type fp) a = p (fp_type fp) b /\ kind_of a = kind_of b) ->
    parse_field p fp o = parse_field p fp o'.
  Proof.
    intros p fp o o' A B. unfold parse_field.
    destruct (dict_get o (fp_prop fp)) as [a|], (dict_get o' (fp_prop fp)) as [b|].
    - destruct (B a b eq_refl eq_refl) as [Q K]. destruct (fp_mode fp); destruct a, b; try discriminate; try reflexivity; exact Q.
    - destruct A as [_ A]. discriminate (A eq_refl).
    - destruct A as [A _]. discriminate (A eq_refl).
    - reflexivity.
  Qed.

  Lemma alike_union_object : forall m op ts j j' o, alike E m (TUnion op ts) j j' -> j = JObj o -> exists o', j' = JObj o'.
  Proof.
    intros m op ts j j' o A ->. apply alike_kind in A. destruct j'; try discriminate. eauto.
  Qed.

  Hypothesis ORD : forall ps p, In p (e_order E ps) -> In p ps.

  Theorem alike_jto : forall m t j j', alike E m t j j' -> json_wf j -> json_wf j' -> ready E m t -> jto m t j = jto m t j'.
  Proof.
    intros m t j j' A. induction A as [m t j|m t js js' LEN _ IH|m t js js' LEN _ IH|m ts js js' LEN _ IH|m k t o o' KEY _ IH
      |m op ts j j' NE A IH TAGS|m t md j j' _ IH|m s a t j j' LK _ IH|m c cl o o' G FW AB A IH]; intros W W' R.
    - reflexivity.
    - rewrite !(jto_list E GE CALM true m t _ R). rewrite (mapM_nth_ext _ _ _ (jto m t) (jto m t) js js' LEN); [reflexivity|].
      intros i a b X Y. inversion W as [| | | | |? W1|]; subst. inversion W' as [| | | | |? W2|]; subst.
      rewrite Forall_forall in W1, W2.
      apply (IH i a b X Y); [apply W1; eapply nth_error_In; exact X | apply W2; eapply nth_error_In; exact Y | apply ready_list; assumption].
    - rewrite !(jto_set E GE CALM true m t _ R).
      match goal with |- (do vs <- mapM ?f js; _) = _ => rewrite (mapM_nth_ext _ _ _ f f js js' LEN); [reflexivity|] end.
      intros i a b X Y. inversion W as [| | | | |? W1|]; subst. inversion W' as [| | | | |? W2|]; subst.
      rewrite Forall_forall in W1, W2.
      rewrite (IH i a b X Y); [reflexivity | apply W1; eapply nth_error_In; exact X | apply W2; eapply nth_error_In; exact Y | apply ready_set; assumption].
    - rewrite !(jto_tuple E GE CALM true m ts _ R). rewrite LEN. rewrite (zip_nth_ext (jto m) ts js js' LEN); [reflexivity|].
      intros i t a b T X Y. inversion W as [| | | | |? W1|]; subst. inversion W' as [| | | | |? W2|]; subst.
      rewrite Forall_forall in W1, W2. pose proof (ready_tuple E GE m ts R) as RT. rewrite Forall_forall in RT.
      apply (IH i t a b T X Y); [apply W1; eapply nth_error_In; exact X | apply W2; eapply nth_error_In; exact Y | apply RT; eapply nth_error_In; exact T].
    - rewrite !(jto_dict E GE CALM true m k t _ R).
      assert (LEN : length o = length o') by (apply (f_equal (@length _)) in KEY; rewrite !map_length in KEY; exact KEY).
      match goal with |- (do kvs <- mapM ?f o; _) = _ => rewrite (mapM_nth_ext _ _ _ f f o o' LEN); [reflexivity|] end.
      intros i [s a] [s' b] X Y.
      assert (SS : s = s').
      { apply (map_nth_error fst) in X, Y. rewrite KEY in X. cbn [fst] in X, Y. congruence. }
      subst s'. destruct (parse_key E k s); [|reflexivity]. cbn [bind].
      inversion W as [| | | | | |? _ W1]; subst. inversion W' as [| | | | | |? _ W2]; subst. rewrite Forall_forall in W1, W2.
      rewrite (IH i a b); [reflexivity | | | | | ].
      + exact (map_nth_error snd _ _ X).
      + exact (map_nth_error snd _ _ Y).
      + apply (W1 (s, a)). eapply nth_error_In; exact X.
      + apply (W2 (s, b)). eapply nth_error_In; exact Y.
      + apply (ready_dict E GE m k t R).
    - rewrite !(jto_union E GE CALM true m op ts _ R). pose proof (ready_union E GE m op ts R) as RU. rewrite Forall_forall in RU.
      destruct (discriminating_properties E ts) as [ps|e] eqn:D; [|reflexivity]. cbn [bind].
      destruct ps as [|p0 ps0] eqn:PS.
      + apply union_try_ext. intros u I. apply IH; auto.
      + rewrite <- PS in *. clear PS p0 ps0.
        destruct (tag_table E (e_order E ps) ts) as [tbl|e] eqn:T; [|reflexivity]. cbn [bind].
        assert (AU : alike E m (TUnion op ts) j j') by (constructor; assumption).
        destruct j as [| | | | | |o].
        1-6: apply alike_kind in AU; destruct j'; try discriminate; reflexivity.
        destruct (alike_union_object _ _ _ _ _ _ AU eq_refl) as (o' & ->).
        rewrite (tag_select_ext tbl (e_order E ps) o o').
        * destruct (tag_select tbl (e_order E ps) o') as [u|e] eqn:TS; [|reflexivity]. cbn [bind].
          apply tag_select_in in TS. destruct TS as (p' & l & x & _ & I & _).
          apply (tag_table_in _ _ _ _ _ _ _ T) in I. apply IH; try assumption; [|apply RU]; tauto.
        * intros p I. apply (TAGS p o o'); [|reflexivity|reflexivity].
          apply (discriminating_spec E ts ps p D). apply ORD. exact I.
    - rewrite !(jto_annot E GE CALM true m t md _ R). apply IH; auto. apply (ready_annot E GE m t md R).
    - destruct (ready_ref E GE m s R) as (a' & u & LK' & NR & RU). rewrite LK in LK'. injection LK' as <- <-.
      rewrite !(jto_ref E GE CALM true m s a t _ R LK). apply IH; auto.
    - destruct (ready_class E GE m c R) as (cl' & G' & X). rewrite G in G'. injection G' as <-.
      assert (BF : by_fields cl) by (apply fieldwise_by_fields; exact FW).
      destruct (X BF) as (fps & F & RF). rewrite !(jto_class E GE CALM true m c cl fps _ R G BF F). cbn [parse_object orb].
      destruct (class_parsers E CE c cl fps G FW F) as [KN FP]. rewrite Forall_forall in RF.
      inversion W as [| | | | | |? N1 W1]; subst. inversion W' as [| | | | | |? N2 W2]; subst. rewrite Forall_forall in W1, W2.
      rewrite (mapM_ext _ _ (fun fp => do v <- parse_field (jto (c_module cl)) fp o; Ok (fp_name fp, v))
                            (fun fp => do v <- parse_field (jto (c_module cl)) fp o'; Ok (fp_name fp, v))); [reflexivity|].
      intros fp I. f_equal. apply parse_field_alike.
      + rewrite <- !dict_get_absent. apply AB. apply KN. apply in_map. exact I.
      + intros x y DX DY. apply dict_get_in in DX, DY. destruct (FP fp I) as (hs & z & t & H & IH' & JN & RD). split.
        * eapply IH; try eassumption; [apply (W1 _ DX) | apply (W2 _ DY) | apply RF; exact I].
        * eapply alike_kind. eapply A; eassumption.
  Qed.
End Ignore.

(** * Named tuples *)

Section Tuples.
  Variable E : env.
  Hypothesis GE : guarded_env E.
  Hypothesis CALM : calm E.
  Variables (skip : bool) (m c : nat) (cl : class) (ts hs : list (pystr * typ)) (o : list (pystr * json)).
  Hypothesis R : ready E m (TClass c).
  Hypothesis G : get_class E c = Some cl.
  Hypothesis K : c_kind cl = CTuple ts.
  Hypothesis H : hints E cl = Ok hs.
  Hypothesis ND : NoDup (map fst o).

  Notation jto := (json_to_object E skip).

  Lemma tuple_parsers : jto m (TClass c) (JObj o) =
    parse_object (jto (c_module cl)) skip c cl (map (fun '(x, t) => mkFP x x t FRequired) hs) (JObj o).
  Proof.
    assert (F : field_parsers E cl = Ok (map (fun '(x, t) => mkFP x x t FRequired) hs)).
    { unfold field_parsers. rewrite H, K. reflexivity. }
    apply (jto_class E GE CALM skip m c cl); [exact R | exact G | | exact F]. unfold by_fields. rewrite K.
    destruct (c_from_json cl); exact I.
  Qed.

  Theorem tuple_ok_spec : forall v, jto m (TClass c) (JObj o) = Ok v <->
    exists vs, v = VObj c (combine (map fst hs) vs) /\
      Forall2 (fun h v => exists j, In (fst h, j) o /\ j <> JNull /\ jto (c_module cl) (snd h) j = Ok v) hs vs /\
      (skip = true \/ forall p, In p (map fst o) -> In p (map fst hs)).
  Proof.
    intros v. rewrite tuple_parsers. cbn [parse_object]. rewrite K.
    assert (NM : map fp_prop (map (fun '(x, t) => mkFP x x t FRequired) hs) = map fst hs).
    { clear. induction hs as [|[x t] l IH]; cbn [map fp_prop fst]; [reflexivity | f_equal; exact IH]. }
    assert (KK : skip || forallb (fun kv => mem_str (fst kv) (map fp_prop (map (fun '(x, t) => mkFP x x t FRequired) hs))) o = true <->
                 skip = true \/ forall p, In p (map fst o) -> In p (map fst hs)).
    { rewrite orb_true_iff, keys_known, NM. reflexivity. }
    assert (VV : forall vals, mapM (fun fp => do v <- parse_field (jto (c_module cl)) fp o; Ok (fp_name fp, v))
        (map (fun '(x, t) => mkFP x x t FRequired) hs) = Ok vals <->
      exists vs, vals = combine (map fst hs) vs /\
        Forall2 (fun h v => exists j, In (fst h, j) o /\ j <> JNull /\ jto (c_module cl) (snd h) j = Ok v) hs vs).
    { clear H KK NM. induction hs as [|[x t] l IH]; intros vals; cbn [map mapM].
      - split; [intros Q; injection Q as <-; exists []; split; [reflexivity | constructor]|].
        intros (vs & -> & A). inversion A. reflexivity.
      - assert (PF : forall w, parse_field (jto (c_module cl)) (mkFP x x t FRequired) o = Ok w <->
          exists j, In (x, j) o /\ j <> JNull /\ jto (c_module cl) t j = Ok w).
        { intros w. unfold parse_field. cbn [fp_mode fp_prop fp_type]. split.
          - destruct (dict_get o x) as [j|] eqn:D; [|discriminate]. apply dict_get_in in D. intros Q.
            exists j. destruct j; try discriminate; (split; [exact D|]; split; [discriminate | exact Q]).
          - intros (j & I & NZ & Q). apply (dict_get_present _ _ _ ND) in I. rewrite I.
            destruct j; try exact Q. contradiction. }
        split.
        + intros Q. apply bind_ok in Q. destruct Q as ([y w] & A & B). apply bind_ok in B. destruct B as (r & B & D).
          injection D as <-. apply bind_ok in A. destruct A as (w' & A & D). injection D as <- <-.
          apply PF in A. apply IH in B. destruct B as (vs & -> & B). exists (w' :: vs). split; [reflexivity|].
          constructor; assumption.
        + intros (vs & -> & A). inversion A as [|? w ? vs' A1 A2]; subst. apply PF in A1. rewrite A1. cbn [bind fp_name map combine fst].
          assert (X : exists vs0, combine (map fst l) vs' = combine (map fst l) vs0 /\
            Forall2 (fun h v => exists j, In (fst h, j) o /\ j <> JNull /\ jto (c_module cl) (snd h) j = Ok v) l vs0) by eauto.
          apply IH in X. rewrite X. reflexivity. }
    split.
    - intros Q. apply bind_ok in Q. destruct Q as (vals & V & Q). apply VV in V. destruct V as (vs & -> & V).
      destruct (skip || _); [|discriminate]. injection Q as <-. pose proof (proj1 KK eq_refl). exists vs. auto.
    - intros (vs & -> & V & S). apply KK in S.
      assert (X : exists vs0, combine (map fst hs) vs = combine (map fst hs) vs0 /\
        Forall2 (fun h v => exists j, In (fst h, j) o /\ j <> JNull /\ jto (c_module cl) (snd h) j = Ok v) hs vs0) by eauto.
      apply VV in X. rewrite X. cbn [bind]. rewrite S. reflexivity.
  Qed.
End Tuples.
