(** Proofs for C03: the serializer exists and only fails where the value does. *)
From Coq Require Import List NArith ZArith Bool Lia ZifyBool ZifyN ZifyNat.
From Verif Require Import Base Json IsoTime PyTypes Mapping Deser Ser Lists SpecTyping TypingFacts SpecRecursion
  SpecTypes TypeAlgebraProofs DeserFuel SpecFields SpecSer SerFacts RoundTrip SpecSerTotal.
Import ListNotations.
Open Scope list_scope.
Open Scope nat_scope.

Section Construction.
  Variable E : env.

  Definition fits (n : nat) (ctx : option nat) (t : typ) : Prop := exists s, mkser E n ctx t = Ok s.

  Lemma fits_dec : forall n ctx t, fits n ctx t \/ ~ fits n ctx t.
  Proof.
    intros n ctx t. unfold fits. destruct (mkser E n ctx t) as [s|e]; [left; eauto|].
    right. intros (s & Q). discriminate.
  Qed.

  (** The parts that have to be built first. *)
  Definition typed_class (cl : class) : bool :=
    match c_to_json cl with
    | Some _ => false
    | None => match c_kind cl with
              | CData _ _ => true
              | CTuple [] => false
              | CTuple _ => true
              | CPlain [] => false
              | CPlain _ => true
              | _ => false
              end
    end.

  Lemma typed_annotated : forall cl, typed_class cl = true -> annotated cl.
  Proof.
    intros cl. unfold typed_class, annotated. destruct (c_to_json cl); [discriminate|].
    destruct (c_kind cl) as [ms|hs|xs|fr fs|hs]; try discriminate; try (intros; exact I).
    destruct hs; [discriminate|]. intros _. discriminate.
  Qed.

  Lemma fits_inv : forall n ctx t, fits (S n) ctx t ->
    match t with
    | TList u | TSet u => fits n ctx u
    | TDict k u => fits n ctx u /\ match k with
        | TScalar KStr => True
        | TClass c => exists cl ms, get_class E c = Some cl /\ c_kind cl = CEnum ms /\
            forallb (fun x => is_str_json (snd x)) ms && negb (Nat.eqb (length ms) 0) = true
        | _ => False
        end
    | TTuple ts => forall u, In u ts -> fits n ctx u
    | TLiteral ls => exists u, literal_type ls = Ok u /\ fits n ctx u
    | TAnnot u _ => fits n None u
    | TClass c => exists cl, get_class E c = Some cl /\
        (typed_class cl = true -> exists ps, class_properties E cl = Ok ps /\
           forall x u, In (x, u) ps -> fits n (Some (c_module cl)) u)
    | TRef s => exists m a u, ctx = Some m /\ lookup E m s = Some (a, u) /\ (forall s', u <> TRef s') /\ fits n ctx u
    | TForm => False
    | _ => True
    end.
  Proof.
    intros n ctx t (s & H). cbn [mkser] in H. destruct t as [k|b|u|u|k u|ts|op ts|ls|u md|c|r|]; try exact I.
    - apply bind_ok in H. destruct H as (s' & H & _). exists s'. exact H.
    - apply bind_ok in H. destruct H as (s' & H & _). exists s'. exact H.
    - destruct k; try discriminate.
      + destruct k; try discriminate. apply bind_ok in H. destruct H as (s' & H & _). split; [exists s'; exact H | exact I].
      + destruct (get_class E c) as [cl|]; [|discriminate]. destruct (c_kind cl) eqn:K; try discriminate.
        apply bind_ok in H. destruct H as (s' & H & Q). split; [exists s'; exact H|].
        destruct (forallb _ _ && _) eqn:F; [|discriminate]. eauto.
    - apply bind_ok in H. destruct H as (ss & H & _). apply mapM_ok in H. intros u J.
      destruct (Forall2_in_l _ _ _ _ _ _ H J) as (s' & _ & Q). exists s'. exact Q.
    - apply bind_ok in H. destruct H as (u & Q & H). apply bind_ok in H. destruct H as (s' & H & _).
      exists u. split; [exact Q|]. exists s'. exact H.
    - exists s. exact H.
    - destruct (get_class E c) as [cl|]; [|discriminate]. exists cl. split; [reflexivity|]. intros TC.
      unfold typed_class in TC. destruct (c_to_json cl); [discriminate|].
      assert (TY : (do ps <- class_properties E cl;
        do fs <- mapM (fun '(x, u) => do s <- mkser E n (Some (c_module cl)) u; Ok (x, json_property x (Some u), s)) ps;
        Ok (GClass fs)) = Ok s).
      { destruct (c_kind cl) as [ms|hs|xs|fr fs|hs]; try discriminate; try exact H; destruct hs; try discriminate; exact H. }
      apply bind_ok in TY. destruct TY as (ps & P & TY). apply bind_ok in TY. destruct TY as (fs & TY & _).
      exists ps. split; [exact P|]. intros x u J. apply mapM_ok in TY.
      destruct (Forall2_in_l _ _ _ _ _ _ TY J) as (f & _ & Q). apply bind_ok in Q. destruct Q as (s' & Q & _).
      exists s'. exact Q.
    - destruct ctx as [m|]; [|discriminate]. destruct (lookup E m r) as [[a u]|] eqn:LK; [|discriminate].
      exists m, a, u. split; [reflexivity|]. split; [exact LK|].
      split; [intros s' ->; discriminate|]. exists s. destruct u; try exact H; discriminate.
    - discriminate.
  Qed.

  Lemma fits_intro : forall n ctx t,
    match t with
    | TList u | TSet u => fits n ctx u
    | TDict k u => fits n ctx u /\ match k with
        | TScalar KStr => True
        | TClass c => exists cl ms, get_class E c = Some cl /\ c_kind cl = CEnum ms /\
            forallb (fun x => is_str_json (snd x)) ms && negb (Nat.eqb (length ms) 0) = true
        | _ => False
        end
    | TTuple ts => forall u, In u ts -> fits n ctx u
    | TLiteral ls => exists u, literal_type ls = Ok u /\ fits n ctx u
    | TAnnot u _ => fits n None u
    | TClass c => exists cl, get_class E c = Some cl /\
        (typed_class cl = true -> exists ps, class_properties E cl = Ok ps /\
           forall x u, In (x, u) ps -> fits n (Some (c_module cl)) u)
    | TRef s => exists m a u, ctx = Some m /\ lookup E m s = Some (a, u) /\ (forall s', u <> TRef s') /\ fits n ctx u
    | TForm => False
    | _ => True
    end -> fits (S n) ctx t.
  Proof.
    intros n ctx t H. unfold fits. cbn [mkser]. destruct t as [k|b|u|u|k u|ts|op ts|ls|u md|c|r|]; try (eexists; reflexivity).
    - destruct H as (s & ->). eexists. reflexivity.
    - destruct H as (s & ->). eexists. reflexivity.
    - destruct H as ((s & H) & HK). destruct k; try contradiction.
      + destruct k; try contradiction. rewrite H. eexists. reflexivity.
      + destruct HK as (cl & ms & -> & -> & ->). rewrite H. eexists. reflexivity.
    - destruct (mapM_total _ _ (mkser E n ctx) ts H) as (ss & ->). eexists. reflexivity.
    - destruct H as (u & -> & (s & H)). cbn [bind]. rewrite H. eexists. reflexivity.
    - exact H.
    - destruct H as (cl & -> & H). unfold typed_class in H. destruct (c_to_json cl); [eexists; reflexivity|].
      assert (TY : (exists ps, class_properties E cl = Ok ps /\
           forall x u, In (x, u) ps -> fits n (Some (c_module cl)) u) -> exists s, (do ps <- class_properties E cl;
        do fs <- mapM (fun '(x, u) => do s <- mkser E n (Some (c_module cl)) u; Ok (x, json_property x (Some u), s)) ps;
        Ok (GClass fs)) = Ok s).
      { intros (ps & -> & F). cbn [bind].
        destruct (mapM_total _ _ (fun '(x, u) => do s <- mkser E n (Some (c_module cl)) u;
          Ok (x, json_property x (Some u), s)) ps) as (fs & ->); [|eexists; reflexivity].
        intros [x u] J. destruct (F x u J) as (s & ->). eexists. reflexivity. }
      destruct (c_kind cl) as [ms|hs|xs|fr fs|hs]; try (eexists; reflexivity); try (apply TY, H; reflexivity);
        destruct hs; try (eexists; reflexivity); apply TY, H; reflexivity.
    - destruct H as (m & a & u & -> & -> & N & (s & H)). exists s. destruct u; try exact H. exfalso. eapply N. reflexivity.
    - contradiction.
  Qed.

  Lemma fits_S : forall n ctx t, fits n ctx t -> fits (S n) ctx t.
  Proof.
    induction n as [|n IH]; intros ctx t H; [destruct H; discriminate|].
    apply fits_inv in H. apply fits_intro. destruct t; auto.
    - destruct H as [H HK]. split; [apply IH, H | exact HK].
    - destruct H as (u & Q & H). exists u. auto.
    - destruct H as (cl & G & H). exists cl. split; [exact G|]. intros TC. destruct (H TC) as (ps & P & F).
      exists ps. split; [exact P|]. intros x u J. apply IH. eapply F; eassumption.
    - destruct H as (m & a & u & Q & L & N & H). exists m, a, u. auto.
  Qed.

  Lemma fits_le : forall n n' ctx t, n <= n' -> fits n ctx t -> fits n' ctx t.
  Proof. intros n n' ctx t H. induction H; auto. intros Q. apply fits_S. auto. Qed.

  Lemma fits_class_ctx : forall n ctx ctx' c, fits n ctx (TClass c) -> fits n ctx' (TClass c).
  Proof.
    intros [|n] ctx ctx' c H; [destruct H; discriminate|]. apply fits_intro. exact (fits_inv _ _ _ H).
  Qed.

  Lemma fits_max : forall A (l : list A) (ctx : A -> option nat) (f : A -> typ),
    (forall x, In x l -> exists n, fits n (ctx x) (f x)) ->
    exists n, forall x, In x l -> fits n (ctx x) (f x).
  Proof.
    intros A l ctx f. induction l as [|x l IH]; intros H; [exists 0; intros y []|].
    destruct (H x (or_introl eq_refl)) as (n1 & F1).
    destruct IH as (n2 & F2); [intros y J; apply H; right; exact J|].
    exists (Nat.max n1 n2). intros y [<-|J]; (eapply fits_le; [|eauto]); lia.
  Qed.

  Lemma str_members : forall ms, (forall (x : pystr) j, In (x, j) ms -> exists s, j = JStr s) <->
    forallb (fun x : pystr * json => is_str_json (snd x)) ms = true.
  Proof.
    intros ms. rewrite forallb_forall. split.
    - intros H [x j] J. destruct (H x j J) as (s & ->). reflexivity.
    - intros H x j J. apply H in J. cbn [snd] in J. destruct j; try discriminate. eauto.
  Qed.

  Lemma literal_type_uniform : forall ls l, In l ls -> (forall l', In l' ls -> lit_type l' = lit_type l) ->
    literal_type ls = Ok (lit_type l).
  Proof.
    intros [|l0 ls] l J U; [destruct J|]. cbn [literal_type].
    assert (F : forallb (fun l' => typ_eqb (lit_type l0) (lit_type l')) ls = true).
    { apply forallb_forall. intros l' J'. apply typ_eqb_iff. rewrite (U l0 (or_introl eq_refl)).
      symmetry. apply U. right. exact J'. }
    rewrite F. f_equal. apply U. left. reflexivity.
  Qed.

  Lemma writable_fits : forall ctx t, writable E ctx t -> exists n, fits n ctx t.
  Proof.
    intros ctx t H. induction H as [ctx k|ctx b|ctx op ts|ctx t _ [n IH]|ctx t _ [n IH]|ctx t _ [n IH]
      |ctx c cl ms t G K NE ST _ [n IH]|ctx ts _ IH|ctx ls l J U _ [n IH]|ctx t md _ [n IH]|ctx c cl h G T|ctx c cl G NA
      |ctx c cl fs G P _ IH|m s a t L N _ [n IH]].
    - exists 1. apply fits_intro. exact I.
    - exists 1. apply fits_intro. exact I.
    - exists 1. apply fits_intro. exact I.
    - exists (S n). apply fits_intro. exact IH.
    - exists (S n). apply fits_intro. exact IH.
    - exists (S n). apply fits_intro. split; [exact IH | exact I].
    - exists (S n). apply fits_intro. split; [exact IH|]. exists cl, ms. split; [exact G|]. split; [exact K|].
      apply str_members in ST. rewrite ST. destruct ms; [congruence | reflexivity].
    - destruct (fits_max _ ts (fun _ => ctx) (fun t => t)) as (n & F); [exact IH|].
      exists (S n). apply fits_intro. exact F.
    - exists (S n). apply fits_intro. exists (lit_type l). split; [apply literal_type_uniform; assumption | exact IH].
    - exists (S n). apply fits_intro. exact IH.
    - exists 1. apply fits_intro. exists cl. split; [exact G|]. unfold typed_class. rewrite T. discriminate.
    - exists 1. apply fits_intro. exists cl. split; [exact G|]. intros TC. apply typed_annotated in TC. contradiction.
    - destruct (fits_max _ fs (fun _ => Some (c_module cl)) (fun f => snd f)) as (n & F).
      { intros [x t] J. exact (IH x t J). }
      exists (S n). apply fits_intro. exists cl. split; [exact G|]. intros _. exists fs. split; [exact P|].
      intros x u J. exact (F (x, u) J).
    - exists (S n). apply fits_intro. exists m, a, t. auto.
  Qed.

  (** The budget suffices. *)
  Definition misfit (n : nat) (k : ckey) : Prop :=
    match k with
    | KeyClass c => ~ fits n None (TClass c)
    | KeyAlias m s => ~ fits n (Some m) (TRef s)
    end.

  Lemma misfit_down : forall n k, misfit (S n) k -> misfit n k.
  Proof. intros n [c|m s] H F; apply H, fits_S, F. Qed.

  Lemma lit_height : forall l, theight (lit_type l) = 1.
  Proof. intros []; reflexivity. Qed.

  Lemma properties_height : forall c cl ps x u, get_class E c = Some cl -> class_properties E cl = Ok ps -> In (x, u) ps ->
    theight u <= env_size E.
  Proof.
    intros c cl ps x u G P J. pose proof (class_height E _ _ G) as CH.
    assert (FH : forall y t, In (y, t) (raw_fields (c_kind cl)) -> theight t <= fields_height (raw_fields (c_kind cl))).
    { clear. intros y t. unfold fields_height. induction (raw_fields (c_kind cl)) as [|f l IH]; intros [].
      - subst. cbn [fold_right snd]. lia.
      - cbn [fold_right]. specialize (IH H). lia. }
    unfold env_size.
    assert (HH : hints E cl = Ok ps -> theight u <= classes_height (e_classes E) + refs_height (e_refs E)).
    { intros Q. apply mapM_ok in Q. destruct (Forall2_in_r _ _ _ _ _ _ Q J) as ([y t] & J' & R).
      apply bind_ok in R. destruct R as (t' & R & Z). injection Z as -> ->.
      apply resolve_hint_height in R. specialize (FH _ _ J'). lia. }
    unfold class_properties in P. destruct (c_kind cl); try (apply HH; exact P).
    injection P as <-. specialize (FH _ _ J). lia.
  Qed.

  Lemma fits_bounded : forall H, env_size E <= H -> 2 <= H ->
    forall n u vis ctx t, (forall k, In k vis -> misfit n k) -> unseen E vis <= u -> theight t <= H -> fits n ctx t ->
    forall N, u * H + theight t <= N -> fits N ctx t.
  Proof.
    intros H HE H2. induction n as [|n IH]; intros u vis ctx t V U HT F N LE; [destruct F; discriminate|].
    assert (V' : forall k, In k vis -> misfit n k) by (intros k J; apply misfit_down, V, J).
    destruct N as [|N]; [destruct t; cbn [theight] in LE; lia|].
    pose proof (fits_inv _ _ _ F) as D. 
    destruct t as [k|b|t|t|k t|ts|op ts|ls|t md|c|r|]; try (apply fits_intro; exact I); cbn [theight] in HT, LE.
    - apply fits_intro. eapply IH; try eassumption; lia.
    - apply fits_intro. eapply IH; try eassumption; lia.
    - apply fits_intro. destruct D as [D DK]. split; [|exact DK]. eapply IH; try eassumption; lia.
    - apply fits_intro. change (fold_right _ 0 ts) with (lheight ts) in *. intros t J. pose proof (lheight_in _ _ J).
      apply (IH u vis); auto; lia.
    - apply fits_intro. destruct D as (t & Q & D). exists t. split; [exact Q|].
      assert (theight t = 1).
      { destruct (literal_type_cases ls) as [(l & Q')|Q']; [|congruence]. rewrite Q in Q'. injection Q' as ->. apply lit_height. }
      eapply IH; try eassumption; lia.
    - apply fits_intro. eapply IH; try eassumption; lia.
    - destruct (fits_dec n ctx (TClass c)) as [Y|Y].
      { apply (IH u vis); auto; cbn [theight]; lia. }
      destruct D as (cl & G & D). apply fits_intro. exists cl. split; [exact G|]. intros TC. destruct (D TC) as (ps & P & D').
      exists ps. split; [exact P|]. intros x t J. pose proof (properties_height _ _ _ _ _ G P J).
      assert (SE : seen vis (KeyClass c) = false).
      { destruct (seen vis (KeyClass c)) eqn:SE; [|reflexivity]. apply seen_in in SE. exfalso.
        apply (V _ SE). eapply fits_class_ctx. exact F. }
      pose proof (unseen_cons E H HE vis _ (class_key E H HE _ _ G) SE) as UC. destruct u as [|u]; [lia|].
      apply (IH u (KeyClass c :: vis)).
      + intros k [<-|J']; [|apply V'; exact J']. intros Z. apply Y. eapply fits_class_ctx. exact Z.
      + lia.
      + lia.
      + eapply D'. exact J.
      + cbn [Nat.mul] in LE. lia.
    - destruct (fits_dec n ctx (TRef r)) as [Y|Y].
      { apply (IH u vis); auto; cbn [theight]; lia. }
      destruct D as (m & a & t & -> & L & NR & D). apply fits_intro. exists m, a, t. split; [reflexivity|].
      split; [exact L|]. split; [exact NR|]. pose proof (refs_height_in E H HE _ _ _ _ L) as RH.
      assert (SE : seen vis (KeyAlias m r) = false).
      { destruct (seen vis (KeyAlias m r)) eqn:SE; [|reflexivity]. apply seen_in in SE. exfalso.
        apply (V _ SE). exact F. }
      pose proof (unseen_cons E H HE vis _ (alias_key E _ _ _ L) SE) as UC. destruct u as [|u]; [lia|].
      unfold env_size in HE.
      apply (IH u (KeyAlias m r :: vis)).
      + intros k [<-|J']; [|apply V'; exact J']. exact Y.
      + lia.
      + lia.
      + exact D.
      + cbn [Nat.mul] in LE. lia.
    - contradiction.
  Qed.

  Lemma serializer_exists : forall t, writable E None t -> exists s, serializer_of E t = Ok s.
  Proof.
    intros t W. destruct (writable_fits _ _ W) as (n & F). unfold serializer_of, ser_fuel, build_fuel.
    set (u := length (e_classes E) + length (e_refs E)).
    assert (T1 : 1 <= theight t) by (destruct t; cbn [theight]; lia).
    apply (fits_bounded (S (theight t + env_size E)) ltac:(lia) ltac:(lia) n u [] None t); try assumption.
    - intros k [].
    - apply unseen_bound.
    - lia.
    - assert (u * S (theight t + env_size E) <= u * level_bound E t).
      { apply Nat.mul_le_mono_l. unfold level_bound. lia. }
      cbn [Nat.mul]. unfold level_bound at 1. lia.
  Qed.
End Construction.

Section Outcome.
  Variable E : env.
  Hypothesis OK : env_ok E.

  Definition good (v : value) (r : res json) : Prop :=
    match r with Ok _ => True | Err e => exists u, written E u v /\ unwritable E u e end.

  Lemma storable_conforms : forall v, storable E v -> conforms E v.
  Proof.
    intros v H. induction H as [v B|vs _ IH|vs _ IH|vs _ IH|kvs _ _ IH|v c cl h O G T|c cl ms x j G K D|c cl attrs G A W N F _ IH
      |c cl xs attrs G K N _ IH|c cl attrs G K _ IH].
    - apply cf_leaf. destruct v; try exact I; contradiction.
    - apply cf_list, Forall_forall. exact IH.
    - apply cf_tuple, Forall_forall. exact IH.
    - apply cf_set, Forall_forall. exact IH.
    - apply cf_dict, Forall_forall. intros [k v] J. exact (IH k v J).
    - destruct v; try discriminate; [apply cf_leaf; exact I|]. injection O as ->. eapply cf_hook; eassumption.
    - apply cf_leaf. exact I.
    - eapply cf_fields; try eassumption. apply Forall_forall. intros [x v] J. exact (IH x v J).
    - eapply cf_plain; try eassumption. { unfold annotated. rewrite K. intros []. }
      apply Forall_forall. intros [x v] J. exact (IH x v J).
    - eapply cf_plain; try eassumption. { unfold annotated. rewrite K. intros Q. apply Q. reflexivity. }
      apply Forall_forall. intros [x v] J. exact (IH x v J).
  Qed.

  Lemma storable_writable : forall v, storable E v -> writable E None (typeof v).
  Proof.
    intros v H. destruct H as [v B|vs _|vs _|vs _|kvs _ _|v c cl h O G T|c cl ms x j G K D|c cl attrs G A W N F _
      |c cl xs attrs G K N _|c cl attrs G K _]; try (cbn [typeof]; constructor; fail).
    - destruct v; try contradiction; cbn [typeof]; constructor.
    - destruct v; try discriminate; injection O as ->; cbn [typeof]; eapply wr_hook; eassumption.
    - cbn [typeof]. eapply wr_plain; [exact G|]. unfold annotated. rewrite K. intros [].
    - exact W.
    - cbn [typeof]. eapply wr_plain; [exact G|]. unfold annotated. rewrite K. intros [].
    - cbn [typeof]. eapply wr_plain; [exact G|]. unfold annotated. rewrite K. intros Q. apply Q. reflexivity.
  Qed.

  Lemma storable_serializer : forall v, storable E v -> exists s, serializer_of E (typeof v) = Ok s.
  Proof. intros v H. apply serializer_exists, storable_writable, H. Qed.

  Lemma storable_list : forall vs, storable E (VList vs) -> forall v, In v vs -> storable E v.
  Proof. intros vs H. inversion H; subst; try contradiction; try discriminate; assumption. Qed.
  Lemma storable_tuple : forall vs, storable E (VTuple vs) -> forall v, In v vs -> storable E v.
  Proof. intros vs H. inversion H; subst; try contradiction; try discriminate; assumption. Qed.
  Lemma storable_set : forall vs, storable E (VSet vs) -> forall v, In v vs -> storable E v.
  Proof. intros vs H. inversion H; subst; try contradiction; try discriminate; assumption. Qed.
  Lemma storable_dict : forall kvs, storable E (VDict kvs) -> plain_keys E kvs /\ forall k v, In (k, v) kvs -> storable E v.
  Proof. intros vs H. inversion H; subst; try contradiction; try discriminate. split; assumption. Qed.

  Lemma good_map : forall v w r, (forall u, written E u w -> written E u v) -> good w r -> good v r.
  Proof. intros v w [j|e] H G; [exact I|]. destruct G as (u & W & U). exists u. auto. Qed.

  Lemma good_bind : forall A v (x : res A) (f : A -> json),
    match x with Ok _ => True | Err e => exists u, written E u v /\ unwritable E u e end ->
    good v (do y <- x; Ok (f y)).
  Proof. intros A v [a|e] f H; exact H. Qed.

  Lemma good_mapM : forall A B v (f : A -> res B) l,
    (forall x, In x l -> match f x with Ok _ => True | Err e => exists u, written E u v /\ unwritable E u e end) ->
    match mapM f l with Ok _ => True | Err e => exists u, written E u v /\ unwritable E u e end.
  Proof.
    intros A B v f l H. destruct (mapM f l) as [r|e] eqn:Q; [exact I|].
    apply mapM_err in Q. destruct Q as (x & J & Q). specialize (H x J). rewrite Q in H. exact H.
  Qed.

  Definition Q2 n := forall k ctx v s, mkser E k ctx (typeof v) = Ok s -> storable E v -> 3 * vdepth v + 1 <= n ->
    good v (gen E n s v).
  Definition Q1 n := forall k ctx m t v s, mkser E k ctx t = Ok s -> ctx = None \/ ctx = Some m ->
    has_type E m t v -> storable E v -> 3 * vdepth v + 3 <= n -> good v (gen E n s v).

  Definition otj n v := do s <- serializer_of E (typeof v); gen E n s v.

  Lemma otj_good : forall n v, Q2 n -> storable E v -> 3 * vdepth v + 1 <= n -> good v (otj n v).
  Proof.
    intros n v H C N. unfold otj. destruct (storable_serializer v C) as (s & Q). rewrite Q. cbn [bind].
    eapply H; eassumption.
  Qed.

  Lemma enum_key_ok : forall c cl ms x s, get_class E c = Some cl -> c_kind cl = CEnum ms -> dict_get ms x = Some (JStr s) ->
    enum_key E (VEnum c x) = Ok s.
  Proof. intros c cl ms x s G K D. unfold enum_key, enum_value. rewrite G, K, D. reflexivity. Qed.

  Lemma dict_good : forall (key : value -> res pystr) (g : value -> res json) kvs,
    (forall k v, In (k, v) kvs -> exists s, key k = Ok s) ->
    (forall k v, In (k, v) kvs -> good v (g v)) ->
    good (VDict kvs) (do ps <- mapM (fun '(k, x) => do k' <- key k; do j <- g x; Ok (k', j)) kvs; Ok (JObj (dict_of ps))).
  Proof.
    intros key g kvs HK HV. apply (good_bind _ _ _ (fun ps => JObj (dict_of ps))). apply good_mapM.
    intros [k v] J. destruct (HK k v J) as (s & ->). cbn [bind]. specialize (HV k v J).
    destruct (g v) as [j|e]; cbn [bind]; [exact I|]. destruct HV as (u & W & U). exists u. split; [|exact U].
    eapply wt_dict; eassumption.
  Qed.

  Lemma keys_good : forall kvs, plain_keys E kvs -> forall k v, In (k, v) kvs ->
    exists s, (if first_is_enum kvs then enum_key E else str_key) k = Ok s.
  Proof.
    intros kvs [H|H] k v J.
    - destruct (H k v J) as (s & ->). replace (first_is_enum kvs) with false; [exists s; reflexivity|].
      destruct kvs as [|[k0 v0] r]; [reflexivity|]. destruct (H k0 v0 (or_introl eq_refl)) as (s0 & ->). reflexivity.
    - destruct (H k v J) as (c & cl & ms & x & s & -> & G & K & D). exists s.
      replace (first_is_enum kvs) with true; [eapply enum_key_ok; eassumption|].
      destruct kvs as [|[k0 v0] r]; [destruct J|]. destruct (H k0 v0 (or_introl eq_refl)) as (? & ? & ? & ? & ? & -> & _).
      reflexivity.
  Qed.

  Lemma attr_present : forall (attrs : list (pystr * value)) x, In x (map fst attrs) -> exists v, dict_get attrs x = Some v.
  Proof.
    induction attrs as [|[y w] attrs IH]; intros x J; [destruct J|]. cbn [dict_get].
    destruct (pystr_eqb y x) eqn:Q; [eauto|]. destruct J as [J|J]; [|apply IH, J].
    cbn [fst] in J. subst y. rewrite pystr_eqb_refl in Q. discriminate.
  Qed.

  Lemma gen_fields_good : forall v (g : ser -> value -> res json) attrs fs acc,
    (forall x p s, In (x, p, s) fs -> exists w, dict_get attrs x = Some w /\
       (w <> VNone -> match g s w with Ok _ => True | Err e => exists u, written E u v /\ unwritable E u e end)) ->
    match gen_fields g attrs fs acc with Ok _ => True | Err e => exists u, written E u v /\ unwritable E u e end.
  Proof.
    intros v g attrs. induction fs as [|[[x p] s] fs IH]; intros acc H; cbn [gen_fields]; [exact I|].
    destruct (H x p s (or_introl eq_refl)) as (w & -> & GW).
    assert (T : forall acc', match gen_fields g attrs fs acc' with Ok _ => True | Err e => exists u, written E u v /\ unwritable E u e end).
    { intros acc'. apply IH. intros x' p' s' J. apply (H x' p' s'). right. exact J. }
    destruct w; try (specialize (GW ltac:(discriminate)); destruct (g s _); [apply T | exact GW]). apply T.
  Qed.

  Lemma fields_good : forall n c cl attrs k fs, Q1 n -> get_class E c = Some cl -> c_to_json cl = None -> annotated cl ->
    storable E (VObj c attrs) -> 3 * vdepth (VObj c attrs) <= n ->
    (do ps <- class_properties E cl;
     do fs <- mapM (fun '(x, u) => do s <- mkser E k (Some (c_module cl)) u; Ok (x, json_property x (Some u), s)) ps;
     Ok (GClass fs)) = Ok (GClass fs) ->
    good (VObj c attrs) (do o <- gen_fields (gen E n) attrs fs []; Ok (JObj o)).
  Proof.
    intros n c cl attrs k fs H G T A C N B.
    apply bind_ok in B. destruct B as (ps & B1 & B). apply bind_ok in B. destruct B as (fs' & B2 & B). injection B as ->.
    apply (good_bind _ _ _ JObj). apply gen_fields_good. intros x p s J.
    apply mapM_ok in B2. destruct (Forall2_in_r _ _ _ _ _ _ B2 J) as ([y t] & J' & Q).
    apply bind_ok in Q. destruct Q as (s' & Q & Z). injection Z as <- <- <-.
    assert (NM : map fst attrs = map fst (raw_fields (c_kind cl)) /\ forall y w, In (y, w) attrs -> storable E w).
    { inversion C as [| | | | |? ? ? ? O' G' T'| |? ? ? G'|? ? ? ? G' K'|? ? ? G' K']; subst; try contradiction; try discriminate.
      - cbn [object_class] in *. congruence.
      - rewrite G in G'. injection G' as <-. auto.
      - rewrite G in G'. injection G' as <-. unfold annotated in A. rewrite K' in A. contradiction.
      - rewrite G in G'. injection G' as <-. unfold annotated in A. rewrite K' in A. exfalso. apply A. reflexivity. }
    destruct NM as [NM SV].
    destruct (attr_present attrs y) as (w & D).
    { rewrite NM, <- (properties_names_raw E cl ps B1). apply (in_map fst _ _ J'). }
    exists w. split; [exact D|]. intros NN. pose proof (dict_get_in _ _ _ D) as DI.
    destruct (conforms_fields E OK c cl attrs ps G T A B1 (storable_conforms _ C) y t w J' D) as [HT _].
    pose proof (vdepth_obj c attrs y w DI) as VD.
    assert (GW := H k (Some (c_module cl)) (c_module cl) t w s' Q (or_intror eq_refl) HT (SV _ _ DI) ltac:(lia)).
    destruct (gen E n s' w) as [j|e]; [exact I|]. destruct GW as (u & W & U). exists u. split; [|exact U].
    eapply wt_fields; eassumption.
  Qed.

  Lemma good_step2 : forall n, Q1 n -> Q2 n -> Q2 (S n).
  Proof.
    intros n H1 H2 k ctx v s M C N. destruct k as [|k]; [discriminate|]. cbn [mkser] in M.
    destruct v; cbn [typeof] in M; try (injection M as <-; cbn [gen gen_scalar as_is]; exact I).
    - (* datetime *)
      injection M as <-. cbn [gen gen_scalar]. unfold datetime_generate. destruct (t_off (dt_time d)) as [o|] eqn:T.
      + destruct (drop_suffix _ _); exact I.
      + exists (VDateTime d). split; [apply wt_self|]. left. split; [exists d; auto | reflexivity].
    - (* enum *)
      destruct (get_class E c) as [cl|] eqn:GC; [|discriminate].
      destruct (c_to_json cl) as [h|] eqn:T.
      { injection M as <-. cbn [gen]. destruct (h (VEnum c name)) as [j|e] eqn:Q; [exact I|].
        exists (VEnum c name). split; [apply wt_self|]. right. exists c, cl, h. auto. }
      assert (EN : exists ms j, c_kind cl = CEnum ms /\ dict_get ms name = Some j).
      { inversion C; subst; try contradiction; [cbn [object_class] in *; congruence|].
        match goal with X : get_class E c = Some ?cl' |- _ => rewrite GC in X; injection X as <- end. eauto. }
      destruct EN as (ms & j & K & D). rewrite K in M. injection M as <-. cbn [gen enum_value]. rewrite GC, K, D. exact I.
    - (* list *)
      injection M as <-. cbn [gen]. apply (good_bind _ _ _ JArr). apply good_mapM. intros w J.
      pose proof (vdepth_list _ w J).
      assert (GW := otj_good n w H2 (storable_list _ C w J) ltac:(lia)). unfold otj in GW.
      destruct (do s <- _; _) as [j|e]; [exact I|]. destruct GW as (u & W & U). exists u. split; [eapply wt_list; eassumption | exact U].
    - injection M as <-. cbn [gen]. apply (good_bind _ _ _ JArr). apply good_mapM. intros w J.
      pose proof (vdepth_tuple _ w J).
      assert (GW := otj_good n w H2 (storable_tuple _ C w J) ltac:(lia)). unfold otj in GW.
      destruct (do s <- _; _) as [j|e]; [exact I|]. destruct GW as (u & W & U). exists u. split; [eapply wt_tuple; eassumption | exact U].
    - injection M as <-. cbn [gen]. apply (good_bind _ _ _ JArr). apply good_mapM. intros w J.
      pose proof (vdepth_set _ w J).
      assert (GW := otj_good n w H2 (storable_set _ C w J) ltac:(lia)). unfold otj in GW.
      destruct (do s <- _; _) as [j|e]; [exact I|]. destruct GW as (u & W & U). exists u. split; [eapply wt_set; eassumption | exact U].
    - (* dict *)
      injection M as <-. cbn [gen]. apply storable_dict in C. destruct C as [PK C].
      apply (dict_good _ (otj n)); [apply keys_good, PK|]. intros k' w J. pose proof (vdepth_dict _ _ _ J).
      apply otj_good; [exact H2 | eapply C; exact J | lia].
    - (* object *)
      destruct (get_class E c) as [cl|] eqn:GC; [|discriminate].
      destruct (c_to_json cl) as [h|] eqn:T.
      { injection M as <-. cbn [gen]. destruct (h (VObj c attrs)) as [j|e] eqn:Q; [exact I|].
        exists (VObj c attrs). split; [apply wt_self|]. right. exists c, cl, h. auto. }
      assert (TY : annotated cl -> (do ps <- class_properties E cl;
          do fs <- mapM (fun '(x, u) => do s <- mkser E k (Some (c_module cl)) u; Ok (x, json_property x (Some u), s)) ps;
          Ok (GClass fs)) = Ok s -> good (VObj c attrs) (gen E (S n) s (VObj c attrs))).
      { intros A B. assert (exists fs, s = GClass fs) as (fs & ->).
        { apply bind_ok in B. destruct B as (ps & _ & B). apply bind_ok in B. destruct B as (fs & _ & B). injection B as <-. eauto. }
        cbn [gen]. eapply fields_good; try eassumption. lia. }
      assert (SV : (exists xs, c_kind cl = CRawTuple xs /\ incl xs (map fst attrs)) \/ c_kind cl = CPlain [] \/ annotated cl).
      { inversion C; subst; try contradiction; try discriminate; cbn [object_class] in *; try congruence;
        match goal with X : get_class E c = Some ?cl' |- _ => rewrite GC in X; injection X as <- end; eauto. }
      assert (SA : forall x w, In (x, w) attrs -> storable E w).
      { inversion C; subst; try contradiction; try discriminate; cbn [object_class] in *; try assumption; congruence. }
      unfold annotated in TY, SV. destruct (c_kind cl) as [ms|hs|xs|fr fs|hs] eqn:K.
      + exfalso. destruct SV as [(xs & Q & _)|[Q|Q]]; [discriminate | discriminate | contradiction].
      + destruct hs as [|h hs]; [|apply TY; [exact I | exact M]].
        injection M as <-. cbn [gen mapM bind]. exact I.
      + injection M as <-. cbn [gen]. apply (good_bind _ _ _ (fun ps => JObj (dict_of ps))). apply good_mapM.
        intros [x p] J. apply in_map_iff in J. destruct J as (x' & Q & J). injection Q as <- <-.
        destruct SV as [(xs' & Q & IN)|[Q|Q]]; [|discriminate|contradiction]. injection Q as <-.
        destruct (attr_present attrs x' (IN _ J)) as (w & D). rewrite D. pose proof (dict_get_in _ _ _ D) as DI.
        pose proof (vdepth_obj c _ _ _ DI).
        assert (GW := otj_good n w H2 (SA _ _ DI) ltac:(lia)). unfold otj in GW.
        destruct (do s <- serializer_of E (typeof w); gen E n s w) as [j|e]; [exact I|]. cbn [bind].
        destruct GW as (u & W & U). exists u. split; [eapply wt_raw; eassumption | exact U].
      + apply TY; [exact I | exact M].
      + destruct hs as [|h hs]; [|apply TY; [discriminate | exact M]].
        injection M as <-. cbn [gen]. apply (good_bind _ _ _ (fun ps => JObj (dict_of ps))). apply good_mapM.
        intros [x w] J. apply filter_In in J. destruct J as [J F]. cbn [fst snd] in F.
        assert (DI : In (x, w) attrs) by (eapply Permutation.Permutation_in; [symmetry; apply sort_perm | exact J]).
        apply andb_true_iff in F. destruct F as [F1 F2]. apply negb_true_iff in F1, F2.
        pose proof (vdepth_obj c _ _ _ DI).
        assert (GW := otj_good n w H2 (SA _ _ DI) ltac:(lia)). unfold otj in GW.
        destruct (do s <- serializer_of E (typeof w); gen E n s w) as [j|e]; [exact I|]. cbn [bind].
        destruct GW as (u & W & U). exists u. split; [|exact U].
        eapply wt_plain; try eassumption.
        * rewrite <- is_reserved_spec. congruence.
        * intros ->. discriminate.
    - discriminate.
  Qed.

  Lemma good_step1 : forall n, Q1 n -> Q2 n -> Q2 (S n) -> Q1 (S n).
  Proof.
    intros n H1 H2 H3. unfold Q1. induction k as [|k IH]; intros ctx m t v s M X HT C N; [discriminate|].
    destruct t as [k0|b|t|t|kt t|ts|op ts|ls|t md|c|rs|].
    - apply ht_scalar_iff in HT. rewrite <- (typeof_scalar _ _ HT) in M. eapply H3; try eassumption. lia.
    - apply ht_bare in HT. contradiction.
    - cbn [mkser] in M. apply bind_ok in M. destruct M as (s' & M & Q). injection Q as <-.
      apply ht_list_iff in HT. destruct HT as (vs & -> & HT). cbn [gen]. rewrite Forall_forall in HT.
      apply (good_bind _ _ _ JArr). apply good_mapM. intros w J. pose proof (vdepth_list _ _ J).
      assert (GW := H1 _ _ _ _ _ _ M X (HT _ J) (storable_list _ C _ J) ltac:(lia)).
      destruct (gen E n s' w); [exact I|]. destruct GW as (u & W & U). exists u. split; [eapply wt_list; eassumption | exact U].
    - cbn [mkser] in M. apply bind_ok in M. destruct M as (s' & M & Q). injection Q as <-.
      apply ht_set_iff in HT. destruct HT as (vs & -> & HT & _). cbn [gen]. rewrite Forall_forall in HT.
      apply (good_bind _ _ _ JArr). apply good_mapM. intros w J. pose proof (vdepth_set _ _ J).
      assert (GW := H1 _ _ _ _ _ _ M X (HT _ J) (storable_set _ C _ J) ltac:(lia)).
      destruct (gen E n s' w); [exact I|]. destruct GW as (u & W & U). exists u. split; [eapply wt_set; eassumption | exact U].
    - apply ht_dict_iff in HT. destruct HT as (kvs & -> & HK & HT & _).
      apply storable_dict in C. destruct C as [_ C]. rewrite Forall_forall in HK, HT.
      assert (KK : forall s', mkser E k ctx t = Ok s' -> forall k' w, In (k', w) kvs -> good w (gen E n s' w)).
      { intros s' M' k' w J. pose proof (vdepth_dict _ _ _ J).
        assert (3 * vdepth w + 3 <= n) by lia. exact (H1 _ _ _ _ _ _ M' X (HT _ J) (C _ _ J) H0). }
      cbn [mkser] in M. destruct kt; try discriminate.
      + destruct k0; try discriminate. apply bind_ok in M. destruct M as (s' & M & Q). injection Q as <-.
        cbn [gen]. apply dict_good; [|apply KK, M]. intros k' w J. apply HK, ht_scalar_iff in J. cbn [fst] in J.
        destruct k'; try contradiction. eexists. reflexivity.
      + destruct (get_class E c) as [cl|] eqn:G; [|discriminate]. destruct (c_kind cl) as [ms| | | |] eqn:K; try discriminate.
        apply bind_ok in M. destruct M as (s' & M & Q).
        destruct (forallb _ _ && _) eqn:FB; [|discriminate]. injection Q as <-.
        apply andb_true_iff in FB. destruct FB as [FB _]. pose proof (proj2 (str_members ms) FB) as FB'; clear FB; rename FB' into FB.
        cbn [gen]. apply dict_good; [|apply KK, M]. intros k' w J. apply HK in J. cbn [fst] in J.
        inversion J; subst; match goal with X : get_class E c = Some ?cl' |- _ => rewrite G in X; injection X as <- end;
          rewrite ?K in *; try contradiction; try discriminate.
        match goal with X : CEnum _ = CEnum _ |- _ => injection X as <- end.
        assert (exists j, dict_get ms x = Some j) as (j & D).
        { clear - H6. induction ms as [|[y j] ms IH]; [destruct H6|]. cbn [dict_get]. destruct (pystr_eqb y x) eqn:Q; [eauto|].
          destruct H6 as [Y|Y]; [cbn [fst] in Y; subst; rewrite pystr_eqb_refl in Q; discriminate | apply IH, Y]. }
        destruct (FB _ _ (dict_get_in _ _ _ D)) as (z & ->). exists z. eapply enum_key_ok; eassumption.
    - cbn [mkser] in M. apply bind_ok in M. destruct M as (ss & M & Q). injection Q as <-.
      apply ht_tuple_iff in HT. destruct HT as (vs & -> & HT). cbn [gen].
      apply (good_bind _ _ _ JArr). apply mapM_ok in M.
      assert (SV : forall w, In w vs -> storable E w /\ 3 * vdepth w + 3 <= n).
      { intros w J. split; [exact (storable_tuple _ C _ J)|]. pose proof (vdepth_tuple _ _ J). lia. }
      assert (WT : forall u w, In w vs -> written E u w -> written E u (VTuple vs)) by (intros; eapply wt_tuple; eassumption).
      revert WT. generalize (VTuple vs) as whole. intros whole WT. clear C N.
      revert ss M. induction HT as [|t w ts vs HT HTs IH']; intros ss M.
      + inversion M; subst. exact I.
      + inversion M as [|? s ? ss' M1 M2]; subst. cbn [zip_gen].
        destruct (SV w (or_introl eq_refl)) as [S1 S2].
        assert (GW := H1 _ _ _ _ _ _ M1 X HT S1 S2).
        destruct (gen E n s w) as [j|e].
        * assert (R := IH' (fun w J => SV w (or_intror J)) (fun u w J => WT u w (or_intror J)) ss' M2).
          destruct (zip_gen (gen E n) ss' vs); [exact I | exact R].
        * destruct GW as (u & W & U). exists u. split; [|exact U]. eapply WT; [left; reflexivity | exact W].
    - cbn [mkser] in M. injection M as <-. cbn [gen]. apply (otj_good n v H2 C). lia.
    - cbn [mkser] in M. apply bind_ok in M. destruct M as (u & Q & M). apply bind_ok in M. destruct M as (s' & M & Z). injection Z as <-.
      apply ht_literal_iff in HT. destruct HT as (l & J & ->). cbn [gen].
      assert (TU : typeof (lit_value l) = u).
      { rewrite typeof_lit. destruct ls as [|l0 ls]; [discriminate|]. cbn [literal_type] in Q.
        destruct (forallb _ ls) eqn:F; [|discriminate]. injection Q as <-. destruct J as [->|J]; [reflexivity|].
        rewrite forallb_forall in F. specialize (F _ J). apply typ_eqb_iff in F. symmetry. exact F. }
      rewrite <- TU in M. eapply H2; try eassumption. lia.
    - cbn [mkser] in M. apply ht_annot_iff in HT. eapply (IH None m); try eassumption. left. reflexivity.
    - rewrite <- (typeof_class _ _ _ _ HT) in M. eapply H3; try eassumption. lia.
    - cbn [mkser] in M. destruct ctx as [m'|]; [|discriminate]. destruct X as [X|X]; [discriminate|]. injection X as ->.
      inversion HT as [| | | | | | | |? ? a u ? L HU| | | |]; subst. rewrite L in M.
      assert (M' : mkser E k (Some m) u = Ok s) by (destruct u; try exact M; discriminate).
      eapply (IH (Some m) m); try eassumption. right. reflexivity.
    - discriminate.
  Qed.

  Lemma good_all : forall n, Q1 n /\ Q2 n.
  Proof.
    induction n as [|n [IH1 IH2]].
    - split; intros k ctx; intros; lia.
    - assert (H3 : Q2 (S n)) by (apply good_step2; assumption). split; [apply good_step1; assumption | exact H3].
  Qed.

  Lemma object_to_json_good : forall v, storable E v -> good v (object_to_json E v).
  Proof.
    intros v H. unfold object_to_json. destruct (storable_serializer v H) as (s & Q). rewrite Q. cbn [bind].
    unfold serializer_of in Q. eapply (proj2 (good_all (gen_fuel v))); [exact Q | exact H | unfold gen_fuel; lia].
  Qed.

  (** Whatever is written has an image, all the way down. *)
  Lemma image_written : forall u v, written E u v -> forall j, image E v j -> exists j', image E u j'.
  Proof.
    intros u v W. induction W as [|w vs J _ IH|w vs J _ IH|w vs J _ IH|k w kvs J _ IH
      |c cl fs attrs x t w G T A CP J D NN _ IH|c cl xs attrs x w G T K J D _ IH|c cl attrs x w G T K J ND NN _ IH]; intros j H; eauto.
    - inversion H as [? ? SI|? ? F| | | |? ? ? ? ? O| | | |]; subst; try discriminate; [inversion SI|].
      destruct (Forall2_in_l _ _ _ _ _ _ F J) as (j' & _ & I'). eauto.
    - inversion H as [? ? SI| |? ? F| | |? ? ? ? ? O| | | |]; subst; try discriminate; [inversion SI|].
      destruct (Forall2_in_l _ _ _ _ _ _ F J) as (j' & _ & I'). eauto.
    - inversion H as [? ? SI| | |? ? F| |? ? ? ? ? O| | | |]; subst; try discriminate; [inversion SI|].
      destruct (Forall2_in_l _ _ _ _ _ _ F J) as (j' & _ & I'). eauto.
    - inversion H as [? ? SI| | | |? ? ? F M|? ? ? ? ? O| | | |]; subst; try discriminate; [inversion SI|].
      destruct (Forall2_in_l _ _ _ _ _ _ F J) as (j' & _ & _ & I'). eauto.
    - destruct (image_fields E c cl attrs j G T A H) as (fs' & l & ps & o & -> & CP' & PR & PS & M).
      rewrite CP in CP'. injection CP' as <-.
      assert (JL : In (x, t, w) l).
      { clear - PR J D NN. induction PR as [|y t' fs l D' _ IH'|y t' fs v l D' NN' _ IH']; [destruct J| |].
        - destruct J as [J|J]; [injection J as -> ->; congruence | auto].
        - destruct J as [J|J]; [|right; auto]. injection J as -> ->. rewrite D in D'. injection D' as ->. left. reflexivity. }
      destruct (Forall2_in_l _ _ _ _ _ _ PS JL) as (p & _ & _ & I'). eauto.
    - inversion H as [? ? SI| | | | |? ? ? ? ? O| |? ? ? ? ? ? ? G' T' A'|? ? ? ? ? ? G' T' K' F|? ? ? ? ? ? ? G' T' K']; subst;
        try (inversion SI; fail); cbn [object_class] in *; try congruence; rewrite G in G'; injection G' as <-; try congruence.
      + unfold annotated in A'. rewrite K in A'. contradiction.
      + rewrite K in K'. injection K' as <-. destruct (Forall2_in_l _ _ _ _ _ _ F J) as (p & _ & _ & v & D' & I').
        rewrite D in D'. injection D' as <-. eauto.
    - inversion H as [? ? SI| | | | |? ? ? ? ? O| |? ? ? ? ? ? ? G' T' A'|? ? ? ? ? ? G' T' K' F|? ? ? l l' ? ? G' T' K' P S FL EX F]; subst;
        try (inversion SI; fail); cbn [object_class] in *; try congruence; rewrite G in G'; injection G' as <-; try congruence.
      + unfold annotated in A'. rewrite K in A'. exfalso. apply A'. reflexivity.
      + assert (J' : In (x, w) l') by (apply FL; split; [eapply Permutation.Permutation_in; eassumption | auto]).
        destruct (Forall2_in_l _ _ _ _ _ _ F J') as (p & _ & _ & I'). eauto.
  Qed.

  Lemma image_writes : forall u e j, unwritable E u e -> ~ image E u j.
  Proof.
    intros u e j [[(d & -> & Z) _]|(c & cl & h & O & G & T & Q)] H.
    - inversion H as [? ? SI| | | | |? ? ? ? ? O| | | |]; subst; [|discriminate]. inversion SI; subst.
      unfold datetime_generate in *. rewrite Z in *. discriminate.
    - inversion H; subst; try discriminate; cbn [object_class] in *;
        repeat match goal with X : Some _ = Some _ |- _ => injection X as <- end; try congruence.
      match goal with X : scalar_image _ _ |- _ => inversion X; subst; discriminate end.
  Qed.

  Lemma object_to_json_total : forall v, storable E v ->
    ((exists j, object_to_json E v = Ok j) <-> forall u e, written E u v -> ~ unwritable E u e).
  Proof.
    intros v H. split.
    - intros (j & Q) u e W U. apply (object_to_json_image E OK _ _ (storable_conforms _ H)) in Q.
      destruct (image_written u v W j Q) as (j' & I'). exact (image_writes u e j' U I').
    - intros N. pose proof (object_to_json_good v H) as Q. destruct (object_to_json E v) as [j|e]; [eauto|].
      destruct Q as (u & W & U). exfalso. exact (N u e W U).
  Qed.

  Lemma object_to_json_error : forall v e, storable E v -> object_to_json E v = Err e ->
    exists u, written E u v /\ unwritable E u e.
  Proof. intros v e H Q. pose proof (object_to_json_good v H) as G. rewrite Q in G. exact G. Qed.
End Outcome.
