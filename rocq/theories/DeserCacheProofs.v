(** Proofs about the deserializer cache. *)
From Coq Require Import String List NArith ZArith Bool Lia.
From Verif Require Import Base Json PyTypes Mapping Deser DeserCache SpecTyping SpecTypes SpecFields SpecTagged SpecCache
  Lists TypingFacts SpecRecursion DeserSound DeserFuel DeserBuild FieldProofs TaggedProofs.
Import ListNotations.
Open Scope list_scope.
Open Scope nat_scope.

Lemma name_eqb_eq : forall a b, name_eqb a b = true <-> a = b.
Proof.
  intros [m s] [m' s']. unfold name_eqb. cbn [fst snd]. rewrite andb_true_iff, Nat.eqb_eq, pystr_eqb_eq. split.
  - intros [-> ->]. reflexivity.
  - intros H. injection H as -> ->. auto.
Qed.

Lemma name_eqb_refl : forall a, name_eqb a a = true.
Proof. intros a. apply name_eqb_eq. reflexivity. Qed.

Lemma name_eqb_neq : forall a b, a <> b -> name_eqb a b = false.
Proof. intros a b H. destruct (name_eqb a b) eqn:Q; [|reflexivity]. apply name_eqb_eq in Q. contradiction. Qed.

Lemma set_nth_length : forall A (l : list A) i x, length (set_nth l i x) = length l.
Proof. induction l as [|y l IH]; intros [|i] x; cbn [set_nth length]; auto. Qed.

Lemma set_nth_same : forall A (l : list A) i x, i < length l -> nth_error (set_nth l i x) i = Some x.
Proof. induction l as [|y l IH]; intros [|i] x H; cbn [set_nth length nth_error] in *; try lia; auto. apply IH. lia. Qed.

Lemma set_nth_other : forall A (l : list A) i k x, i <> k -> nth_error (set_nth l i x) k = nth_error l k.
Proof. induction l as [|y l IH]; intros [|i] [|k] x H; cbn [set_nth nth_error]; auto; try contradiction. Qed.

Section Cache.
  Variable E : env.
  Hypothesis NU : names_unique E.
  Hypothesis CE : canonical_env E.

  Lemma flat : forall m s a t u md md', lookup E m s = Some (a, t) -> t <> TAnnot (TAnnot u md) md'.
  Proof.
    intros m s a t u md md' L ->. apply (ce_refs E CE) in L. inversion L as [| | | | | | | |? ? _ NA| | |]; subst. apply NA. exact I.
  Qed.

  Definition nm (k : ckey) : name :=
    match k with
    | KeyClass c => match get_class E c with Some cl => (c_module cl, c_name cl) | None => (0, []) end
    | KeyAlias m s => (m, s)
    end.

  Definition valid (k : ckey) : Prop :=
    match k with
    | KeyClass c => exists cl, get_class E c = Some cl
    | KeyAlias m s => exists u, lookup E m s = Some (true, u) /\ special_form (deref u)
    end.

  Lemma nm_inj : forall k k', valid k -> valid k' -> nm k = nm k' -> k = k'.
  Proof.
    intros [c|m s] [d|m' s'] V V' Q; cbn [valid nm] in *.
    - destruct V as (cl & G), V' as (dl & G'). rewrite G, G' in Q. injection Q as Q1 Q2.
      f_equal. exact (proj1 NU c d cl dl G G' Q1 Q2).
    - destruct V as (cl & G), V' as (u & L & SF). rewrite G in Q. injection Q as <- Q2.
      exfalso. exact (proj2 NU c cl s' u G L SF Q2).
    - destruct V' as (cl & G), V as (u & L & SF). rewrite G in Q. injection Q as -> Q2.
      exfalso. exact (proj2 NU d cl s u G L SF (eq_sym Q2)).
    - injection Q as -> ->. reflexivity.
  Qed.

  (** What [get_deser] may be asked to enter in the cache. *)
  Definition key_fits (key : option name) (m : nat) (t : typ) : Prop :=
    match key with
    | None => True
    | Some k => exists s u, k = (m, s) /\ lookup E m s = Some (true, u) /\ special_form (deref u) /\ t = deref u
    end.

  Lemma key_fits_annot : forall key m u md, key_fits key m (TAnnot u md) -> key = None.
  Proof.
    intros [k|] m u md H; [|reflexivity]. destruct H as (s & v & _ & L & _ & Q). exfalso.
    unfold deref in Q. destruct v; try discriminate. cbn in Q. subst v. exact (flat _ _ _ _ _ _ _ L eq_refl).
  Qed.

  Lemma key_fits_simple : forall key m t, ~ special_form t -> key_fits key m t -> key = None.
  Proof.
    intros [k|] m t N H; [|reflexivity]. destruct H as (s & v & _ & _ & SF & ->). contradiction.
  Qed.

  Lemma fits_flat : forall key m t u md, key_fits key m t -> key <> None -> t <> TAnnot u md.
  Proof. intros key m t u md KF NK ->. apply key_fits_annot in KF. contradiction. Qed.

  Definition free (key : option name) (st : store) : Prop :=
    match key with None => True | Some k => find_name (cache st) k = None end.

  (** * What the objects do *)
  Section Meaning.
    Variable skip : bool.

    (** The types we care about. *)
    Variable G : nat -> typ -> Prop.
    Hypothesis GC : forall m t m' u, G m t -> reach E m t m' u -> G m' u.

    Definition GK (K : ckey) : Prop :=
      match K with KeyClass c => exists m, G m (TClass c) | KeyAlias m s => G m (TRef s) end.

    (** Object [i] is a deserializer of a type. *)
    Definition labels := nat -> nat -> typ -> Prop.
    Definition sub (L L' : labels) : Prop := forall i m t, L i m t -> L' i m t.

    Inductive impl (L : labels) (m : nat) : typ -> nat -> Prop :=
    | im_here : forall t i, special_form t -> (forall u md, t <> TAnnot u md) -> L i m t -> impl L m t i
    | im_scalar : forall k i, L i 0 (TScalar k) -> impl L m (TScalar k) i
    | im_class : forall c i, L i 0 (TClass c) -> impl L m (TClass c) i
    | im_annot : forall t md i, ~ is_ref t -> impl L m t i -> impl L m (TAnnot t md) i
    | im_simple : forall s a u i, lookup E m s = Some (a, u) ->
        (match deref u with TScalar _ | TClass _ => True | _ => False end) -> impl L m (deref u) i -> impl L m (TRef s) i
    | im_text : forall s u i, lookup E m s = Some (false, u) -> special_form (deref u) -> impl L m (deref u) i -> impl L m (TRef s) i
    | im_attr : forall s u i, lookup E m s = Some (true, u) -> special_form (deref u) -> L i m (TRef s) -> impl L m (TRef s) i.

    Lemma impl_mono : forall L L' m t i, sub L L' -> impl L m t i -> impl L' m t i.
    Proof.
      intros L L' m t i S H. induction H as [t i SF NA H|k i H|c i H|t md i R H IH|s a u i Q R H IH|s u i Q R H IH|s u i Q R H].
      - apply im_here; auto.
      - apply im_scalar. auto.
      - apply im_class. auto.
      - apply im_annot; auto.
      - eapply im_simple; eauto.
      - eapply im_text; eauto.
      - eapply im_attr; eauto.
    Qed.

    Definition okbody (L : labels) (m : nat) (t : typ) (o : dobj) : Prop :=
      match t with
      | TScalar k => o = DScalar k
      | TList u => exists i, o = DList (Some i) /\ impl L m u i
      | TSet u => exists i, o = DSet (Some i) /\ impl L m u i
      | TDict k u => exists i, o = DDict k (Some i) /\ check_key_type E k = Ok tt /\ impl L m u i
      | TTuple ts => exists is, o = DTuple (Some is) /\ Forall2 (impl L m) ts is
      | TUnion _ ts => exists ps is, discriminating_properties E ts = Ok ps /\ Forall2 (impl L m) ts is /\
          ((ps = [] /\ o = DUnion (Some is)) \/
           (ps <> [] /\ exists tbl, tag_table E (e_order E ps) ts = Ok tbl /\ tags_distinct [] tbl = true /\
              o = DTagged (e_order E ps) (Some (tbl, combine ts is))))
      | TLiteral ls => exists u i, literal_type ls = Ok u /\ o = DLiteral ls (Some i) /\ impl L m u i
      | TClass c => exists cl, get_class E c = Some cl /\
          match c_kind cl, c_from_json cl with
          | CEnum ms, _ => o = DEnum c ms
          | CData _ _, Some h | CPlain _, Some h => o = DCustom h
          | _, _ => exists fps is, field_parsers E cl = Ok fps /\ o = DClass c cl skip (Some (combine fps is)) /\
                    Forall2 (fun fp i => impl L (c_module cl) (fp_type fp) i) fps is
          end
      | _ => False
      end.

    (** An object entered under the name of an alias is labelled with the name. *)
    Definition okobj (L : labels) (m : nat) (t : typ) (o : dobj) : Prop :=
      match t with
      | TRef s => exists u, lookup E m s = Some (true, u) /\ special_form (deref u) /\ okbody L m (deref u) o
      | _ => okbody L m t o
      end.

    Lemma Forall2_mono : forall A B (R R' : A -> B -> Prop) l r, (forall x y, R x y -> R' x y) -> Forall2 R l r -> Forall2 R' l r.
    Proof. intros A B R R' l r I H. induction H; constructor; auto. Qed.

    Lemma okbody_mono : forall L L' m t o, sub L L' -> okbody L m t o -> okbody L' m t o.
    Proof.
      intros L L' m t o S. destruct t; cbn [okbody]; auto.
      - intros (i & Q & I). exists i. split; [exact Q | eapply impl_mono; eassumption].
      - intros (i & Q & I). exists i. split; [exact Q | eapply impl_mono; eassumption].
      - intros (i & Q & K & I). exists i. split; [exact Q|]. split; [exact K | eapply impl_mono; eassumption].
      - intros (i & Q & I). exists i. split; [exact Q|]. eapply Forall2_mono; [|exact I]. intros x y. apply impl_mono. exact S.
      - intros (ps & is & Q & I & X). exists ps, is. split; [exact Q|]. split; [|exact X].
        eapply Forall2_mono; [|exact I]. intros x y. apply impl_mono. exact S.
      - intros (u & i & Q & Q' & I). exists u, i. repeat split; try assumption. eapply impl_mono; eassumption.
      - intros (cl & GE & H). exists cl. split; [exact GE|].
        assert (X : (exists fps is, field_parsers E cl = Ok fps /\ o = DClass c cl skip (Some (combine fps is)) /\
            Forall2 (fun fp i => impl L (c_module cl) (fp_type fp) i) fps is) ->
          exists fps is, field_parsers E cl = Ok fps /\ o = DClass c cl skip (Some (combine fps is)) /\
            Forall2 (fun fp i => impl L' (c_module cl) (fp_type fp) i) fps is).
        { intros (fps & is & F & Q & I). exists fps, is. repeat split; try assumption.
          eapply Forall2_mono; [|exact I]. intros x y. apply impl_mono. exact S. }
        destruct (c_kind cl), (c_from_json cl); auto.
    Qed.

    Lemma okobj_mono : forall L L' m t o, sub L L' -> okobj L m t o -> okobj L' m t o.
    Proof.
      intros L L' m t o S. destruct t; try apply okbody_mono; try exact S.
      intros (u & LK & SF & B). exists u. split; [exact LK|]. split; [exact SF|]. eapply okbody_mono; eassumption.
    Qed.

    Record Inv (st : store) (L : labels) (O : nat -> Prop) : Prop := {
      inv_bound : forall i m t, L i m t -> i < length (heap st);
      inv_obj : forall i m t, L i m t -> ~ O i -> exists o, nth_error (heap st) i = Some o /\ okobj L m t o;
      inv_class : forall c cl i, GK (KeyClass c) -> get_class E c = Some cl ->
        find_name (cache st) (c_module cl, c_name cl) = Some i -> L i 0 (TClass c);
      inv_alias : forall m s u i, GK (KeyAlias m s) -> lookup E m s = Some (true, u) -> special_form (deref u) ->
        find_name (cache st) (m, s) = Some i -> L i m (TRef s);
      inv_class' : forall c cl i m, L i m (TClass c) -> get_class E c = Some cl ->
        find_name (cache st) (c_module cl, c_name cl) = Some i;
      inv_alias' : forall m s i, L i m (TRef s) -> find_name (cache st) (m, s) = Some i
    }.

    Definition plus (L : labels) (i m : nat) (t : typ) (P : Prop) : labels :=
      fun j m' t' => L j m' t' \/ (j = i /\ m' = m /\ t' = t /\ P).

    Lemma plus_sub : forall L i m t P, sub L (plus L i m t P).
    Proof. intros L i m t P j m' t' H. left. exact H. Qed.

    Lemma plus_here : forall L i m t (P : Prop), P -> plus L i m t P i m t.
    Proof. intros L i m t P H. right. auto. Qed.

    Lemma sub_trans : forall a b c, sub a b -> sub b c -> sub a c.
    Proof. intros a b c H H' i m t X. auto. Qed.

    (** The label and the name of a new object. *)
    Definition entry (key : option name) (m : nat) (t : typ) (P : Prop) : Prop :=
      match key with
      | None => (forall c, t <> TClass c) /\ (forall s, t <> TRef s)
      | Some k => exists K, valid K /\ nm K = k /\ (GK K -> P) /\
          match K with
          | KeyClass c => m = 0 /\ t = TClass c
          | KeyAlias m' s => m = m' /\ t = TRef s
          end
      end.

    Lemma find_alloc : forall st key o k i, find_name (cache (alloc st key o)) k = Some i ->
      (key = Some k /\ i = length (heap st)) \/ find_name (cache st) k = Some i.
    Proof.
      intros st [k'|] o k i H; cbn [alloc cache] in H; [|right; exact H]. cbn [find_name] in H.
      destruct (name_eqb k' k) eqn:Q; [|right; exact H]. apply name_eqb_eq in Q. subst k'. injection H as <-. left. auto.
    Qed.

    Lemma find_kept : forall st key o k i, free key st -> find_name (cache st) k = Some i ->
      find_name (cache (alloc st key o)) k = Some i.
    Proof.
      intros st [k'|] o k i F H; cbn [alloc cache free] in *; [|exact H]. cbn [find_name].
      rewrite name_eqb_neq; [exact H | congruence].
    Qed.

    Lemma inv_alloc : forall st L O key m t o P, Inv st L O -> entry key m t P -> free key st ->
      Inv (alloc st key o) (plus L (length (heap st)) m t P) (fun i => O i \/ i = length (heap st)).
    Proof.
      intros st L O key m t o P [B OB C A C' A'] EN FR. split.
      - intros i m' t' [H|(-> & _)]; cbn [alloc heap]; rewrite app_length; cbn [length]; [|lia]. apply B in H. lia.
      - intros i m' t' [H|(-> & _)] N; [|exfalso; auto]. cbn [alloc heap].
        destruct (OB i m' t' H) as (ob & Q & K); [intros X; apply N; left; exact X|].
        exists ob. split; [rewrite nth_error_app1; [exact Q | apply B in H; exact H]|].
        eapply okobj_mono; [apply plus_sub | exact K].
      - intros c cl i GG GE F. apply find_alloc in F. destruct F as [[-> ->]|F]; [|left; eauto].
        right. cbn [entry] in EN. destruct EN as (K & V & Q & GP & M). assert (K = KeyClass c).
        { apply nm_inj; [exact V | cbn [valid]; eauto | cbn [nm]; rewrite GE; exact Q]. }
        subst K. destruct M as [-> ->]. auto.
      - intros m' s u i GG LK SF F. apply find_alloc in F. destruct F as [[-> ->]|F]; [|left; eauto].
        right. cbn [entry] in EN. destruct EN as (K & V & Q & GP & M). assert (K = KeyAlias m' s).
        { apply nm_inj; [exact V | cbn [valid]; eauto | exact Q]. }
        subst K. destruct M as (-> & ->). auto.
      - intros c cl i m' [H|(-> & -> & TQ & _)] GE; [apply find_kept; [exact FR | eauto]|].
        destruct key as [k|]; cbn [entry] in EN.
        + destruct EN as (K & V & Q & _ & M). destruct K as [c'|? ?]; destruct M as [_ M]; rewrite M in TQ; [|discriminate].
          injection TQ as ->. cbn [nm] in Q. rewrite GE in Q. subst k. cbn [alloc cache find_name]. rewrite name_eqb_refl. reflexivity.
        + exfalso. apply (proj1 EN c). congruence.
      - intros m' s i [H|(-> & -> & TQ & _)]; [apply find_kept; [exact FR | eauto]|].
        destruct key as [k|]; cbn [entry] in EN.
        + destruct EN as (K & V & Q & _ & M). destruct K as [c'|? ?]; destruct M as [M0 M]; rewrite M in TQ; [discriminate|].
          injection TQ as ->. subst. cbn [nm alloc cache find_name]. rewrite name_eqb_refl. reflexivity.
        + exfalso. apply (proj2 EN s). congruence.
    Qed.

    (** An object that is complete from the start. *)
    Lemma inv_alloc_done : forall st L O key m t o P, Inv st L O -> entry key m t P -> free key st ->
      okobj (plus L (length (heap st)) m t P) m t o -> Inv (alloc st key o) (plus L (length (heap st)) m t P) O.
    Proof.
      intros st L O key m t o P I EN FR OK. destruct (inv_alloc st L O key m t o P I EN FR) as [B OB C A C' A'].
      split; [exact B | | exact C | exact A | exact C' | exact A'].
      intros i m' t' H N. destruct (Nat.eq_dec i (length (heap st))) as [->|NE].
      - exists o. split; [cbn [alloc heap]; rewrite nth_error_app2, Nat.sub_diag; [reflexivity | lia]|].
        destruct H as [H|(_ & -> & -> & _)]; [|exact OK]. apply (inv_bound _ _ _ I) in H. lia.
      - apply OB; [exact H|]. intros [X|X]; contradiction.
    Qed.

    (** The references of an object are set. *)
    Lemma inv_update : forall st L O i o, Inv st L (fun x => O x \/ x = i) ->
      (forall m' t', L i m' t' -> okobj L m' t' o) -> Inv (update st i o) L O.
    Proof.
      intros st L O i o [B OB C A C' A'] OK. split; [| |exact C | exact A | exact C' | exact A'].
      - intros x m' t' X. cbn [update heap]. rewrite set_nth_length. eauto.
      - intros x m' t' X N. cbn [update heap]. destruct (Nat.eq_dec i x) as [<-|NE].
        + exists o. split; [apply set_nth_same; eauto | auto].
        + rewrite set_nth_other by exact NE. apply OB; [exact X|]. intros [Y|Y]; [contradiction | congruence].
    Qed.

    Definition grows (st : store) (L : labels) (st' : store) (L' : labels) : Prop :=
      sub L L' /\ length (heap st) <= length (heap st') /\
      forall i m t, L' i m t -> L i m t \/ length (heap st) <= i.

    Lemma grows_refl : forall st L, grows st L st L.
    Proof. intros st L. split; [intros i m t H; exact H|]. auto. Qed.

    Lemma grows_trans : forall a La b Lb c Lc, grows a La b Lb -> grows b Lb c Lc -> grows a La c Lc.
    Proof.
      intros a La b Lb c Lc (S1 & N1 & F1) (S2 & N2 & F2). split; [eapply sub_trans; eassumption|]. split; [lia|].
      intros i m t H. destruct (F2 i m t H) as [X|X]; [apply F1; exact X | right; lia].
    Qed.

    Lemma grows_alloc : forall st L key m t o P, grows st L (alloc st key o) (plus L (length (heap st)) m t P).
    Proof.
      intros st L key m t o P. split; [apply plus_sub|]. cbn [alloc heap]. rewrite app_length. cbn [length]. split; [lia|].
      intros i m' t' [H|(-> & _)]; auto.
    Qed.

    (** Creation, entry in the cache, construction of the dependencies, and
        completion. *)
    Lemma finish : forall st L O key m t o st1 L1 mk P, Inv st L O ->
      grows (alloc st key o) (plus L (length (heap st)) m t P) st1 L1 ->
      Inv st1 L1 (fun i => O i \/ i = length (heap st)) -> (P -> okobj L1 m t mk) ->
      grows st L (update st1 (length (heap st)) mk) L1 /\ Inv (update st1 (length (heap st)) mk) L1 O /\
      (P -> L1 (length (heap st)) m t).
    Proof.
      intros st L O key m t o st1 L1 mk P I GR I1 OK. pose proof GR as (S1 & N1 & F1).
      split; [|split; [|intros p; apply S1, plus_here; exact p]].
      - eapply grows_trans; [apply (grows_alloc st L key m t o P)|]. destruct GR as (S & N & F). split; [exact S|].
        cbn [update heap]. rewrite set_nth_length. auto.
      - apply inv_update; [exact I1|]. intros m' t' X. destruct (F1 _ _ _ X) as [[Y|(_ & -> & -> & p)]|Y].
        + apply (inv_bound _ _ _ I) in Y. lia.
        + exact (OK p).
        + cbn [alloc heap] in Y. rewrite app_length in Y. cbn [length] in Y. lia.
    Qed.

    (** Every deserializer that is fetched behaves as one of its type. *)
    Definition lab (key : option name) (t : typ) : typ := match key with Some k => TRef (snd k) | None => t end.

    Definition fetched (f : store -> res nat * store) (key : option name) (m : nat) (t : typ) : Prop :=
      forall st L O i st', Inv st L O -> free key st -> f st = (Ok i, st') ->
      exists L', grows st L st' L' /\ Inv st' L' O /\ (G m (lab key t) -> impl L' m (lab key t) i).

    Lemma each_fetched : forall A (f : A -> store -> res nat * store) (g : A -> typ) m l,
      (forall x, In x l -> fetched (f x) None m (g x)) ->
      forall st L O is st', Inv st L O -> each f l st = (Ok is, st') ->
      exists L', grows st L st' L' /\ Inv st' L' O /\
        ((forall x, In x l -> G m (g x)) -> Forall2 (fun x i => impl L' m (g x) i) l is).
    Proof.
      intros A f g m. induction l as [|x l IH]; intros F st L O is st' I Q; cbn [each] in Q.
      - apply pair_equal_spec in Q. destruct Q as [Q <-]. injection Q as <-.
        exists L. split; [apply grows_refl|]. split; [exact I | constructor].
      - destruct (f x st) as [[i|e] st1] eqn:F1; [|discriminate].
        destruct (each f l st1) as [[is1|e] st2] eqn:F2; [|discriminate].
        apply pair_equal_spec in Q. destruct Q as [Q <-]. injection Q as <-.
        destruct (F x (or_introl eq_refl) st L O i st1 I Logic.I F1) as (L1 & G1 & I1 & M1).
        destruct (IH (fun y J => F y (or_intror J)) st1 L1 O is1 st2 I1 F2) as (L2 & G2 & I2 & M2).
        exists L2. split; [eapply grows_trans; eassumption|]. split; [exact I2|]. intros GA. constructor.
        + eapply impl_mono; [exact (proj1 G2) | apply M1, GA; left; reflexivity].
        + apply M2. intros y J. apply GA. right. exact J.
    Qed.

    Lemma fits_entry : forall key m t, special_form t -> key_fits key m t -> entry key m (lab key t) (G m (lab key t)).
    Proof.
      intros [k|] m t SF H; cbn [lab entry].
      - destruct H as (s & u & -> & LK & SF' & ->). exists (KeyAlias m s). cbn [valid nm GK snd]. split; [eauto|]. auto.
      - split; intros x ->; exact SF.
    Qed.

    Lemma fits_ok : forall key m t (L : labels) o, special_form t -> key_fits key m t -> okbody L m t o -> okobj L m (lab key t) o.
    Proof.
      intros [k|] m t L o SF H B; cbn [lab].
      - destruct H as (s & u & -> & LK & SF' & ->). cbn [snd okobj]. eauto.
      - destruct t; try exact B. contradiction.
    Qed.

    Lemma fits_node : forall key m t, key_fits key m t -> G m (lab key t) -> G m t.
    Proof.
      intros [k|] m t H; cbn [lab]; [|auto]. destruct H as (s & u & -> & LK & _ & ->). cbn [snd]. intros g.
      eapply GC; [exact g|]. eapply re_ref; [exact LK | apply re_refl].
    Qed.

    Lemma fits_impl : forall key m t (L : labels) i, special_form t -> (forall u md, t <> TAnnot u md) -> key_fits key m t ->
      L i m (lab key t) -> impl L m (lab key t) i.
    Proof.
      intros [k|] m t L i SF NA H X; cbn [lab] in *.
      - destruct H as (s & u & -> & LK & SF' & ->). cbn [snd] in *. eapply im_attr; eassumption.
      - apply im_here; assumption.
    Qed.

    Lemma literal_in : forall ls u, literal_type ls = Ok u -> exists l, In l ls /\ u = lit_type l.
    Proof.
      intros [|l ls] u H; [discriminate|]. unfold literal_type in H. destruct (forallb _ _) in H; [|discriminate].
      injection H as <-. exists l. split; [left; reflexivity | reflexivity].
    Qed.

    Lemma get_fetched : forall n key m t, key_fits key m t -> fetched (get_deser E skip n key m t) key m t.
    Proof.
      induction n as [|n IH]; intros key m t KF st L O i st' I FR Q; cbn [get_deser] in Q; [discriminate|].
      assert (ONE : forall u o mk, special_form t -> (forall v md, t <> TAnnot v md) -> reach E m t m u ->
        (forall L1 i1, impl L1 m u i1 -> okbody L1 m t (mk i1)) ->
        match get_deser E skip n None m u (alloc st key o) with
        | (Err e, st1) => (Err e, st1)
        | (Ok i1, st1) => (Ok (length (heap st)), update st1 (length (heap st)) (mk i1))
        end = (Ok i, st') ->
        exists L', grows st L st' L' /\ Inv st' L' O /\ (G m (lab key t) -> impl L' m (lab key t) i)).
      { intros u o mk SF NA RE OK X. destruct (get_deser E skip n None m u (alloc st key o)) as [[i1|e] st1] eqn:GD; [|discriminate].
        apply pair_equal_spec in X. destruct X as [X <-]. injection X as <-.
        pose proof (fits_entry key m t SF KF) as EN.
        destruct (IH None m u Logic.I _ _ _ _ _ (inv_alloc st L O key m _ o _ I EN FR) Logic.I GD) as (L1 & GR & I1 & M).
        destruct (finish st L O key m (lab key t) o st1 L1 (mk i1) _ I GR I1) as (G2 & I2 & H2).
        { intros g. apply fits_ok; [exact SF | exact KF|]. apply OK, M. cbn [lab]. eapply GC; [|exact RE]. eapply fits_node; eassumption. }
        exists L1. split; [exact G2|]. split; [exact I2|]. intros g. apply fits_impl; auto. }
      assert (MANY : forall ts o mk, special_form t -> (forall v md, t <> TAnnot v md) -> (forall u, In u ts -> reach E m t m u) ->
        (forall L1 is, Forall2 (impl L1 m) ts is -> okbody L1 m t (mk is)) ->
        match each (get_deser E skip n None m) ts (alloc st key o) with
        | (Err e, st1) => (Err e, st1)
        | (Ok is, st1) => (Ok (length (heap st)), update st1 (length (heap st)) (mk is))
        end = (Ok i, st') ->
        exists L', grows st L st' L' /\ Inv st' L' O /\ (G m (lab key t) -> impl L' m (lab key t) i)).
      { intros ts o mk SF NA RE OK X. destruct (each (get_deser E skip n None m) ts (alloc st key o)) as [[is|e] st1] eqn:GD; [|discriminate].
        apply pair_equal_spec in X. destruct X as [X <-]. injection X as <-.
        pose proof (fits_entry key m t SF KF) as EN.
        destruct (each_fetched _ (get_deser E skip n None m) (fun x => x) m ts (fun x _ => IH None m x Logic.I)
          _ _ _ _ _ (inv_alloc st L O key m _ o _ I EN FR) GD) as (L1 & GR & I1 & M).
        destruct (finish st L O key m (lab key t) o st1 L1 (mk is) _ I GR I1) as (G2 & I2 & H2).
        { intros g. apply fits_ok; [exact SF | exact KF|]. apply OK, M. intros x J. eapply GC; [|apply RE; exact J]. eapply fits_node; eassumption. }
        exists L1. split; [exact G2|]. split; [exact I2|]. intros g. apply fits_impl; auto. }
      destruct t as [k|b|u|u|k u|ts|op ts|ls|u md|c|s|]; try discriminate.
      - (* built-in types *)
        pose proof (key_fits_simple key m (TScalar k) (fun x => x) KF) as ->.
        apply pair_equal_spec in Q. destruct Q as [Q <-]. injection Q as <-.
        exists (plus L (length (heap st)) 0 (TScalar k) True). split; [apply grows_alloc|]. split.
        + apply inv_alloc_done; [exact I | split; discriminate | exact Logic.I | reflexivity].
        + intros _. apply im_scalar. apply plus_here. exact Logic.I.
      - eapply ONE; [exact Logic.I | discriminate | apply re_list, re_refl | | exact Q]. cbn [okbody]. eauto.
      - eapply ONE; [exact Logic.I | discriminate | apply re_set, re_refl | | exact Q]. cbn [okbody]. eauto.
      - destruct (check_key_type E k) as [[]|e] eqn:CK; [|discriminate].
        eapply ONE; [exact Logic.I | discriminate | apply re_dict, re_refl | | exact Q]. cbn [okbody]. eauto.
      - eapply MANY; [exact Logic.I | discriminate | | | exact Q].
        + intros u J. eapply re_tuple; [exact J | apply re_refl].
        + cbn [okbody]. eauto.
      - assert (RU : forall u, In u ts -> reach E m (TUnion op ts) m u) by (intros u J; eapply re_union; [exact J | apply re_refl]).
        destruct (discriminating_properties E ts) as [[|p ps]|e] eqn:D; [| |discriminate].
        + eapply MANY; [exact Logic.I | discriminate | exact RU | | exact Q]. cbn [okbody].
          intros L1 is F. exists [], is. auto.
        + destruct (tag_table E (e_order E (p :: ps)) ts) as [tbl|e] eqn:T; [|discriminate].
          destruct (tags_distinct [] tbl) eqn:TD; [|discriminate].
          eapply MANY; [exact Logic.I | discriminate | exact RU | | exact Q]. cbn [okbody].
          intros L1 is F. exists (p :: ps), is. split; [exact D|]. split; [exact F|]. right. split; [discriminate|]. eauto.
      - destruct (literal_type ls) as [u|e] eqn:LT; [|discriminate].
        eapply ONE; [exact Logic.I | discriminate | | | exact Q].
        + destruct (literal_in ls u LT) as (l & J & ->). eapply re_literal; [exact J | apply re_refl].
        + cbn [okbody]. eauto.
      - (* annotated types *)
        pose proof (key_fits_annot key m u md KF) as ->.
        assert (R : ~ is_ref u /\ get_deser E skip n None m u st = (Ok i, st')).
        { destruct u; try discriminate; (split; [intros []|exact Q]). }
        destruct R as [R X]. destruct (IH None m u Logic.I st L O i st' I Logic.I X) as (L1 & G1 & I1 & M1).
        exists L1. split; [exact G1|]. split; [exact I1|]. cbn [lab] in *. intros g. apply im_annot; [exact R|].
        apply M1. eapply GC; [exact g|]. apply re_annot, re_refl.
      - (* classes *)
        pose proof (key_fits_simple key m (TClass c) (fun x => x) KF) as ->. cbn [lab].
        destruct (get_class E c) as [cl|] eqn:GE; [|discriminate].
        destruct (find_name (cache st) (c_module cl, c_name cl)) as [i0|] eqn:FN.
        { apply pair_equal_spec in Q. destruct Q as [Q <-]. injection Q as <-. exists L. split; [apply grows_refl|].
          split; [exact I|]. intros g. apply im_class. apply (inv_class _ _ _ I c cl i0); [exists m; exact g | exact GE | exact FN]. }
        set (key' := Some (c_module cl, c_name cl)) in *.
        assert (FR' : free key' st) by exact FN.
        set (P := GK (KeyClass c)).
        assert (EN : entry key' 0 (TClass c) P).
        { exists (KeyClass c). cbn [valid nm]. rewrite GE. split; [eauto|]. auto. }
        assert (DONE : forall o, (forall L1, okobj L1 0 (TClass c) o) -> (Ok (length (heap st)), alloc st key' o) = (Ok i, st') ->
          exists L', grows st L st' L' /\ Inv st' L' O /\ (G m (TClass c) -> impl L' m (TClass c) i)).
        { intros o OK X. apply pair_equal_spec in X. destruct X as [X <-]. injection X as <-.
          exists (plus L (length (heap st)) 0 (TClass c) P). split; [apply grows_alloc|]. split.
          - apply inv_alloc_done; [exact I | exact EN | exact FR' | apply OK].
          - intros g. apply im_class, plus_here. exists m. exact g. }
        assert (FIELDS : fieldwise cl -> (forall fps is L1, field_parsers E cl = Ok fps ->
            Forall2 (fun fp i => impl L1 (c_module cl) (fp_type fp) i) fps is ->
            okobj L1 0 (TClass c) (DClass c cl skip (Some (combine fps is)))) ->
          match field_parsers E cl with
          | Err e => (Err e, alloc st key' (DClass c cl skip None))
          | Ok fps =>
              match each (fun fp => get_deser E skip n None (c_module cl) (fp_type fp)) fps (alloc st key' (DClass c cl skip None)) with
              | (Err e, st1) => (Err e, st1)
              | (Ok is, st1) => (Ok (length (heap st)), update st1 (length (heap st)) (DClass c cl skip (Some (combine fps is))))
              end
          end = (Ok i, st') ->
          exists L', grows st L st' L' /\ Inv st' L' O /\ (G m (TClass c) -> impl L' m (TClass c) i)).
        { intros FW OK X. destruct (field_parsers E cl) as [fps|e] eqn:FP; [|discriminate].
          destruct (each (fun fp => get_deser E skip n None (c_module cl) (fp_type fp)) fps (alloc st key' (DClass c cl skip None)))
            as [[is|e] st1] eqn:GD; [|discriminate].
          apply pair_equal_spec in X. destruct X as [X <-]. injection X as <-.
          destruct (each_fetched _ _ fp_type (c_module cl) fps (fun fp _ => IH None (c_module cl) (fp_type fp) Logic.I)
            _ _ _ _ _ (inv_alloc st L O key' 0 (TClass c) _ P I EN FR') GD) as (L1 & GR & I1 & M).
          destruct (finish st L O key' 0 (TClass c) _ st1 L1 (DClass c cl skip (Some (combine fps is))) P I GR I1) as (G2 & I2 & H2).
          { intros (m1 & g). apply OK; [reflexivity|]. apply M. intros fp J. eapply GC; [exact g|].
            exact (field_types E CE c cl fps fp m1 GE FW FP J). }
          exists L1. split; [exact G2|]. split; [exact I2|]. intros g. apply im_class, H2. exists m. exact g. }
        assert (OKF : (match c_kind cl, c_from_json cl with
            | CEnum _, _ | CData _ _, Some _ | CPlain _, Some _ => False | _, _ => True end) ->
          forall fps is L1, field_parsers E cl = Ok fps ->
            Forall2 (fun fp i => impl L1 (c_module cl) (fp_type fp) i) fps is ->
            okobj L1 0 (TClass c) (DClass c cl skip (Some (combine fps is)))).
        { intros NK fps is L1 FP F2. cbn [okobj okbody]. exists cl. split; [exact GE|].
          destruct (c_kind cl), (c_from_json cl); try contradiction; eauto. }
        assert (OKD : forall L1, match c_kind cl, c_from_json cl with
            | CEnum ms, _ => okobj L1 0 (TClass c) (DEnum c ms)
            | CData _ _, Some h | CPlain _, Some h => okobj L1 0 (TClass c) (DCustom h) | _, _ => True end).
        { intros L1. destruct (c_kind cl) eqn:KD, (c_from_json cl) eqn:FJ; try exact Logic.I;
            (cbn [okobj okbody]; exists cl; split; [exact GE|]; rewrite KD, ?FJ; reflexivity). }
        assert (FW : (match c_kind cl, c_from_json cl with
            | CEnum _, _ | CData _ _, Some _ | CPlain _, Some _ => False | _, _ => True end) -> fieldwise cl).
        { unfold fieldwise. destruct (c_kind cl), (c_from_json cl); auto; contradiction. }
        destruct (c_kind cl) eqn:KD, (c_from_json cl) eqn:FJ;
          first [ eapply DONE; [exact OKD | exact Q] | eapply FIELDS; [apply FW; exact Logic.I | apply OKF; exact Logic.I | exact Q] ].
      - (* references *)
        pose proof (key_fits_simple key m (TRef s) (fun x => x) KF) as ->. cbn [lab].
        destruct (lookup E m s) as [[a u]|] eqn:LK; [|discriminate].
        assert (NODE : G m (TRef s) -> G m (deref u)).
        { intros g. eapply GC; [exact g|]. eapply re_ref; [exact LK | apply re_refl]. }
        assert (SIMPLE : (match deref u with TScalar _ | TClass _ => True | _ => False end) ->
          get_deser E skip n None m (deref u) st = (Ok i, st') ->
          exists L', grows st L st' L' /\ Inv st' L' O /\ (G m (TRef s) -> impl L' m (TRef s) i)).
        { intros SI X. destruct (IH None m (deref u) Logic.I st L O i st' I Logic.I X) as (L1 & G1 & I1 & M1).
          exists L1. split; [exact G1|]. split; [exact I1|]. intros g. eapply im_simple; [exact LK | exact SI | apply M1; auto]. }
        assert (ATTR : special_form (deref u) ->
          (if a then match find_name (cache st) (m, s) with
                     | Some i => (Ok i, st)
                     | None => get_deser E skip n (Some (m, s)) m (deref u) st end
           else get_deser E skip n None m (deref u) st) = (Ok i, st') ->
          exists L', grows st L st' L' /\ Inv st' L' O /\ (G m (TRef s) -> impl L' m (TRef s) i)).
        { intros SF X. destruct a.
          - destruct (find_name (cache st) (m, s)) as [i0|] eqn:FN.
            + apply pair_equal_spec in X. destruct X as [X <-]. injection X as <-. exists L. split; [apply grows_refl|].
              split; [exact I|]. intros g. eapply im_attr; [exact LK | exact SF|].
              exact (inv_alias _ _ _ I m s u i0 g LK SF FN).
            + assert (KF' : key_fits (Some (m, s)) m (deref u)) by (exists s, u; auto).
              exact (IH (Some (m, s)) m (deref u) KF' st L O i st' I FN X).
          - destruct (IH None m (deref u) Logic.I st L O i st' I Logic.I X) as (L1 & G1 & I1 & M1).
            exists L1. split; [exact G1|]. split; [exact I1|]. intros g. eapply im_text; [exact LK | exact SF | apply M1; auto]. }
        destruct (deref u) eqn:DU; try discriminate; try (apply ATTR; [exact Logic.I | exact Q]);
          try (apply SIMPLE; [exact Logic.I | exact Q]).
        destruct n; discriminate Q.
    Qed.

    (** * Running them *)
    Lemma run_zip : forall p q ts is js, (forall t i, In (t, i) (combine ts is) -> forall j, below (p t j) (q i j)) ->
      length ts = length is -> below (zip_parse p ts js) (zip_items q is js).
    Proof.
      intros p q. induction ts as [|t ts IH]; intros [|i is] js H N; cbn [length] in N; try discriminate.
      - apply below_refl.
      - destruct js as [|j js]; [apply below_refl|]. cbn [zip_parse zip_items].
        destruct (H t i (or_introl eq_refl) j) as [->| ->]; [left; reflexivity|].
        destruct (q i j); [|apply below_refl].
        destruct (IH is js (fun t' i' J => H t' i' (or_intror J)) ltac:(lia)) as [->| ->]; [left; reflexivity | apply below_refl].
    Qed.

    Lemma run_union : forall p q ts is j, (forall t i, In (t, i) (combine ts is) -> below (p t) (q i j)) ->
      length ts = length is -> below (union_try p ts) (try_members q is j).
    Proof.
      intros p q. induction ts as [|t ts IH]; intros [|i is] j H N; cbn [length] in N; try discriminate.
      - apply below_refl.
      - cbn [union_try try_members]. destruct (H t i (or_introl eq_refl)) as [->| ->]; [left; reflexivity|].
        assert (R : below (union_try p ts) (try_members q is j)).
        { apply IH; [intros t' i' J; apply H; right; exact J | lia]. }
        destruct (q i j) as [v|[]]; try apply below_refl; exact R.
    Qed.

    Lemma find_member_in : forall ts is t, length ts = length is -> In t ts ->
      exists i, find_member (combine ts is) t = Some i /\ In (t, i) (combine ts is).
    Proof.
      induction ts as [|u ts IH]; intros [|i is] t N I; cbn [length] in N; try discriminate; [destruct I|].
      cbn [combine find_member]. destruct (typ_eqb u t) eqn:Q.
      - apply typ_eqb_eq in Q. subst u. exists i. split; [reflexivity | left; reflexivity].
      - destruct I as [->|I]; [rewrite typ_eqb_refl in Q; discriminate|].
        destruct (IH is t ltac:(lia) I) as (i' & F & J). exists i'. split; [exact F | right; exact J].
    Qed.

    Lemma Forall2_combine : forall A B (R : A -> B -> Prop) l r, Forall2 R l r -> forall x y, In (x, y) (combine l r) -> R x y.
    Proof.
      intros A B R l r H. induction H as [|a b l r H F IH]; intros x y I; cbn [combine In] in I; [destruct I|].
      destruct I as [Q|I]; [injection Q as <- <-; exact H | apply IH; exact I].
    Qed.

    Lemma run_fields : forall (p : typ -> json -> res value) (q : nat -> json -> res value) fps (is : list nat) o,
      (forall fp i, In (fp, i) (combine fps is) -> forall j, below (p (fp_type fp) j) (q i j)) -> length fps = length is ->
      below (mapM (fun fp => do v <- parse_field p fp o; Ok (fp_name fp, v)) fps)
            (mapM (fun '(fp, i) => do v <- parse_field (fun _ => q i) fp o; Ok (fp_name fp, v)) (combine fps is)).
    Proof.
      intros p q. induction fps as [|fp fps IH]; intros [|i is] o H N; cbn [length] in N; try discriminate; [apply below_refl|].
      cbn [combine mapM].
      assert (B : below (do v <- parse_field p fp o; Ok (fp_name fp, v)) (do v <- parse_field (fun _ => q i) fp o; Ok (fp_name fp, v))).
      { apply below_bind; [|intros a _; apply below_refl]. unfold parse_field.
        pose proof (H fp i (or_introl eq_refl)) as X.
        destruct (fp_mode fp); destruct (dict_get o (fp_prop fp)) as [j|]; try apply below_refl; destruct j; try apply below_refl; apply X. }
      destruct B as [->| ->]; [left; reflexivity|].
      destruct (do v <- parse_field (fun _ => q i) fp o; Ok (fp_name fp, v)); [|apply below_refl].
      destruct (IH is o (fun a b J => H a b (or_intror J)) ltac:(lia)) as [->| ->]; [left; reflexivity | apply below_refl].
    Qed.

    Lemma combine_props : forall (fps : list fparser) (is : list nat), length fps = length is ->
      map (fun f => fp_prop (fst f)) (combine fps is) = map fp_prop fps.
    Proof.
      induction fps as [|fp fps IH]; intros [|i is] N; cbn [length] in N; try discriminate; [reflexivity|].
      cbn [combine map fst]. f_equal. apply IH. lia.
    Qed.

    Lemma run_body : forall st L n k m t i o j, n <= k ->
      (forall m' t' i' j', impl L m' t' i' -> below (parse E skip n m' t' j') (run E (heap st) k i' j')) ->
      special_form t -> (forall u md, t <> TAnnot u md) -> nth_error (heap st) i = Some o -> okbody L m t o ->
      below (parse E skip (S n) m t j) (run E (heap st) (S k) i j).
    Proof.
      intros st L n k m t i o j LE' IH SF NA NE OK. cbn [run]. rewrite NE.
      assert (H : forall m' t' i' j', n <= k -> impl L m' t' i' -> below (parse E skip n m' t' j') (run E (heap st) k i' j')) by auto.
      destruct t as [s|b|u|u|ky u|ts|op ts|ls|u md|c|s|]; cbn [okbody] in OK; try contradiction; cbn [parse].
      - destruct OK as (i1 & -> & M). destruct j; try apply below_refl.
        apply below_bind; [|intros a _; apply below_refl]. apply below_mapM. intros x. apply H; assumption.
      - destruct OK as (i1 & -> & M). destruct j; try apply below_refl.
        apply below_bind; [|intros a _; apply below_refl]. apply below_mapM. intros x.
        apply below_bind; [|intros a _; apply below_refl]. apply H; assumption.
      - destruct OK as (i1 & -> & _ & M). destruct j; try apply below_refl.
        apply below_bind; [|intros a _; apply below_refl]. apply below_mapM. intros [s x].
        apply below_bind; [apply below_refl|]. intros kv _.
        apply below_bind; [|intros a _; apply below_refl]. apply H; assumption.
      - destruct OK as (is & -> & F). destruct j; try apply below_refl.
        pose proof (Forall2_length_eq _ _ _ _ _ F) as N. rewrite <- N. destruct (Nat.eqb _ _); [|apply below_refl].
        apply below_bind; [|intros a _; apply below_refl]. apply run_zip; [|exact N].
        intros t i1 J x. apply H; [exact LE'|]. exact (Forall2_combine _ _ _ _ _ F _ _ J).
      - destruct OK as (ps & is & D & F & X). rewrite D. cbn [bind].
        pose proof (Forall2_length_eq _ _ _ _ _ F) as N.
        destruct X as [[-> ->]|(NP & tbl & T & _ & ->)].
        + apply run_union; [|exact N]. intros t i1 J. apply H; [exact LE'|]. exact (Forall2_combine _ _ _ _ _ F _ _ J).
        + destruct ps as [|p ps]; [contradiction|]. cbv zeta. rewrite T. cbn [bind]. destruct j as [| | | | |js|kvs]; try apply below_refl.
          destruct (tag_select tbl (e_order E (p :: ps)) kvs) as [u|e] eqn:TS; cbn [bind]; [|apply below_refl].
          assert (IU : In u ts).
          { destruct (tag_select_in _ _ _ _ TS) as (p' & l & x & _ & J & _). exact (proj1 (tag_table_in _ _ _ _ _ _ _ T J)). }
          destruct (find_member_in ts is u N IU) as (i1 & -> & J).
          apply H; [exact LE'|]. exact (Forall2_combine _ _ _ _ _ F _ _ J).
      - destruct OK as (u & i1 & LT & -> & M). rewrite LT. cbn [bind].
        apply below_bind; [|intros a _; apply below_refl]. apply H; assumption.
    Qed.

    Lemma run_impl : forall st L, Inv st L (fun _ => False) -> forall n k m t i j, n <= k -> impl L m t i ->
      below (parse E skip n m t j) (run E (heap st) k i j).
    Proof.
      intros st L INV. induction n as [n IH0] using lt_wf_ind. intros k m t i j LE M. destruct n as [|n]; [left; reflexivity|].
      assert (IH : forall k m t i j, n <= k -> impl L m t i -> below (parse E skip n m t j) (run E (heap st) k i j)).
      { intros. apply IH0; [lia | assumption | assumption]. }
      destruct M as [t i SF NA H|s i H|c i H|t md i R M|s a u i LK R M|s u i LK R M|s u i LK R H].
      - destruct (inv_obj _ _ _ INV i m t H (fun x => x)) as (o & NE & OK).
        destruct k as [|k]; [lia|]. apply (run_body st L n k m t i o j); try assumption; [lia | | destruct t; try exact OK; contradiction].
        intros. apply IH; [lia | assumption].
      - destruct (inv_obj _ _ _ INV i 0 (TScalar s) H (fun x => x)) as (o & NE & OK).
        destruct k as [|k]; [lia|]. cbn [run]. rewrite NE. cbn [okobj okbody] in OK. rewrite OK. apply below_refl.
      - destruct (inv_obj _ _ _ INV i 0 (TClass c) H (fun x => x)) as (o & NE & OK).
        destruct k as [|k]; [lia|]. assert (LE' : n <= k) by lia. cbn [run]. rewrite NE.
        cbn [okobj okbody] in OK. destruct OK as (cl & GC' & OK). cbn [parse]. rewrite GC'.
        assert (FIELDS : forall fps is, field_parsers E cl = Ok fps -> o = DClass c cl skip (Some (combine fps is)) ->
          Forall2 (fun fp i => impl L (c_module cl) (fp_type fp) i) fps is ->
          below (do fps <- field_parsers E cl; parse_object (parse E skip n (c_module cl)) skip c cl fps j)
            match j with
            | JObj o =>
                do vals <- mapM (fun '(fp, i') => do v <- parse_field (fun _ => run E (heap st) k i') fp o; Ok (fp_name fp, v)) (combine fps is);
                if skip || forallb (fun kv => mem_str (fst kv) (map (fun f => fp_prop (fst f)) (combine fps is))) o
                then match c_kind cl with
                     | CRawTuple (_ :: _) => Err EType
                     | _ => Ok (VObj c vals)
                     end
                else Err EJsonKey
            | _ => Err EJsonType
            end).
        { intros fps is FP _ F. rewrite FP. cbn [bind]. pose proof (Forall2_length_eq _ _ _ _ _ F) as N.
          destruct j; try apply below_refl. cbn [parse_object]. rewrite combine_props by exact N.
          apply below_bind; [|intros a _; apply below_refl]. apply run_fields; [|exact N].
          intros fp i1 J x. apply IH; [exact LE'|]. exact (Forall2_combine _ _ _ _ _ F _ _ J). }
        destruct (c_kind cl) eqn:KD, (c_from_json cl) eqn:FJ;
          try (rewrite OK; apply below_refl);
          (destruct OK as (fps & is & FP & Q & F); rewrite Q, KD; exact (FIELDS fps is FP Q F)).
      - cbn [parse]. destruct t; try (apply IH; [lia | exact M]). exfalso. apply R. exact Logic.I.
      - cbn [parse]. rewrite LK. destruct (deref u) eqn:DU; try contradiction; (apply IH; [lia | exact M]).
      - cbn [parse]. rewrite LK. destruct (deref u) eqn:DU; try contradiction; (apply IH; [lia | exact M]).
      - destruct (inv_obj _ _ _ INV i m (TRef s) H (fun x => x)) as (o & NE & u' & LK' & _ & OK). rewrite LK in LK'. injection LK' as <-.
        destruct k as [|k]; [lia|]. assert (X : parse E skip (S n) m (TRef s) j = parse E skip n m (deref u) j).
        { cbn [parse]. rewrite LK. destruct (deref u); try contradiction; reflexivity. }
        rewrite X. destruct n as [|n]; [left; reflexivity|].
        apply (run_body st L n k m (deref u) i o j); try assumption; [lia | |].
        + intros. apply IH0; [lia | lia | assumption].
        + intros v md DU. unfold deref, unwrap_annotated in DU. destruct u; try discriminate DU. rewrite DU in LK.
          exact (flat _ _ _ _ _ _ _ LK eq_refl).
    Qed.

    (** * Labelled names are constructible *)
    Definition VL (L : labels) (K : ckey) : Prop :=
      match K with KeyClass c => exists i m, L i m (TClass c) | KeyAlias m s => exists i, L i m (TRef s) end.

    Hypothesis GE : guarded_env E.

    Lemma every_part_true : forall t, every_part (fun _ => True) t.
    Proof.
      induction t as [k|b|u IH|u IH|k u IHk IH|ts IH|op ts IH|ls|u md IH|c|s|] using typ_induct; cbn [every_part]; auto.
      - split; [exact I|]. induction IH; cbn [fold_right]; auto.
      - split; [exact I|]. induction IH; cbn [fold_right]; auto.
    Qed.

    Lemma impl_static_if : forall st L (P : typ -> Prop), Inv st L (fun _ => False) -> forall m,
      (forall s i, P (TRef s) -> impl L m (TRef s) i -> static_ok E (VL L) m (TRef s)) ->
      forall t i, every_part P t -> impl L m t i -> static_ok E (VL L) m t.
    Proof.
      intros st L P INV m REF t.
      assert (MANY : forall ts, Forall (fun u => forall i, every_part P u -> impl L m u i -> static_ok E (VL L) m u) ts ->
        forall is, fold_right (fun u a => every_part P u /\ a) True ts -> Forall2 (impl L m) ts is -> Forall (static_ok E (VL L) m) ts).
      { intros ts F. induction F as [|u ts U F IHF]; intros is PA F2; inversion F2; subst; constructor.
        - eapply U; [exact (proj1 PA) | eassumption].
        - eapply IHF; [exact (proj2 PA) | eassumption]. }
      induction t as [k|b|u IH|u IH|k u IHk IH|ts IH|op ts IH|ls|u md IH|c|s|] using typ_induct; intros i PT M;
        cbn [every_part] in PT; try (destruct PT as [PT PA]);
        inversion M as [t' i' SF NA H|k' i' H|c' i' H|t' md' i' R M'|s' a' u' i' LK R M'|s' u' i' LK R M'|s' u' i' LK R H]; subst;
        try contradiction; try (exfalso; eapply NA; reflexivity);
        try (destruct (inv_obj _ _ _ INV _ _ _ H (fun x => x)) as (o & _ & OK); cbn [okobj okbody] in OK; try contradiction).
      - constructor.
      - destruct OK as (i1 & _ & M1). constructor. eapply IH; eassumption.
      - destruct OK as (i1 & _ & M1). constructor. eapply IH; eassumption.
      - destruct OK as (i1 & _ & CK & M1). constructor; [exact CK|]. eapply IH; [exact (proj2 PA) | exact M1].
      - destruct OK as (is & _ & F2). constructor. eapply MANY; eassumption.
      - destruct OK as (ps & is & D & F2 & X). econstructor; [exact D | | eapply MANY; eassumption].
        destruct X as [[-> _]|(_ & tbl & T & TD & _)]; [left; reflexivity | right; eauto].
      - destruct OK as (u & i1 & LT & _ & M1). econstructor; [exact LT|].
        destruct (literal_in ls u LT) as (l & J & ->).
        inversion M1 as [t' i' SF' NA' H'|k' i' H'|c' i' H'|t' md' i' R M'|s' a' u' i' LK R M'|s' u' i' LK R M'|s' u' i' LK R H']; subst;
          destruct l; cbn in *; try contradiction; try discriminate; try constructor.
        destruct (inv_obj _ _ _ INV _ _ _ H' (fun x => x)) as (o' & _ & cl & G' & _). econstructor; [exact G'|]. exists i1, 0. congruence.
      - constructor; [exact R|]. eapply IH; eassumption.
      - destruct OK as (cl & G' & _). econstructor; [exact G'|]. exists i, 0. exact H.
      - eapply REF; eassumption.
      - eapply REF; eassumption.
      - eapply REF; eassumption.
    Qed.

    Lemma deref_part : forall P u, every_part P u -> every_part P (deref u).
    Proof. intros P u H. unfold deref, unwrap_annotated. destruct u; try exact H. exact (proj2 H). Qed.

    Lemma impl_static : forall st L, Inv st L (fun _ => False) -> forall m t i, impl L m t i -> static_ok E (VL L) m t.
    Proof.
      intros st L INV m t i. apply (impl_static_if st L (fun _ => True) INV m); [|apply every_part_true].
      clear t i. intros s i _ M.
      inversion M as [t' i' SF NA H|k' i' H|c' i' H|t' md' i' R M'|s' a' u' i' LK R M'|s' u' i' LK R M'|s' u' i' LK R H]; subst;
        [contradiction| | |].
      - eapply so_ref_simple; [exact LK | exact R|]. destruct (deref u') eqn:DU; try contradiction; [constructor|].
        inversion M' as [t' i' SF NA H|k' i' H|c' i' H|t' md' i' R' M''|? ? ? ? ? ? ?|? ? ? ? ? ?|? ? ? ? ? ?]; subst; [contradiction|].
        destruct (inv_obj _ _ _ INV _ _ _ H (fun x => x)) as (o & _ & cl & G' & _). econstructor; [exact G'|]. exists i, 0. exact H.
      - eapply so_ref_text; [exact LK | unfold is_ref; destruct (deref u'); try contradiction; auto|].
        eapply (impl_static_if st L (fun u => ~ is_ref u) INV m); [|apply deref_part; exact (ge_plain E GE _ _ _ LK) | exact M'].
        intros s' i' X. exfalso. apply X. exact I.
      - eapply so_ref_attr; [exact LK | exact R | exists i; exact H].
    Qed.

    Lemma okbody_static : forall st L, Inv st L (fun _ => False) -> forall m t o, special_form t -> okbody L m t o ->
      static_ok E (VL L) m t.
    Proof.
      intros st L INV m t o SF OK.
      assert (MANY : forall ts is, Forall2 (impl L m) ts is -> Forall (static_ok E (VL L) m) ts).
      { intros ts is F. induction F; constructor; [eapply impl_static; eassumption | assumption]. }
      destruct t; try contradiction; cbn [okbody] in OK; try contradiction.
      - destruct OK as (i1 & _ & M1). constructor. eapply impl_static; eassumption.
      - destruct OK as (i1 & _ & M1). constructor. eapply impl_static; eassumption.
      - destruct OK as (i1 & _ & CK & M1). constructor; [exact CK|]. eapply impl_static; eassumption.
      - destruct OK as (is & _ & F2). constructor. eapply MANY; eassumption.
      - destruct OK as (ps & is & D & F2 & X). econstructor; [exact D | | eapply MANY; eassumption].
        destruct X as [[-> _]|(_ & tbl & T & TD & _)]; [left; reflexivity | right; eauto].
      - destruct OK as (u & i1 & LT & _ & M1). econstructor; [exact LT | eapply impl_static; eassumption].
    Qed.

    Lemma labels_closed : forall st L, Inv st L (fun _ => False) -> closed E (VL L).
    Proof.
      intros st L INV [c|m s] V; cbn [VL] in V; cbn [key_ok].
      - destruct V as (i & m & H). destruct (inv_obj _ _ _ INV _ _ _ H (fun x => x)) as (o & _ & cl & G' & OK).
        exists cl. split; [exact G'|].
        assert (X : (exists fps is, field_parsers E cl = Ok fps /\ o = DClass c cl skip (Some (combine fps is)) /\
            Forall2 (fun fp i => impl L (c_module cl) (fp_type fp) i) fps is) ->
          exists fps, field_parsers E cl = Ok fps /\ Forall (fun fp => static_ok E (VL L) (c_module cl) (fp_type fp)) fps).
        { intros (fps & is & F & _ & F2). exists fps. split; [exact F|].
          clear - F2 INV CE NU GE GC. induction F2; constructor; [eapply impl_static; eassumption | assumption]. }
        destruct (c_kind cl), (c_from_json cl); try exact I; exact (X OK).
      - destruct V as (i & H). destruct (inv_obj _ _ _ INV _ _ _ H (fun x => x)) as (o & _ & u & LK & SF & OK).
        exists u. split; [exact LK|]. split; [eapply okbody_static; eassumption|].
        unfold special_form in SF. destruct (deref u); try contradiction; exact I.
    Qed.
  End Meaning.

  (** * Whether they can be constructed *)
  Lemma fold_within : forall A (f : A -> list ckey -> res (list ckey)) (S : ckey -> Prop) l vis vis',
    (forall x v v', In x l -> f x v = Ok v' -> forall k, In k v' -> In k v \/ S k) ->
    fold_build f l vis = Ok vis' -> forall k, In k vis' -> In k vis \/ S k.
  Proof.
    intros A f S. induction l as [|x l IH]; intros vis vis' F Q k K; cbn [fold_build] in Q.
    - injection Q as <-. left. exact K.
    - destruct (f x vis) as [v|e] eqn:X; [|discriminate].
      destruct (IH v vis' (fun y a b I => F y a b (or_intror I)) Q k K) as [Y|Y]; [|right; exact Y].
      exact (F x vis v (or_introl eq_refl) X k Y).
  Qed.

  (** Construction within a closed set of names stays in the set. *)
  Lemma build_within : forall S, closed E S -> forall n m t vis vis', static_ok E S m t -> build E n m t vis = Ok vis' ->
    forall k, In k vis' -> In k vis \/ S k.
  Proof.
    intros S CL. induction n as [|n IH]; intros m t vis vis' H Q; [discriminate|].
    assert (FB : forall ts v v', Forall (static_ok E S m) ts -> fold_build (build E n m) ts v = Ok v' ->
      forall k, In k v' -> In k v \/ S k).
    { intros ts v v' F. apply fold_within. intros x a b I. apply IH. rewrite Forall_forall in F. apply F. exact I. }
    destruct H as [k|t H|t H|k t C H|ts H|op ts ps D T H|ls u L H|t md R H|c cl G K|s a u L D H|s u L D K|s u L R H]; cbn [build] in Q.
    - injection Q as <-. auto.
    - eapply IH; eassumption.
    - eapply IH; eassumption.
    - rewrite C in Q. cbn [bind] in Q. eapply IH; eassumption.
    - eapply FB; eassumption.
    - rewrite D in Q. cbn [bind] in Q. destruct T as [->|(tbl & T & TD)]; [eapply FB; eassumption|].
      destruct ps; [eapply FB; eassumption|]. rewrite T in Q. cbn [bind] in Q. rewrite TD in Q. eapply FB; eassumption.
    - rewrite L in Q. cbn [bind] in Q. eapply IH; eassumption.
    - destruct t; try (eapply IH; eassumption). discriminate.
    - rewrite G in Q. destruct (existsb _ vis); [injection Q as <-; auto|].
      pose proof (CL _ K) as KO. cbn [key_ok] in KO. destruct KO as (cl' & G' & KO). rewrite G in G'. injection G' as <-.
      assert (X : (exists fps, field_parsers E cl = Ok fps /\ Forall (fun fp => static_ok E S (c_module cl) (fp_type fp)) fps) ->
        (do fps <- field_parsers E cl; fold_build (fun fp => build E n (c_module cl) (fp_type fp)) fps (KeyClass c :: vis)) = Ok vis' ->
        forall k, In k vis' -> In k vis \/ S k).
      { intros (fps & F & A) Y k I. rewrite F in Y. cbn [bind] in Y.
        destruct (fold_within _ _ S _ _ _ (fun fp a b J => IH _ _ a b (proj1 (Forall_forall _ _) A fp J)) Y k I) as [[<-|Z]|Z]; auto. }
      assert (Y : Ok (KeyClass c :: vis) = Ok vis' -> forall k, In k vis' -> In k vis \/ S k).
      { intros Y. injection Y as <-. intros k [<-|I]; auto. }
      destruct (c_kind cl), (c_from_json cl); first [apply Y; exact Q | apply X; [exact KO | exact Q]].
    - rewrite L in Q. destruct (deref u) eqn:DU; try contradiction; eapply IH; eassumption.
    - rewrite L in Q. pose proof (CL _ K) as KO. cbn [key_ok] in KO. destruct KO as (u' & L' & KO & _). rewrite L in L'. injection L' as <-.
      assert (X : (if existsb (ckey_eqb (KeyAlias m s)) vis then Ok vis else build E n m (deref u) (KeyAlias m s :: vis)) = Ok vis' ->
        forall k, In k vis' -> In k vis \/ S k).
      { destruct (existsb _ vis); intros Y; [injection Y as <-; auto|]. intros k I.
        destruct (IH _ _ _ _ KO Y k I) as [[<-|Z]|Z]; auto. }
      destruct (deref u) eqn:DU; try contradiction; apply X; exact Q.
    - rewrite L in Q. destruct (deref u) eqn:DU; try (eapply IH; eassumption). discriminate.
  Qed.

  Section Agreement.
    Variable skip : bool.
    Variable G : nat -> typ -> Prop.
    Hypothesis GC : forall m t m' u, G m t -> reach E m t m' u -> G m' u.
    Variable V : ckey -> Prop.
    Hypothesis CV : closed E V.

    Definition rel (vF : list ckey) (st : store) (key : option name) : Prop :=
      forall K, valid K -> GK G K -> ((V K \/ In K vF) <-> (find_name (cache st) (nm K) <> None \/ key = Some (nm K))).

    Lemma rel_alloc : forall vF st key o, rel vF st key -> rel vF (alloc st key o) None.
    Proof.
      intros vF st key o R K VK GG. rewrite (R K VK GG). destruct key as [k|]; cbn [alloc cache].
      - cbn [find_name]. destruct (name_eqb k (nm K)) eqn:Q.
        + apply name_eqb_eq in Q. subst k. split; [left; discriminate | auto].
        + split; [|intros [H|H]; [auto | discriminate]]. intros [H|H]; [auto|]. injection H as ->.
          rewrite name_eqb_refl in Q. discriminate.
      - reflexivity.
    Qed.

    Lemma rel_cons : forall K vF st, valid K -> rel vF st None -> rel (K :: vF) st (Some (nm K)).
    Proof.
      intros K vF st VK R K' VK' GG'. pose proof (R K' VK' GG') as H. cbn [In]. split.
      - intros [X|[<-|X]]; [|auto|].
        + destruct (proj1 H (or_introl X)) as [Y|Y]; [auto | discriminate].
        + destruct (proj1 H (or_intror X)) as [Y|Y]; [auto | discriminate].
      - intros [X|X].
        + destruct (proj2 H (or_introl X)); auto.
        + injection X as X. right. left. apply nm_inj; assumption.
    Qed.

    Definition agrees {A} (r : res (list ckey)) (x : res A * store) : Prop :=
      match r with
      | Ok vF => (exists i, fst x = Ok i) /\ rel vF (snd x) None
      | Err ERecursion => True
      | Err e => fst x = Err e
      end.

    Lemma agrees_err : forall A e (st : store), @agrees A (Err e) (Err e, st).
    Proof. intros A e st. destruct e; try exact I; reflexivity. Qed.

    Lemma agrees_step : forall A r (x : res A * store) self mk, agrees r x ->
      agrees r (match x with (Err e, s) => (Err e, s) | (Ok i, s) => (Ok self, update s self (mk i)) end).
    Proof.
      intros A r [[i|e] s] self mk H; destruct r as [vF|e']; cbn [agrees fst snd] in *.
      - destruct H as [_ R]. split; [eauto|]. exact R.
      - destruct e'; try exact I; discriminate H.
      - destruct H as [(i & Q) _]. discriminate.
      - destruct e'; try exact I; injection H as ->; reflexivity.
    Qed.

    Lemma each_agrees : forall A (f : A -> store -> res nat * store) (g : A -> list ckey -> res (list ckey)) l,
      (forall x vF st, In x l -> rel vF st None -> agrees (g x vF) (f x st)) ->
      forall vF st, rel vF st None -> agrees (fold_build g l vF) (each f l st).
    Proof.
      intros A f g. induction l as [|x l IH]; intros F vF st R; cbn [fold_build each].
      - split; [cbn [fst]; eauto | exact R].
      - pose proof (F x vF st (or_introl eq_refl) R) as H. destruct (g x vF) as [v|e] eqn:GX; cbn [agrees] in H.
        + destruct H as [(i & Q) R']. destruct (f x st) as [r st1]. cbn [fst snd] in *. subst r.
          pose proof (IH (fun y a b I => F y a b (or_intror I)) v st1 R') as H.
          destruct (fold_build g l v) as [v'|e]; destruct (each f l st1) as [[is|e'] st2]; cbn [agrees fst snd] in *.
          * split; [eauto | exact (proj2 H)].
          * destruct H as [(i' & Q') _]. discriminate.
          * destruct e; try exact I; discriminate H.
          * destruct e; try exact I; injection H as ->; reflexivity.
        + destruct (f x st) as [[i|e'] st1]; destruct e; cbn [agrees fst] in *; try exact I; try discriminate H;
            injection H as ->; reflexivity.
    Qed.

    Lemma seen_iff : forall vis k, existsb (ckey_eqb k) vis = true <-> In k vis.
    Proof. intros vis k. split; [apply seen_in|]. intros H. apply existsb_exists. exists k. split; [exact H | apply ckey_eqb_eq; reflexivity]. Qed.

    Lemma get_agrees : forall n key m t vF st, key_fits key m t -> G m t -> rel vF st key ->
      agrees (build E n m t vF) (get_deser E skip n key m t st).
    Proof.
      induction n as [|n IH]; intros key m t vF st KF GT R; [exact I|]. cbn [build get_deser].
      assert (ONE : forall u o mk, reach E m t m u -> agrees (build E n m u vF)
        match get_deser E skip n None m u (alloc st key o) with
        | (Err e, st1) => (Err e, st1)
        | (Ok i1, st1) => (Ok (length (heap st)), update st1 (length (heap st)) (mk i1))
        end).
      { intros u o mk RE. apply agrees_step. apply IH; [exact I | eapply GC; eassumption | apply rel_alloc; exact R]. }
      assert (MANY : forall ts o mk, (forall u, In u ts -> reach E m t m u) -> agrees (fold_build (build E n m) ts vF)
        match each (get_deser E skip n None m) ts (alloc st key o) with
        | (Err e, st1) => (Err e, st1)
        | (Ok is, st1) => (Ok (length (heap st)), update st1 (length (heap st)) (mk is))
        end).
      { intros ts o mk RE. apply agrees_step. apply each_agrees; [|apply rel_alloc; exact R].
        intros x v s J R'. apply IH; [exact I | eapply GC; [exact GT | apply RE; exact J] | exact R']. }
      destruct t as [k|b|u|u|k u|ts|op ts|ls|u md|c|s|]; try apply agrees_err.
      - pose proof (key_fits_simple key m (TScalar k) (fun x => x) KF) as ->.
        split; [cbn [fst]; eauto | exact R].
      - apply ONE. apply re_list, re_refl.
      - apply ONE. apply re_set, re_refl.
      - destruct (check_key_type E k) as [[]|e]; cbn [bind]; [apply ONE, re_dict, re_refl | apply agrees_err].
      - apply MANY. intros u J. eapply re_tuple; [exact J | apply re_refl].
      - assert (RU : forall u, In u ts -> reach E m (TUnion op ts) m u) by (intros u J; eapply re_union; [exact J | apply re_refl]).
        destruct (discriminating_properties E ts) as [[|p ps]|e]; cbn [bind]; [apply MANY; exact RU | | apply agrees_err].
        cbv zeta. destruct (tag_table E (e_order E (p :: ps)) ts) as [tbl|e]; cbn [bind]; [|apply agrees_err].
        destruct (tags_distinct [] tbl); [|apply agrees_err].
        apply (MANY ts _ (fun is => DTagged (e_order E (p :: ps)) (Some (tbl, combine ts is)))). exact RU.
      - destruct (literal_type ls) as [u|e] eqn:LT; cbn [bind]; [apply ONE | apply agrees_err].
        destruct (literal_in ls u LT) as (l & J & ->). eapply re_literal; [exact J | apply re_refl].
      - pose proof (key_fits_annot key m u md KF) as ->.
        assert (GU : G m u) by (eapply GC; [exact GT | apply re_annot, re_refl]).
        destruct u; try (apply IH; [exact I | exact GU | exact R]). apply agrees_err.
      - pose proof (key_fits_simple key m (TClass c) (fun x => x) KF) as ->.
        destruct (get_class E c) as [cl|] eqn:GCL; [|apply agrees_err].
        assert (VC : valid (KeyClass c)) by (cbn [valid]; eauto). assert (GG : GK G (KeyClass c)) by (exists m; exact GT).
        assert (NM : nm (KeyClass c) = (c_module cl, c_name cl)) by (cbn [nm]; rewrite GCL; reflexivity).
        destruct (existsb (ckey_eqb (KeyClass c)) vF) eqn:SE.
        { apply seen_iff in SE. destruct (proj1 (R _ VC GG) (or_intror SE)) as [X|X]; [|discriminate]. rewrite NM in X.
          destruct (find_name (cache st) (c_module cl, c_name cl)); [|contradiction]. split; [cbn [fst]; eauto | exact R]. }
        destruct (find_name (cache st) (c_module cl, c_name cl)) as [i0|] eqn:FN.
        { assert (VV : V (KeyClass c)).
          { destruct (proj2 (R _ VC GG)) as [X|X]; [left; rewrite NM, FN; discriminate | exact X|].
            apply seen_iff in X. congruence. }
          assert (SO : static_ok E V m (TClass c)) by (econstructor; eassumption).
          assert (X : match build E (S n) m (TClass c) vF with Ok v' => rel v' st None | Err e => e = ERecursion end).
          { destruct (static_build E V CV (S n) m (TClass c) vF SO) as [(v' & Q)|Q]; rewrite Q; [|reflexivity].
            intros K VK GK'. rewrite <- (R K VK GK'). split.
            - intros [X|X]; [auto|]. destruct (build_within V CV _ _ _ _ _ SO Q K X); auto.
            - intros [X|X]; [auto|]. right. apply (proj1 (proj1 (build_static E _ _ _ _ _ Q))). exact X. }
          cbn [build] in X. rewrite GCL, SE in X.
          match goal with |- agrees ?b _ => destruct b as [v'|e] end;
            [split; [cbn [fst]; eauto | exact X] | subst e; exact I]. }
        set (key' := Some (c_module cl, c_name cl)) in *.
        assert (R' : forall o, rel (KeyClass c :: vF) (alloc st key' o) None).
        { intros o. apply rel_alloc. unfold key'. rewrite <- NM. apply rel_cons; assumption. }
        assert (DONE : forall o, agrees (Ok (KeyClass c :: vF)) (Ok (length (heap st)), alloc st key' o)).
        { intros o. split; [cbn [fst]; eauto | apply R']. }
        assert (FIELDS : fieldwise cl -> agrees
          (do fps <- field_parsers E cl; fold_build (fun fp => build E n (c_module cl) (fp_type fp)) fps (KeyClass c :: vF))
          match field_parsers E cl with
          | Err e => (Err e, alloc st key' (DClass c cl skip None))
          | Ok fps =>
              match each (fun fp => get_deser E skip n None (c_module cl) (fp_type fp)) fps (alloc st key' (DClass c cl skip None)) with
              | (Err e, st1) => (Err e, st1)
              | (Ok is, st1) => (Ok (length (heap st)), update st1 (length (heap st)) (DClass c cl skip (Some (combine fps is))))
              end
          end).
        { intros FW. destruct (field_parsers E cl) as [fps|e] eqn:FP; cbn [bind]; [|apply agrees_err].
          apply (agrees_step _ _ _ _ (fun is => DClass c cl skip (Some (combine fps is)))).
          apply each_agrees; [|apply R']. intros fp v s J R2. apply IH; [exact I | | exact R2].
          eapply GC; [exact GT | exact (field_types E CE c cl fps fp m GCL FW FP J)]. }
        unfold fieldwise in FIELDS. destruct (c_kind cl), (c_from_json cl); first [apply DONE | apply FIELDS; first [exact I | reflexivity]].
      - pose proof (key_fits_simple key m (TRef s) (fun x => x) KF) as ->.
        destruct (lookup E m s) as [[a u]|] eqn:LK; [|apply agrees_err].
        assert (GU : G m (deref u)) by (eapply GC; [exact GT | eapply re_ref; [exact LK | apply re_refl]]).
        assert (VIA : agrees (build E n m (deref u) vF) (get_deser E skip n None m (deref u) st)) by (apply IH; [exact I | exact GU | exact R]).
        assert (ATTR : special_form (deref u) ->
          agrees (if a then if existsb (ckey_eqb (KeyAlias m s)) vF then Ok vF else build E n m (deref u) (KeyAlias m s :: vF)
                  else build E n m (deref u) vF)
            (if a then match find_name (cache st) (m, s) with
                     | Some i => (Ok i, st)
                     | None => get_deser E skip n (Some (m, s)) m (deref u) st end
             else get_deser E skip n None m (deref u) st)).
        { intros SF. destruct a; [|exact VIA].
          assert (VC : valid (KeyAlias m s)) by (cbn [valid]; eauto). assert (GG : GK G (KeyAlias m s)) by exact GT.
          destruct (existsb (ckey_eqb (KeyAlias m s)) vF) eqn:SE.
          { apply seen_iff in SE. destruct (proj1 (R _ VC GG) (or_intror SE)) as [X|X]; [|discriminate]. cbn [nm] in X.
            destruct (find_name (cache st) (m, s)); [|contradiction]. split; [cbn [fst]; eauto | exact R]. }
          destruct (find_name (cache st) (m, s)) as [i0|] eqn:FN.
          - assert (VV : V (KeyAlias m s)).
            { destruct (proj2 (R _ VC GG)) as [X|X]; [left; cbn [nm]; rewrite FN; discriminate | exact X|].
              apply seen_iff in X. congruence. }
            pose proof (CV _ VV) as KO. cbn [key_ok] in KO. destruct KO as (u' & LK' & SO & _). rewrite LK in LK'. injection LK' as <-.
            destruct (static_build E V CV n m (deref u) (KeyAlias m s :: vF) SO) as [(v' & Q)|Q]; rewrite Q; [|exact I].
            split; [cbn [fst]; eauto|]. cbn [snd]. intros K VK GK'. rewrite <- (R K VK GK'). split.
            + intros [X|X]; [auto|]. destruct (build_within V CV _ _ _ _ _ SO Q K X) as [[<-|Y]|Y]; auto.
            + intros [X|X]; [auto|]. right. apply (proj1 (proj1 (build_static E _ _ _ _ _ Q))). right. exact X.
          - apply IH; [exists s, u; auto | exact GU|]. apply (rel_cons (KeyAlias m s)); assumption. }
        destruct (deref u) eqn:DU; try apply agrees_err; first [apply ATTR; exact I | exact VIA].
    Qed.
  End Agreement.

  (** * Which names a call enters *)
  Definition meets (m : nat) (t : typ) (K : ckey) : Prop :=
    match K with KeyClass c => exists a, reach E m t a (TClass c) | KeyAlias a s => reach E m t a (TRef s) end.

  Lemma meets_trans : forall m t m' u K, reach E m t m' u -> meets m' u K -> meets m t K.
  Proof.
    intros m t m' u [c|a s] R; cbn [meets].
    - intros (b & H). exists b. eapply reach_trans; eassumption.
    - intros H. eapply reach_trans; eassumption.
  Qed.

  Definition enters (st : store) (key : option name) (m : nat) (t : typ) (st' : store) : Prop :=
    forall K, valid K -> find_name (cache st') (nm K) <> None ->
    find_name (cache st) (nm K) <> None \/ key = Some (nm K) \/ meets m t K.

  Lemma find_alloc_some : forall st key o k, find_name (cache (alloc st key o)) k <> None ->
    find_name (cache st) k <> None \/ key = Some k.
  Proof.
    intros st [k'|] o k H; cbn [alloc cache] in H; [|left; exact H]. cbn [find_name] in H.
    destruct (name_eqb k' k) eqn:Q; [|left; exact H]. apply name_eqb_eq in Q. subst k'. auto.
  Qed.

  Lemma each_enters : forall A (f : A -> store -> res nat * store) (g : A -> typ) m l,
    (forall x st r st', In x l -> f x st = (r, st') -> enters st None m (g x) st') ->
    forall st r st', each f l st = (r, st') -> forall K, valid K -> find_name (cache st') (nm K) <> None ->
    find_name (cache st) (nm K) <> None \/ exists x, In x l /\ meets m (g x) K.
  Proof.
    intros A f g m. induction l as [|x l IH]; intros F st r st' Q K VK H; cbn [each] in Q.
    - apply pair_equal_spec in Q. destruct Q as [_ <-]. auto.
    - assert (HEAD : forall r1 st1, f x st = (r1, st1) -> find_name (cache st1) (nm K) <> None ->
        find_name (cache st) (nm K) <> None \/ exists y, In y (x :: l) /\ meets m (g y) K).
      { intros r1 st1 F1 H1. destruct (F x st r1 st1 (or_introl eq_refl) F1 K VK H1) as [X|[X|X]]; [auto | discriminate|].
        right. exists x. split; [left; reflexivity | exact X]. }
      destruct (f x st) as [[i|e] st1] eqn:F1.
      + assert (REST : forall r2 st2, each f l st1 = (r2, st2) -> find_name (cache st2) (nm K) <> None ->
          find_name (cache st) (nm K) <> None \/ exists y, In y (x :: l) /\ meets m (g y) K).
        { intros r2 st2 F2 H2. destruct (IH (fun y a b c J => F y a b c (or_intror J)) st1 r2 st2 F2 K VK H2) as [X|(y & J & X)].
          - eapply HEAD; [reflexivity | exact X].
          - right. exists y. split; [right; exact J | exact X]. }
        destruct (each f l st1) as [[is|e] st2] eqn:F2; apply pair_equal_spec in Q; destruct Q as [_ <-];
          (eapply REST; [reflexivity | exact H]).
      + apply pair_equal_spec in Q. destruct Q as [_ <-]. eapply HEAD; [reflexivity | exact H].
  Qed.

  Lemma get_enters : forall skip n key m t st r st', get_deser E skip n key m t st = (r, st') -> enters st key m t st'.
  Proof.
    intros skip. induction n as [|n IH]; intros key m t st r st' Q K VK H; cbn [get_deser] in Q.
    { apply pair_equal_spec in Q. destruct Q as [_ <-]. auto. }
    assert (STEP : forall A (x : res A * store) o mk key', match x with
      | (Err e, st1) => (Err e, st1)
      | (Ok i1, st1) => (Ok (length (heap st)), update st1 (length (heap st)) (mk i1))
      end = (r, st') ->
      (find_name (cache (snd x)) (nm K) <> None ->
        find_name (cache (alloc st key' o)) (nm K) <> None \/ meets m t K) ->
      (key' = Some (nm K) -> key = key' \/ meets m t K) ->
      find_name (cache st) (nm K) <> None \/ key = Some (nm K) \/ meets m t K).
    { intros A x o mk key' X Y Z. assert (H' : find_name (cache (snd x)) (nm K) <> None).
      { destruct x as [[a|e] s]; apply pair_equal_spec in X; destruct X as [_ <-]; exact H. }
      destruct (Y H') as [W|W]; [|auto]. apply find_alloc_some in W. destruct W as [W|W]; [auto|].
      destruct (Z W) as [V|V]; [right; left; congruence | auto]. }
    assert (ONE : forall u s, reach E m t m u -> find_name (cache (snd (get_deser E skip n None m u s))) (nm K) <> None ->
      find_name (cache s) (nm K) <> None \/ meets m t K).
    { intros u s R X. destruct (get_deser E skip n None m u s) as [r1 s1] eqn:G.
      destruct (IH None m u s r1 s1 G K VK X) as [Y|[Y|Y]]; [auto | discriminate|]. right. eapply meets_trans; eassumption. }
    assert (MANY : forall ts s, (forall u, In u ts -> reach E m t m u) ->
      find_name (cache (snd (each (get_deser E skip n None m) ts s))) (nm K) <> None ->
      find_name (cache s) (nm K) <> None \/ meets m t K).
    { intros ts s R X. destruct (each _ ts s) as [r1 s1] eqn:G.
      destruct (each_enters _ (get_deser E skip n None m) (fun x => x) m ts (fun x a b c _ Y => IH None m x a b c Y) s r1 s1 G K VK X)
        as [Y|(y & J & Y)]; [auto|]. right. eapply meets_trans; [apply R; exact J | exact Y]. }
    assert (SAME : forall r0, (r0, st) = (r, st') -> find_name (cache st) (nm K) <> None \/ key = Some (nm K) \/ meets m t K).
    { intros r0 X. apply pair_equal_spec in X. destruct X as [_ <-]. auto. }
    assert (NEW : forall r0 o key', (r0, alloc st key' o) = (r, st') -> (key' = Some (nm K) -> key = key' \/ meets m t K) ->
      find_name (cache st) (nm K) <> None \/ key = Some (nm K) \/ meets m t K).
    { intros r0 o key' X Z. apply pair_equal_spec in X. destruct X as [_ <-]. apply find_alloc_some in H.
      destruct H as [W|W]; [auto|]. destruct (Z W) as [V|V]; [right; left; congruence | auto]. }
    destruct t as [k|b|u|u|k u|ts|op ts|ls|u md|c|s|]; try (eapply SAME; exact Q).
    - eapply NEW; [exact Q|]. discriminate.
    - eapply STEP; [exact Q | apply ONE, re_list, re_refl | auto].
    - eapply STEP; [exact Q | apply ONE, re_set, re_refl | auto].
    - destruct (check_key_type E k); [|eapply SAME; exact Q]. eapply STEP; [exact Q | apply ONE, re_dict, re_refl | auto].
    - eapply STEP; [exact Q | apply MANY | auto]. intros u J. eapply re_tuple; [exact J | apply re_refl].
    - assert (RU : forall u, In u ts -> reach E m (TUnion op ts) m u) by (intros u J; eapply re_union; [exact J | apply re_refl]).
      destruct (discriminating_properties E ts) as [[|p ps]|e]; [| |eapply SAME; exact Q].
      + eapply STEP; [exact Q | apply MANY; exact RU | auto].
      + destruct (tag_table E (e_order E (p :: ps)) ts) as [tbl|e]; [|eapply NEW; [exact Q | auto]].
        destruct (tags_distinct [] tbl); [|eapply NEW; [exact Q | auto]].
        eapply (STEP _ _ _ (fun is => DTagged (e_order E (p :: ps)) (Some (tbl, combine ts is)))); [exact Q | apply MANY; exact RU | auto].
    - destruct (literal_type ls) as [u|e] eqn:LT; [|eapply NEW; [exact Q | auto]].
      eapply STEP; [exact Q | apply ONE | auto].
      destruct (literal_in ls u LT) as (l & J & ->). eapply re_literal; [exact J | apply re_refl].
    - assert (GO : get_deser E skip n key m u st = (r, st') -> find_name (cache st) (nm K) <> None \/ key = Some (nm K) \/ meets m (TAnnot u md) K).
      { intros X. destruct (IH _ _ _ _ _ _ X K VK H) as [Y|[Y|Y]]; auto. right. right. eapply meets_trans; [apply re_annot, re_refl | exact Y]. }
      destruct u; try (eapply SAME; exact Q); apply GO; exact Q.
    - destruct (get_class E c) as [cl|] eqn:GCL; [|eapply SAME; exact Q].
      destruct (find_name (cache st) (c_module cl, c_name cl)) as [i0|] eqn:FN; [eapply SAME; exact Q|].
      assert (ME : Some (c_module cl, c_name cl) = Some (nm K) -> key = Some (c_module cl, c_name cl) \/ meets m (TClass c) K).
      { intros X. right. injection X as X. assert (K = KeyClass c) as ->.
        { apply nm_inj; [exact VK | cbn [valid]; eauto | cbn [nm]; rewrite GCL; symmetry; exact X]. }
        exists m. apply re_refl. }
      assert (FIELDS : fieldwise cl -> match field_parsers E cl with
          | Err e => (Err e, alloc st (Some (c_module cl, c_name cl)) (DClass c cl skip None))
          | Ok fps =>
              match each (fun fp => get_deser E skip n None (c_module cl) (fp_type fp)) fps
                      (alloc st (Some (c_module cl, c_name cl)) (DClass c cl skip None)) with
              | (Err e, st1) => (Err e, st1)
              | (Ok is, st1) => (Ok (length (heap st)), update st1 (length (heap st)) (DClass c cl skip (Some (combine fps is))))
              end
          end = (r, st') -> find_name (cache st) (nm K) <> None \/ key = Some (nm K) \/ meets m (TClass c) K).
      { intros FW X. destruct (field_parsers E cl) as [fps|e] eqn:FP; [|eapply NEW; [exact X | exact ME]].
        eapply (STEP _ _ (DClass c cl skip None) (fun is => DClass c cl skip (Some (combine fps is)))); [exact X | | exact ME].
        destruct (each _ fps _) as [r1 s1] eqn:G. intros Y.
        destruct (each_enters _ (fun fp => get_deser E skip n None (c_module cl) (fp_type fp)) fp_type (c_module cl) fps
          (fun x a b d _ W => IH None _ _ a b d W) _ r1 s1 G K VK Y) as [Z|(fp & J & Z)]; [auto|].
        right. eapply meets_trans; [exact (field_types E CE c cl fps fp m GCL FW FP J) | exact Z]. }
      unfold fieldwise in FIELDS. destruct (c_kind cl), (c_from_json cl);
        first [eapply NEW; [exact Q | exact ME] | apply FIELDS; [first [exact I | reflexivity] | exact Q]].
    - destruct (lookup E m s) as [[a u]|] eqn:LK; [|eapply SAME; exact Q].
      assert (RD : reach E m (TRef s) m (deref u)) by (eapply re_ref; [exact LK | apply re_refl]).
      assert (VIA : get_deser E skip n None m (deref u) st = (r, st') ->
        find_name (cache st) (nm K) <> None \/ key = Some (nm K) \/ meets m (TRef s) K).
      { intros X. destruct (IH None _ _ _ _ _ X K VK H) as [Y|[Y|Y]]; [auto | discriminate|]. right. right. eapply meets_trans; eassumption. }
      assert (ATTR : special_form (deref u) -> (if a then match find_name (cache st) (m, s) with
                     | Some i => (Ok i, st)
                     | None => get_deser E skip n (Some (m, s)) m (deref u) st end
             else get_deser E skip n None m (deref u) st) = (r, st') ->
        find_name (cache st) (nm K) <> None \/ key = Some (nm K) \/ meets m (TRef s) K).
      { intros SF. destruct a; [|exact VIA]. destruct (find_name (cache st) (m, s)) eqn:FN; [apply SAME|].
        intros X. destruct (IH (Some (m, s)) _ _ _ _ _ X K VK H) as [Y|[Y|Y]]; [auto| |].
        - right. right. injection Y as Y. assert (K = KeyAlias m s) as ->.
          { apply nm_inj; [exact VK | cbn [valid]; eauto | symmetry; exact Y]. }
          apply re_refl.
        - right. right. eapply meets_trans; eassumption. }
      destruct (deref u) eqn:DU; try (eapply SAME; exact Q);
        first [apply ATTR; [exact I | exact Q] | exact (VIA Q)].
  Qed.
End Cache.

(** * What a call leaves unchanged *)
Section Frame.
  Variable E : env.
  Variable skip : bool.

  Definition frame (st st' : store) : Prop :=
    length (heap st) <= length (heap st') /\
    (forall i, i < length (heap st) -> nth_error (heap st') i = nth_error (heap st) i) /\
    (forall k i, find_name (cache st) k = Some i -> find_name (cache st') k = Some i).

  Lemma frame_refl : forall st, frame st st.
  Proof. intros st. split; [lia|]. auto. Qed.

  Lemma frame_trans : forall a b c, frame a b -> frame b c -> frame a c.
  Proof.
    intros a b c (N1 & H1 & C1) (N2 & H2 & C2). split; [lia|]. split; [|auto].
    intros i L. rewrite H2 by lia. apply H1. exact L.
  Qed.

  Lemma frame_alloc : forall st key o, free key st -> frame st (alloc st key o).
  Proof.
    intros st key o F. split; [cbn [alloc heap]; rewrite app_length; lia|]. split.
    - intros i L. cbn [alloc heap]. apply nth_error_app1. exact L.
    - intros k i Q. destruct key as [k'|]; cbn [alloc cache]; [|exact Q]. cbn [find_name free] in *.
      rewrite name_eqb_neq; [exact Q | congruence].
  Qed.

  Lemma frame_update : forall st i o st0, frame st0 st -> length (heap st0) <= i -> frame st0 (update st i o).
  Proof.
    intros st i o st0 (N & H & C) L. split; [cbn [update heap]; rewrite set_nth_length; exact N|]. split; [|exact C].
    intros x X. cbn [update heap]. rewrite set_nth_other by lia. apply H. exact X.
  Qed.

  Lemma each_frame : forall A (f : A -> store -> res nat * store) l,
    (forall x st r st', f x st = (r, st') -> frame st st') ->
    forall st r st', each f l st = (r, st') -> frame st st'.
  Proof.
    intros A f l F. induction l as [|x l IH]; intros st r st' Q; cbn [each] in Q.
    - apply pair_equal_spec in Q. destruct Q as [_ <-]. apply frame_refl.
    - destruct (f x st) as [[i|e] st1] eqn:F1.
      + destruct (each f l st1) as [[is|e] st2] eqn:F2; apply pair_equal_spec in Q; destruct Q as [_ <-];
          (eapply frame_trans; [eapply F; exact F1 | eapply IH; exact F2]).
      + apply pair_equal_spec in Q. destruct Q as [_ <-]. eapply F. exact F1.
  Qed.

  Lemma get_frame : forall n key m t st r st', free key st -> get_deser E skip n key m t st = (r, st') -> frame st st'.
  Proof.
    induction n as [|n IH]; intros key m t st r st' FR Q; cbn [get_deser] in Q.
    { apply pair_equal_spec in Q. destruct Q as [_ <-]. apply frame_refl. }
    assert (STEP : forall A (x : res A * store) o mk key', free key' st -> frame (alloc st key' o) (snd x) ->
      match x with
      | (Err e, st1) => (Err e, st1)
      | (Ok i1, st1) => (Ok (length (heap st)), update st1 (length (heap st)) (mk i1))
      end = (r, st') -> frame st st').
    { intros A [[a|e] s] o mk key' FR' F X; cbn [snd] in F; apply pair_equal_spec in X; destruct X as [_ <-].
      - apply frame_update; [|lia]. eapply frame_trans; [apply frame_alloc; exact FR' | exact F].
      - eapply frame_trans; [apply frame_alloc; exact FR' | exact F]. }
    assert (ONE : forall u s, frame s (snd (get_deser E skip n None m u s))).
    { intros u s. destruct (get_deser E skip n None m u s) as [r1 s1] eqn:G. exact (IH None m u s r1 s1 I G). }
    assert (MANY : forall ts s, frame s (snd (each (get_deser E skip n None m) ts s))).
    { intros ts s. destruct (each _ ts s) as [r1 s1] eqn:G. eapply each_frame; [|exact G].
      intros x a b c X. exact (IH None m x a b c I X). }
    assert (SAME : forall r0, (r0, st) = (r, st') -> frame st st').
    { intros r0 X. apply pair_equal_spec in X. destruct X as [_ <-]. apply frame_refl. }
    assert (NEW : forall r0 o key', free key' st -> (r0, alloc st key' o) = (r, st') -> frame st st').
    { intros r0 o key' FR' X. apply pair_equal_spec in X. destruct X as [_ <-]. apply frame_alloc. exact FR'. }
    destruct t as [k|b|u|u|k u|ts|op ts|ls|u md|c|s|]; try (eapply SAME; exact Q).
    - exact (NEW _ _ None I Q).
    - eapply STEP; [exact FR | apply ONE | exact Q].
    - eapply STEP; [exact FR | apply ONE | exact Q].
    - destruct (check_key_type E k); [|eapply SAME; exact Q]. eapply STEP; [exact FR | apply ONE | exact Q].
    - eapply STEP; [exact FR | apply MANY | exact Q].
    - destruct (discriminating_properties E ts) as [[|p ps]|e]; [| |eapply SAME; exact Q].
      + eapply STEP; [exact FR | apply MANY | exact Q].
      + destruct (tag_table E (e_order E (p :: ps)) ts) as [tbl|e]; [|eapply NEW; [exact FR | exact Q]].
        destruct (tags_distinct [] tbl); [|eapply NEW; [exact FR | exact Q]].
        eapply (STEP _ _ _ (fun is => DTagged (e_order E (p :: ps)) (Some (tbl, combine ts is)))); [exact FR | apply MANY | exact Q].
    - destruct (literal_type ls); [|eapply NEW; [exact FR | exact Q]]. eapply STEP; [exact FR | apply ONE | exact Q].
    - destruct u; try (eapply SAME; exact Q); (eapply IH; [exact FR | exact Q]).
    - destruct (get_class E c) as [cl|] eqn:GC; [|eapply SAME; exact Q].
      destruct (find_name (cache st) (c_module cl, c_name cl)) as [i0|] eqn:FN; [eapply SAME; exact Q|].
      assert (FR' : free (Some (c_module cl, c_name cl)) st) by exact FN.
      assert (FIELDS : match field_parsers E cl with
          | Err e => (Err e, alloc st (Some (c_module cl, c_name cl)) (DClass c cl skip None))
          | Ok fps =>
              match each (fun fp => get_deser E skip n None (c_module cl) (fp_type fp)) fps
                      (alloc st (Some (c_module cl, c_name cl)) (DClass c cl skip None)) with
              | (Err e, st1) => (Err e, st1)
              | (Ok is, st1) => (Ok (length (heap st)), update st1 (length (heap st)) (DClass c cl skip (Some (combine fps is))))
              end
          end = (r, st') -> frame st st').
      { destruct (field_parsers E cl) as [fps|e]; [|eapply NEW; exact FR'].
        apply (STEP _ _ (DClass c cl skip None) (fun is => DClass c cl skip (Some (combine fps is))) _ FR').
        destruct (each _ fps _) as [r1 s1] eqn:G. eapply each_frame; [|exact G]. intros x a b d X. exact (IH None _ _ a b d I X). }
      destruct (c_kind cl), (c_from_json cl);
        first [eapply NEW; [exact FR' | exact Q] | apply FIELDS; exact Q].
    - destruct (lookup E m s) as [[a u]|] eqn:LK; [|eapply SAME; exact Q].
      assert (ATTR : (if a then match find_name (cache st) (m, s) with
                     | Some i => (Ok i, st)
                     | None => get_deser E skip n (Some (m, s)) m (deref u) st end
             else get_deser E skip n None m (deref u) st) = (r, st') -> frame st st').
      { destruct a; [|intros X; exact (IH None _ _ _ _ _ I X)]. destruct (find_name (cache st) (m, s)) eqn:FN; [apply SAME|].
        intros X. exact (IH (Some (m, s)) _ _ _ _ _ FN X). }
      destruct (deref u) eqn:DU; try (eapply SAME; exact Q);
        first [apply ATTR; exact Q | exact (IH None _ _ _ _ _ I Q)].
  Qed.

  (** A class is entered in the cache before its fields are looked at; when that
      fails, the entry stays. *)
  Lemma failed_class : forall n m c cl st e st1, get_class E c = Some cl ->
    get_deser E skip (S n) None m (TClass c) st = (Err e, st1) ->
    exists i, find_name (cache st1) (c_module cl, c_name cl) = Some i /\ nth_error (heap st1) i = Some (DClass c cl skip None).
  Proof.
    intros n m c cl st e st1 GC Q. cbn [get_deser] in Q. rewrite GC in Q.
    destruct (find_name (cache st) (c_module cl, c_name cl)) as [i0|] eqn:FN; [discriminate|].
    set (st0 := alloc st (Some (c_module cl, c_name cl)) (DClass c cl skip None)) in *.
    assert (K : find_name (cache st0) (c_module cl, c_name cl) = Some (length (heap st)) /\
                nth_error (heap st0) (length (heap st)) = Some (DClass c cl skip None) /\ length (heap st) < length (heap st0)).
    { unfold st0. cbn [alloc cache heap find_name]. rewrite name_eqb_refl, nth_error_app2, Nat.sub_diag, app_length by lia.
      cbn [length]. repeat split. lia. }
    assert (FIELDS : match field_parsers E cl with
          | Err e => (Err e, st0)
          | Ok fps =>
              match each (fun fp => get_deser E skip n None (c_module cl) (fp_type fp)) fps st0 with
              | (Err e, st1) => (Err e, st1)
              | (Ok is, st1) => (Ok (length (heap st)), update st1 (length (heap st)) (DClass c cl skip (Some (combine fps is))))
              end
          end = (Err e, st1) -> frame st0 st1).
    { destruct (field_parsers E cl) as [fps|e'].
      - destruct (each _ fps st0) as [[is|e'] s1] eqn:G; [discriminate|]. intros X. apply pair_equal_spec in X. destruct X as [_ <-].
        eapply each_frame; [|exact G]. intros x a b d X. exact (get_frame _ None _ _ a b d I X).
      - intros X. apply pair_equal_spec in X. destruct X as [_ <-]. apply frame_refl. }
    assert (F : frame st0 st1) by (destruct (c_kind cl), (c_from_json cl); first [discriminate | apply FIELDS; exact Q]).
    destruct F as (N & H & C), K as (K1 & K2 & K3). exists (length (heap st)). split; [apply C; exact K1|].
    rewrite H by exact K3. exact K2.
  Qed.
End Frame.

Lemma build_fuel_pos : forall E t, exists n, build_fuel E t = S n.
Proof. intros E t. unfold build_fuel, level_bound. cbn [Nat.mul]. rewrite Nat.add_succ_l. eauto. Qed.

Lemma parse_fuel_pos : forall E t j, exists n, parse_fuel E t j = S n.
Proof. intros E t j. unfold parse_fuel, level_bound. cbn [Nat.mul]. rewrite Nat.add_succ_l. eauto. Qed.

Lemma class_poisoned : forall E skip skip' m m' c cl st e st1 j, get_class E c = Some cl ->
  create_in E skip m (TClass c) st = (Err e, st1) ->
  json_to_object_in E skip' m' (TClass c) j st1 = (match j with JObj _ => Err EAttribute | _ => Err EJsonType end, st1).
Proof.
  intros E skip skip' m m' c cl st e st1 j GC Q. unfold create_in in Q.
  destruct (build_fuel_pos E (TClass c)) as (n & B). rewrite B in Q.
  destruct (failed_class E skip n m c cl st e st1 GC Q) as (i & F & NE).
  unfold json_to_object_in, create_in. rewrite B. cbn [get_deser]. rewrite GC, F.
  destruct (parse_fuel_pos E (TClass c) j) as (k & ->). cbn [run]. rewrite NE. reflexivity.
Qed.

Section Transparent.
  Variable E : env.
  Hypothesis NU : names_unique E.
  Hypothesis CE : canonical_env E.
  Hypothesis GE : guarded_env E.
  Hypothesis CALM : calm E.
  Variable skip : bool.

  Section Past.
    Variables (m : nat) (t : typ).
    Definition G (m' : nat) (u : typ) : Prop := reach E m t m' u.

    Lemma G_closed : forall m1 t1 m2 u, G m1 t1 -> reach E m1 t1 m2 u -> G m2 u.
    Proof. intros m1 t1 m2 u. apply reach_trans. Qed.

    Lemma past_inv : forall st, past E skip m t st -> exists L, Inv E skip G st L (fun _ => False).
    Proof.
      intros st H.
      assert (KEPT : forall s s' L, Inv E skip G s L (fun _ => False) -> frame s s' ->
        (forall K, valid E K -> GK G K -> find_name (cache s') (nm E K) <> None -> find_name (cache s) (nm E K) <> None) ->
        Inv E skip G s' L (fun _ => False)).
      { intros s s' L [B OB C A C' A'] (N & HP & FK) NEW. split.
        - intros i m' t' X. apply B in X. lia.
        - intros i m' t' X Y. rewrite HP by (eapply B; exact X). eauto.
        - intros c cl i GG GCL F. assert (X : find_name (cache s) (nm E (KeyClass c)) <> None).
          { apply NEW; [cbn [valid]; eauto | exact GG | cbn [nm]; rewrite GCL, F; discriminate]. }
          cbn [nm] in X. rewrite GCL in X. destruct (find_name (cache s) (c_module cl, c_name cl)) as [i0|] eqn:F0; [|contradiction].
          apply (C c cl i GG GCL). rewrite F0. rewrite (FK _ _ F0) in F. exact F.
        - intros m' s0 u i GG LK SF F. assert (X : find_name (cache s) (nm E (KeyAlias m' s0)) <> None).
          { apply NEW; [cbn [valid]; eauto | exact GG | cbn [nm]; rewrite F; discriminate]. }
          cbn [nm] in X. destruct (find_name (cache s) (m', s0)) as [i0|] eqn:F0; [|contradiction].
          apply (A m' s0 u i GG LK SF). rewrite F0. rewrite (FK _ _ F0) in F. exact F.
        - eauto.
        - eauto. }
      induction H as [|st m' t' i st' H (L & IV) Q|st sk m' t' e st' H (L & IV) Q SC|st sk m' t' r st' H (L & IV) Q NR].
      - exists (fun _ _ _ => False). split; cbn; try contradiction; discriminate.
      - destruct (get_fetched E NU CE skip G G_closed _ None m' t' I st L _ i st' IV I Q) as (L' & _ & IV' & _). eauto.
      - exists L. eapply KEPT; [exact IV | exact (get_frame E sk _ None m' t' st _ st' I Q)|].
        intros K _ _. rewrite SC. auto.
      - exists L. eapply KEPT; [exact IV | exact (get_frame E sk _ None m' t' st _ st' I Q)|].
        intros K VK GG X. destruct (get_enters E NU CE sk _ None m' t' st _ st' Q K VK X) as [Y|[Y|Y]]; [exact Y | discriminate|].
        exfalso. apply NR. destruct K as [c|a s]; cbn [GK meets] in *.
        + left. destruct GG as (b & GG), Y as (b' & Y). exists c, b, b'. auto.
        + right. exists s, a. auto.
    Qed.

    (** A deserializer is created exactly when it is in a fresh interpreter. *)
    Lemma create_agrees : forall st L, Inv E skip G st L (fun _ => False) ->
      agrees E G (VL L) (create_deserializer E m t) (create_in E skip m t st).
    Proof.
      intros st L IV. unfold create_deserializer, create_in.
      apply (get_agrees E NU CE skip G G_closed (VL L) (labels_closed E skip G GE st L IV));
        [exact I | apply re_refl|].
      intros K VK GG. split.
      - intros [X|[]]. left. destruct K as [c|a s]; cbn [VL nm] in *.
        + destruct VK as (cl & GCL). destruct X as (i & a & X). rewrite GCL, (inv_class' _ _ _ _ _ _ IV c cl i a X GCL). discriminate.
        + destruct X as (i & X). rewrite (inv_alias' _ _ _ _ _ _ IV a s i X). discriminate.
      - intros [X|X]; [|discriminate]. left. destruct K as [c|a s]; cbn [VL nm] in *.
        + destruct VK as (cl & GCL). rewrite GCL in X. destruct (find_name _ _) as [i|] eqn:F in X; [|contradiction].
          exists i, 0. exact (inv_class _ _ _ _ _ _ IV c cl i GG GCL F).
        + destruct VK as (u & LK & SF). destruct (find_name _ _) as [i|] eqn:F in X; [|contradiction].
          exists i. exact (inv_alias _ _ _ _ _ _ IV a s u i GG LK SF F).
    Qed.
  End Past.

  Theorem transparent : forall m t j st, past E skip m t st -> every_part (guarded E m) t ->
    fst (json_to_object_in E skip m t j st) = json_to_object E skip m t j.
  Proof.
    intros m t j st H P. destruct (past_inv m t st H) as (L & IV).
    pose proof (create_agrees m t st L IV) as A. unfold json_to_object_in, json_to_object.
    destruct (create_in E skip m t st) as [[i|e] st'] eqn:Q; destruct (create_deserializer E m t) as [v|e'] eqn:B;
      cbn [agrees fst snd bind] in *.
    - destruct (get_fetched E NU CE skip (G m t) (G_closed m t) _ None m t I st L _ i st' IV I Q) as (L' & _ & IV' & M).
      pose proof (run_impl E CE skip (G m t) (G_closed m t) st' L' IV' (parse_fuel E t j) _ m t i j (le_n _) (M (re_refl _ _ _))) as [X|X]; [|symmetry; exact X].
      exfalso. exact (parse_ends E GE CALM skip m t j _ P (le_n _) X).
    - exfalso. pose proof (create_deserializer_ends E GE m t) as NR. rewrite B in NR. destruct e'; try discriminate A; congruence.
    - destruct A as [(i & X) _]. discriminate.
    - pose proof (create_deserializer_ends E GE m t) as NR. rewrite B in NR. destruct e'; try (exact A); congruence.
  Qed.

  Theorem first_wins : forall skip' m c cl j st, past E skip m (TClass c) st -> get_class E c = Some cl -> cached st cl ->
    json_to_object_in E skip' m (TClass c) j st = (json_to_object E skip m (TClass c) j, st).
  Proof.
    intros skip' m c cl j st H GCL (i & F). assert (P : every_part (guarded E m) (TClass c)) by (repeat constructor).
    rewrite <- (transparent m (TClass c) j st H P).
    unfold json_to_object_in, create_in. destruct (build_fuel_pos E (TClass c)) as (n & ->). cbn [get_deser]. rewrite GCL, F. reflexivity.
  Qed.

  Lemma calls_past : forall m t calls st, past E skip m t st ->
    (forall skip' m' t' j', In (skip', m', t', j') calls -> ~ related E m t m' t') -> past E skip m t (after E calls st).
  Proof.
    intros m t. induction calls as [|[[[sk m'] t'] j'] calls IH]; intros st H NR; [exact H|].
    unfold after. cbn [fold_left]. apply IH; [|intros a b c d J; exact (NR a b c d (or_intror J))].
    unfold json_to_object_in. destruct (create_in E sk m' t' st) as [r st'] eqn:Q.
    assert (X : past E skip m t st') by (eapply pa_unrelated; [exact H | exact Q | exact (NR sk m' t' j' (or_introl eq_refl))]).
    destruct r; exact X.
  Qed.

  Theorem unrelated_calls : forall m t j calls, every_part (guarded E m) t ->
    (forall skip' m' t' j', In (skip', m', t', j') calls -> ~ related E m t m' t') ->
    fst (json_to_object_in E skip m t j (after E calls empty)) = json_to_object E skip m t j.
  Proof. intros m t j calls P NR. apply transparent; [apply calls_past; [apply pa_start | exact NR] | exact P]. Qed.
End Transparent.
