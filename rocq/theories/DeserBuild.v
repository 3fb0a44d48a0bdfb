(** What a successful construction of a deserializer guarantees: everything
    reachable from the type is well-formed.  In particular the parts of a type
    can be constructed on their own. *)
From Coq Require Import String List NArith ZArith Bool Lia.
From Verif Require Import Base Json PyTypes Mapping Deser Lists TypingFacts SpecRecursion DeserFuel.
Import ListNotations.
Open Scope list_scope.
Open Scope nat_scope.

Section Build.
  Variable E : env.

  Inductive static_ok (S : ckey -> Prop) (m : nat) : typ -> Prop :=
  | so_scalar : forall k, static_ok S m (TScalar k)
  | so_list : forall t, static_ok S m t -> static_ok S m (TList t)
  | so_set : forall t, static_ok S m t -> static_ok S m (TSet t)
  | so_dict : forall k t, check_key_type E k = Ok tt -> static_ok S m t -> static_ok S m (TDict k t)
  | so_tuple : forall ts, Forall (static_ok S m) ts -> static_ok S m (TTuple ts)
  | so_union : forall op ts ps, discriminating_properties E ts = Ok ps ->
      (ps = [] \/ exists tbl, tag_table E (e_order E ps) ts = Ok tbl /\ tags_distinct [] tbl = true) ->
      Forall (static_ok S m) ts -> static_ok S m (TUnion op ts)
  | so_literal : forall ls u, literal_type ls = Ok u -> static_ok S m u -> static_ok S m (TLiteral ls)
  | so_annot : forall t md, ~ is_ref t -> static_ok S m t -> static_ok S m (TAnnot t md)
  | so_class : forall c cl, get_class E c = Some cl -> S (KeyClass c) -> static_ok S m (TClass c)
  | so_ref_simple : forall s a u, lookup E m s = Some (a, u) ->
      (match deref u with TScalar _ | TClass _ => True | _ => False end) ->
      static_ok S m (deref u) -> static_ok S m (TRef s)
  | so_ref_attr : forall s u, lookup E m s = Some (true, u) ->
      (match deref u with TScalar _ | TBare _ | TClass _ | TRef _ => False | _ => True end) ->
      S (KeyAlias m s) -> static_ok S m (TRef s)
  | so_ref_text : forall s u, lookup E m s = Some (false, u) -> ~ is_ref (deref u) ->
      static_ok S m (deref u) -> static_ok S m (TRef s).

  Section StaticInd.
    Variables (S : ckey -> Prop) (m : nat) (P : typ -> Prop).
    Hypothesis Hscalar : forall k, P (TScalar k).
    Hypothesis Hlist : forall t, static_ok S m t -> P t -> P (TList t).
    Hypothesis Hset : forall t, static_ok S m t -> P t -> P (TSet t).
    Hypothesis Hdict : forall k t, check_key_type E k = Ok tt -> static_ok S m t -> P t -> P (TDict k t).
    Hypothesis Htuple : forall ts, Forall (static_ok S m) ts -> Forall P ts -> P (TTuple ts).
    Hypothesis Hunion : forall op ts ps, discriminating_properties E ts = Ok ps ->
      (ps = [] \/ exists tbl, tag_table E (e_order E ps) ts = Ok tbl /\ tags_distinct [] tbl = true) ->
      Forall (static_ok S m) ts -> Forall P ts -> P (TUnion op ts).
    Hypothesis Hlit : forall ls u, literal_type ls = Ok u -> static_ok S m u -> P u -> P (TLiteral ls).
    Hypothesis Hannot : forall t md, ~ is_ref t -> static_ok S m t -> P t -> P (TAnnot t md).
    Hypothesis Hclass : forall c cl, get_class E c = Some cl -> S (KeyClass c) -> P (TClass c).
    Hypothesis Hsimple : forall s a u, lookup E m s = Some (a, u) ->
      (match deref u with TScalar _ | TClass _ => True | _ => False end) ->
      static_ok S m (deref u) -> P (deref u) -> P (TRef s).
    Hypothesis Hattr : forall s u, lookup E m s = Some (true, u) ->
      (match deref u with TScalar _ | TBare _ | TClass _ | TRef _ => False | _ => True end) ->
      S (KeyAlias m s) -> P (TRef s).
    Hypothesis Htext : forall s u, lookup E m s = Some (false, u) -> ~ is_ref (deref u) ->
      static_ok S m (deref u) -> P (deref u) -> P (TRef s).

    Fixpoint static_induct t (H : static_ok S m t) {struct H} : P t :=
      let go := fix go l (F : Forall (static_ok S m) l) : Forall P l :=
        match F with
        | Forall_nil _ => Forall_nil _
        | Forall_cons _ a b => Forall_cons _ (static_induct _ a) (go _ b)
        end in
      match H with
      | so_scalar _ _ k => Hscalar k
      | so_list _ _ t a => Hlist t a (static_induct _ a)
      | so_set _ _ t a => Hset t a (static_induct _ a)
      | so_dict _ _ k t c a => Hdict k t c a (static_induct _ a)
      | so_tuple _ _ ts a => Htuple ts a (go ts a)
      | so_union _ _ op ts ps d x a => Hunion op ts ps d x a (go ts a)
      | so_literal _ _ ls u l a => Hlit ls u l a (static_induct _ a)
      | so_annot _ _ t md r a => Hannot t md r a (static_induct _ a)
      | so_class _ _ c cl g i => Hclass c cl g i
      | so_ref_simple _ _ s a u l d x => Hsimple s a u l d x (static_induct _ x)
      | so_ref_attr _ _ s u l d i => Hattr s u l d i
      | so_ref_text _ _ s u l d x => Htext s u l d x (static_induct _ x)
      end.
  End StaticInd.

  (** The fields of a class, the target of an alias. *)
  Definition key_ok (S : ckey -> Prop) (k : ckey) : Prop :=
    match k with
    | KeyClass c =>
        exists cl, get_class E c = Some cl /\
        match c_kind cl, c_from_json cl with
        | CEnum _, _ | CData _ _, Some _ | CPlain _, Some _ => True
        | _, _ => exists fps, field_parsers E cl = Ok fps /\
                  Forall (fun fp => static_ok S (c_module cl) (fp_type fp)) fps
        end
    | KeyAlias m s =>
        exists u, lookup E m s = Some (true, u) /\ static_ok S m (deref u) /\
        (match deref u with TScalar _ | TBare _ | TClass _ | TRef _ => False | _ => True end)
    end.

  Definition closed (S : ckey -> Prop) : Prop := forall k, S k -> key_ok S k.

  Lemma static_mono : forall (S S' : ckey -> Prop) m t, (forall k, S k -> S' k) -> static_ok S m t -> static_ok S' m t.
  Proof.
    intros S S' m t I H. induction H using static_induct; try (econstructor; eauto; fail).
  Qed.

  Lemma key_mono : forall (S S' : ckey -> Prop) k, (forall k, S k -> S' k) -> key_ok S k -> key_ok S' k.
  Proof.
    intros S S' [c|m s] I H; cbn [key_ok] in *.
    - destruct H as (cl & G & H). exists cl. split; [exact G|].
      assert (X : (exists fps, field_parsers E cl = Ok fps /\ Forall (fun fp => static_ok S (c_module cl) (fp_type fp)) fps) ->
                  exists fps, field_parsers E cl = Ok fps /\ Forall (fun fp => static_ok S' (c_module cl) (fp_type fp)) fps).
      { intros (fps & F & A). exists fps. split; [exact F|]. eapply Forall_impl; [|exact A].
        intros fp. apply static_mono. exact I. }
      destruct (c_kind cl), (c_from_json cl); auto.
    - destruct H as (u & L & H & D). exists u. repeat split; [exact L | eapply static_mono; eassumption | exact D].
  Qed.

  (** What one run of [build] adds. *)
  Definition built (vis vis' : list ckey) : Prop :=
    incl vis vis' /\ forall k, In k vis' -> In k vis \/ key_ok (fun k => In k vis') k.

  Lemma built_refl : forall vis, built vis vis.
  Proof. intros vis. split; [apply incl_refl | auto]. Qed.

  Lemma built_trans : forall a b c, built a b -> built b c -> built a c.
  Proof.
    intros a b c [I1 H1] [I2 H2]. split; [eapply incl_tran; eassumption|].
    intros k K. destruct (H2 k K) as [K'|K']; [|right; exact K'].
    destruct (H1 k K') as [K''|K'']; [left; exact K''|]. right. eapply key_mono; [|exact K'']. exact I2.
  Qed.

  Lemma fold_build_built : forall A (f : A -> list ckey -> res (list ckey)) (P : list ckey -> A -> Prop) l,
    (forall x v v', In x l -> f x v = Ok v' -> built v v' /\ P v' x) ->
    (forall x v v', incl v v' -> P v x -> P v' x) ->
    forall vis vis', fold_build f l vis = Ok vis' -> built vis vis' /\ Forall (P vis') l.
  Proof.
    intros A f P. induction l as [|x l IH]; intros F M vis vis' Q; cbn [fold_build] in Q.
    - injection Q as <-. split; [apply built_refl | constructor].
    - destruct (f x vis) as [v|e] eqn:X; [|discriminate].
      destruct (F x vis v (or_introl eq_refl) X) as [B1 P1].
      destruct (IH (fun y a b I => F y a b (or_intror I)) M v vis' Q) as [B2 P2].
      split; [eapply built_trans; eassumption|]. constructor; [|exact P2].
      eapply M; [exact (proj1 B2) | exact P1].
  Qed.

  (** A class was entered and its parts were built. *)
  Lemma built_enter : forall k vis vis', built (k :: vis) vis' -> key_ok (fun k => In k vis') k -> built vis vis'.
  Proof.
    intros k vis vis' [I H] K. split.
    - intros x X. apply I. right. exact X.
    - intros x X. destruct (H x X) as [[<-|Y]|Y]; auto.
  Qed.

  Lemma build_static : forall n m t vis vis', build E n m t vis = Ok vis' ->
    built vis vis' /\ static_ok (fun k => In k vis') m t.
  Proof.
    induction n as [|n IH]; intros m t vis vis' Q; cbn [build] in Q; [discriminate|].
    assert (MONO : forall mm x v v', incl v v' -> static_ok (fun k => In k v) mm x -> static_ok (fun k => In k v') mm x).
    { intros mm x v v' I. apply static_mono. exact I. }
    assert (FB : forall ts v v', fold_build (build E n m) ts v = Ok v' ->
      built v v' /\ Forall (static_ok (fun k => In k v') m) ts).
    { intros ts v v' F. apply (fold_build_built _ (build E n m) (fun v x => static_ok (fun k => In k v) m x) ts);
        [intros x a b _; apply IH | intros x a b; apply MONO | exact F]. }
    destruct t; try discriminate.
    - injection Q as <-. split; [apply built_refl | constructor].
    - apply IH in Q. destruct Q as [B P]. split; [exact B | constructor; exact P].
    - apply IH in Q. destruct Q as [B P]. split; [exact B | constructor; exact P].
    - apply bind_ok in Q. destruct Q as ([] & C & Q). apply IH in Q. destruct Q as [B P].
      split; [exact B | constructor; assumption].
    - apply FB in Q. destruct Q as [B P]. split; [exact B | constructor; exact P].
    - apply bind_ok in Q. destruct Q as (ps & D & Q). destruct ps as [|p ps].
      + apply FB in Q. destruct Q as [B P]. split; [exact B|]. eapply so_union; [exact D | left; reflexivity | exact P].
      + apply bind_ok in Q. destruct Q as (tbl & T & Q). destruct (tags_distinct [] tbl) eqn:TD; [|discriminate].
        apply FB in Q. destruct Q as [B P]. split; [exact B|]. eapply so_union; [exact D | right; eauto | exact P].
    - apply bind_ok in Q. destruct Q as (u & L & Q). apply IH in Q. destruct Q as [B P].
      split; [exact B | econstructor; eassumption].
    - assert (R : ~ is_ref t /\ build E n m t vis = Ok vis') by (destruct t; try discriminate; cbn; auto).
      destruct R as [R Q']. apply IH in Q'. destruct Q' as [B P]. split; [exact B | constructor; assumption].
    - destruct (get_class E c) as [cl|] eqn:G; [|discriminate].
      destruct (existsb _ vis) eqn:SE.
      { injection Q as <-. split; [apply built_refl|]. econstructor; [exact G|]. apply seen_in. exact SE. }
      assert (C : (do fps <- field_parsers E cl;
          fold_build (fun fp => build E n (c_module cl) (fp_type fp)) fps (KeyClass c :: vis)) = Ok vis' ->
        (forall fps, field_parsers E cl = Ok fps /\ Forall (fun fp => static_ok (fun k => In k vis') (c_module cl) (fp_type fp)) fps ->
          key_ok (fun k => In k vis') (KeyClass c)) ->
        built vis vis' /\ static_ok (fun k => In k vis') m (TClass c)).
      { intros F KO. apply bind_ok in F. destruct F as (fps & FP & F).
        apply (fold_build_built _ _ (fun v fp => static_ok (fun k => In k v) (c_module cl) (fp_type fp))) in F;
          [|intros x a b _; apply IH | intros x a b; apply MONO].
        destruct F as [B P]. split.
        - eapply built_enter; [exact B|]. apply (KO fps). auto.
        - econstructor; [exact G|]. apply (proj1 B). left. reflexivity. }
      assert (D : key_ok (fun k => In k (KeyClass c :: vis)) (KeyClass c) -> Ok (KeyClass c :: vis) = Ok vis' ->
        built vis vis' /\ static_ok (fun k => In k vis') m (TClass c)).
      { intros KO F. injection F as <-. split.
        - eapply built_enter; [apply built_refl | exact KO].
        - econstructor; [exact G | left; reflexivity]. }
      assert (KC : forall fps, match c_kind cl, c_from_json cl with
          | CEnum _, _ | CData _ _, Some _ | CPlain _, Some _ => False | _, _ => True end ->
          field_parsers E cl = Ok fps /\ Forall (fun fp => static_ok (fun k => In k vis') (c_module cl) (fp_type fp)) fps ->
          key_ok (fun k => In k vis') (KeyClass c)).
      { intros fps NK [F1 F2]. cbn [key_ok]. exists cl. split; [exact G|].
        destruct (c_kind cl), (c_from_json cl); try contradiction; eauto. }
      assert (KD : match c_kind cl, c_from_json cl with
          | CEnum _, _ | CData _ _, Some _ | CPlain _, Some _ => True | _, _ => False end ->
          key_ok (fun k => In k (KeyClass c :: vis)) (KeyClass c)).
      { intros NK. cbn [key_ok]. exists cl. split; [exact G|].
        destruct (c_kind cl), (c_from_json cl); try contradiction; exact I. }
      destruct (c_kind cl) eqn:KND, (c_from_json cl) eqn:HK;
        try (apply D; [apply KD; exact I | exact Q]);
        apply C; try exact Q; intros fps X; apply (KC fps); auto.
    - destruct (lookup E m s) as [[a u]|] eqn:L; [|discriminate].
      destruct a.
      + assert (AT : (match deref u with TScalar _ | TBare _ | TClass _ | TRef _ => False | _ => True end) ->
          (if existsb (ckey_eqb (KeyAlias m s)) vis then Ok vis
           else build E n m (deref u) (KeyAlias m s :: vis)) = Ok vis' ->
          built vis vis' /\ static_ok (fun k => In k vis') m (TRef s)).
        { intros D F. destruct (existsb _ vis) eqn:SE.
          - injection F as <-. split; [apply built_refl|]. eapply so_ref_attr; [exact L | exact D|]. apply seen_in. exact SE.
          - apply IH in F. destruct F as [B P]. split.
            + eapply built_enter; [exact B|]. cbn [key_ok]. exists u. auto.
            + eapply so_ref_attr; [exact L | exact D|]. apply (proj1 B). left. reflexivity. }
        destruct (deref u) eqn:DU; try discriminate; try (apply AT; [exact I | exact Q]);
          apply IH in Q; destruct Q as [B P]; (split; [exact B|]);
          try (inversion P; fail);
          (eapply so_ref_simple; [exact L | rewrite DU; exact I | rewrite DU; exact P]).
      + destruct (deref u) eqn:DU; try discriminate;
          apply IH in Q; destruct Q as [B P]; (split; [exact B|]);
          (eapply so_ref_text; [exact L | rewrite DU; intros [] | rewrite DU; exact P]).
  Qed.

  (** Everything reachable from a type that was built is in order. *)
  Theorem create_closed : forall m t vis, create_deserializer E m t = Ok vis ->
    closed (fun k => In k vis) /\ static_ok (fun k => In k vis) m t.
  Proof.
    intros m t vis H. apply build_static in H. destruct H as [[_ B] P]. split; [|exact P].
    intros k K. destruct (B k K) as [[]|Q]. exact Q.
  Qed.

  (** Conversely, what is in order can be built, given enough budget. *)
  Lemma fold_build_ok : forall A (f : A -> list ckey -> res (list ckey)) l vis,
    (forall x v, In x l -> (exists v', f x v = Ok v') \/ f x v = Err ERecursion) ->
    (exists v', fold_build f l vis = Ok v') \/ fold_build f l vis = Err ERecursion.
  Proof.
    intros A f. induction l as [|x l IH]; intros vis F; cbn [fold_build]; [left; eauto|].
    destruct (F x vis (or_introl eq_refl)) as [[v ->]| ->]; [|right; reflexivity].
    apply IH. intros y w I. apply F. right. exact I.
  Qed.

  Lemma static_build : forall S, closed S -> forall n m t vis, static_ok S m t ->
    (exists vis', build E n m t vis = Ok vis') \/ build E n m t vis = Err ERecursion.
  Proof.
    intros S CL. induction n as [|n IH]; intros m t vis H; [right; reflexivity|].
    assert (FB : forall ts v, Forall (static_ok S m) ts ->
      (exists v', fold_build (build E n m) ts v = Ok v') \/ fold_build (build E n m) ts v = Err ERecursion).
    { intros ts v F. apply fold_build_ok. intros x w I. apply IH. rewrite Forall_forall in F. apply F. exact I. }
    destruct H as [k|t H|t H|k t C H|ts H|op ts ps D T H|ls u L H|t md R H|c cl G K|s a u L D H|s u L D K|s u L R H]; cbn [build].
    - left. eauto.
    - apply IH. exact H.
    - apply IH. exact H.
    - rewrite C. cbn [bind]. apply IH. exact H.
    - apply FB. exact H.
    - rewrite D. cbn [bind]. destruct T as [->|(tbl & T & TD)]; [apply FB; exact H|].
      destruct ps; [apply FB; exact H|]. rewrite T. cbn [bind]. rewrite TD. apply FB. exact H.
    - rewrite L. cbn [bind]. apply IH. exact H.
    - destruct t; try (apply IH; exact H). exfalso. apply R. exact I.
    - rewrite G. destruct (existsb _ vis); [left; eauto|].
      apply CL in K. cbn [key_ok] in K. destruct K as (cl' & G' & K). rewrite G in G'. injection G' as <-.
      assert (X : (exists fps, field_parsers E cl = Ok fps /\ Forall (fun fp => static_ok S (c_module cl) (fp_type fp)) fps) ->
        (exists v', (do fps <- field_parsers E cl; fold_build (fun fp => build E n (c_module cl) (fp_type fp)) fps (KeyClass c :: vis)) = Ok v') \/
        (do fps <- field_parsers E cl; fold_build (fun fp => build E n (c_module cl) (fp_type fp)) fps (KeyClass c :: vis)) = Err ERecursion).
      { intros (fps & F & A). rewrite F. cbn [bind]. apply fold_build_ok. intros fp w I. apply IH.
        rewrite Forall_forall in A. apply (A _ I). }
      destruct (c_kind cl), (c_from_json cl); try (left; eauto; fail); apply X; exact K.
    - rewrite L. destruct (deref u) eqn:DU; try contradiction; apply IH; exact H.
    - rewrite L. apply CL in K. cbn [key_ok] in K. destruct K as (u' & L' & K & _). rewrite L in L'. injection L' as <-.
      destruct (deref u) eqn:DU; try contradiction; (destruct (existsb _ vis); [left; eauto | apply IH; exact K]).
    - rewrite L. destruct (deref u) eqn:DU; try (apply IH; exact H). exfalso. apply R. exact I.
  Qed.
End Build.

(** Outcomes of json_to_object on the parts of a type that was built. *)
Section Parts.
  Variable E : env.
  Hypothesis GE : guarded_env E.
  Hypothesis CALM : calm E.

  Lemma create_part : forall vis m t, closed E (fun k => In k vis) ->
    static_ok E (fun k => In k vis) m t -> exists vis', create_deserializer E m t = Ok vis'.
  Proof.
    intros vis m t CL H. destruct (static_build E _ CL (build_fuel E t) m t [] H) as [X|X]; [exact X|].
    exfalso. exact (create_deserializer_ends E GE m t X).
  Qed.

  Lemma jto_outcome : forall skip m t j o vis, every_part (guarded E m) t ->
    create_deserializer E m t = Ok vis -> o <> Err ERecursion ->
    (json_to_object E skip m t j = o <-> exists n, parse E skip n m t j = o).
  Proof.
    intros skip m t j o vis P C NR. unfold json_to_object. rewrite C. cbn [bind]. split; [eauto|].
    intros (n & H). pose proof (parse_ends E GE CALM skip m t j _ P (le_n _)) as NF.
    destruct (Nat.le_ge_cases n (parse_fuel E t j)) as [L|L].
    - rewrite (parse_mono E skip n _ m t j L); [exact H | congruence].
    - rewrite <- H. symmetry. apply parse_mono; assumption.
  Qed.

  (** ... and conversely. *)
  Lemma jto_parse : forall skip m t j n, every_part (guarded E m) t -> parse_fuel E t j <= n ->
    (exists vis, create_deserializer E m t = Ok vis) ->
    parse E skip n m t j = json_to_object E skip m t j.
  Proof.
    intros skip m t j n P L (vis & C). unfold json_to_object. rewrite C. cbn [bind].
    apply parse_mono; [exact L|]. apply (parse_ends E GE CALM); [exact P | lia].
  Qed.

  Lemma static_part : forall skip m t j o vis, every_part (guarded E m) t ->
    closed E (fun k => In k vis) -> static_ok E (fun k => In k vis) m t -> o <> Err ERecursion ->
    (json_to_object E skip m t j = o <-> exists n, parse E skip n m t j = o).
  Proof.
    intros skip m t j o vis P CL S NR. destruct (create_part vis m t CL S) as (vis' & C).
    eapply jto_outcome; eassumption.
  Qed.
End Parts.
