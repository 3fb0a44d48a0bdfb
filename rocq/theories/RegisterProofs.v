(** Proofs about the registration of classes. *)
From Coq Require Import String List NArith ZArith Bool Lia Permutation.
From Verif Require Import Base Json PyTypes TypeAlgebra Deser Ser Lists TypingFacts Catalog Names Schema JsonTypes SpecGenerate SpecValid CatalogProofs SchemaProofs
  SchemaForm JsonTypeProofs SpecRegister.
Import ListNotations.
Open Scope list_scope.
Open Scope nat_scope.

Section Register.
  Variables (E : env) (jo ja : nat) (m : nat) (c0 : catalog).
  Hypothesis LIB : library E jo ja = Ok c0.
  Hypothesis OBJ : get_class E jo = Some (JsonObject m).
  Hypothesis ARR : get_class E ja = Some (JsonArray m).

  Definition base : list (typ * entry) :=
    [(TClass jo, {| en_schema := None; en_identifier := str "JsonObject"; en_examples := None |});
     (TClass ja, {| en_schema := None; en_identifier := str "JsonArray"; en_examples := None |});
     (JsonType, {| en_schema := None; en_identifier := str "JsonType"; en_examples := Some (JArr [json_example]) |});
     (StrictJsonType, {| en_schema := None; en_identifier := str "StrictJsonType"; en_examples := Some (JArr [strict_example]) |})].

  Lemma base_catalog : by_type c0 = base /\ by_name c0 = map (fun te => (en_identifier (snd te), snd te)) base /\ jo <> ja.
  Proof.
    assert (N : jo <> ja).
    { intros Q. pose proof LIB as H. unfold library, register_schema in H. cbn [bind] in H.
      apply bind_ok in H. destruct H as (c1 & A1 & H). apply bind_ok in H. destruct H as (c2 & A2 & _).
      apply added in A1, A2. destruct A1 as (_ & _ & G1), A2 as (F2 & _ & _). rewrite G1, Q, typ_eqb_refl in F2. discriminate F2. }
    pose proof LIB as H. unfold library, register_schema, add, new_catalog in H. cbn [bind by_type by_name type_get type_set typ_eqb] in H.
    rewrite (proj2 (Nat.eqb_neq jo ja) N) in H. cbn [bind by_type by_name type_get type_set typ_eqb JsonType StrictJsonType] in H.
    injection H as <-. cbn [by_type by_name]. split; [reflexivity|]. split; [reflexivity | exact N].
  Qed.

  Lemma base_get : forall t e, type_get (by_type c0) t = Some e <-> In (t, e) base.
  Proof.
    destruct base_catalog as (B & _ & N). rewrite B. intros t e. unfold base. cbn [type_get]. split.
    - intros H. repeat match type of H with (if ?b then _ else _) = _ => destruct b eqn:?Q end; try discriminate H; injection H as <-;
        match goal with Q : typ_eqb _ _ = true |- _ => apply typ_eqb_eq in Q; subst end; cbn [In]; tauto.
    - intros [Q|[Q|[Q|[Q|[]]]]]; injection Q as <- <-; rewrite ?typ_eqb_refl; try reflexivity.
      rewrite typ_eqb_other by congruence. reflexivity.
  Qed.

  Variable D : nat -> Prop.
  Hypothesis KJO : D jo.
  Hypothesis KJA : D ja.

  Lemma base_means : forall t e, In (t, e) base -> means E D (en_identifier e) t /\ en_schema e = None.
  Proof.
    intros t e [Q|[Q|[Q|[Q|[]]]]]; injection Q as <- <-; (split; [|reflexivity]).
    - exact (mn_class E D jo _ KJO OBJ).
    - exact (mn_class E D ja _ KJA ARR).
    - apply mn_json.
    - apply mn_strict.
  Qed.

  (** What the catalog holds under names is what it holds under types. *)
  Definition agrees (c : catalog) : Prop := forall s e,
    dict_get (by_name c) s = Some e <-> exists t, type_get (by_type c) t = Some e /\ en_identifier e = s.

  (** Every entry is for a type of that name, and derived. *)
  Definition sound (c : catalog) : Prop := forall t e, type_get (by_type c) t = Some e -> means E D (en_identifier e) t /\ en_schema e = None.

  Hypothesis ONE : forall s w w', means E D s w -> means E D s w' -> w = w'.

  Lemma base_sound : sound c0.
  Proof. intros t e H. apply base_means, base_get, H. Qed.

  Lemma base_agrees : agrees c0.
  Proof.
    intros s e. destruct base_catalog as (_ & B & _). rewrite B. split.
    - intros H. apply dict_get_in in H. apply in_map_iff in H. destruct H as ([t e'] & Q & I). cbn [snd] in Q. injection Q as <- <-.
      exists t. split; [apply base_get, I | reflexivity].
    - intros (t & H & <-). apply base_get in H. destruct H as [Q|[Q|[Q|[Q|[]]]]]; injection Q as <- <-; reflexivity.
  Qed.

  Lemma decorated : forall c r x cl, decorates r x -> get_class E x = Some cl ->
    (exists e, type_get (by_type c) (TClass x) = Some e /\ attempt E c r = c) \/
    (type_get (by_type c) (TClass x) = None /\
     add c (TClass x) None (c_name cl) (rq_examples r) = Ok (attempt E c r)).
  Proof.
    intros c r x cl (T & NS & NN) CL. unfold attempt, register_schema. rewrite T, NS, NN.
    assert (P : python_type_to_name E false (TClass x) = Ok (c_name cl)).
    { change (class_name E x = Ok (c_name cl)). unfold class_name. rewrite CL. reflexivity. }
    rewrite P. cbn [bind add]. destruct (type_get (by_type c) (TClass x)) as [e|] eqn:G; [left; eauto | right; split; reflexivity].
  Qed.

  Lemma undecorated : forall c r x, decorates r x -> get_class E x = None -> attempt E c r = c.
  Proof.
    intros c r x (T & NS & NN) CL. unfold attempt, register_schema. rewrite T, NS, NN.
    assert (P : python_type_to_name E false (TClass x) = Err EUnmodelled).
    { change (class_name E x = Err EUnmodelled). unfold class_name. rewrite CL. reflexivity. }
    rewrite P. reflexivity.
  Qed.

  Lemma attempt_sound : forall c r x, D x -> decorates r x -> sound c -> sound (attempt E c r).
  Proof.
    intros c r x Dx DE SO. destruct (get_class E x) as [cl|] eqn:CL; [|rewrite (undecorated c r x DE CL); exact SO].
    destruct (decorated c r x cl DE CL) as [(e & _ & ->)|(N & A)]; [exact SO|].
    apply added in A. destruct A as (_ & _ & G). intros t e H. rewrite G in H. destruct (typ_eqb (TClass x) t) eqn:Q; [|apply SO; exact H].
    apply typ_eqb_eq in Q. subst t. injection H as <-. split; [exact (mn_class E D x cl Dx CL) | reflexivity].
  Qed.

  Lemma attempt_agrees : forall c r x, D x -> decorates r x -> sound c -> agrees c -> agrees (attempt E c r).
  Proof.
    intros c r x Dx DE SO AG. destruct (get_class E x) as [cl|] eqn:CL; [|rewrite (undecorated c r x DE CL); exact AG].
    destruct (decorated c r x cl DE CL) as [(e & _ & ->)|(N & A)]; [exact AG|].
    apply added in A. destruct A as (_ & B & G). intros s e. rewrite B, set_lookup. split.
    - destruct (pystr_eqb (c_name cl) s) eqn:Q.
      + intros H. injection H as <-. apply pystr_eqb_eq in Q. exists (TClass x). rewrite G, typ_eqb_refl. split; [reflexivity | exact Q].
      + intros H. apply AG in H. destruct H as (t & H & ID). exists t. rewrite G. split; [|exact ID].
        destruct (typ_eqb (TClass x) t) eqn:Q'; [|exact H]. apply typ_eqb_eq in Q'. subst t. congruence.
    - intros (t & H & ID). rewrite G in H. destruct (typ_eqb (TClass x) t) eqn:Q.
      + injection H as <-. cbn [en_identifier] in ID. rewrite ID, pystr_eqb_refl. reflexivity.
      + destruct (pystr_eqb (c_name cl) s) eqn:Q'.
        * apply pystr_eqb_eq in Q'. destruct (SO t e H) as [M _]. rewrite ID, <- Q' in M.
          rewrite (ONE _ _ _ M (mn_class E D x cl Dx CL)), typ_eqb_refl in Q. discriminate Q.
        * apply AG. exists t. auto.
  Qed.

  Definition allowed (rs : list request) : Prop := Forall (fun r => exists x, D x /\ decorates r x) rs.

  Lemma allowed_decorations : forall rs, allowed rs -> decorations rs.
  Proof. intros rs H. eapply Forall_impl; [|exact H]. intros r (x & _ & K). exists x. exact K. Qed.

  Lemma sound_all : forall rs c, allowed rs -> sound c -> sound (attempts E c rs).
  Proof.
    induction rs as [|r rs IH]; intros c AL SO; [auto|]. inversion AL as [|? ? (x & Kx & Dx) Dr]; subst.
    apply (IH (attempt E c r)); [exact Dr | eapply attempt_sound; eassumption].
  Qed.

  Lemma attempts_sound : forall rs, allowed rs -> sound (attempts E c0 rs).
  Proof. intros rs AL. apply sound_all; [exact AL | exact base_sound]. Qed.

  Lemma attempts_good : forall rs c, allowed rs -> sound c -> agrees c -> sound (attempts E c rs) /\ agrees (attempts E c rs).
  Proof.
    induction rs as [|r rs IH]; intros c AL SO AG; [auto|]. inversion AL as [|? ? (x & Kx & Dx) Dr]; subst.
    apply (IH (attempt E c r)); [exact Dr | eapply attempt_sound; eassumption | eapply attempt_agrees; eassumption].
  Qed.

  (** Which classes are registered. *)
  Lemma attempts_class : forall rs x cl, allowed rs -> get_class E x = Some cl ->
    ((exists e, type_get (by_type (attempts E c0 rs)) (TClass x) = Some e /\ en_identifier e = c_name cl) <->
     x = jo \/ x = ja \/ In (TClass x) (map rq_type rs)).
  Proof.
    intros rs x cl AL CL. split.
    - intros (e & G & _). destruct (Nat.eq_dec x jo) as [Q|N1]; [left; exact Q|]. destruct (Nat.eq_dec x ja) as [Q|N2]; [right; left; exact Q|].
      right. right. destruct (in_dec typ_dec (TClass x) (map rq_type rs)) as [I|I]; [exact I|]. rewrite attempts_none in G; [discriminate G | | exact I].
      destruct (type_get (by_type c0) (TClass x)) as [e'|] eqn:B; [|reflexivity]. apply base_get in B.
      destruct B as [Q|[Q|[Q|[Q|[]]]]]; try discriminate Q; injection Q as Q; congruence.
    - intros H. assert (K : exists e, type_get (by_type (attempts E c0 rs)) (TClass x) = Some e).
      { destruct H as [->|[->|I]].
        - eexists. apply attempts_keep, base_get. left. reflexivity.
        - eexists. apply attempts_keep, base_get. right. left. reflexivity.
        - clear - AL I CL. revert AL I. generalize c0. induction rs as [|r rs IH]; intros c AL I; [destruct I|]. inversion AL as [|? ? (y & Ky & Dy) Dr]; subst.
          destruct I as [Q|I]; [|apply (IH (attempt E c r) Dr I)].
          pose proof Dy as (T & _). assert (y = x) by congruence. subst y.
          assert (K : exists e, type_get (by_type (attempt E c r)) (TClass x) = Some e).
          { destruct (decorated c r x cl Dy CL) as [(e & G & ->)|(N & A)]; [exists e; exact G|]. apply added in A. destruct A as (_ & _ & G).
            eexists. rewrite G, typ_eqb_refl. reflexivity. }
          destruct K as (e & K). exists e. apply (attempts_keep E rs (attempt E c r)). exact K. }
      destruct K as (e & K). exists e. split; [exact K|].
      pose proof (attempts_sound rs AL) as SO. destruct (SO _ _ K) as [M _]. inversion M as [y cl' KY CL' Q R|Q R|Q R]; congruence.
  Qed.

  Theorem registered_coherent : forall S rs, allowed rs -> s_catalog S = attempts E c0 rs -> unambiguous E D S -> coherent E S.
  Proof.
    intros S rs AL CAT UN. destruct (attempts_good rs c0 AL base_sound base_agrees) as [SO AG]. rewrite <- CAT in SO, AG.
    assert (ST : forall s w, stands_for S s w -> means E D s w \/ s_eval S s = Some w).
    { intros s w [e NR G ID|EV]; [left | right; exact EV]. subst s. apply SO.
      destruct w; try (destruct (NR _ eq_refl)); cbn [get] in G; destruct (type_get _ _) as [e'|]; try discriminate G; injection G as ->; reflexivity. }
    split.
    - intros s w w' A B. apply ST in A, B. destruct A as [A|A], B as [B|B].
      + exact (ONE s w w' A B).
      + symmetry. exact (un_eval E D S UN s w w' A B).
      + exact (un_eval E D S UN s w' w B A).
      + congruence.
    - intros m' s a w w' L A. apply ST in A. destruct A as [A|A]; [exact (un_lookup E D S UN m' s a w' w A L) | exact (un_both E D S UN m' s a w w' L A)].
    - intros s e H. apply AG in H. destruct H as (t & _ & ID). exact ID.
    - intros t e G. destruct t; cbn [get] in G;
        try (destruct (type_get _ _) as [e'|] eqn:H; try discriminate G; injection G as ->; apply (SO _ _ H)).
      destruct (dict_get _ _) as [e'|] eqn:H; [|discriminate G]. injection G as ->. apply AG in H. destruct H as (t & H & _). apply (SO _ _ H).
    - intros s w A. apply (un_plain E D S UN s w). apply ST, A.
  Qed.

  (** The order of registration does not matter. *)
  Lemma attempts_examples : forall rs r x cl, allowed rs -> NoDup (map rq_type rs) -> In r rs -> decorates r x -> get_class E x = Some cl ->
    forall c, type_get (by_type c) (TClass x) = None ->
    type_get (by_type (attempts E c rs)) (TClass x) = Some {| en_schema := None; en_identifier := c_name cl; en_examples := rq_examples r |}.
  Proof.
    induction rs as [|r' rs IH]; intros r x cl AL ND I Dx CL c G; [destruct I|]. inversion AL as [|? ? (y & Ky & Dy) Dr]; subst. inversion ND as [|? ? NI ND']; subst.
    destruct I as [->|I].
    - apply (attempts_keep E rs (attempt E c r)). destruct (decorated c r x cl Dx CL) as [(e & G' & _)|(_ & A)]; [congruence|].
      apply added in A. destruct A as (_ & _ & G'). rewrite G', typ_eqb_refl. reflexivity.
    - apply (IH r x cl Dr ND' I Dx CL (attempt E c r')).
      destruct (get_class E y) as [cy|] eqn:CY; [|rewrite (undecorated c r' y Dy CY); exact G].
      destruct (decorated c r' y cy Dy CY) as [(e & _ & ->)|(_ & A)]; [exact G|]. apply added in A. destruct A as (_ & _ & G'). rewrite G'.
      rewrite typ_eqb_other; [exact G|]. intros Q. apply NI. destruct Dy as (T & _), Dx as (T' & _). rewrite T, Q, <- T'. apply in_map, I.
  Qed.

  Lemma attempts_order : forall rs rs', allowed rs -> NoDup (map rq_type rs) -> Permutation rs rs' ->
    (forall t, type_get (by_type (attempts E c0 rs)) t = type_get (by_type (attempts E c0 rs')) t) /\
    (forall s, dict_get (by_name (attempts E c0 rs)) s = dict_get (by_name (attempts E c0 rs')) s).
  Proof.
    intros rs rs' AL ND P.
    assert (AL' : allowed rs') by (eapply Permutation_Forall; eassumption).
    assert (ND' : NoDup (map rq_type rs')) by (eapply Permutation_NoDup; [apply Permutation_map; exact P | exact ND]).
    assert (T : forall t, type_get (by_type (attempts E c0 rs)) t = type_get (by_type (attempts E c0 rs')) t).
    { intros t. destruct (type_get (by_type c0) t) as [e|] eqn:B; [rewrite !(attempts_keep E _ c0 t e B); reflexivity|].
      destruct (in_dec typ_dec t (map rq_type rs)) as [I|I].
      - pose proof I as I0. apply in_map_iff in I. destruct I as (r & Q & I). pose proof AL as D0. unfold allowed in D0. rewrite Forall_forall in D0.
        destruct (D0 r I) as (x & Kx & Dx). assert (t = TClass x) by (destruct Dx as (T & _); congruence). clear Q. subst t.
        destruct (get_class E x) as [cl|] eqn:CL.
        + rewrite (attempts_examples rs r x cl AL ND I Dx CL c0 B).
          rewrite (attempts_examples rs' r x cl AL' ND' (Permutation_in r P I) Dx CL c0 B). reflexivity.
        + assert (X : forall qs, allowed qs -> type_get (by_type (attempts E c0 qs)) (TClass x) = None).
          { intros qs DQ. destruct (type_get (by_type (attempts E c0 qs)) (TClass x)) as [e|] eqn:G; [|reflexivity].
            destruct (attempts_good qs c0 DQ base_sound base_agrees) as [SO _]. destruct (SO _ _ G) as [M _]. inversion M; congruence. }
          rewrite !X; auto.
      - rewrite !attempts_none; try assumption; [reflexivity|]. intros I'. apply I. eapply Permutation_in; [apply Permutation_map, Permutation_sym; exact P | exact I']. }
    split; [exact T|]. intros s.
    destruct (attempts_good rs c0 AL base_sound base_agrees) as [_ AG]. destruct (attempts_good rs' c0 AL' base_sound base_agrees) as [_ AG'].
    assert (X : forall e, dict_get (by_name (attempts E c0 rs)) s = Some e <-> dict_get (by_name (attempts E c0 rs')) s = Some e).
    { intros e. rewrite (AG s e), (AG' s e). split; intros (t & G & ID); exists t; (split; [|exact ID]); congruence. }
    destruct (dict_get (by_name (attempts E c0 rs)) s) as [e|] eqn:Q; [symmetry; apply X; reflexivity|].
    destruct (dict_get (by_name (attempts E c0 rs')) s) as [e|] eqn:Q'; [|reflexivity]. apply X. reflexivity.
  Qed.
End Register.

(** *** The generator sees the catalog through its lookups *)

Lemma seq_ext : forall f g, (forall t u, f t u = g t u) -> forall ts u, seq_schema f ts u = seq_schema g ts u.
Proof.
  intros f g H. induction ts as [|t ts IH]; intros u; cbn [seq_schema]; [reflexivity|]. rewrite H. destruct (g t u) as [x|e]; [|reflexivity].
  cbn [bind]. rewrite IH. reflexivity.
Qed.

Lemma props_ext : forall E S c d f g, (forall t u, f t u = g t u) -> forall x ps props req u,
  properties_schema f E (with_catalog S c) x ps props req u = properties_schema g E (with_catalog S d) x ps props req u.
Proof.
  intros E S c d f g H x. induction ps as [|[y t] ps IH]; intros props req u; cbn [properties_schema]; [reflexivity|].
  destruct (if is_type_optional t then unwrap_optional t else Ok t) as [w|e]; [|reflexivity]. cbn [bind]. rewrite H.
  destruct (g w u) as [z|e]; [|reflexivity]. cbn [bind].
  change (finish_property E (with_catalog S c) x y (fst z)) with (finish_property E (with_catalog S d) x y (fst z)).
  destruct (finish_property E (with_catalog S d) x y (fst z)) as [q|e]; [|reflexivity]. cbn [bind]. apply IH.
Qed.

Lemma expand_ext : forall E S c d rec rec', (forall f t u, rec f t u = rec' f t u) -> forall f t u,
  expand E (with_catalog S c) rec f t u = expand E (with_catalog S d) rec' f t u.
Proof.
  intros E S c d rec rec' H f t u.
  destruct t as [k|b|w|w|k w|ts|op ts|ls|w md|x|s|]; cbn [expand]; rewrite ?H, ?(seq_ext _ _ (H false)); try reflexivity.
  - destruct ls as [|l0 [|? ?]]; try reflexivity. destruct (lit_const l0) as [j|e]; [|reflexivity]. cbn [bind]. rewrite H. reflexivity.
  - destruct (get_class E x) as [cl|]; [|reflexivity]. destruct (c_kind cl); try reflexivity;
      (destruct (class_properties E cl) as [ps|e]; [|reflexivity]); cbn [bind]; rewrite (props_ext E S c d _ _ (H false)); reflexivity.
  - destruct f; [|reflexivity]. cbn [s_eval with_catalog]. destruct (s_eval S s) as [w|]; [|reflexivity]. apply H.
Qed.

Section Lookups.
  Variables (E : env) (S : senv) (c d : catalog).
  Hypothesis T : forall t, type_get (by_type c) t = type_get (by_type d) t.
  Hypothesis N : forall s, dict_get (by_name c) s = dict_get (by_name d) s.

  Lemma get_ext : forall t, get c t = get d t.
  Proof. intros t. destruct t; cbn [get]; rewrite ?T, ?N; reflexivity. Qed.

  Lemma contains_ext : forall t, contains c t = contains d t.
  Proof. intros t. destruct t; cbn [contains]; unfold dict_mem; rewrite ?T, ?N; reflexivity. Qed.

  Lemma in_catalog_ext : forall t, in_catalog (with_catalog S c) t = in_catalog (with_catalog S d) t.
  Proof. intros t. unfold in_catalog. cbn [s_catalog s_forward with_catalog]. destruct t; rewrite ?contains_ext; reflexivity. Qed.

  Lemma schema_ext : forall n f t u, type_to_schema E (with_catalog S c) n f t u = type_to_schema E (with_catalog S d) n f t u.
  Proof.
    induction n as [|n IH]; intros f t u; [reflexivity|]. cbn [type_to_schema]. rewrite in_catalog_ext. cbn [s_catalog with_catalog]. rewrite get_ext.
    destruct (simple_type_to_schema t); [reflexivity|]. destruct (negb f && in_catalog (with_catalog S d) t); [reflexivity|].
    destruct t; try (apply expand_ext; exact IH). destruct (simple_type_to_schema t); [reflexivity|]. apply expand_ext; exact IH.
  Qed.

  Lemma with_lookup_ext : forall n t u, type_to_schema_with_lookup E (with_catalog S c) n t u = type_to_schema_with_lookup E (with_catalog S d) n t u.
  Proof.
    intros n t u. unfold type_to_schema_with_lookup. cbn [s_catalog s_forward with_catalog].
    assert (Q : (match t with TRef s => if s_forward S s then get c t else Err EKey | _ => get c t end) =
                (match t with TRef s => if s_forward S s then get d t else Err EKey | _ => get d t end)) by (destruct t; rewrite ?get_ext; reflexivity).
    rewrite Q. rewrite schema_ext. reflexivity.
  Qed.

  Lemma define_all_ext : forall n todo df u, define_all E (with_catalog S c) n todo df u = define_all E (with_catalog S d) n todo df u.
  Proof.
    intros n. induction todo as [|[s t] todo IH]; intros df u; cbn [define_all]; [reflexivity|]. rewrite with_lookup_ext.
    destruct (type_to_schema_with_lookup E (with_catalog S d) n t u) as [x|e]; [|reflexivity]. cbn [bind]. apply IH.
  Qed.

  Lemma define_loop_ext : forall n k df u, define_loop E (with_catalog S c) n k df u = define_loop E (with_catalog S d) n k df u.
  Proof.
    intros n. induction k as [|k IH]; intros df u; cbn [define_loop]; destruct (length df <? length u); try reflexivity.
    rewrite define_all_ext. destruct (define_all _ _ _ _ _ _) as [x|e]; [|reflexivity]. cbn [bind]. apply IH.
  Qed.

  Theorem classdef_ext : forall n k t, classdef_to_schema E (with_catalog S c) n k t = classdef_to_schema E (with_catalog S d) n k t.
  Proof.
    intros n k t. unfold classdef_to_schema, generate. destruct t; rewrite ?schema_ext; try reflexivity;
      match goal with |- context [type_to_schema ?a ?b ?x ?f ?t ?u] => destruct (type_to_schema a b x f t u) as [y|e]; [|reflexivity] end;
      cbn [bind]; rewrite define_loop_ext; reflexivity.
  Qed.
End Lookups.

Section Program.
  Variables (E : env) (S : senv) (jo ja m : nat) (c : catalog) (rs : list request).
  Hypothesis LIB : library E jo ja = Ok c.
  Hypothesis OBJ : get_class E jo = Some (JsonObject m).
  Hypothesis ARR : get_class E ja = Some (JsonArray m).
  Hypothesis DE : decorations rs.

  Lemma known_allowed : allowed (known jo ja rs) rs.
  Proof.
    unfold allowed. rewrite Forall_forall. intros r I. unfold decorations in DE. rewrite Forall_forall in DE. destruct (DE r I) as (x & Dx).
    exists x. split; [|exact Dx]. right. right. destruct Dx as (<- & _). apply in_map, I.
  Qed.

  Lemma registered_name : forall x cl, get_class E x = Some cl ->
    (known jo ja rs x -> get_schema_identifier (attempts E c rs) (TClass x) = Ok (Some (c_name cl))) /\
    (~ known jo ja rs x -> get_schema_identifier (attempts E c rs) (TClass x) = Ok None).
  Proof.
    intros x cl CL. pose proof (attempts_class E jo ja m c LIB OBJ ARR (known jo ja rs) (or_introl eq_refl) (or_intror (or_introl eq_refl)) rs x cl known_allowed CL) as A.
    unfold get_schema_identifier. cbn [contains get]. split; intros K.
    - apply (proj2 A) in K. destruct K as (e & G & ID). rewrite G. cbn [bind]. rewrite ID. reflexivity.
    - destruct (type_get (by_type (attempts E c rs)) (TClass x)) as [e|] eqn:G; [|reflexivity]. destruct K. apply A. exists e. split; [reflexivity|].
      pose proof (attempts_sound E jo ja m c LIB OBJ ARR (known jo ja rs) (or_introl eq_refl) (or_intror (or_introl eq_refl)) rs known_allowed) as SO.
      destruct (SO _ _ G) as [M _]. inversion M as [y cl' KY CL' Q R|Q R|Q R]; congruence.
  Qed.

  Hypothesis CAT : s_catalog S = attempts E c rs.
  Hypothesis UN : unambiguous E (known jo ja rs) S.

  Lemma program_coherent : coherent E S.
  Proof.
    eapply (registered_coherent E jo ja m c LIB OBJ ARR (known jo ja rs)); try eassumption; [left; reflexivity | right; left; reflexivity | apply UN | apply known_allowed].
  Qed.

  Lemma none_lost : forall t, quoted E (known jo ja rs) S t -> forall s, ~ lost E S t s.
  Proof.
    intros t (QF & QA) s (NE & [(M & L)|(md & M)]); [|destruct (QA s md M NE)].
    destruct (QF s M) as [Q|(F & x & cl & K & CL & <-)]; [destruct (Q NE)|].
    destruct L as [L|L]; [congruence|]. apply L.
    destruct (attempts_good E (known jo ja rs) (un_means _ _ _ UN) rs c known_allowed) as [_ AG];
      [eapply base_sound; try eassumption; [left | right; left]; reflexivity | eapply base_agrees; eassumption|].
    destruct (proj2 (attempts_class E jo ja m c LIB OBJ ARR (known jo ja rs) (or_introl eq_refl) (or_intror (or_introl eq_refl)) rs x cl known_allowed CL) K) as (e & G & ID).
    rewrite CAT. assert (I : dict_get (by_name (attempts E c rs)) (c_name cl) = Some e) by (apply AG; eauto).
    apply dict_get_in in I. apply in_map_iff. exists (c_name cl, e). auto.
  Qed.
End Program.

Lemma program_order : forall E S jo ja m c rs rs' n k t, library E jo ja = Ok c -> get_class E jo = Some (JsonObject m) -> get_class E ja = Some (JsonArray m) ->
  decorations rs -> NoDup (map rq_type rs) -> Permutation rs rs' -> unambiguous E (known jo ja rs) S ->
  classdef_to_schema E (with_catalog S (attempts E c rs)) n k t = classdef_to_schema E (with_catalog S (attempts E c rs')) n k t.
Proof.
  intros E S jo ja m c rs rs' n k t LIB OBJ ARR D ND P UN.
  destruct (attempts_order E jo ja m c LIB OBJ ARR (known jo ja rs) (or_introl eq_refl) (or_intror (or_introl eq_refl)) (un_means _ _ _ UN) rs rs' (known_allowed jo ja rs D) ND P) as [T N].
  apply classdef_ext; assumption.
Qed.
