(** Proofs about the memoisation of serializers. *)
From Coq Require Import List NArith ZArith Bool Lia ZifyBool ZifyN ZifyNat.
From Verif Require Import Base Json PyTypes Mapping Deser Ser Lists SpecRecursion DeserFuel SerTotal SerCache.
Import ListNotations.
Open Scope list_scope.
Open Scope nat_scope.

Notation rec := (Err ERecursion).

Lemma mapM_transfer : forall A B (f g : A -> res B) l, mapM f l <> rec ->
  (forall x, In x l -> f x <> rec -> g x = f x) -> mapM g l = mapM f l.
Proof.
  intros A B f g. induction l as [|x l IH]; intros N H; [reflexivity|]. cbn [mapM] in *.
  rewrite (H x (or_introl eq_refl)).
  2:{ intros Q. rewrite Q in N. apply N. reflexivity. }
  destruct (f x) as [y|e]; [|reflexivity]. rewrite IH; [reflexivity| |].
  - intros Q. rewrite Q in N. apply N. reflexivity.
  - intros z J. apply H. right. exact J.
Qed.

Lemma bind_transfer : forall A B (a a' : res A) (k k' : A -> res B), (do x <- a; k x) <> rec ->
  (a <> rec -> a' = a) -> (forall x, a = Ok x -> k x <> rec -> k' x = k x) -> (do x <- a'; k' x) = (do x <- a; k x).
Proof.
  intros A B a a' k k' N H K. destruct a as [x|e]; cbn [bind] in *.
  - rewrite H by discriminate. cbn [bind]. apply K; [reflexivity | exact N].
  - rewrite H by exact (fun Q => N (f_equal (fun r => match r with Ok _ => rec | Err e => Err e end) Q)). reflexivity.
Qed.

Section Budget.
  Variable E : env.

  Lemma mkser_le : forall n n' ctx t, n <= n' -> mkser E n ctx t <> rec -> mkser E n' ctx t = mkser E n ctx t.
  Proof.
    induction n as [|n IH]; intros n' ctx t L N; [cbn in N; congruence|].
    destruct n' as [|n1]; [lia|]. assert (L1 : n <= n1) by lia. specialize (fun ctx t => IH n1 ctx t L1).
    cbn [mkser] in N |- *.
    Ltac step IH := apply bind_transfer; [assumption | let X := fresh in intros X; apply IH; exact X | reflexivity || (intros; reflexivity)].
    destruct t as [k|b|u|u|k u|ts|op ts|ls|u md|c|r|]; try reflexivity.
    - step IH.
    - step IH.
    - destruct k; try reflexivity; [destruct k; try reflexivity; step IH|].
      destruct (get_class E c) as [cl|]; [|reflexivity]. destruct (c_kind cl); try reflexivity. step IH.
    - apply bind_transfer; [assumption | | reflexivity]. intros X. apply mapM_transfer; [exact X|]. intros; apply IH; assumption.
    - apply bind_transfer; [assumption | reflexivity|]. intros x _ X. step IH.
    - apply IH. exact N.
    - destruct (get_class E c) as [cl|]; [|reflexivity]. destruct (c_to_json cl); [reflexivity|].
      assert (TY : let typed k := do ps <- class_properties E cl;
        do fs <- mapM (fun '(x, u) => do s <- mkser E k (Some (c_module cl)) u; Ok (x, json_property x (Some u), s)) ps;
        Ok (GClass fs) in typed n <> rec -> typed n1 = typed n).
      { cbv zeta. intros X. apply bind_transfer; [assumption | reflexivity|]. intros ps _ X'.
        apply bind_transfer; [assumption | | reflexivity]. intros Y. apply mapM_transfer; [exact Y|]. intros [x u] J Z. step IH. }
      destruct (c_kind cl) as [ms|hs|xs|fr fs|hs]; try reflexivity; try (apply TY; exact N); destruct hs; try reflexivity; apply TY; exact N.
    - destruct ctx as [m|]; [|reflexivity]. destruct (lookup E m r) as [[a u]|]; [|reflexivity].
      destruct u; try reflexivity; apply IH; exact N.
  Qed.

  Lemma mkser_S : forall n ctx t, mkser E n ctx t <> rec -> mkser E (S n) ctx t = mkser E n ctx t.
  Proof. intros n ctx t. apply mkser_le. lia. Qed.

  Lemma mkser_agree : forall n n' ctx t, mkser E n ctx t <> rec -> mkser E n' ctx t <> rec -> mkser E n ctx t = mkser E n' ctx t.
  Proof.
    intros n n' ctx t N N'. destruct (Nat.le_ge_cases n n') as [L|L].
    - symmetry. apply mkser_le; assumption.
    - apply mkser_le; assumption.
  Qed.

  Lemma mkser_class_ctx : forall n ctx ctx' c, mkser E n ctx (TClass c) = mkser E n ctx' (TClass c).
  Proof. intros [|n] ctx ctx' c; reflexivity. Qed.

  (** The budget suffices whatever the outcome. *)
  Definition endless (n : nat) (k : ckey) : Prop :=
    match k with
    | KeyClass c => mkser E n None (TClass c) = rec
    | KeyAlias m s => mkser E n (Some m) (TRef s) = rec
    end.

  Lemma rec_dec : forall A (r : res A), r = rec \/ r <> rec.
  Proof. intros A [a|e]; [right; discriminate|]. destruct e; try (right; discriminate). left. reflexivity. Qed.

  Lemma endless_down : forall n k, endless (S n) k -> endless n k.
  Proof.
    intros n [c|m s] H; cbn [endless] in *.
    - destruct (rec_dec _ (mkser E n None (TClass c))) as [X|X]; [exact X|]. rewrite mkser_S in H by exact X. congruence.
    - destruct (rec_dec _ (mkser E n (Some m) (TRef s))) as [X|X]; [exact X|]. rewrite mkser_S in H by exact X. congruence.
  Qed.

  Lemma mkser_bounded : forall H, env_size E <= H -> 2 <= H ->
    forall n u vis ctx t, (forall k, In k vis -> endless n k) -> unseen E vis <= u -> theight t <= H -> mkser E n ctx t <> rec ->
    forall N, u * H + theight t <= N -> mkser E N ctx t = mkser E n ctx t.
  Proof.
    intros H HE H2. induction n as [|n IH]; intros u vis ctx t V U HT F N LE; [cbn in F; congruence|].
    assert (V' : forall k, In k vis -> endless n k) by (intros k J; apply endless_down, V, J).
    destruct N as [|N]; [destruct t; cbn [theight] in LE; lia|].
    Ltac sub IH u vis := apply (IH u vis); auto; lia.
    pose proof F as F0.
    destruct t as [k|b|t|t|k t|ts|op ts|ls|t md|c|r|]; cbn [theight] in HT, LE; try reflexivity.
    - cbn [mkser] in F |- *. apply bind_transfer; [exact F | | reflexivity]. intros X. sub IH u vis.
    - cbn [mkser] in F |- *. apply bind_transfer; [exact F | | reflexivity]. intros X. sub IH u vis.
    - cbn [mkser] in F |- *. destruct k; try reflexivity.
      + destruct k; try reflexivity. apply bind_transfer; [exact F | | reflexivity]. intros X. sub IH u vis.
      + destruct (get_class E c) as [cl|]; [|reflexivity]. destruct (c_kind cl); try reflexivity.
        apply bind_transfer; [exact F | | reflexivity]. intros X. sub IH u vis.
    - cbn [mkser] in F |- *. change (fold_right _ 0 ts) with (lheight ts) in *.
      apply bind_transfer; [exact F | | reflexivity]. intros X. apply mapM_transfer; [exact X|]. intros t J Y.
      pose proof (lheight_in _ _ J). sub IH u vis.
    - cbn [mkser] in F |- *. apply bind_transfer; [exact F | reflexivity|]. intros t Q F'.
      assert (theight t = 1).
      { destruct (literal_type_cases ls) as [(l & Q')|Q']; [|congruence]. rewrite Q in Q'. injection Q' as ->. apply lit_height. }
      apply bind_transfer; [exact F' | | reflexivity]. intros X. sub IH u vis.
    - cbn [mkser] in F |- *. sub IH u vis.
    - destruct (rec_dec _ (mkser E n ctx (TClass c))) as [Y|Y].
      2:{ rewrite (mkser_S n _ _ Y). apply (IH u vis); auto; cbn [theight]; lia. }
      cbn [mkser] in F |- *. destruct (get_class E c) as [cl|] eqn:G; [|reflexivity]. destruct (c_to_json cl); [reflexivity|].
      assert (TY : let typed k := do ps <- class_properties E cl;
        do fs <- mapM (fun '(x, u) => do s <- mkser E k (Some (c_module cl)) u; Ok (x, json_property x (Some u), s)) ps;
        Ok (GClass fs) in typed n <> rec -> typed N = typed n).
      { cbv zeta. intros X. apply bind_transfer; [assumption | reflexivity|]. intros ps P X'.
        apply bind_transfer; [assumption | | reflexivity]. intros Z. apply mapM_transfer; [exact Z|]. intros [x t] J Z'.
        apply bind_transfer; [exact Z' | | reflexivity]. intros Z''.
        pose proof (properties_height _ _ _ _ _ _ G P J).
        assert (SE : seen vis (KeyClass c) = false).
        { destruct (seen vis (KeyClass c)) eqn:SE; [|reflexivity]. apply seen_in in SE. exfalso.
          pose proof (V _ SE) as VS. cbn [endless] in VS. rewrite (mkser_class_ctx (S n) None ctx) in VS. exact (F0 VS). }
        pose proof (unseen_cons E H HE vis _ (class_key E H HE _ _ G) SE) as UC. destruct u as [|u]; [lia|].
        apply (IH u (KeyClass c :: vis)).
        + intros k [<-|J']; [|apply V'; exact J']. cbn [endless]. rewrite (mkser_class_ctx n None ctx). exact Y.
        + lia.
        + lia.
        + exact Z''.
        + cbn [Nat.mul] in LE. lia. }
      destruct (c_kind cl) as [ms|hs|xs|fr fs|hs]; try reflexivity; try (apply TY; exact F); destruct hs; try reflexivity; apply TY; exact F.
    - destruct (rec_dec _ (mkser E n ctx (TRef r))) as [Y|Y].
      2:{ rewrite (mkser_S n _ _ Y). apply (IH u vis); auto; cbn [theight]; lia. }
      cbn [mkser] in F |- *. destruct ctx as [m|]; [|reflexivity]. destruct (lookup E m r) as [[a t]|] eqn:L; [|reflexivity].
      pose proof (refs_height_in E H HE _ _ _ _ L) as RH.
      assert (SE : seen vis (KeyAlias m r) = false).
      { destruct (seen vis (KeyAlias m r)) eqn:SE; [|reflexivity]. apply seen_in in SE. exfalso. exact (F0 (V _ SE)). }
      pose proof (unseen_cons E H HE vis _ (alias_key E _ _ _ L) SE) as UC. destruct u as [|u]; [lia|].
      unfold env_size in HE.
      assert (K : mkser E n (Some m) t <> rec -> mkser E N (Some m) t = mkser E n (Some m) t).
      { intros X. apply (IH u (KeyAlias m r :: vis)).
        + intros k [<-|J']; [|apply V'; exact J']. exact Y.
        + lia.
        + lia.
        + exact X.
        + cbn [Nat.mul] in LE. lia. }
      destruct t; try reflexivity; apply K; exact F.
  Qed.

  Lemma budget_suffices : forall n ctx t, mkser E n ctx t <> rec -> mkser E (ser_fuel E t) ctx t = mkser E n ctx t.
  Proof.
    intros n ctx t F. unfold ser_fuel, build_fuel.
    set (u := length (e_classes E) + length (e_refs E)).
    assert (T1 : 1 <= theight t) by (destruct t; cbn [theight]; lia).
    apply (mkser_bounded (S (theight t + env_size E)) ltac:(lia) ltac:(lia) n u [] ctx t); try assumption.
    - intros k [].
    - apply unseen_bound.
    - lia.
    - assert (u * S (theight t + env_size E) <= u * level_bound E t).
      { apply Nat.mul_le_mono_l. unfold level_bound. lia. }
      cbn [Nat.mul]. unfold level_bound at 1. lia.
  Qed.
End Budget.

Section Refinement.
  Variable E : env.

  Definition valid (C : memo) : Prop := forall c s, memo_get C c = Some s -> exists N, mkser E N None (TClass c) = Ok s.

  (** A computation with the table, against the one without at every budget. *)
  Definition sound {A} (m : memo -> res A * memo) (p : nat -> res A) (n : nat) : Prop := forall C, valid C ->
    valid (snd (m C)) /\
    (fst (m C) <> rec -> exists N0, forall N, N0 <= N -> p N = fst (m C)) /\
    (p n <> rec -> fst (m C) = p n).

  Lemma sound_ret : forall A (r : res A) n, sound (sret r) (fun _ => r) n.
  Proof. intros A r n C V. cbn [sret fst snd]. split; [exact V|]. split; [intros _; exists 0; reflexivity | reflexivity]. Qed.

  Lemma sound_bind : forall A B (m : memo -> res A * memo) (p : nat -> res A) (f : A -> memo -> res B * memo) (q : A -> nat -> res B) n,
    sound m p n -> (forall a, sound (f a) (q a) n) -> sound (sbind m f) (fun N => do a <- p N; q a N) n.
  Proof.
    intros A B m p f q n HM HF C V. unfold sbind. destruct (HM C V) as (V1 & U1 & D1). destruct (m C) as [[a|e] C1]; cbn [fst snd] in *.
    - destruct (HF a C1 V1) as (V2 & U2 & D2). split; [exact V2|].
      destruct U1 as (N1 & U1); [discriminate|]. split.
      + intros X. destruct (U2 X) as (N2 & U2'). exists (Nat.max N1 N2). intros N L. rewrite U1 by lia. cbn [bind]. apply U2'. lia.
      + destruct (p n) as [a'|e'] eqn:Q; cbn [bind].
        * assert (Z : Ok a = Ok a') by (apply D1; discriminate). injection Z as <-. exact D2.
        * intros X. assert (Z : Ok a = Err e') by (apply D1; exact (fun Y => X (f_equal (fun r => match r with Ok _ => rec | Err e => Err e end) Y))).
          discriminate Z.
    - split; [exact V1|]. split.
      + intros X. destruct U1 as (N1 & U1); [intros Y; apply X; injection Y as ->; reflexivity|]. exists N1. intros N L. rewrite U1 by lia. reflexivity.
      + destruct (p n) as [a'|e'] eqn:Q; cbn [bind].
        * assert (Z : Err e = Ok a') by (apply D1; discriminate). discriminate Z.
        * intros X. assert (Z : @Err A e = Err e') by (apply D1; exact (fun Y => X (f_equal (fun r => match r with Ok _ => rec | Err e => Err e end) Y))).
          injection Z as ->. reflexivity.
  Qed.

  Lemma sound_ext : forall A (m : memo -> res A * memo) p q n, (forall N, q N = p N) -> sound m p n -> sound m q n.
  Proof.
    intros A m p q n H S C V. destruct (S C V) as (V1 & U & D). rewrite H. split; [exact V1|]. split; [|exact D].
    intros X. destruct (U X) as (N0 & U'). exists N0. intros N L. rewrite H. auto.
  Qed.

  Lemma sound_map : forall A B (f : A -> memo -> res B * memo) (p : nat -> A -> res B) n l,
    (forall x, In x l -> sound (f x) (fun N => p N x) n) -> sound (mapS f l) (fun N => mapM (p N) l) n.
  Proof.
    intros A B f p n. induction l as [|x l IH]; intros H; [exact (sound_ret _ (Ok []) n)|].
    apply (sound_ext _ _ (fun N => do y <- p N x; do ys <- mapM (p N) l; Ok (y :: ys))).
    { intros N. cbn [mapM]. destruct (p N x); [|reflexivity]. cbn [bind]. destruct (mapM (p N) l); reflexivity. }
    assert (Q : sound (run y <- f x; run ys <- mapS f l; sret (Ok (y :: ys))) (fun N => do y <- p N x; do ys <- mapM (p N) l; Ok (y :: ys)) n).
    { apply sound_bind; [apply H; left; reflexivity|]. intros y.
      apply (sound_bind _ _ _ (fun N => mapM (p N) l) _ (fun ys _ => Ok (y :: ys))); [apply IH; intros z J; apply H; right; exact J|].
      intros ys. apply sound_ret. }
    intros C V. specialize (Q C V). unfold sbind, sret in Q. cbn [mapS]. destruct (f x C) as [[y|e] C1]; [|exact Q].
    destruct (mapS f l C1) as [[ys|e] C2]; exact Q.
  Qed.

  Lemma sound_shift : forall A (m : memo -> res A * memo) p n, sound m (fun N => p (S N)) n -> sound m p (S n).
  Proof.
    intros A m p n S C V. destruct (S C V) as (V1 & U & D). split; [exact V1|]. split; [|exact D].
    intros X. destruct (U X) as (N0 & U'). exists (Datatypes.S N0). intros N L. destruct N as [|N]; [lia|]. apply U'. lia.
  Qed.

  Lemma mkser_in_sound : forall n ctx t, sound (mkser_in E n ctx t) (fun N => mkser E N ctx t) n.
  Proof.
    induction n as [|n IH]; intros ctx t.
    - intros C V. cbn. split; [exact V|]. split; congruence.
    - apply sound_shift.
      destruct t as [k|b|u|u|k u|ts|op ts|ls|u md|c|r|]; cbn [mkser_in mkser].
      + apply sound_ret.
      + apply sound_ret.
      + apply (sound_bind _ _ _ _ _ (fun s _ => Ok (GList s)) _ (IH ctx u)). intros s. apply sound_ret.
      + apply (sound_bind _ _ _ _ _ (fun s _ => Ok (GSet s)) _ (IH ctx u)). intros s. apply sound_ret.
      + destruct k; try apply sound_ret.
        * destruct k; try apply sound_ret. apply (sound_bind _ _ _ _ _ (fun s _ => Ok (GStrDict s)) _ (IH ctx u)). intros s. apply sound_ret.
        * destruct (get_class E c) as [cl|]; [|apply sound_ret]. destruct (c_kind cl); try apply sound_ret.
          apply (sound_bind _ _ _ _ _ (fun s _ => if forallb _ _ && _ then Ok (GEnumDict s) else Err EJsonType) _ (IH ctx u)). intros s. apply sound_ret.
      + apply (sound_bind _ _ _ (fun N => mapM (mkser E N ctx) ts) _ (fun ss _ => Ok (GTuple ss))); [|intros; apply sound_ret].
        apply (sound_map _ _ _ (fun N => mkser E N ctx)). intros t _. apply IH.
      + apply sound_ret.
      + apply (sound_bind _ _ _ (fun _ => literal_type ls) _ (fun u N => do s <- mkser E N ctx u; Ok (GLiteral s))); [apply sound_ret|].
        intros u. apply (sound_bind _ _ _ _ _ (fun s _ => Ok (GLiteral s)) _ (IH ctx u)). intros s. apply sound_ret.
      + apply IH.
      + set (made := match get_class E c with
                     | Some cl => _
                     | None => sret (Err EUnmodelled)
                     end).
        assert (M : sound made (fun N => mkser E (S N) None (TClass c)) n).
        { unfold made. cbn [mkser]. destruct (get_class E c) as [cl|]; [|apply sound_ret]. destruct (c_to_json cl); [apply sound_ret|].
          assert (TY : sound (run ps <- sret (class_properties E cl);
                       run fs <- mapS (fun '(x, u) => run s <- mkser_in E n (Some (c_module cl)) u; sret (Ok (x, json_property x (Some u), s))) ps;
                       sret (Ok (GClass fs)))
                     (fun N => do ps <- class_properties E cl;
                       do fs <- mapM (fun '(x, u) => do s <- mkser E N (Some (c_module cl)) u; Ok (x, json_property x (Some u), s)) ps;
                       Ok (GClass fs)) n).
          { apply (sound_bind _ _ _ (fun _ => class_properties E cl) _ (fun ps N =>
              do fs <- mapM (fun '(x, u) => do s <- mkser E N (Some (c_module cl)) u; Ok (x, json_property x (Some u), s)) ps; Ok (GClass fs)));
              [apply sound_ret|]. intros ps.
            apply (sound_bind _ _ _ (fun N => mapM (fun '(x, u) => do s <- mkser E N (Some (c_module cl)) u; Ok (x, json_property x (Some u), s)) ps)
              _ (fun fs _ => Ok (GClass fs))); [|intros; apply sound_ret].
            apply (sound_map _ _ _ (fun N '(x, u) => do s <- mkser E N (Some (c_module cl)) u; Ok (x, json_property x (Some u), s))).
            intros [x u] _. apply (sound_bind _ _ _ _ _ (fun s _ => Ok (x, json_property x (Some u), s)) _ (IH (Some (c_module cl)) u)).
            intros s. apply sound_ret. }
          destruct (c_kind cl) as [ms|hs|xs|fr fs|hs]; try apply sound_ret; try exact TY; destruct hs; try apply sound_ret; exact TY. }
        clearbody made. apply (sound_ext _ _ (fun N => mkser E (S N) None (TClass c))); [reflexivity|].
        intros C V. destruct (memo_get C c) as [s|] eqn:G.
        * destruct (V c s G) as (N0 & Q). cbn [fst snd]. split; [exact V|]. split.
          -- intros _. exists N0. intros N L. rewrite (mkser_le E N0 (S N) None (TClass c)); [exact Q | lia | rewrite Q; discriminate].
          -- intros X. rewrite <- Q. apply (mkser_agree E); [rewrite Q; discriminate | exact X].
        * destruct (M C V) as (V1 & U & D). destruct (made C) as [[s|e] C1]; cbn [fst snd] in *; [|split; [exact V1|]; split; [exact U | exact D]].
          split; [|split; [exact U | exact D]].
          intros d s' G'. cbn [memo_get] in G'. destruct (Nat.eqb c d) eqn:CD; [|exact (V1 d s' G')].
          apply Nat.eqb_eq in CD. subst d. injection G' as <-. destruct U as (N0 & U); [discriminate|].
          exists (S N0). apply U. lia.
      + destruct ctx as [m|]; [|apply sound_ret]. destruct (lookup E m r) as [[a u]|]; [|apply sound_ret].
        destruct u; try apply sound_ret; apply IH.
      + apply sound_ret.
  Qed.

  (** Computations whose outcome the table does not influence. *)
  Definition inert {A} (m : memo -> res A * memo) (r : res A) : Prop := forall C, valid C -> fst (m C) = r /\ valid (snd (m C)).

  Lemma create_inert : forall ctx t, inert (create_serializer_in E ctx t) (mkser E (ser_fuel E t) ctx t).
  Proof.
    intros ctx t C V. unfold create_serializer_in. destruct (mkser_in_sound (ser_fuel E t) ctx t C V) as (V1 & U & D).
    split; [|exact V1]. destruct (rec_dec _ (fst (mkser_in E (ser_fuel E t) ctx t C))) as [X|X].
    - destruct (rec_dec _ (mkser E (ser_fuel E t) ctx t)) as [Y|Y]; [congruence | apply D, Y].
    - destruct (U X) as (N0 & U'). rewrite <- (U' N0 (le_n _)) in X |- *. symmetry. apply budget_suffices. exact X.
  Qed.

  Lemma inert_ret : forall A (r : res A), inert (sret r) r.
  Proof. intros A r C V. split; [reflexivity | exact V]. Qed.

  Lemma inert_bind : forall A B m (r : res A) (f : A -> memo -> res B * memo) (q : A -> res B),
    inert m r -> (forall a, inert (f a) (q a)) -> inert (sbind m f) (do a <- r; q a).
  Proof.
    intros A B m r f q HM HF C V. unfold sbind. destruct (HM C V) as (Q & V1). destruct (m C) as [[a|e] C1]; cbn [fst snd] in *; subst r; cbn [bind].
    - apply HF. exact V1.
    - split; [reflexivity | exact V1].
  Qed.

  Lemma inert_map : forall A B (f : A -> memo -> res B * memo) (q : A -> res B) l,
    (forall x, inert (f x) (q x)) -> inert (mapS f l) (mapM q l).
  Proof.
    intros A B f q l H. induction l as [|x l IH]; intros C V; [split; [reflexivity | exact V]|]. cbn [mapS mapM].
    destruct (H x C V) as (Q & V1). destruct (f x C) as [[y|e] C1]; cbn [fst snd] in *; rewrite <- Q; [|split; [reflexivity | exact V1]].
    destruct (IH C1 V1) as (Q2 & V2). destruct (mapS f l C1) as [[ys|e] C2]; cbn [fst snd] in *; rewrite <- Q2; split; auto.
  Qed.

  Lemma inert_zip : forall g g', (forall s v, inert (g s v) (g' s v)) -> forall ss vs, inert (zip_gen_in g ss vs) (zip_gen g' ss vs).
  Proof.
    intros g g' H. induction ss as [|s ss IH]; intros [|v vs] C V; try (split; [reflexivity | exact V]). cbn [zip_gen_in zip_gen].
    destruct (H s v C V) as (Q & V1). destruct (g s v C) as [[y|e] C1]; cbn [fst snd] in *; rewrite <- Q; [|split; [reflexivity | exact V1]].
    destruct (IH vs C1 V1) as (Q2 & V2). destruct (zip_gen_in g ss vs C1) as [[ys|e] C2]; cbn [fst snd] in *; rewrite <- Q2; split; auto.
  Qed.

  Lemma inert_fields : forall g g', (forall s v, inert (g s v) (g' s v)) -> forall attrs fs acc,
    inert (gen_fields_in g attrs fs acc) (gen_fields g' attrs fs acc).
  Proof.
    intros g g' H attrs. induction fs as [|[[x p] s] fs IH]; intros acc C V; cbn [gen_fields_in gen_fields]; [split; [reflexivity | exact V]|].
    destruct (dict_get attrs x) as [v|]; [|split; [reflexivity | exact V]].
    assert (K : let r := match g s v C with (Err e, C1) => (Err e, C1) | (Ok j, C1) => gen_fields_in g attrs fs (dict_set acc p j) C1 end in
      fst r = match g' s v with Err e => Err e | Ok j => gen_fields g' attrs fs (dict_set acc p j) end /\ valid (snd r)).
    { cbv zeta. destruct (H s v C V) as (Q & V1). destruct (g s v C) as [[y|e] C1]; cbn [fst snd] in *; rewrite <- Q; [|split; [reflexivity | exact V1]].
      apply IH. exact V1. }
    destruct v; try exact K. apply IH. exact V.
  Qed.

  Variable within : value -> list typ.

  Lemma hook_inert : forall h v, inert (run_hook E within h v) (h v).
  Proof.
    intros h v C V. unfold run_hook. cbn [fst snd]. split; [reflexivity|]. revert C V. induction (within v) as [|t l IH]; intros C V; [exact V|].
    cbn [fold_left]. apply IH. apply (create_inert None t C V).
  Qed.

  Lemma gen_inert : forall n s v, inert (gen_in E within n s v) (gen E n s v).
  Proof.
    induction n as [|n IH]; intros s v; [apply inert_ret|]. cbn [gen_in gen].
    assert (OT : forall v, inert (run s <- create_serializer_in E None (typeof v); gen_in E within n s v)
                                 (do s <- serializer_of E (typeof v); gen E n s v)).
    { intros u. apply inert_bind; [apply create_inert|]. intros s'. apply IH. }
    destruct s as [k| |b|s|s|s|s|ss| |s|h|fs|fs|]; try apply inert_ret.
    - destruct b; destruct v; try apply inert_ret; (apply inert_bind; [apply inert_map | intros; apply inert_ret]); try exact OT.
      intros [k u]. apply inert_bind; [apply inert_ret|]. intros k'. apply inert_bind; [apply OT|]. intros; apply inert_ret.
    - destruct v; try apply inert_ret. apply inert_bind; [apply inert_map, IH | intros; apply inert_ret].
    - destruct v; try apply inert_ret. apply inert_bind; [apply inert_map | intros; apply inert_ret].
      intros [k u]. apply inert_bind; [apply inert_ret|]. intros k'. apply inert_bind; [apply IH|]. intros; apply inert_ret.
    - destruct v; try apply inert_ret. apply inert_bind; [apply inert_map | intros; apply inert_ret].
      intros [k u]. apply inert_bind; [apply inert_ret|]. intros k'. apply inert_bind; [apply IH|]. intros; apply inert_ret.
    - destruct v; try apply inert_ret. apply inert_bind; [apply inert_map, IH | intros; apply inert_ret].
    - destruct v; try apply inert_ret. apply inert_bind; [apply inert_zip, IH | intros; apply inert_ret].
    - apply OT.
    - apply IH.
    - apply hook_inert.
    - destruct v; try apply inert_ret. apply inert_bind; [apply inert_fields, IH | intros; apply inert_ret].
    - destruct v; try apply inert_ret. apply inert_bind; [apply inert_map | intros; apply inert_ret].
      intros [x p]. destruct (dict_get _ x); [|apply inert_ret]. apply inert_bind; [apply OT | intros; apply inert_ret].
    - destruct v; try apply inert_ret. apply inert_bind; [apply inert_map | intros; apply inert_ret].
      intros [x p]. apply inert_bind; [apply OT | intros; apply inert_ret].
  Qed.

  Lemma object_inert : forall v, inert (object_to_json_in E within v) (object_to_json E v).
  Proof. intros v. apply inert_bind; [apply create_inert|]. intros s. apply gen_inert. Qed.

  Lemma after_valid : forall calls, valid (after_calls E within calls).
  Proof.
    intros calls. unfold after_calls. assert (V : valid []) by (intros c s Q; discriminate Q). revert V. generalize (@nil (nat * ser)).
    induction calls as [|a calls IH]; intros C V; [exact V|]. cbn [fold_left]. apply IH.
    destruct a as [v|ctx t]; cbn [perform]; [apply (object_inert v C V) | apply (create_inert ctx t C V)].
  Qed.
End Refinement.
