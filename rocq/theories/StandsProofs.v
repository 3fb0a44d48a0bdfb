(** Proofs about objects that stand for others. *)
From Coq Require Import String List NArith ZArith Bool Lia.
From Verif Require Import Base Json PyTypes Mapping Deser Ser Lists SpecStands.
Import ListNotations.
Open Scope list_scope.
Open Scope nat_scope.

Section Stands.
Variable E : env.

(** * More fuel does no harm. *)
Lemma mapM_more : forall A B (f g : A -> res B) l r, (forall x y, In x l -> f x = Ok y -> g x = Ok y) -> mapM f l = Ok r -> mapM g l = Ok r.
Proof.
  intros A B f g l r I M. apply mapM_ok in M. apply mapM_ok. revert I. induction M as [|x y l r Q M IH]; intros I; constructor.
  - apply I; [left; reflexivity | exact Q].
  - apply IH. intros a b J. apply I. right. exact J.
Qed.

Lemma zip_more : forall (f g : ser -> value -> res json) ss vs js, (forall s v j, f s v = Ok j -> g s v = Ok j) ->
  zip_gen f ss vs = Ok js -> zip_gen g ss vs = Ok js.
Proof.
  intros f g ss. induction ss as [|s ss IH]; intros [|v vs] js I M; cbn [zip_gen] in *; try exact M.
  destruct (f s v) as [j|] eqn:Q; [|discriminate]. rewrite (I _ _ _ Q). destruct (zip_gen f ss vs) as [r|] eqn:Z; [|discriminate].
  rewrite (IH vs r I Z). exact M.
Qed.

Lemma fields_more : forall (f g : ser -> value -> res json) attrs fs acc o, (forall s v j, f s v = Ok j -> g s v = Ok j) ->
  gen_fields f attrs fs acc = Ok o -> gen_fields g attrs fs acc = Ok o.
Proof.
  intros f g attrs fs. induction fs as [|[[x p] s] fs IH]; intros acc o I M; cbn [gen_fields] in *; [exact M|].
  destruct (dict_get attrs x) as [v|]; [|discriminate].
  assert (G : forall u, match f s u with Err e => Err e | Ok j => gen_fields f attrs fs (dict_set acc p j) end = Ok o ->
                        match g s u with Err e => Err e | Ok j => gen_fields g attrs fs (dict_set acc p j) end = Ok o).
  { intros u Q. destruct (f s u) as [j|] eqn:F; [|discriminate]. rewrite (I _ _ _ F). exact (IH _ _ I Q). }
  destruct v; first [exact (IH _ _ I M) | exact (G _ M)].
Qed.

Lemma gen_more : forall n s v j, gen E n s v = Ok j -> gen E (S n) s v = Ok j.
Proof.
  induction n as [|n IH]; intros s v j G; [discriminate G|].
  assert (O : forall u r, (do s0 <- serializer_of E (typeof u); gen E n s0 u) = Ok r -> (do s0 <- serializer_of E (typeof u); gen E (S n) s0 u) = Ok r).
  { intros u r Q. apply bind_ok in Q. destruct Q as (s0 & Q & R). rewrite Q. cbn [bind]. apply IH, R. }
  remember (S n) as n1 eqn:N. rewrite N in G. cbn [gen] in G |- *.
  assert (D : forall (key : value -> res pystr) u r, (do k' <- key (fst u); do j0 <- (do s0 <- serializer_of E (typeof (snd u)); gen E n s0 (snd u)); Ok (k', j0)) = Ok r ->
    (do k' <- key (fst u); do j0 <- (do s0 <- serializer_of E (typeof (snd u)); gen E n1 s0 (snd u)); Ok (k', j0)) = Ok r).
  { intros key u r Q. apply bind_ok in Q. destruct Q as (k' & Q1 & Q). apply bind_ok in Q. destruct Q as (j0 & Q2 & Q). rewrite Q1. cbn [bind].
    rewrite (O _ _ Q2). exact Q. }
  assert (T : forall s0 (key : value -> res pystr) u r, (do k' <- key (fst u); do j0 <- gen E n s0 (snd u); Ok (k', j0)) = Ok r ->
    (do k' <- key (fst u); do j0 <- gen E n1 s0 (snd u); Ok (k', j0)) = Ok r).
  { intros s0 key u r Q. apply bind_ok in Q. destruct Q as (k' & Q1 & Q). apply bind_ok in Q. destruct Q as (j0 & Q2 & Q). rewrite Q1. cbn [bind].
    rewrite (IH _ _ _ Q2). exact Q. }

  assert (I1 : forall s0 u r, gen E n s0 u = Ok r -> gen E n1 s0 u = Ok r) by (intros s0 u r Q; exact (IH _ _ _ Q)).
  clear N IH.
  assert (P : forall A (f g : A -> res json) l (h : list json -> json) r, (forall x y, f x = Ok y -> g x = Ok y) ->
    (do js <- mapM f l; Ok (h js)) = Ok r -> (do js <- mapM g l; Ok (h js)) = Ok r).
  { intros A f g l h r Z Q. apply bind_ok in Q. destruct Q as (js & Q & R). rewrite (mapM_more _ _ f g l js (fun x y _ => Z x y) Q). exact R. }
  assert (P2 : forall A (f g : A -> res (pystr * json)) l r, (forall x y, f x = Ok y -> g x = Ok y) ->
    (do js <- mapM f l; Ok (JObj (dict_of js))) = Ok r -> (do js <- mapM g l; Ok (JObj (dict_of js))) = Ok r).
  { intros A f g l r Z Q. apply bind_ok in Q. destruct Q as (js & Q & R). rewrite (mapM_more _ _ f g l js (fun x y _ => Z x y) Q). exact R. }
  destruct s as [k| |b|s|s|s|s|ss| |s|h|fs|fs|]; try exact G.
  - destruct b, v; try discriminate G.
    + exact (P _ _ _ _ _ _ O G).
    + refine (P2 _ _ _ _ _ _ G). intros [k x] y. exact (D _ (k, x) y).
    + exact (P _ _ _ _ _ _ O G).
    + exact (P _ _ _ _ _ _ O G).
  - destruct v; try discriminate G. exact (P _ _ _ _ _ _ (I1 s) G).
  - destruct v; try discriminate G. refine (P2 _ _ _ _ _ _ G). intros [k x] y. exact (T s _ (k, x) y).
  - destruct v; try discriminate G. refine (P2 _ _ _ _ _ _ G). intros [k x] y. exact (T s _ (k, x) y).
  - destruct v; try discriminate G. exact (P _ _ _ _ _ _ (I1 s) G).
  - destruct v; try discriminate G. apply bind_ok in G. destruct G as (js & G & R). rewrite (zip_more _ _ _ _ _ I1 G). exact R.
  - exact (O v j G).
  - exact (I1 _ _ _ G).
  - destruct v; try discriminate G. apply bind_ok in G. destruct G as (o & G & R). rewrite (fields_more _ _ _ _ _ _ I1 G). exact R.
  - destruct v; try discriminate G. refine (P2 _ _ _ _ _ _ G). intros [x p] y. destruct (dict_get attrs x); [|intros Q; exact Q].
    intros Q. apply bind_ok in Q. destruct Q as (j0 & Q & R). rewrite (O _ _ Q). exact R.
  - destruct v; try discriminate G. refine (P2 _ _ _ _ _ _ G). intros [x u] y Q. apply bind_ok in Q. destruct Q as (j0 & Q & R). rewrite (O _ _ Q). exact R.
Qed.

Lemma gen_up : forall n k s v j, n <= k -> gen E n s v = Ok j -> gen E k s v = Ok j.
Proof. intros n k s v j L G. induction L as [|k L IH]; [exact G | apply gen_more, IH]. Qed.

(** * What is written. *)
Scheme stands_mut := Induction for stands Sort Prop
with places_mut := Induction for places Sort Prop.

Lemma stands_none : forall m t v w, stands E m t v w -> is_none v = is_none w.
Proof. intros m t v w S. induction S; try reflexivity; assumption. Qed.

Lemma Forall2_mapM : forall A B C (f : A -> res C) (g : B -> res C) l l', Forall2 (fun a b => f a = g b) l l' -> mapM f l = mapM g l'.
Proof. intros A B C f g l l' F. induction F as [|a b l l' Q F IH]; cbn [mapM]; [reflexivity|]. rewrite Q, IH. reflexivity. Qed.

Lemma places_length : forall m ts vs ws, places E m ts vs ws -> length vs = length ts /\ length ws = length ts.
Proof. intros m ts vs ws P. induction P as [|m t ts v vs w ws S P IH]; [split; reflexivity|]. cbn [length]. destruct IH. split; congruence. Qed.

Lemma Forall2_imp : forall A B (P Q : A -> B -> Prop) l l', (forall a b, P a b -> Q a b) -> Forall2 P l l' -> Forall2 Q l l'.
Proof. intros A B P Q l l' I F. induction F; constructor; auto. Qed.

Lemma properties_names : forall cl ps, class_properties E cl = Ok ps -> map fst ps = map fst (raw_fields (c_kind cl)).
Proof.
  intros cl ps P.
  assert (H : hints E cl = Ok ps -> map fst ps = map fst (raw_fields (c_kind cl))).
  { unfold hints. clear P. generalize (raw_fields (c_kind cl)). intros l Q. apply mapM_ok in Q. induction Q as [|[x t] [y u] l r Q F IH]; [reflexivity|].
    cbn [map fst]. apply bind_ok in Q. destruct Q as (t' & _ & Q). f_equal; [congruence | exact IH]. }
  unfold class_properties in P. destruct (c_kind cl); try exact (H P). congruence.
Qed.

Lemma combine_get : forall (xs : list pystr) (ws : list value), NoDup xs -> length xs = length ws ->
  Forall2 (fun x w => dict_get (combine xs ws) x = Some w) xs ws.
Proof.
  intros xs ws N L.
  assert (A : forall d, (forall kv, In kv (combine xs ws) -> In kv d) -> NoDup (map fst d) -> Forall2 (fun x w => dict_get d x = Some w) xs ws).
  { clear N. revert ws L. induction xs as [|x xs IH]; intros [|w ws] L d I N; try discriminate L; constructor.
    - apply dict_get_nodup; [exact N|]. apply I. left. reflexivity.
    - apply IH; [cbn [length] in L; congruence | | exact N]. intros kv J. apply I. right. exact J. }
  apply A; [intros kv I; exact I|].
  assert (Q : map fst (combine xs ws) = xs); [|rewrite Q; exact N].
  clear N A. revert ws L. induction xs as [|x xs IH]; intros [|w ws] L; try discriminate L; [reflexivity|]. cbn [combine map fst]. f_equal. apply IH. cbn [length] in L. congruence.
Qed.

Lemma keyed_written : forall (key : value -> res pystr) s k ks vs ws, Forall2 (fun v w => gen E k s v = gen E k s w) vs ws ->
  mapM (fun '(kv, x) => do k' <- key kv; do j <- gen E k s x; Ok (k', j)) (combine ks vs) =
  mapM (fun '(kv, x) => do k' <- key kv; do j <- gen E k s x; Ok (k', j)) (combine ks ws).
Proof.
  intros key s k ks vs ws F. revert ks. induction F as [|v w vs ws Q F IH]; intros [|x ks]; cbn [combine mapM]; try reflexivity.
  rewrite Q, IH. reflexivity.
Qed.

Lemma same_written : (forall c cl, get_class E c = Some cl -> NoDup (map fst (raw_fields (c_kind cl)))) ->
  forall n ctx t s, mkser E n ctx t = Ok s -> forall m v w k, (forall m', ctx = Some m' -> m' = m) ->
  stands E m t v w -> gen E k s v = gen E k s w.
Proof.
  intros ND. induction n as [|n IH]; intros ctx t s M m v w k C ST; [discriminate M|].
  destruct k as [|k]; [reflexivity|].
  inversion ST as [m0 t0 v0 | m0 u vs ws F | m0 u vs ws F | m0 kt u ks vs ws L F | m0 ts vs ws P | m0 u md v0 w0 S' | m0 x a u v0 w0 LK S' | m0 c cl ps d attrs vs ws G TJ K PS F P];
    subst; [reflexivity|..]; cbn [mkser] in M.
  - apply bind_ok in M. destruct M as (s0 & M & Q). assert (s = GList s0) by congruence. subst s. cbn [gen]. f_equal.
    apply Forall2_mapM. refine (Forall2_imp _ _ _ _ _ _ _ F). intros a b SS. exact (IH ctx u s0 M m a b k C SS).
  - apply bind_ok in M. destruct M as (s0 & M & Q). assert (s = GSet s0) by congruence. subst s. cbn [gen]. f_equal.
    apply Forall2_mapM. refine (Forall2_imp _ _ _ _ _ _ _ F). intros a b SS. exact (IH ctx u s0 M m a b k C SS).
  - assert (X : forall s0, mkser E n ctx u = Ok s0 -> Forall2 (fun v w => gen E k s0 v = gen E k s0 w) vs ws).
    { intros s0 M0. refine (Forall2_imp _ _ _ _ _ _ _ F). intros a b SS. exact (IH ctx u s0 M0 m a b k C SS). }
    destruct kt as [kk|b|kt|kt|k1 k2|kts|op kts|ls|kt md|c|x|]; try discriminate M.
    + destruct kk; try discriminate M. apply bind_ok in M. destruct M as (s0 & M & Q). assert (s = GStrDict s0) by congruence. subst s. cbn [gen].
      rewrite (keyed_written str_key s0 k ks vs ws (X s0 M)). reflexivity.
    + destruct (get_class E c) as [cl|]; [|discriminate M]. destruct (c_kind cl) as [ms|hs|xs|fr fs|hs]; try discriminate M.
      apply bind_ok in M. destruct M as (s0 & M & Q). destruct (_ && _) in Q; [|discriminate Q]. assert (s = GEnumDict s0) by congruence. subst s. cbn [gen].
      rewrite (keyed_written (enum_key E) s0 k ks vs ws (X s0 M)). reflexivity.
  - apply bind_ok in M. destruct M as (ss & M & Q). assert (s = GTuple ss) by congruence. subst s. cbn [gen]. f_equal. apply mapM_ok in M. clear ST Q.
    revert vs ws P. induction M as [|t0 s0 ts ss M0 M IHM]; intros vs ws P; inversion P as [|m1 t1 ts1 v1 vs1 w1 ws1 S1 P1]; subst; [reflexivity|].
    cbn [zip_gen]. rewrite (IH ctx t0 s0 M0 m v1 w1 k C S1), (IHM vs1 ws1 P1). reflexivity.
  - exact (IH None u s M m v w (S k) ltac:(intros m' Q; discriminate Q) S').
  - destruct ctx as [m'|]; [|discriminate M]. pose proof (C m' eq_refl) as Q. subst m'. rewrite LK in M.
    assert (M' : mkser E n (Some m) u = Ok s) by (destruct u; try discriminate M; exact M).
    apply (IH (Some m) u s M' m v w (S k)); [intros m1 Q; congruence | exact S'].
  - rewrite G, TJ in M.
    assert (Y : exists fs, mapM (fun '(x, u) => do s <- mkser E n (Some (c_module cl)) u; Ok (x, json_property x (Some u), s)) ps = Ok fs /\ s = GClass fs).
    { rewrite PS in M. cbn [bind] in M. destruct (c_kind cl) as [ms|hs|xs|fr fs|hs]; try destruct K; try (destruct hs as [|h hs]; [destruct K|]);
        apply bind_ok in M; destruct M as (fs' & M & Q); exists fs'; (split; [exact M | congruence]). }
    destruct Y as (fs & Y & ->). cbn [gen]. f_equal. apply mapM_ok in Y.
    destruct (places_length _ _ _ _ P) as [L1 L2]. rewrite map_length in L1, L2.
    assert (N : NoDup (map fst ps)) by (rewrite (properties_names cl ps PS); exact (ND c cl G)).
    pose proof (combine_get (map fst ps) ws N ltac:(rewrite map_length; congruence)) as F'.
    revert F'. generalize (combine (map fst ps) ws). intros attrs' F'. clear N L1 L2 PS K ST M. generalize (@nil (pystr * json)).
    revert vs ws F P F'. induction Y as [|[x u] f ps fs Y0 Y IHY]; intros vs ws F P F' acc; [reflexivity|].
    apply bind_ok in Y0. destruct Y0 as (s0 & M0 & Q). assert (f = (x, json_property x (Some u), s0)) by congruence. subst f. clear Q.
    cbn [map fst snd] in F, P, F'. inversion F as [|x1 v1 xs1 vs1 D1 F1]; subst. inversion F' as [|x2 w1 xs2 ws1 D2 F2]; subst.
    inversion P as [|m1 t1 ts1 v2 vs2 w2 ws2 S1 P1]; subst. cbn [gen_fields]. rewrite D1, D2.
    assert (GG : gen E k s0 v1 = gen E k s0 w1) by (apply (IH (Some (c_module cl)) u s0 M0 (c_module cl) v1 w1 k); [intros m' Q; congruence | exact S1]).
    pose proof (stands_none _ _ _ _ S1) as NN.
    destruct (is_none v1) eqn:NV.
    + destruct v1; try discriminate NV. destruct w1; try discriminate NN. exact (IHY vs1 ws1 F1 P1 F2 acc).
    + assert (Z : forall a v0 r, is_none v0 = false -> match Some v0 with None => Err EAttribute | Some VNone => gen_fields (gen E k) a fs acc | Some v => match gen E k s0 v with Err e => Err e | Ok j => r j end end
                  = match gen E k s0 v0 with Err e => Err e | Ok j => r j end) by (intros a v0 r N0; destruct v0; try discriminate N0; reflexivity).
      rewrite (Z attrs v1 _ NV), (Z attrs' w1 _ (eq_sym NN)), GG. destruct (gen E k s0 w1) as [j|e]; [|reflexivity]. exact (IHY vs1 ws1 F1 P1 F2 _).
Qed.

(** * Depth. *)
Definition deep (l : list value) : nat := fold_right (fun x a => Nat.max (vdepth x) a) 0 l.

Lemma deep_pairs : forall A (ks : list A) vs, length ks = length vs ->
  fold_right (fun kv a => Nat.max (vdepth (snd kv)) a) 0 (combine ks vs) = deep vs.
Proof.
  intros A. induction ks as [|k ks IH]; intros [|v vs] L; try discriminate L; [reflexivity|].
  cbn [combine fold_right snd deep]. rewrite IH; [reflexivity | cbn [length] in L; congruence].
Qed.

Lemma deep_attrs : forall (attrs : list (pystr * value)) xs vs, Forall2 (fun x v => dict_get attrs x = Some v) xs vs ->
  deep vs <= fold_right (fun kv a => Nat.max (vdepth (snd kv)) a) 0 attrs.
Proof.
  intros attrs xs vs F. induction F as [|x v xs vs D F IH]; cbn [deep fold_right]; [lia|]. fold (deep vs). apply Nat.max_lub; [|exact IH].
  apply dict_get_in in D. clear F IH. induction attrs as [|[k u] attrs IH]; [destruct D|]. cbn [fold_right snd].
  destruct D as [Q | D]; [assert (u = v) by congruence; subst; lia | specialize (IH D); lia].
Qed.

Fixpoint stands_depth m t v w (ST : stands E m t v w) {struct ST} : vdepth w <= vdepth v
with places_depth m ts vs ws (P : places E m ts vs ws) {struct P} : deep ws <= deep vs.
Proof.
  -
    destruct ST as [m t v | m u vs ws F | m u vs ws F | m kt u ks vs ws L F | m ts vs ws P | m u md v w S' | m x a u v w LK S' | m c cl ps d attrs vs ws G TJ K PS F P].
    + lia.
    + cbn [vdepth]. apply le_n_S. induction F as [|v w vs ws SS F IH]; cbn [fold_right]; [lia|]. pose proof (stands_depth _ _ _ _ SS). lia.
    + cbn [vdepth]. apply le_n_S. induction F as [|v w vs ws SS F IH]; cbn [fold_right]; [lia|]. pose proof (stands_depth _ _ _ _ SS). lia.
    + cbn [vdepth]. apply le_n_S.
      assert (LW : length vs = length ws) by (clear -F; induction F; cbn [length]; congruence).
      rewrite !deep_pairs by congruence. clear L LW ks. induction F as [|v w vs ws SS F IH]; cbn [fold_right deep]; [lia|]. pose proof (stands_depth _ _ _ _ SS). fold (deep vs) (deep ws). lia.
    + cbn [vdepth]. apply le_n_S. exact (places_depth _ _ _ _ P).
    + exact (stands_depth _ _ _ _ S').
    + exact (stands_depth _ _ _ _ S').
    + cbn [vdepth]. apply le_n_S. pose proof (deep_attrs _ _ _ F) as D. pose proof (places_depth _ _ _ _ P) as D'.
      destruct (places_length _ _ _ _ P) as [L1 L2]. rewrite map_length in L2. rewrite deep_pairs by (rewrite map_length; congruence). lia.
  - destruct P as [m | m t ts v vs w ws SS P]; [exact (le_n _)|]. cbn [deep fold_right]. fold (deep vs) (deep ws).
    pose proof (stands_depth _ _ _ _ SS). pose proof (places_depth _ _ _ _ P). lia.
Qed.
End Stands.
