(** Proofs about integer widths and enumerations. *)
From Coq Require Import String List NArith ZArith Bool Lia ZifyBool ZifyN ZifyNat.
From Verif Require Import Base Json PyTypes SpecNumbers NumbersProofs Lists ClassDef SpecClassDef.
Import ListNotations.
Open Scope list_scope.

(** * Integers *)
Ltac powers :=
  unfold fits, narrower in *; cbn [bits] in *;
  change (2 ^ (16 - 1))%Z with 32768%Z in *; change (2 ^ (32 - 1))%Z with 2147483648%Z in *;
  change (2 ^ (64 - 1))%Z with 9223372036854775808%Z in *;
  change (2 ^ 15)%Z with 32768%Z in *; change (2 ^ 31)%Z with 2147483648%Z in *;
  change (2 ^ 63)%Z with 9223372036854775808%Z in *.

Lemma range_fits : forall lo hi x, (lo <= x <= hi)%Z -> (- 2 ^ 63 <= lo)%Z -> (hi < 2 ^ 63)%Z -> fits (integer_range_to_type lo hi) x.
Proof.
  intros lo hi x H L U. unfold integer_range_to_type.
  destruct ((- 2 ^ 15 <=? lo)%Z && (hi <? 2 ^ 15)%Z) eqn:Q1; [|destruct ((- 2 ^ 31 <=? lo)%Z && (hi <? 2 ^ 31)%Z) eqn:Q2]; powers; lia.
Qed.

Lemma range_least : forall lo hi t, (lo <= hi)%Z -> narrower t (integer_range_to_type lo hi) -> ~ (fits t lo /\ fits t hi).
Proof.
  intros lo hi t H N (F1 & F2). unfold integer_range_to_type in N.
  destruct ((- 2 ^ 15 <=? lo)%Z && (hi <? 2 ^ 15)%Z) eqn:Q1; [|destruct ((- 2 ^ 31 <=? lo)%Z && (hi <? 2 ^ 31)%Z) eqn:Q2];
    destruct t; powers; lia.
Qed.

Lemma declared_fits : forall t lo hi, declared_range t = Some (lo, hi) -> forall x, fits t x <-> (lo <= x <= hi)%Z.
Proof. intros [] lo hi Q x; try discriminate; injection Q as <- <-; powers; lia. Qed.

Lemma fold_min : forall l x, (fold_left Z.min l x <= x)%Z /\ (forall y, In y l -> (fold_left Z.min l x <= y)%Z) /\
  (fold_left Z.min l x = x \/ In (fold_left Z.min l x) l).
Proof.
  induction l as [|a l IH]; intros x; cbn [fold_left].
  - split; [lia|]. split; [intros y []|auto].
  - destruct (IH (Z.min x a)) as (L & H & C). split; [lia|]. split.
    + intros y [<-|I]; [lia | apply H; exact I].
    + destruct C as [C|C]; [|right; right; exact C]. rewrite C. destruct (Z.min_spec x a) as [[_ ->]|[_ ->]]; [auto | right; left; reflexivity].
Qed.

Lemma fold_max : forall l x, (x <= fold_left Z.max l x)%Z /\ (forall y, In y l -> (y <= fold_left Z.max l x)%Z) /\
  (fold_left Z.max l x = x \/ In (fold_left Z.max l x) l).
Proof.
  induction l as [|a l IH]; intros x; cbn [fold_left].
  - split; [lia|]. split; [intros y []|auto].
  - destruct (IH (Z.max x a)) as (L & H & C). split; [lia|]. split.
    + intros y [<-|I]; [lia | apply H; exact I].
    + destruct C as [C|C]; [|right; right; exact C]. rewrite C. destruct (Z.max_spec x a) as [[_ ->]|[_ ->]]; [right; left; reflexivity | auto].
Qed.

Lemma enum_width : forall vs mn mx, vs <> [] -> Forall (fun x => fits Int64 x) vs ->
  exists t, integer_node_type None (Some vs) mn mx = Ok t /\ Forall (fits t) vs /\ forall u, narrower u t -> ~ Forall (fits u) vs.
Proof.
  intros [|x r] mn mx NE F; [congruence|]. cbn [integer_node_type min_of max_of bind].
  destruct (fold_min r x) as (L1 & L2 & L3), (fold_max r x) as (U1 & U2 & U3).
  eexists. split; [reflexivity|].
  assert (I1 : In (fold_left Z.min r x) (x :: r)) by (cbn [In]; destruct L3 as [->|]; auto).
  assert (I2 : In (fold_left Z.max r x) (x :: r)) by (cbn [In]; destruct U3 as [->|]; auto).
  rewrite Forall_forall in F. pose proof (F _ I1) as F1. pose proof (F _ I2) as F2. 
  split.
  - apply Forall_forall. intros y J. apply range_fits; [|powers; lia|powers; lia].
    destruct J as [<-|J]; [lia|]. pose proof (L2 y J). pose proof (U2 y J). lia.
  - intros u N G. rewrite Forall_forall in G. eapply range_least; [|exact N|]; [lia|]. split; apply G; assumption.
Qed.

(** * Names *)
Lemma starts_with_iff : forall p s, starts_with p s = true <-> exists r, s = p ++ r.
Proof.
  intros p s. unfold starts_with. rewrite pystr_eqb_eq. split.
  - intros H. exists (skipn (length p) s). rewrite <- H at 1. symmetry. apply firstn_skipn.
  - intros (r & ->). rewrite firstn_app, Nat.sub_diag, firstn_O, app_nil_r. apply firstn_all.
Qed.

Lemma ends_with_iff : forall p s, ends_with p s = true <-> exists r, s = r ++ p.
Proof.
  intros p s. unfold ends_with. rewrite starts_with_iff. split.
  - intros (r & H). exists (rev r). rewrite <- (rev_involutive s), H, rev_app_distr, rev_involutive. reflexivity.
  - intros (r & ->). exists (rev r). apply rev_app_distr.
Qed.

Lemma framed : forall p q s, starts_with p s = true -> ends_with q s = true -> length p + length q <= length s ->
  exists a, s = p ++ a ++ q.
Proof.
  intros p q s S Q L. apply starts_with_iff in S. destruct S as (r & ->). apply ends_with_iff in Q. destruct Q as (u & Q).
  rewrite app_length in L. exists (firstn (length r - length q) r). f_equal.
  rewrite <- (firstn_skipn (length r - length q) r) at 1. f_equal.
  assert (X : skipn (length (p ++ r) - length q) (p ++ r) = q).
  { rewrite Q at 2. rewrite Q, app_length. replace (length u + length q - length q)%nat with (length u) by lia.
    rewrite skipn_app, skipn_all, Nat.sub_diag. reflexivity. }
  rewrite app_length, skipn_app in X.
  replace (length p + length r - length q - length p)%nat with (length r - length q)%nat in X by lia.
  rewrite skipn_all2 in X by lia. exact X.
Qed.

Lemma not_underscore : forall a r, a <> [] -> (starts_with (str "_") (a ++ r) = false <-> exists c u, a = c :: u /\ c <> 95%N).
Proof.
  intros [|c u] r NE; [congruence|]. split.
  - intros H. exists c, u. split; [reflexivity|]. intros ->. 
    assert (X : starts_with (str "_") ((95%N :: u) ++ r) = true) by (apply starts_with_iff; exists (u ++ r); reflexivity). congruence.
  - intros (c' & u' & Q & N). injection Q as <- <-. destruct (starts_with _ _) eqn:X; [|reflexivity].
    apply starts_with_iff in X. destruct X as (w & X). injection X as X _. contradiction.
Qed.

Lemma framed_trim : forall k p a, rev p = p -> length p = k -> a <> [] ->
  (negb (starts_with (str "_") (skipn k (p ++ a ++ p))) && negb (starts_with (str "_") (skipn k (rev (p ++ a ++ p)))) = true <-> trim a).
Proof.
  intros k p a RP L NE. rewrite !rev_app_distr, RP, <- app_assoc.
  assert (SK : forall r, skipn k (p ++ r) = r) by (intros r; subst k; rewrite skipn_app, skipn_all, Nat.sub_diag; reflexivity).
  rewrite !SK, andb_true_iff, !negb_true_iff. rewrite (not_underscore a p NE).
  assert (NR : rev a <> []) by (intros X; apply NE; rewrite <- (rev_involutive a), X; reflexivity).
  rewrite (not_underscore (rev a) p NR). unfold trim. split; intros [H1 (c & u & Q & N)]; (split; [exact H1|]).
  - exists c, (rev u). split; [rewrite <- (rev_involutive a), Q; reflexivity | exact N].
  - exists c, (rev u). split; [rewrite Q, rev_app_distr; reflexivity | exact N].
Qed.

Lemma trim_some : forall a, trim a -> a <> [].
Proof. intros a ((c & r & -> & _) & _). discriminate. Qed.

Lemma is_sunder_spec : forall s, is_sunder s = true <-> sunder s.
Proof.
  intros s. unfold is_sunder, sunder. split.
  - intros H. apply andb_true_iff in H. destruct H as [H B]. apply andb_true_iff in H. destruct H as [H A].
    apply andb_true_iff in H. destruct H as [H E]. apply andb_true_iff in H. destruct H as [L S]. apply Nat.ltb_lt in L.
    destruct (framed _ _ _ S E ltac:(cbn; lia)) as (a & ->). exists a. split; [|reflexivity].
    assert (NE : a <> []) by (intros ->; cbn in L; lia).
    apply (framed_trim 1 (str "_") a eq_refl eq_refl NE). rewrite A, B. reflexivity.
  - intros (a & T & ->). pose proof (trim_some a T) as NE. pose proof T as T'.
    apply (framed_trim 1 (str "_") a eq_refl eq_refl NE) in T'. rewrite <- andb_assoc, T'.
    rewrite andb_true_r, !andb_true_iff. repeat apply conj.
    + apply Nat.ltb_lt. rewrite !app_length. change (length (str "_")) with 1; change (length (str "__")) with 2; destruct a; [congruence | cbn [length]; lia].
    + apply starts_with_iff. eauto.
    + apply ends_with_iff. exists (str "_" ++ a). rewrite app_assoc. reflexivity.
Qed.

Lemma is_dunder_spec : forall s, is_dunder s = true <-> dunder s.
Proof.
  intros s. unfold is_dunder, dunder. split.
  - intros H. apply andb_true_iff in H. destruct H as [H B]. apply andb_true_iff in H. destruct H as [H A].
    apply andb_true_iff in H. destruct H as [H E]. apply andb_true_iff in H. destruct H as [L S]. apply Nat.ltb_lt in L.
    destruct (framed _ _ _ S E ltac:(cbn; lia)) as (a & ->). exists a. split; [|reflexivity].
    assert (NE : a <> []) by (intros ->; cbn in L; lia).
    apply (framed_trim 2 (str "__") a eq_refl eq_refl NE). rewrite A, B. reflexivity.
  - intros (a & T & ->). pose proof (trim_some a T) as NE. pose proof T as T'.
    apply (framed_trim 2 (str "__") a eq_refl eq_refl NE) in T'. rewrite <- andb_assoc, T'.
    rewrite andb_true_r, !andb_true_iff. repeat apply conj.
    + apply Nat.ltb_lt. rewrite !app_length. change (length (str "_")) with 1; change (length (str "__")) with 2; destruct a; [congruence | cbn [length]; lia].
    + apply starts_with_iff. eauto.
    + apply ends_with_iff. exists (str "__" ++ a). rewrite app_assoc. reflexivity.
Qed.

Lemma is_private_spec : forall cls s, is_private cls s = true <-> private cls s.
Proof.
  intros cls s. unfold is_private, private. rewrite !andb_true_iff, negb_true_iff, Nat.ltb_lt, starts_with_iff. split.
  - intros [[L (r & ->)] E]. split.
    + exists r. split; [|rewrite <- !app_assoc; reflexivity]. intros ->. rewrite app_nil_r in L. lia.
    + intros X. apply ends_with_iff in X. congruence.
  - intros [(a & NE & ->) X]. split; [split|].
    + rewrite !app_length. destruct a; [congruence|]. cbn [length]. lia.
    + exists a. rewrite <- !app_assoc. reflexivity.
    + destruct (ends_with _ _) eqn:Q; [|reflexivity]. apply ends_with_iff in Q. contradiction.
Qed.

(** * Safe names *)
Section Safe.
  Variable uni : N -> bool.
  Definition clean (s : pystr) : pystr := map (fun c => if word_char uni c then c else 95%N) s.

  Lemma clean_word : forall s c, In c (clean s) -> word_char uni c = true.
  Proof.
    intros s c H. unfold clean in H. apply in_map_iff in H. destruct H as (d & <- & _).
    destruct (word_char uni d) eqn:Q; [exact Q | reflexivity].
  Qed.

  Lemma safe_word : forall s c, In c (enum_safe_name uni s) -> word_char uni c = true.
  Proof.
    intros s c. unfold enum_safe_name. fold (clean s). destruct (_ || _); [|apply clean_word].
    intros [<-|H]; [reflexivity | eapply clean_word; exact H].
  Qed.

  Lemma safe_frame : forall s, (forall r, enum_safe_name uni s <> str "__" ++ r) /\
    ~ ((exists r, enum_safe_name uni s = str "_" ++ r) /\ exists r, enum_safe_name uni s = r ++ str "_").
  Proof.
    intros s. unfold enum_safe_name. fold (clean s).
    destruct (starts_with (str "__") (clean s)) eqn:D; cbn [orb].
    { split; [intros r Q; discriminate Q|]. intros [(r & Q) _]. discriminate Q. }
    destruct (starts_with (str "_") (clean s) && ends_with (str "_") (clean s)) eqn:S.
    { split; [intros r Q; discriminate Q|]. intros [(r & Q) _]. discriminate Q. }
    split.
    - intros r Q. assert (X : starts_with (str "__") (clean s) = true) by (apply starts_with_iff; eauto). congruence.
    - intros [A B]. apply starts_with_iff in A. apply ends_with_iff in B. rewrite A, B in S. discriminate.
  Qed.

  Lemma safe_ordinary : forall s, ~ sunder (enum_safe_name uni s) /\ ~ dunder (enum_safe_name uni s).
  Proof.
    intros s. destruct (safe_frame s) as [A B]. split.
    - intros (a & _ & Q). apply B. split; [eauto|]. exists (str "_" ++ a). rewrite Q, app_assoc. reflexivity.
    - intros (a & _ & Q). exact (A _ Q).
  Qed.

  Lemma safe_stable : forall s, (forall c, In c s -> word_char uni c = true) ->
    (forall r, s <> str "__" ++ r) -> ~ ((exists r, s = str "_" ++ r) /\ exists r, s = r ++ str "_") -> enum_safe_name uni s = s.
  Proof.
    intros s W A B. unfold enum_safe_name. fold (clean s).
    assert (X : clean s = s).
    { unfold clean. rewrite <- (map_id s) at 2. apply map_ext_in. intros c I. rewrite (W c I). reflexivity. }
    rewrite X. destruct (starts_with (str "__") s) eqn:D.
    { apply starts_with_iff in D. destruct D as (r & D). destruct (A r D). }
    destruct (starts_with (str "_") s && ends_with (str "_") s) eqn:S; [|reflexivity].
    apply andb_true_iff in S. destruct S as [S1 S2]. apply starts_with_iff in S1. apply ends_with_iff in S2. exfalso. auto.
  Qed.
End Safe.

(** * Creating enumerations *)
Lemma alias_free_spec : forall ms seen, alias_free seen ms = true <->
  (forall q m, In q seen -> In m ms -> ~ json_equal (snd q) (snd m)) /\
  ForallOrdPairs (fun a b => ~ json_equal (snd a) (snd b)) ms.
Proof.
  induction ms as [|m ms IH]; intros seen; cbn [alias_free].
  - split; [intros _; split; [intros q m _ []|constructor] | reflexivity].
  - rewrite andb_true_iff, negb_true_iff, IH. split.
    + intros (X & A & B). assert (H : forall q, In q seen -> ~ json_equal (snd q) (snd m)).
      { intros q I J. apply scalar_eqb_spec in J. assert (Y : existsb (fun q => scalar_eqb (snd q) (snd m)) seen = true)
          by (apply existsb_exists; eauto). congruence. }
      split.
      * intros q m' I [<-|J]; [auto|]. apply A; [apply in_or_app; auto | exact J].
      * constructor; [|exact B]. apply Forall_forall. intros x J. apply A; [apply in_or_app; right; left; reflexivity | exact J].
    + intros (A & B). inversion B as [|? ? B1 B2]; subst. split; [|split; [|exact B2]].
      * destruct (existsb _ seen) eqn:X; [|reflexivity]. apply existsb_exists in X. destruct X as (q & I & J).
        apply scalar_eqb_spec in J. destruct (A q m I (or_introl eq_refl) J).
      * intros q m' I J. apply in_app_or in I. destruct I as [I|[<-|[]]]; [apply A; [exact I | right; exact J]|].
        rewrite Forall_forall in B1. apply B1. exact J.
Qed.

Lemma enum_body_all : forall cls vs, (forall x v, In (x, v) vs -> ~ private cls x /\ ~ sunder x /\ ~ dunder x) -> enum_body cls vs = Ok vs.
Proof.
  intros cls. induction vs as [|[x v] vs IH]; intros H; [reflexivity|]. cbn [enum_body].
  destruct (H x v (or_introl eq_refl)) as (P & S & D).
  destruct (is_private cls x) eqn:QP; [apply is_private_spec in QP; contradiction|].
  destruct (is_sunder x) eqn:QS; [apply is_sunder_spec in QS; contradiction|].
  destruct (is_dunder x) eqn:QD; [apply is_dunder_spec in QD; contradiction|].
  rewrite IH; [reflexivity|]. intros y w I. apply (H y w). right. exact I.
Qed.

Lemma bad_name : forall ms : list (pystr * json), existsb (fun m => mem_str (fst m) [str "mro"; []]) ms = true <->
  exists x v, In (x, v) ms /\ (x = str "mro" \/ x = []).
Proof.
  intros ms. rewrite existsb_exists. split.
  - intros ([x v] & I & H). exists x, v. split; [exact I|]. unfold mem_str in H. cbn [fst existsb] in H.
    rewrite orb_false_r in H. apply orb_true_iff in H. destruct H as [H|H]; apply pystr_eqb_eq in H; auto.
  - intros (x & v & I & H). exists (x, v). split; [exact I|]. unfold mem_str. cbn [fst existsb]. rewrite orb_false_r.
    apply orb_true_iff. destruct H as [->| ->]; [left | right]; reflexivity.
Qed.

Lemma unique_enum_all : forall cls vs, (forall x v, In (x, v) vs -> ~ private cls x /\ ordinary x) ->
  ForallOrdPairs (fun a b => ~ json_equal (snd a) (snd b)) vs -> unique_enum cls vs = Ok vs.
Proof.
  intros cls vs H D. unfold unique_enum. rewrite enum_body_all.
  2:{ intros x v I. destruct (H x v I) as (P & S & U & _). auto. }
  cbn [bind]. destruct (existsb _ vs) eqn:B.
  { apply bad_name in B. destruct B as (x & v & I & B). destruct (H x v I) as (_ & _ & _ & M & N). destruct B; contradiction. }
  assert (A : alias_free [] vs = true) by (apply alias_free_spec; split; [intros q m [] | exact D]).
  rewrite A. reflexivity.
Qed.

Lemma unique_enum_alias : forall cls vs, (forall x v, In (x, v) vs -> ~ private cls x /\ ordinary x) ->
  ~ ForallOrdPairs (fun a b => ~ json_equal (snd a) (snd b)) vs -> unique_enum cls vs = Err EValue.
Proof.
  intros cls vs H D. unfold unique_enum. rewrite enum_body_all.
  2:{ intros x v I. destruct (H x v I) as (P & S & U & _). auto. }
  cbn [bind]. destruct (existsb _ vs) eqn:B; [reflexivity|].
  destruct (alias_free [] vs) eqn:A; [|reflexivity]. apply alias_free_spec in A. destruct A. contradiction.
Qed.

(** * [dict.update] *)
Section Update.
  Context {V : Type}.
  Implicit Types d kvs : list (pystr * V).

  Lemma update_snoc : forall d kvs k v, dict_update d (kvs ++ [(k, v)]) = dict_set (dict_update d kvs) k v.
  Proof. intros d kvs k v. unfold dict_update. rewrite fold_left_app. reflexivity. Qed.

  Lemma set_get : forall d k v k', dict_get (dict_set d k v) k' = if pystr_eqb k k' then Some v else dict_get d k'.
  Proof.
    induction d as [|[x w] d IH]; intros k v k'; cbn [dict_set dict_get]; [reflexivity|].
    destruct (pystr_eqb x k) eqn:Q.
    - apply pystr_eqb_eq in Q. subst x. cbn [dict_get]. destruct (pystr_eqb k k'); reflexivity.
    - cbn [dict_get]. rewrite IH. destruct (pystr_eqb x k') eqn:Q'; [|reflexivity].
      apply pystr_eqb_eq in Q'. subst k'. destruct (pystr_eqb k x) eqn:R; [|reflexivity].
      apply pystr_eqb_eq in R. subst. rewrite pystr_eqb_refl in Q. discriminate.
  Qed.

  Lemma set_names : forall d k v, map fst (dict_set d k v) = map fst d \/ map fst (dict_set d k v) = map fst d ++ [k].
  Proof.
    induction d as [|[x w] d IH]; intros k v; cbn [dict_set map fst]; [right; reflexivity|].
    destruct (pystr_eqb x k); [left; reflexivity|]. cbn [map fst]. destruct (IH k v) as [->| ->]; auto.
  Qed.

  Lemma set_nodup : forall d k v, NoDup (map fst d) -> NoDup (map fst (dict_set d k v)).
  Proof.
    induction d as [|[x w] d IH]; intros k v N; cbn [dict_set map fst]; [constructor; [intros [] | constructor]|].
    inversion N as [|? ? N1 N2]; subst. destruct (pystr_eqb x k) eqn:Q; cbn [map fst]; constructor; auto.
    intros I. destruct (set_names d k v) as [S|S]; rewrite S in I; [contradiction|].
    apply in_app_or in I. destruct I as [I|[<-|[]]]; [contradiction|]. rewrite pystr_eqb_refl in Q. discriminate.
  Qed.

  Lemma update_nodup : forall kvs d, NoDup (map fst d) -> NoDup (map fst (dict_update d kvs)).
  Proof. induction kvs as [|[k v] kvs IH]; intros d N; [exact N|]. apply IH. apply set_nodup. exact N. Qed.

  Lemma update_get : forall kvs d k, NoDup (map fst kvs) ->
    dict_get (dict_update d kvs) k = match dict_get kvs k with Some v => Some v | None => dict_get d k end.
  Proof.
    induction kvs as [|[x w] kvs IH]; intros d k N; [reflexivity|]. inversion N as [|? ? N1 N2]; subst.
    unfold dict_update. cbn [fold_left fst snd]. fold (dict_update (dict_set d x w) kvs). rewrite (IH _ _ N2), set_get.
    cbn [dict_get]. destruct (pystr_eqb x k) eqn:Q; [|reflexivity]. apply pystr_eqb_eq in Q. subst k.
    destruct (dict_get kvs x) as [u|] eqn:G; [|reflexivity]. exfalso. apply dict_get_in in G. apply N1. apply in_map_iff.
    exists (x, u). auto.
  Qed.

  (** Old keys keep their places, with new values; new keys follow. *)
  Definition overridden d kvs : list (pystr * V) :=
    map (fun kv => (fst kv, match dict_get kvs (fst kv) with Some w => w | None => snd kv end)) d ++
    filter (fun kv => negb (dict_mem d (fst kv))) kvs.

  Lemma set_same : forall d k v w, dict_get d k = Some w ->
    dict_set d k v = map (fun kv => (fst kv, if pystr_eqb (fst kv) k then v else snd kv)) d \/ ~ NoDup (map fst d).
  Proof.
    induction d as [|[x u] d IH]; intros k v w G; [discriminate|]. cbn [dict_get dict_set map fst snd] in *.
    destruct (pystr_eqb x k) eqn:Q.
    - apply pystr_eqb_eq in Q. subst x. destruct (in_dec pystr_eq_dec k (map fst d)) as [I|I].
      + right. intros N. inversion N; contradiction.
      + left. f_equal. rewrite <- (map_id d) at 1. apply map_ext_in. intros [y z] J. cbn [fst snd].
        destruct (pystr_eqb y k) eqn:R; [|reflexivity]. apply pystr_eqb_eq in R. subst y. exfalso. apply I.
        apply in_map_iff. exists (k, z). auto.
    - destruct (IH k v w G) as [->|N]; [left; reflexivity | right]. intros M. apply N. inversion M; assumption.
  Qed.

  Lemma update_spec : forall kvs d, NoDup (map fst d) -> NoDup (map fst kvs) -> dict_update d kvs = overridden d kvs.
  Proof.
    induction kvs as [|[k v] kvs IH]; intros d N M.
    - unfold overridden, dict_update. cbn [fold_left filter dict_get]. rewrite app_nil_r.
      rewrite <- (map_id d) at 1. apply map_ext. intros []. reflexivity.
    - inversion M as [|? ? M1 M2]; subst. unfold dict_update. cbn [fold_left fst snd]. fold (dict_update (dict_set d k v) kvs).
      rewrite (IH _ (set_nodup d k v N) M2). unfold overridden. cbn [filter fst].
      assert (NG : dict_get kvs k = None) by (apply dict_get_none; exact M1).
      destruct (dict_get d k) as [w|] eqn:G.
      + unfold dict_mem at 2. rewrite G. cbn [negb]. destruct (set_same d k v w G) as [S|S]; [|contradiction]. f_equal.
        * rewrite S, map_map. apply map_ext_in. intros [x u] I. cbn [fst snd dict_get].
          destruct (pystr_eqb k x) eqn:Q.
          -- apply pystr_eqb_eq in Q. subst x. rewrite NG, pystr_eqb_refl. reflexivity.
          -- destruct (pystr_eqb x k) eqn:R; [apply pystr_eqb_eq in R; subst; rewrite pystr_eqb_refl in Q; discriminate|]. reflexivity.
        * apply filter_ext_in. intros [x u] I. cbn [fst]. unfold dict_mem. rewrite set_get.
          destruct (pystr_eqb k x) eqn:Q; [|reflexivity]. apply pystr_eqb_eq in Q. subst x. rewrite G. reflexivity.
      + unfold dict_mem at 2. rewrite G. cbn [negb].
        assert (ND : ~ In k (map fst d)) by (apply dict_get_none; exact G).
        rewrite (dict_set_fresh d k v ND), map_app. cbn [map fst snd]. rewrite NG, <- app_assoc. cbn [app]. f_equal; [|f_equal].
        * apply map_ext_in. intros [x u] I. cbn [fst snd dict_get].
          destruct (pystr_eqb k x) eqn:Q; [|reflexivity]. apply pystr_eqb_eq in Q. subst x. exfalso. apply ND.
          apply in_map_iff. exists (k, u). auto.
        * apply filter_ext_in. intros [x u] I. cbn [fst]. rewrite <- (dict_set_fresh d k v ND). unfold dict_mem. rewrite set_get.
          destruct (pystr_eqb k x) eqn:Q; [|reflexivity]. apply pystr_eqb_eq in Q. subst x. exfalso. apply M1.
          apply in_map_iff. exists (k, u). auto.
  Qed.

  Lemma update_fresh : forall d kvs, NoDup (map fst d) -> NoDup (map fst kvs) ->
    (forall k, In k (map fst d) -> ~ In k (map fst kvs)) -> dict_update d kvs = d ++ kvs.
  Proof.
    intros d kvs N M D. rewrite (update_spec kvs d N M). unfold overridden. f_equal.
    - rewrite <- (map_id d) at 2. apply map_ext_in. intros [x u] I. cbn [fst snd id].
      assert (G : dict_get kvs x = None) by (apply dict_get_none, D, in_map_iff; exists (x, u); auto). rewrite G. reflexivity.
    - assert (A : forall kv, In kv kvs -> dict_mem d (fst kv) = false).
      { intros [x u] I. unfold dict_mem. cbn [fst]. destruct (dict_get d x) as [w|] eqn:G; [|reflexivity]. exfalso.
        apply dict_get_in in G. apply (D x); apply in_map_iff; [exists (x, w) | exists (x, u)]; auto. }
      clear N M D. induction kvs as [|kv kvs IH]; [reflexivity|]. cbn [filter]. rewrite (A kv (or_introl eq_refl)). cbn [negb].
      f_equal. apply IH. intros kv' I. apply A. right. exact I.
  Qed.
End Update.

(** * Enumerations made from strings *)
Lemma safe_nil : forall uni s, enum_safe_name uni s = [] <-> s = [].
Proof.
  intros uni s. split; [|intros ->; reflexivity]. unfold enum_safe_name. destruct (_ || _); [discriminate|].
  destruct s; [reflexivity | discriminate].
Qed.

Lemma safe_mro : forall uni s, enum_safe_name uni s = str "mro" <-> s = str "mro".
Proof.
  intros uni s. split; [|intros ->; reflexivity]. unfold enum_safe_name. destruct (_ || _); [discriminate|].
  assert (H : forall l k, ~ In 95%N k -> map (fun c => if word_char uni c then c else 95%N) l = k -> l = k).
  { induction l as [|c l IH]; intros k N Q; [exact Q|]. cbn [map] in Q. subst k.
    f_equal.
    - destruct (word_char uni c); [reflexivity|]. exfalso. apply N. left. reflexivity.
    - apply IH; [|reflexivity]. intros J. apply N. right. exact J. }
  apply H. intros J. repeat destruct J as [J|J]; try discriminate J. contradiction.
Qed.

Lemma enum_body_filter : forall cls vs, (forall x v, In (x, v) vs -> ~ sunder x /\ ~ dunder x) ->
  enum_body cls vs = Ok (filter (fun m => negb (is_private cls (fst m))) vs).
Proof.
  intros cls. induction vs as [|[x v] vs IH]; intros H; [reflexivity|]. cbn [enum_body filter fst].
  destruct (H x v (or_introl eq_refl)) as (S & D).
  assert (IH' : enum_body cls vs = Ok (filter (fun m => negb (is_private cls (fst m))) vs)) by (apply IH; intros y w I; apply (H y w); right; exact I).
  destruct (is_private cls x) eqn:QP; cbn [negb]; [exact IH'|].
  destruct (is_sunder x) eqn:QS; [apply is_sunder_spec in QS; contradiction|].
  destruct (is_dunder x) eqn:QD; [apply is_dunder_spec in QD; contradiction|].
  rewrite IH'. reflexivity.
Qed.

Section Labels.
  Variable label : pystr -> pystr.
  Notation entries values := (map (fun e => (label e, JStr e)) values).

  Lemma entries_get : forall values n v, dict_get (dict_update [] (entries values)) n = Some v <->
    exists s, v = JStr s /\ last_labelled label values n s.
  Proof.
    induction values as [|e values IH] using rev_ind; intros n v.
    - cbn. split; [discriminate|]. intros (s & _ & _ & pre & post & Q & _). destruct pre; discriminate.
    - rewrite map_app. cbn [map]. rewrite update_snoc, set_get. destruct (pystr_eqb (label e) n) eqn:Q.
      + apply pystr_eqb_eq in Q. split.
        * intros X. injection X as <-. exists e. split; [reflexivity|]. split; [exact Q|]. exists values, []. split; [reflexivity | intros w []].
        * intros (s & -> & L & pre & post & E & N). destruct post as [|w post] using rev_ind.
          -- apply app_inj_tail in E. destruct E as [_ ->]. reflexivity.
          -- clear IHpost. rewrite app_comm_cons, app_assoc in E. apply app_inj_tail in E. destruct E as [_ ->]. exfalso.
             apply (N w); [apply in_or_app; right; left; reflexivity | exact Q].
      + assert (NE : label e <> n) by (intros X; subst n; rewrite pystr_eqb_refl in Q; discriminate). rewrite IH. split.
        * intros (s & -> & L & pre & post & -> & N). exists s. split; [reflexivity|]. split; [exact L|]. exists pre, (post ++ [e]).
          split; [rewrite <- app_assoc; reflexivity|]. intros w I. apply in_app_or in I. destruct I as [I|[<-|[]]]; auto.
        * intros (s & -> & L & pre & post & E & N). exists s. split; [reflexivity|]. split; [exact L|].
          destruct post as [|w post] using rev_ind.
          -- apply app_inj_tail in E. destruct E as [_ ->]. contradiction.
          -- clear IHpost. rewrite app_comm_cons, app_assoc in E. apply app_inj_tail in E. destruct E as [E ->].
             exists pre, post. split; [exact E|]. intros w0 I. apply N. apply in_or_app. auto.
  Qed.

  Lemma entries_nodup : forall values, NoDup (map fst (dict_update [] (entries values))).
  Proof. intros values. apply update_nodup. constructor. Qed.

  Lemma entries_in : forall values n v, In (n, v) (dict_update [] (entries values)) <-> exists s, v = JStr s /\ last_labelled label values n s.
  Proof.
    intros values n v. rewrite <- entries_get. split.
    - apply dict_get_nodup. apply entries_nodup.
    - apply dict_get_in.
  Qed.

  Lemma entries_labelled : forall values w, In w values -> exists v, last_labelled label values (label w) v.
  Proof.
    intros values w I. destruct (dict_get (dict_update [] (entries values)) (label w)) as [v|] eqn:G.
    - apply entries_get in G. destruct G as (s & _ & L). eauto.
    - exfalso. revert G. revert I. induction values as [|e values IH] using rev_ind; intros I; [contradiction|].
      rewrite map_app. cbn [map]. rewrite update_snoc, set_get. destruct (pystr_eqb (label e) (label w)) eqn:Q; [discriminate|].
      apply IH. apply in_app_or in I. destruct I as [I|[->|[]]]; [exact I|]. rewrite pystr_eqb_refl in Q. discriminate.
  Qed.
End Labels.

Lemma nodup_filter_fst : forall (f : pystr * json -> bool) l, NoDup (map fst l) -> NoDup (map fst (filter f l)).
Proof.
  intros f. induction l as [|a l IH]; intros N; [constructor|]. inversion N as [|? ? N1 N2]; subst. cbn [filter].
  destruct (f a); [|auto]. cbn [map]. constructor; [|auto]. intros I. apply N1. apply in_map_iff in I. destruct I as (x & Q & I).
  apply filter_In in I. apply in_map_iff. exists x. tauto.
Qed.

Lemma distinct_pairs : forall ms : list (pystr * json), NoDup (map fst ms) ->
  (forall n m v w, In (n, v) ms -> In (m, w) ms -> json_equal v w -> n = m) ->
  ForallOrdPairs (fun a b => ~ json_equal (snd a) (snd b)) ms.
Proof.
  induction ms as [|[n v] ms IH]; intros N H; [constructor|]. inversion N as [|? ? N1 N2]; subst. constructor.
  - apply Forall_forall. intros [m w] I J. cbn [snd] in J. pose proof (H n m v w (or_introl eq_refl) (or_intror I) J) as X. subst m.
    apply N1. apply in_map_iff. exists (n, w). auto.
  - apply IH; [exact N2|]. intros n' m' v' w' I J. apply H; right; assumption.
Qed.

Lemma enum_from_strings : forall uni context values, ~ In (str "mro") values -> ~ In [] values ->
  exists ms, enum_values_to_type uni context values = Ok ms /\ NoDup (map fst ms) /\
    forall n j, In (n, j) ms <-> exists v, j = JStr v /\ last_labelled (enum_safe_name uni) values n v /\ ~ private context n.
Proof.
  intros uni context values NM NE. unfold enum_values_to_type, unique_enum.
  set (d := dict_update [] _).
  assert (HIn : forall n v, In (n, v) d <-> exists s, v = JStr s /\ last_labelled (enum_safe_name uni) values n s) by (intros; apply entries_in).
  assert (HN : NoDup (map fst d)) by apply entries_nodup.
  rewrite (enum_body_filter context d).
  2:{ intros x v I. apply HIn in I. destruct I as (s & -> & <- & _). apply safe_ordinary. }
  cbn [bind]. set (ms := filter _ d).
  assert (MIn : forall n j, In (n, j) ms <-> exists v, j = JStr v /\ last_labelled (enum_safe_name uni) values n v /\ ~ private context n).
  { intros n j. unfold ms. rewrite filter_In, HIn. cbn [fst]. rewrite negb_true_iff. split.
    - intros [(s & -> & L) P]. exists s. split; [reflexivity|]. split; [exact L|]. intros X. apply is_private_spec in X. congruence.
    - intros (s & -> & L & P). split; [eauto|]. destruct (is_private context n) eqn:X; [|reflexivity]. apply is_private_spec in X. contradiction. }
  assert (MN : NoDup (map fst ms)) by (apply nodup_filter_fst; exact HN).
  destruct (existsb _ ms) eqn:B.
  { apply bad_name in B. destruct B as (x & v & I & B). apply MIn in I. destruct I as (s & -> & (L & pre & post & -> & _) & _).
    exfalso. destruct B as [->| ->].
    - apply safe_mro in L. subst s. apply NM. apply in_or_app. right. left. reflexivity.
    - apply safe_nil in L. subst s. apply NE. apply in_or_app. right. left. reflexivity. }
  assert (A : alias_free [] ms = true).
  { apply alias_free_spec. split; [intros q m []|]. apply distinct_pairs; [exact MN|]. intros n m v w I J K.
    apply MIn in I, J. destruct I as (s & -> & (L & _) & _), J as (s' & -> & (L' & _) & _).
    inversion K as [|s0|? ? ? ? K1|]; subst; [reflexivity | inversion K1]. }
  rewrite A. exists ms. auto.
Qed.

Lemma mro_not_private : forall cls, ~ private cls (str "mro") /\ ~ private cls [].
Proof. intros cls. split; intros [(a & _ & Q) _]; discriminate Q. Qed.

Lemma enum_from_strings_fails : forall uni context values, In (str "mro") values \/ In [] values ->
  enum_values_to_type uni context values = Err EValue.
Proof.
  intros uni context values H. unfold enum_values_to_type, unique_enum.
  set (d := dict_update [] _).
  assert (HIn : forall n v, In (n, v) d <-> exists s, v = JStr s /\ last_labelled (enum_safe_name uni) values n s) by (intros; apply entries_in).
  rewrite (enum_body_filter context d).
  2:{ intros x v I. apply HIn in I. destruct I as (s & -> & <- & _). apply safe_ordinary. }
  cbn [bind]. set (ms := filter _ d).
  assert (B : existsb (fun m => mem_str (fst m) [str "mro"; []]) ms = true).
  { apply bad_name. destruct H as [H|H]; destruct (entries_labelled (enum_safe_name uni) values _ H) as (v & L).
    - exists (str "mro"), (JStr v). split; [|auto]. apply filter_In. split; [apply HIn; exists v; split; [reflexivity | exact L]|].
      cbn [fst]. apply negb_true_iff. destruct (is_private context (str "mro")) eqn:X; [|reflexivity].
      apply is_private_spec in X. destruct (mro_not_private context). contradiction.
    - exists [], (JStr v). split; [|auto]. apply filter_In. split; [apply HIn; exists v; split; [reflexivity | exact L]|].
      cbn [fst]. apply negb_true_iff. destruct (is_private context []) eqn:X; [|reflexivity].
      apply is_private_spec in X. destruct (mro_not_private context). contradiction. }
  rewrite B. reflexivity.
Qed.

Lemma update_nil : forall kvs : list (pystr * json), NoDup (map fst kvs) -> dict_update [] kvs = kvs.
Proof. intros kvs N. rewrite update_fresh; [reflexivity | constructor | exact N | intros k []]. Qed.

Lemma enum_from_strings_all : forall uni context values,
  NoDup (map (enum_safe_name uni) values) ->
  (forall v, In v values -> v <> str "mro" /\ v <> [] /\ ~ private context (enum_safe_name uni v)) ->
  enum_values_to_type uni context values = Ok (map (fun v => (enum_safe_name uni v, JStr v)) values).
Proof.
  intros uni context values N H. unfold enum_values_to_type.
  assert (E : map fst (map (fun e => (enum_safe_name uni e, JStr e)) values) = map (enum_safe_name uni) values)
    by (rewrite map_map; apply map_ext; reflexivity).
  rewrite update_nil by (rewrite E; exact N). apply unique_enum_all.
  - intros x v I. apply in_map_iff in I. destruct I as (s & Q & I). apply pair_equal_spec in Q. destruct Q as [<- <-].
    destruct (H s I) as (A & B & C). split; [exact C|]. destruct (safe_ordinary uni s) as [D F].
    split; [exact D|]. split; [exact F|]. split; intros X; [apply safe_mro in X | apply safe_nil in X]; contradiction.
  - apply distinct_pairs; [rewrite E; exact N|]. intros n m v w I J K. apply in_map_iff in I, J.
    destruct I as (s & Q & _), J as (s' & Q' & _). apply pair_equal_spec in Q, Q'. destruct Q as [<- <-], Q' as [<- <-].
    inversion K as [|s0|? ? ? ? K1|]; subst; [reflexivity | inversion K1].
Qed.

(** * [extend_enum] *)
Lemma find_get : forall (l : list (pystr * json)) k, find (fun e => pystr_eqb (fst e) k) l =
  match dict_get l k with Some v => Some (k, v) | None => None end.
Proof.
  induction l as [|[x v] l IH]; intros k; [reflexivity|]. cbn [find dict_get fst]. destruct (pystr_eqb x k) eqn:Q; [|apply IH].
  apply pystr_eqb_eq in Q. subst. reflexivity.
Qed.

Lemma existsb_mem : forall (l : list (pystr * json)) k, existsb (fun m => pystr_eqb (fst m) k) l = dict_mem l k.
Proof.
  unfold dict_mem. induction l as [|[x v] l IH]; intros k; [reflexivity|]. cbn [existsb dict_get fst]. rewrite IH.
  destruct (pystr_eqb x k); reflexivity.
Qed.

Lemma merged_overridden : forall s e, merged s e = overridden s e.
Proof.
  intros s e. unfold merged, overridden. f_equal.
  - apply map_ext. intros [x v]. cbn [fst snd]. rewrite find_get. destruct (dict_get e x); reflexivity.
  - apply filter_ext. intros [x v]. cbn [fst]. rewrite existsb_mem. reflexivity.
Qed.

Lemma merged_in : forall s e x v, In (x, v) (merged s e) -> In (x, v) s \/ In (x, v) e.
Proof.
  intros s e x v I. rewrite merged_overridden in I. unfold overridden in I. apply in_app_or in I. destruct I as [I|I].
  - apply in_map_iff in I. destruct I as ([y w] & Q & I). cbn [fst snd] in Q. apply pair_equal_spec in Q. destruct Q as [-> Q].
    destruct (dict_get e x) as [u|] eqn:G; [|subst; auto]. subst u. right. apply dict_get_in. exact G.
  - apply filter_In in I. tauto.
Qed.

Lemma extend_enum_merged : forall source name extend, members source -> members extend ->
  (forall x v, In (x, v) (source ++ extend) -> ~ private name x) ->
  (ForallOrdPairs (fun a b => ~ json_equal (snd a) (snd b)) (merged source extend) ->
     extend_enum source name extend = Ok (merged source extend)) /\
  (~ ForallOrdPairs (fun a b => ~ json_equal (snd a) (snd b)) (merged source extend) ->
     extend_enum source name extend = Err EValue).
Proof.
  intros source name extend S X P. unfold extend_enum.
  rewrite (update_nil source (me_names _ S)), (update_spec extend source (me_names _ S) (me_names _ X)), <- merged_overridden.
  assert (H : forall x v, In (x, v) (merged source extend) -> ~ private name x /\ ordinary x).
  { intros x v I. apply merged_in in I. split; [apply (P x v), in_or_app; exact I|].
    destruct I as [I|I]; [exact (me_ordinary _ S x v I) | exact (me_ordinary _ X x v I)]. }
  split; intros D; [apply unique_enum_all | apply unique_enum_alias]; assumption.
Qed.

Lemma merged_fresh : forall s e, NoDup (map fst s) -> NoDup (map fst e) ->
  (forall x, In x (map fst s) -> ~ In x (map fst e)) -> merged s e = s ++ e.
Proof. intros s e N M D. rewrite merged_overridden, <- (update_spec e s N M). apply update_fresh; assumption. Qed.

Lemma pairs_app : forall (A : Type) (R : A -> A -> Prop) (l1 l2 : list A), ForallOrdPairs R (l1 ++ l2) <->
  ForallOrdPairs R l1 /\ ForallOrdPairs R l2 /\ forall a b, In a l1 -> In b l2 -> R a b.
Proof.
  intros A R. induction l1 as [|x l1 IH]; intros l2; cbn [app].
  - split; [intros H; split; [constructor | split; [exact H | intros a b []]] | tauto].
  - split.
    + intros H. inversion H as [|? ? F G]; subst. apply IH in G. destruct G as (G1 & G2 & G3). apply Forall_app in F. destruct F as [F1 F2].
      split; [constructor; assumption|]. split; [exact G2|]. intros a b [<-|I] J; [rewrite Forall_forall in F2; auto | auto].
    + intros (H & G & K). inversion H as [|? ? F1 F2]; subst. constructor.
      * apply Forall_app. split; [exact F1|]. apply Forall_forall. intros b J. apply K; [left; reflexivity | exact J].
      * apply IH. split; [exact F2|]. split; [exact G|]. intros a b I J. apply K; [right; exact I | exact J].
Qed.

Lemma extend_enum_new : forall source name extend, members source -> members extend ->
  (forall x v, In (x, v) (source ++ extend) -> ~ private name x) ->
  (forall x, In x (map fst source) -> ~ In x (map fst extend)) ->
  ((forall a b, In a source -> In b extend -> ~ json_equal (snd a) (snd b)) -> extend_enum source name extend = Ok (source ++ extend)) /\
  ((exists a b, In a source /\ In b extend /\ json_equal (snd a) (snd b)) -> extend_enum source name extend = Err EValue).
Proof.
  intros source name extend S X P D.
  assert (M := merged_fresh source extend (me_names _ S) (me_names _ X) D).
  destruct (extend_enum_merged source name extend S X P) as [A B]. rewrite M in A, B. split.
  - intros H. apply A. apply pairs_app. split; [apply S | split; [apply X | exact H]].
  - intros (a & b & I & J & K). apply B. intros F. apply pairs_app in F. destruct F as (_ & _ & F). exact (F a b I J K).
Qed.
