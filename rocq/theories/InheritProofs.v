(** Proofs about inherited fields. *)
From Coq Require Import String List NArith ZArith Bool Lia.
From Verif Require Import Base Json PyTypes Lists SchemaForm Inherit SpecInherit.
Import ListNotations.
Open Scope list_scope.
Open Scope nat_scope.

(** * Names, in order of their first mention. *)
Definition addn (ns : list pystr) (x : pystr) : list pystr := if mem_str x ns then ns else ns ++ [x].

Lemma addn_in : forall ns x y, In y (addn ns x) <-> In y ns \/ y = x.
Proof.
  intros ns x y. unfold addn. destruct (mem_str x ns) eqn:Q.
  - apply mem_str_in in Q. split; [tauto|]. intros [I | ->]; assumption.
  - rewrite in_app_iff. cbn [In]. intuition congruence.
Qed.

Lemma addn_nodup : forall ns x, NoDup ns -> NoDup (addn ns x).
Proof.
  intros ns x N. unfold addn. destruct (mem_str x ns) eqn:Q; [exact N|].
  apply (NoDup_Add (a := x) (l := ns)).
  - rewrite <- (app_nil_r ns) at 1. apply Add_app.
  - split; [exact N|]. intros I. apply mem_str_in in I. congruence.
Qed.

Lemma addns_in : forall l ns y, In y (fold_left addn l ns) <-> In y ns \/ In y l.
Proof.
  induction l as [|x l IH]; intros ns y; cbn [fold_left In]; [tauto|].
  rewrite IH, addn_in. intuition congruence.
Qed.

Lemma addns_nodup : forall l ns, NoDup ns -> NoDup (fold_left addn l ns).
Proof. induction l as [|x l IH]; intros ns N; cbn [fold_left]; [exact N|]. apply IH, addn_nodup, N. Qed.

Lemma addns_old : forall l ns, (forall x, In x l -> In x ns) -> fold_left addn l ns = ns.
Proof.
  induction l as [|x l IH]; intros ns I; cbn [fold_left]; [reflexivity|].
  unfold addn at 2. rewrite (proj2 (mem_str_in x ns) (I x (or_introl eq_refl))).
  apply IH. intros y J. apply I. right. exact J.
Qed.

Lemma addns_addns : forall l ns acc, fold_left addn (fold_left addn l ns) acc = fold_left addn l (fold_left addn ns acc).
Proof.
  intros l. induction l as [|x l IH] using rev_ind; intros ns acc; [reflexivity|].
  rewrite !fold_left_app. cbn [fold_left]. rewrite <- IH. destruct (mem_str x (fold_left addn l ns)) eqn:Q.
  - assert (Z : addn (fold_left addn l ns) x = fold_left addn l ns) by (unfold addn at 1; rewrite Q; reflexivity). rewrite Z.
    apply mem_str_in in Q. symmetry. unfold addn at 1. rewrite (proj2 (mem_str_in x (fold_left addn (fold_left addn l ns) acc))); [reflexivity|].
    apply addns_in. right. exact Q.
  - assert (Z : addn (fold_left addn l ns) x = fold_left addn l ns ++ [x]) by (unfold addn at 1; rewrite Q; reflexivity).
    rewrite Z, fold_left_app. reflexivity.
Qed.

(** * Dictionaries updated by others. *)
Section Put.
  Context {V : Type}.
  Definition put (d l : list (pystr * V)) : list (pystr * V) := fold_left (fun d kv => dict_set d (fst kv) (snd kv)) l d.

  Lemma dict_set_names : forall (d : list (pystr * V)) k v, map fst (dict_set d k v) = addn (map fst d) k.
  Proof.
    intros d k v. unfold addn. induction d as [|[k' v'] d IH]; cbn [dict_set map fst].
    - reflexivity.
    - unfold mem_str in *. cbn [existsb]. destruct (pystr_eqb k' k) eqn:Q.
      + apply pystr_eqb_eq in Q. subst k'. rewrite pystr_eqb_refl. reflexivity.
      + destruct (pystr_eqb k k') eqn:Q'; [apply pystr_eqb_eq in Q'; subst; rewrite pystr_eqb_refl in Q; discriminate|].
        cbn [map fst orb]. rewrite IH. destruct (existsb (pystr_eqb k) (map fst d)); reflexivity.
  Qed.

  Lemma put_names : forall l d, map fst (put d l) = fold_left addn (map fst l) (map fst d).
  Proof.
    unfold put. induction l as [|[k v] l IH]; intros d; cbn [fold_left map fst snd]; [reflexivity|].
    rewrite IH, dict_set_names. reflexivity.
  Qed.

  Lemma put_get : forall l d x, NoDup (map fst l) ->
    dict_get (put d l) x = match dict_get l x with Some v => Some v | None => dict_get d x end.
  Proof.
    unfold put. induction l as [|[k v] l IH]; intros d x N; cbn [fold_left map fst snd dict_get]; [reflexivity|].
    cbn [map fst] in N. inversion N as [|? ? N1 N2]; subst. rewrite (IH _ _ N2), set_lookup.
    destruct (pystr_eqb k x) eqn:Q; [|reflexivity].
    apply pystr_eqb_eq in Q. subst k. rewrite (proj2 (dict_get_none l x) N1). reflexivity.
  Qed.

  Lemma dict_ext : forall a b : list (pystr * V), map fst a = map fst b -> NoDup (map fst a) ->
    (forall x, In x (map fst a) -> dict_get a x = dict_get b x) -> a = b.
  Proof.
    induction a as [|[k v] a IH]; intros [|[k' v'] b] M N G; cbn [map fst] in M; try discriminate; [reflexivity|].
    assert (k = k') by congruence. assert (M' : map fst a = map fst b) by congruence. subst k'. clear M.
    cbn [map fst] in N. inversion N as [|? ? N1 N2]; subst.
    assert (v = v').
    { specialize (G k (or_introl eq_refl)). cbn [dict_get] in G. rewrite pystr_eqb_refl in G. congruence. }
    subst v'. f_equal. apply IH; [exact M' | exact N2 |].
    intros x I. specialize (G x (or_intror I)). cbn [dict_get] in G. destruct (pystr_eqb k x) eqn:Q; [|exact G].
    apply pystr_eqb_eq in Q. subst. destruct (N1 I).
  Qed.

  (** The classes [cs], the last first, each updating what came before. *)
  Definition stack (g : nat -> list (pystr * V)) (cs : list nat) : list (pystr * V) := fold_left (fun d b => put d (g b)) (rev cs) [].

  Fixpoint looked (g : nat -> list (pystr * V)) (cs : list nat) (x : pystr) : option V :=
    match cs with
    | [] => None
    | b :: r => match dict_get (g b) x with Some v => Some v | None => looked g r x end
    end.

  Lemma stack_cons : forall g c cs, stack g (c :: cs) = put (stack g cs) (g c).
  Proof. intros g c cs. unfold stack. cbn [rev]. rewrite fold_left_app. reflexivity. Qed.

  Lemma stack_get : forall g cs x, (forall b, In b cs -> NoDup (map fst (g b))) -> dict_get (stack g cs) x = looked g cs x.
  Proof.
    intros g cs x. induction cs as [|b cs IH]; intros N; [reflexivity|].
    rewrite stack_cons, put_get by (apply N; left; reflexivity). cbn [looked]. rewrite IH; [reflexivity|].
    intros a I. apply N. right. exact I.
  Qed.

  Lemma stack_names : forall g cs, map fst (stack g cs) = fold_left addn (flat_map (fun b => map fst (g b)) (rev cs)) [].
  Proof.
    intros g cs. induction cs as [|b cs IH]; [reflexivity|].
    rewrite stack_cons, put_names, IH. cbn [rev]. rewrite flat_map_app, fold_left_app. cbn [flat_map].
    rewrite app_nil_r. reflexivity.
  Qed.

  Lemma stack_nodup : forall g cs, NoDup (map fst (stack g cs)).
  Proof. intros g cs. rewrite stack_names. apply addns_nodup. constructor. Qed.

  Lemma stack_ext : forall g h cs, (forall b, In b cs -> g b = h b) -> stack g cs = stack h cs.
  Proof.
    intros g h cs. induction cs as [|b cs IH]; intros I; [reflexivity|].
    rewrite !stack_cons, IH, (I b (or_introl eq_refl)); [reflexivity|]. intros a J. apply I. right. exact J.
  Qed.

  Lemma looked_in : forall g cs x v, looked g cs x = Some v -> exists b, In b cs /\ dict_get (g b) x = Some v.
  Proof.
    intros g cs x v. induction cs as [|b cs IH]; cbn [looked]; [discriminate|].
    destruct (dict_get (g b) x) as [w|] eqn:Q.
    - intros R. exists b. split; [left; reflexivity | congruence].
    - intros R. destruct (IH R) as (a & I & G). exists a. split; [right; exact I | exact G].
  Qed.

  Lemma looked_none : forall g cs x, looked g cs x = None <-> forall b, In b cs -> dict_get (g b) x = None.
  Proof.
    intros g cs x. induction cs as [|b cs IH]; cbn [looked]; [split; [intros _ b [] | reflexivity]|].
    destruct (dict_get (g b) x) as [w|] eqn:Q.
    - split; [discriminate|]. intros G. rewrite (G b (or_introl eq_refl)) in Q. discriminate.
    - rewrite IH. split.
      + intros G a [<- | I]; [exact Q | exact (G a I)].
      + intros G a I. apply G. right. exact I.
  Qed.
End Put.

(** * Fields as dictionaries. *)
Definition named (f : field) : pystr * field := (f_name f, f).

Lemma named_fst : forall fs, map fst (map named fs) = map f_name fs.
Proof. intros fs. rewrite map_map. reflexivity. Qed.
Lemma named_snd : forall fs, map snd (map named fs) = fs.
Proof. intros fs. rewrite map_map. apply map_id. Qed.
Lemma named_inj : forall a b, map named a = map named b -> a = b.
Proof. intros a b Q. rewrite <- (named_snd a), <- (named_snd b), Q. reflexivity. Qed.

Lemma set_field_named : forall d f, map named (set_field d f) = dict_set (map named d) (f_name f) f.
Proof.
  induction d as [|g d IH]; intros f; cbn [set_field map named dict_set]; [reflexivity|].
  destruct (pystr_eqb (f_name g) (f_name f)) eqn:Q; cbn [map].
  - apply pystr_eqb_eq in Q. unfold named at 1. rewrite Q. reflexivity.
  - rewrite IH. reflexivity.
Qed.

Lemma set_fields_named : forall l d, map named (set_fields d l) = put (map named d) (map named l).
Proof.
  unfold set_fields, put. induction l as [|f l IH]; intros d; cbn [fold_left map]; [reflexivity|].
  rewrite IH, set_field_named. reflexivity.
Qed.

Definition mine (H : hierarchy) (b : nat) : list (pystr * field) := map named (own H b).

(** The fields of all classes that [c] inherits from, written out. *)
Definition written_out (H : hierarchy) (c : nat) : list field := map snd (stack (mine H) (h_mro H c)).

Lemma put_named : forall (d l : list (pystr * field)), (forall kv, In kv d -> fst kv = f_name (snd kv)) ->
  (forall kv, In kv l -> fst kv = f_name (snd kv)) -> forall kv, In kv (put d l) -> fst kv = f_name (snd kv).
Proof.
  intros d l. revert d. unfold put. induction l as [|[k f] l IH]; intros d D L kv I; cbn [fold_left fst snd] in I; [exact (D kv I)|].
  apply (IH _) in I; [exact I | | intros w J; apply L; right; exact J].
  intros [k' f'] J. apply SchemaProofs.dict_set_in in J. destruct J as [[-> ->] | J]; [exact (L (k, f) (or_introl eq_refl)) | exact (D _ J)].
Qed.

Lemma mine_named : forall H b kv, In kv (mine H b) -> fst kv = f_name (snd kv).
Proof. intros H b kv I. unfold mine in I. apply in_map_iff in I. destruct I as (f & <- & _). reflexivity. Qed.

Lemma stack_mine_named : forall H cs kv, In kv (stack (mine H) cs) -> fst kv = f_name (snd kv).
Proof.
  intros H. induction cs as [|b cs IH]; intros kv I; [destruct I|].
  rewrite stack_cons in I. exact (put_named _ _ IH (mine_named H b) kv I).
Qed.

Lemma written_named : forall H c, map named (written_out H c) = stack (mine H) (h_mro H c).
Proof.
  intros H c. unfold written_out. rewrite map_map. rewrite <- (map_id (stack (mine H) (h_mro H c))) at 2.
  apply map_ext_in. intros [k f] I. unfold named. cbn [snd]. apply stack_mine_named in I. cbn [fst snd] in I. rewrite <- I. reflexivity.
Qed.

Lemma mine_get : forall H b x f, NoDup (map f_name (own H b)) -> dict_get (mine H b) x = Some f <-> In f (own H b) /\ f_name f = x.
Proof.
  intros H b x f N. split.
  - intros G. apply dict_get_in in G. unfold mine in G. apply in_map_iff in G. destruct G as (g & Q & I). unfold named in Q.
    assert (f = g) by congruence. subst g. split; [exact I | congruence].
  - intros [I <-]. apply dict_get_nodup; [unfold mine; rewrite named_fst; exact N|]. unfold mine. change (f_name f, f) with (named f). apply in_map, I.
Qed.

Lemma mine_none : forall H b x, dict_get (mine H b) x = None <-> ~ In x (map f_name (own H b)).
Proof. intros H b x. rewrite dict_get_none. unfold mine. rewrite named_fst. tauto. Qed.

(** * The rule of attributes. *)
Lemma same_field : forall H b f g, NoDup (map f_name (own H b)) -> In f (own H b) -> In g (own H b) -> f_name f = f_name g -> f = g.
Proof.
  intros H b f g N I J Q. pose proof (proj2 (mine_get H b (f_name f) f N) (conj I eq_refl)) as F.
  pose proof (proj2 (mine_get H b (f_name f) g N) (conj J (eq_sym Q))) as G. congruence.
Qed.

Lemma looked_first : forall H cs x f, (forall b, NoDup (map f_name (own H b))) ->
  looked (mine H) cs x = Some f <-> exists b, first_says H x cs b f.
Proof.
  intros H cs x f N. induction cs as [|a cs IH]; cbn [looked].
  - split; [discriminate|]. intros (b & F). inversion F.
  - destruct (dict_get (mine H a) x) as [g|] eqn:Q.
    + apply mine_get in Q; [|apply N]. destruct Q as [I Q]. split.
      * intros R. assert (g = f) by congruence. subst g. exists a. apply fs_here; assumption.
      * intros (b & F). inversion F as [b' cs' f' I' Q' | a' cs' b' f' X F']; subst.
        -- f_equal. apply (same_field H b); [apply N | assumption | assumption | congruence].
        -- destruct X. apply in_map, I.
    + rewrite IH. split.
      * intros (b & F). exists b. apply fs_later; [apply mine_none, Q | exact F].
      * intros (b & F). inversion F as [b' cs' f' I' Q' | a' cs' b' f' X F']; subst; [|exists b; exact F'].
        apply mine_none in Q. destruct Q. apply in_map, I'.
Qed.

Lemma first_unique : forall H x cs b f b' f', (forall b, NoDup (map f_name (own H b))) ->
  first_says H x cs b f -> first_says H x cs b' f' -> b = b' /\ f = f'.
Proof.
  intros H x cs b f b' f' N F. induction F as [b cs f I Q | a cs b f X F IH]; intros G;
    inversion G as [b1 cs1 f1 I1 Q1 | a1 cs1 b1 f1 X1 G1]; subst.
  - split; [reflexivity|].
    apply (same_field H b'); [apply N | assumption | assumption | congruence].
  - destruct X1. apply in_map, I.
  - destruct X. apply in_map, I1.
  - exact (IH G1).
Qed.

(** * Orders of resolution. *)
Lemma sub_in : forall A (l l' : list A) x, sub l l' -> In x l -> In x l'.
Proof.
  intros A l l' x S. induction S as [| y l l' S IH | y l l' S IH]; intros I; [exact I | right; exact (IH I) |].
  destruct I as [<- | I]; [left; reflexivity | right; exact (IH I)].
Qed.

Lemma sub_trans_in : forall H c b a, hierarchy_ok H -> In b (h_mro H c) -> In a (h_mro H b) -> In a (h_mro H c).
Proof. intros H c b a K I J. exact (sub_in _ _ _ a (ho_order H K c b I) J). Qed.

Lemma mro_split : forall H c, hierarchy_ok H -> h_mro H c = c :: tl (h_mro H c).
Proof. intros H c K. destruct (ho_self H K c) as (cs & Q). rewrite Q. reflexivity. Qed.

Lemma in_tl : forall H c b, hierarchy_ok H -> In b (tl (h_mro H c)) -> In b (h_mro H c).
Proof. intros H c b K I. rewrite (mro_split H c K). right. exact I. Qed.

Lemma self_in : forall H c, hierarchy_ok H -> In c (h_mro H c).
Proof. intros H c K. rewrite (mro_split H c K). left. reflexivity. Qed.

(** What follows a class in an order: the classes that it inherits from come after it. *)
Lemma sub_after : forall A (l : list A) x m1 m2, NoDup (m1 ++ x :: m2) -> sub (x :: l) (m1 ++ x :: m2) -> forall y, In y l -> In y m2.
Proof.
  intros A l x m1. induction m1 as [|z m1 IH]; intros m2 N S y I; cbn [app] in *.
  - inversion S as [| z l1 l2 S1 | z l1 l2 S1]; subst.
    + inversion N as [|? ? N1 N2]; subst. destruct N1. exact (sub_in _ _ _ x S1 (or_introl eq_refl)).
    + exact (sub_in _ _ _ y S1 I).
  - inversion N as [|? ? N1 N2]; subst. inversion S as [| z' l1 l2 S1 | z' l1 l2 S1]; subst.
    + exact (IH m2 N2 S1 y I).
    + destruct N1. apply in_or_app. right. left. reflexivity.
Qed.

Lemma bases_after : forall H c m1 b m2, hierarchy_ok H -> h_mro H c = m1 ++ b :: m2 -> forall a, In a (tl (h_mro H b)) -> In a m2.
Proof.
  intros H c m1 b m2 K Q a I. assert (J : In b (h_mro H c)) by (rewrite Q; apply in_or_app; right; left; reflexivity).
  pose proof (ho_order H K c b J) as S. rewrite (mro_split H b K), Q in S.
  pose proof (ho_nodup H K c) as N. rewrite Q in N. exact (sub_after _ _ _ _ _ N S a I).
Qed.

(** * Data classes. *)
Lemma all_data_base : forall H c b, hierarchy_ok H -> all_data H c -> In b (h_mro H c) -> all_data H b.
Proof. intros H c b K D I a J. apply D. exact (sub_trans_in H c b a K I J). Qed.

Lemma owner_self : forall H c, hierarchy_ok H -> all_data H c -> fields_owner H c = Some c.
Proof.
  intros H c K D. unfold fields_owner. rewrite (mro_split H c K). cbn [find]. rewrite (D c (self_in H c K)). reflexivity.
Qed.

Definition theirs (H : hierarchy) (n b : nat) : list (pystr * field) := map named (data_fields H n b).

Lemma fields_named : forall H n c, hierarchy_ok H -> all_data H c ->
  theirs H (S n) c = put (stack (theirs H n) (tl (h_mro H c))) (mine H c).
Proof.
  intros H n c K D. unfold theirs at 1. cbn [data_fields]. rewrite set_fields_named. f_equal. unfold stack.
  assert (X : forall b, In b (rev (tl (h_mro H c))) -> fields_owner H b = Some b).
  { intros b I. apply owner_self; [exact K|]. apply (all_data_base H c b K D). apply in_tl; [exact K|]. apply in_rev, I. }
  change (@nil (pystr * field)) with (map named []) at 1. generalize (@nil field). revert X.
  generalize (rev (tl (h_mro H c))). induction l as [|b l IH]; intros X d; cbn [fold_left]; [reflexivity|].
  rewrite (X b (or_introl eq_refl)), IH by (intros a I; apply X; right; exact I).
  rewrite set_fields_named. reflexivity.
Qed.

(** The names of the fields are those of all classes inherited from, in the order of
    the annotations. *)
Lemma put_over : forall V W (ds : list (pystr * V)) (d1 d2 : list (pystr * W)),
  (forall x, In x (map fst d1) -> In x (map fst ds)) ->
  fold_left addn (map fst (put d1 d2)) (map fst ds) = fold_left addn (map fst d2) (map fst ds).
Proof.
  intros V W ds d1 d2 I. rewrite put_names, addns_addns, (addns_old (map fst d1)) by exact I. reflexivity.
Qed.

Lemma stack_mine_in : forall H cs x, In x (map fst (stack (mine H) cs)) <-> exists b, In b cs /\ In x (map f_name (own H b)).
Proof.
  intros H cs x. rewrite stack_names, addns_in, in_flat_map. split.
  - intros [[] | (b & I & J)]. exists b. split; [apply in_rev, I|]. unfold mine in J. rewrite named_fst in J. exact J.
  - intros (b & I & J). right. exists b. split; [apply in_rev; rewrite rev_involutive; exact I|]. unfold mine. rewrite named_fst. exact J.
Qed.

Lemma data_names : forall H, hierarchy_ok H -> forall n c, c < n -> all_data H c ->
  map fst (theirs H n c) = map fst (stack (mine H) (h_mro H c)).
Proof.
  intros H K. induction n as [|n IH]; intros c L D; [lia|].
  rewrite (fields_named H n c K D). rewrite (mro_split H c K), stack_cons, !put_names. cbn [tl]. f_equal.
  (* the bases *)
  assert (B : forall b, In b (tl (h_mro H c)) -> b < n /\ all_data H b /\ map fst (theirs H n b) = map fst (stack (mine H) (h_mro H b))).
  { intros b I. pose proof (ho_before H K c b I) as LT. assert (Db : all_data H b) by (apply (all_data_base H c b K D), in_tl; assumption).
    assert (b < n) by lia. repeat split; [assumption | exact Db | apply IH; assumption]. }
  assert (G : forall m1 m2, tl (h_mro H c) = m1 ++ m2 -> map fst (stack (theirs H n) m2) = map fst (stack (mine H) m2)).
  { intros m1 m2. revert m1. induction m2 as [|b m2 IHm]; intros m1 Q; [reflexivity|].
    assert (I : In b (tl (h_mro H c))) by (rewrite Q; apply in_or_app; right; left; reflexivity).
    rewrite !stack_cons, !put_names. rewrite (IHm (m1 ++ [b])) by (rewrite <- app_assoc; exact Q).
    destruct (B b I) as (_ & _ & ->). rewrite (mro_split H b K), stack_cons. cbn [tl].
    apply put_over. intros x X. apply stack_mine_in in X. destruct X as (a & A & N). apply stack_mine_in. exists a. split; [|exact N].
    apply (bases_after H c (c :: m1) b m2 K); [|exact A]. rewrite (mro_split H c K), Q. reflexivity. }
  exact (G [] _ eq_refl).
Qed.

(** [agreed]: where a class takes a field from is where the rule of attributes does. *)
Definition agreed (H : hierarchy) (c : nat) : Prop :=
  forall d x, In d (h_mro H c) -> looked (fun b => stack (mine H) (h_mro H b)) (tl (h_mro H d)) x = looked (mine H) (tl (h_mro H d)) x.

Lemma agreed_base : forall H c b, hierarchy_ok H -> agreed H c -> In b (h_mro H c) -> agreed H b.
Proof. intros H c b K A I d x J. apply A. exact (sub_trans_in H c b d K I J). Qed.

Lemma mine_nodup : forall H b, hierarchy_ok H -> NoDup (map fst (mine H b)).
Proof. intros H b K. unfold mine. rewrite named_fst. apply (ho_names H K). Qed.

Lemma data_written : forall H, hierarchy_ok H -> forall n c, c < n -> all_data H c -> agreed H c ->
  theirs H n c = stack (mine H) (h_mro H c).
Proof.
  intros H K. induction n as [|n IH]; intros c L D A; [lia|].
  apply dict_ext.
  - apply data_names; assumption.
  - rewrite data_names by assumption. apply stack_nodup.
  - intros x _. rewrite (fields_named H n c K D), (mro_split H c K), stack_cons. cbn [tl].
    rewrite !put_get by (apply mine_nodup, K). destruct (dict_get (mine H c) x); [reflexivity|].
    assert (Q : stack (theirs H n) (tl (h_mro H c)) = stack (fun b => stack (mine H) (h_mro H b)) (tl (h_mro H c))).
    { apply stack_ext. intros b I. pose proof (ho_before H K c b I) as LT. pose proof (in_tl H c b K I) as J.
      apply IH; [lia | exact (all_data_base H c b K D J) | exact (agreed_base H c b K A J)]. }
    rewrite Q, stack_get by (intros b _; apply stack_nodup). rewrite stack_get by (intros b _; apply mine_nodup, K).
    apply A, self_in, K.
Qed.

Lemma written_fields : forall H c, hierarchy_ok H -> all_data H c -> agreed H c -> fields_of H c = Some (written_out H c).
Proof.
  intros H c K D A. unfold fields_of. rewrite (owner_self H c K D). cbn [option_map]. f_equal. apply named_inj.
  rewrite written_named. apply (data_written H K (S c) c); [lia | exact D | exact A].
Qed.

Lemma looked_stack : forall H c x, hierarchy_ok H -> dict_get (stack (mine H) (h_mro H c)) x = looked (mine H) (h_mro H c) x.
Proof. intros H c x K. apply stack_get. intros b _. apply mine_nodup, K. Qed.

Lemma chain_in : forall H c d, hierarchy_ok H -> chain H c -> In d (h_mro H c) -> chain H d.
Proof.
  intros H c d K C. induction C as [c Q | c p Q C IH]; intros I; rewrite Q in I.
  - destruct I as [<- | []]. apply ch_root, Q.
  - destruct I as [<- | I]; [apply (ch_base H c p); assumption | exact (IH I)].
Qed.

Lemma chain_agreed : forall H c, hierarchy_ok H -> chain H c -> agreed H c.
Proof.
  intros H c K C d x I. pose proof (chain_in H c d K C I) as Cd. inversion Cd as [d' Q | d' p Q Cp]; subst; rewrite Q; cbn [tl]; [reflexivity|].
  rewrite (mro_split H p K). cbn [looked]. rewrite (looked_stack H p x K), (mro_split H p K). cbn [looked tl].
  destruct (dict_get (mine H p) x) eqn:G; [reflexivity|].
  destruct (looked (mine H) (tl (h_mro H p)) x) eqn:G'; [reflexivity|].
  apply looked_none. intros b J. rewrite (looked_stack H b x K). apply looked_none. intros a J'.
  apply (proj1 (looked_none _ _ _) G'). pose proof (in_tl H p b K J) as Jp. apply in_split in Jp. destruct Jp as (m1 & m2 & E).
  rewrite (mro_split H b K) in J'. destruct J' as [<- | J']; [exact J|].
  pose proof (bases_after H p m1 b m2 K E a J') as M. rewrite (mro_split H p K) in E. destruct m1 as [|p' m1]; cbn [app] in E.
  - assert (b = p) by congruence. assert (m2 = tl (h_mro H p)) by congruence. subst. exact M.
  - assert (E' : tl (h_mro H p) = m1 ++ b :: m2) by congruence. rewrite E'. apply in_or_app. right. right. exact M.
Qed.

Lemma once_agreed : forall H c, hierarchy_ok H -> declared_once H c -> agreed H c.
Proof.
  intros H c K O d x I.
  destruct (looked (fun b => stack (mine H) (h_mro H b)) (tl (h_mro H d)) x) as [f|] eqn:G;
    destruct (looked (mine H) (tl (h_mro H d)) x) as [g|] eqn:G'; [| | |reflexivity].
  - apply looked_in in G, G'. destruct G as (b & J & G), G' as (b' & J' & G').
    rewrite (looked_stack H b x K) in G. apply looked_in in G. destruct G as (a & Ja & G).
    assert (a = b'); [|congruence].
    apply (O a b' x).
    + apply (sub_trans_in H c b a K); [|exact Ja]. apply (sub_trans_in H c d b K I), in_tl; assumption.
    + apply (sub_trans_in H c d b' K I), in_tl; assumption.
    + apply mine_get in G; [|apply (ho_names H K)]. destruct G as [G <-]. apply in_map, G.
    + apply mine_get in G'; [|apply (ho_names H K)]. destruct G' as [G' <-]. apply in_map, G'.
  - exfalso. apply looked_in in G. destruct G as (b & J & G). rewrite (looked_stack H b x K) in G. apply looked_in in G.
    destruct G as (a & Ja & G). pose proof (proj1 (looked_none _ _ _) G' a) as Z. rewrite G in Z. rewrite (mro_split H b K) in Ja.
    destruct Ja as [<- | Ja]; [discriminate (Z J)|].
    pose proof (in_split _ _ J) as (m1 & m2 & E). pose proof (bases_after H d (d :: m1) b m2 K) as M.
    rewrite (mro_split H d K), E in M. specialize (M eq_refl a Ja).
    assert (X : In a (tl (h_mro H d))) by (rewrite E; apply in_or_app; right; right; exact M). discriminate (Z X).
  - exfalso. apply looked_in in G'. destruct G' as (b & J & G'). pose proof (proj1 (looked_none _ _ _) G b J) as Z. cbn beta in Z.
    rewrite (looked_stack H b x K), (mro_split H b K) in Z. cbn [looked] in Z. rewrite G' in Z. discriminate.
Qed.

(** * Annotations. *)
Definition evaluated (E : env) (H : hierarchy) (b : nat) : res (list (pystr * typ)) :=
  mapM (fun f => do t <- resolve_hint E (d_module (decl_of H b)) (f_type f); Ok (f_name f, t)) (own H b).

Lemma class_hints_err : forall E m fs e,
  fold_left (fun acc f => do d <- acc; do t <- resolve_hint E m (f_type f); Ok (dict_set d (f_name f) t)) fs (Err e) = Err e.
Proof. intros E m fs e. induction fs as [|f fs IH]; cbn [fold_left bind]; [reflexivity | exact IH]. Qed.

Lemma class_hints_put : forall E H b d d', class_hints E H (Ok d) b = Ok d' <-> exists ts, evaluated E H b = Ok ts /\ d' = put d ts.
Proof.
  intros E H b. unfold class_hints, evaluated. induction (own H b) as [|f fs IH]; intros d d'; cbn [fold_left mapM bind].
  - split; [intros R; exists []; split; [reflexivity | unfold put; cbn [fold_left]; congruence] | intros (ts & R & ->)].
    assert (ts = []) by congruence. subst. reflexivity.
  - destruct (resolve_hint E (d_module (decl_of H b)) (f_type f)) as [t|e]; cbn [bind].
    + rewrite IH. split.
      * intros (ts & R & ->). rewrite R. cbn [bind]. exists ((f_name f, t) :: ts). split; reflexivity.
      * intros (ts & R & ->). apply bind_ok in R. destruct R as (ts' & R & Q). assert (ts = (f_name f, t) :: ts') by congruence. subst ts.
        exists ts'. split; [exact R | reflexivity].
    + rewrite class_hints_err. split; [discriminate|]. intros (ts & R & _). discriminate.
Qed.

Definition theirs_of (E : env) (H : hierarchy) (b : nat) : list (pystr * typ) := match evaluated E H b with Ok ts => ts | Err _ => [] end.

Lemma hints_err : forall E H cs e, fold_left (class_hints E H) cs (Err e) = Err e.
Proof.
  intros E H. induction cs as [|b cs IH]; intros e; cbn [fold_left]; [reflexivity|].
  unfold class_hints at 2. rewrite class_hints_err. apply IH.
Qed.

Lemma hints_stack : forall E H cs hs, fold_left (class_hints E H) (rev cs) (Ok []) = Ok hs <->
  (forall b, In b cs -> exists ts, evaluated E H b = Ok ts) /\ hs = stack (theirs_of E H) cs.
Proof.
  intros E H. induction cs as [|b cs IH]; intros hs.
  - cbn [rev fold_left]. split.
    + intros R. split; [intros b [] | unfold stack; cbn [rev fold_left]; congruence].
    + intros [_ ->]. reflexivity.
  - cbn [rev]. rewrite fold_left_app. cbn [fold_left]. rewrite stack_cons. split.
    + intros R. destruct (fold_left (class_hints E H) (rev cs) (Ok [])) as [d|e] eqn:Q.
      * apply class_hints_put in R. destruct R as (ts & R & ->). destruct (proj1 (IH d) eq_refl) as [A ->]. split.
        -- intros a [<- | I]; [exists ts; exact R | exact (A a I)].
        -- assert (Z : theirs_of E H b = ts) by (unfold theirs_of; rewrite R; reflexivity). rewrite Z. reflexivity.
      * unfold class_hints in R. rewrite class_hints_err in R. discriminate.
    + intros [A ->]. rewrite (proj2 (IH (stack (theirs_of E H) cs))).
      * destruct (A b (or_introl eq_refl)) as (ts & R). apply class_hints_put. exists ts. split; [exact R|]. assert (Z : theirs_of E H b = ts) by (unfold theirs_of; rewrite R; reflexivity). rewrite Z. reflexivity.
      * split; [|reflexivity]. intros a I. apply A. right. exact I.
Qed.

Lemma resolved_stack : forall E H c hs, resolved_hints E H c = Ok hs <->
  (forall b, In b (h_mro H c) -> exists ts, evaluated E H b = Ok ts) /\ hs = stack (theirs_of E H) (h_mro H c).
Proof. intros E H c hs. apply hints_stack. Qed.

Lemma evaluated_get : forall E H b ts, NoDup (map f_name (own H b)) -> evaluated E H b = Ok ts ->
  map fst ts = map f_name (own H b) /\
  forall x t, dict_get ts x = Some t <-> exists f, In f (own H b) /\ f_name f = x /\ resolve_hint E (d_module (decl_of H b)) (f_type f) = Ok t.
Proof.
  intros E H b ts N R. unfold evaluated in R. apply mapM_ok in R.
  assert (M : map fst ts = map f_name (own H b)).
  { clear N. induction R as [|f [k t] fs ts Q R IH]; [reflexivity|]. cbn [map fst]. apply bind_ok in Q. destruct Q as (t' & _ & Q).
    assert (k = f_name f) by congruence. subst k. f_equal. exact IH. }
  split; [exact M|]. intros x t. split.
  - intros G. apply dict_get_in in G. destruct (Forall2_in_r _ _ _ _ _ _ R G) as (f & I & Q). apply bind_ok in Q. destruct Q as (t' & Q & Q').
    assert (f_name f = x) by congruence. assert (t' = t) by congruence. subst. exists f. repeat split; assumption.
  - intros (f & I & <- & Q). apply dict_get_nodup; [rewrite M; exact N|].
    destruct (Forall2_in_l _ _ _ _ _ _ R I) as (kv & J & Q'). cbn beta in Q'. rewrite Q in Q'. cbn [bind] in Q'. assert (kv = (f_name f, t)) by congruence. subst kv. exact J.
Qed.

Lemma theirs_names : forall E H c b, hierarchy_ok H -> (forall b, In b (h_mro H c) -> exists ts, evaluated E H b = Ok ts) ->
  In b (h_mro H c) -> map fst (theirs_of E H b) = map f_name (own H b).
Proof.
  intros E H c b K A I. destruct (A b I) as (ts & R). unfold theirs_of. rewrite R.
  exact (proj1 (evaluated_get E H b ts (ho_names H K b) R)).
Qed.

Lemma hints_names : forall E H c hs, hierarchy_ok H -> resolved_hints E H c = Ok hs ->
  map fst hs = map f_name (written_out H c).
Proof.
  intros E H c hs K R. apply resolved_stack in R. destruct R as [A ->]. rewrite <- named_fst, written_named, !stack_names. f_equal.
  rewrite !flat_map_concat_map. f_equal. apply map_ext_in. intros b I. unfold mine. rewrite named_fst.
  apply (theirs_names E H c); [exact K | exact A | apply in_rev, I].
Qed.

Lemma looked_hints : forall E H cs x t, hierarchy_ok H -> (forall b, In b cs -> exists ts, evaluated E H b = Ok ts) ->
  looked (theirs_of E H) cs x = Some t <->
  exists b f, first_says H x cs b f /\ resolve_hint E (d_module (decl_of H b)) (f_type f) = Ok t.
Proof.
  intros E H cs x t K. induction cs as [|a cs IH]; intros A; cbn [looked].
  - split; [discriminate|]. intros (b & f & F & _). inversion F.
  - destruct (A a (or_introl eq_refl)) as (ts & R). destruct (evaluated_get E H a ts (ho_names H K a) R) as [M G].
    unfold theirs_of at 1. rewrite R. destruct (dict_get ts x) as [u|] eqn:Q.
    + pose proof (proj1 (G x u) Q) as (f & I & Qf & Rf). split.
      * intros P. assert (u = t) by congruence. subst u. exists a, f. split; [apply fs_here; assumption | exact Rf].
      * intros (b & g & F & Rg).
        destruct (first_unique H x (a :: cs) a f b g (ho_names H K) (fs_here H x a cs f I Qf) F) as [<- <-]. congruence.
    + apply dict_get_none in Q. rewrite M in Q. rewrite IH by (intros b I; apply A; right; exact I). split.
      * intros (b & f & F & Rf). exists b, f. split; [apply fs_later; assumption | exact Rf].
      * intros (b & f & F & Rf). exists b, f. split; [|exact Rf]. inversion F as [b' cs' f' I' Q' | a' cs' b' f' X F']; subst; [|exact F'].
        destruct Q. apply in_map, I'.
Qed.

Lemma theirs_nodup : forall E H c b, hierarchy_ok H -> (forall b, In b (h_mro H c) -> exists ts, evaluated E H b = Ok ts) ->
  In b (h_mro H c) -> NoDup (map fst (theirs_of E H b)).
Proof. intros E H c b K A I. rewrite (theirs_names E H c b K A I). apply (ho_names H K). Qed.

Lemma hints_rule : forall E H c hs x t, hierarchy_ok H -> resolved_hints E H c = Ok hs ->
  In (x, t) hs <-> exists b f, inherits H c x b f /\ resolve_hint E (d_module (decl_of H b)) (f_type f) = Ok t.
Proof.
  intros E H c hs x t K R. apply resolved_stack in R. destruct R as [A ->].
  rewrite <- (looked_hints E H (h_mro H c) x t K A). rewrite <- stack_get by (intros b I; apply (theirs_nodup E H c b K A I)). split.
  - intros I. apply dict_get_nodup; [apply stack_nodup | exact I].
  - apply dict_get_in.
Qed.

Lemma written_nodup : forall H c, NoDup (map f_name (written_out H c)).
Proof. intros H c. rewrite <- named_fst, written_named. apply stack_nodup. Qed.

Lemma written_rule : forall H c f, hierarchy_ok H -> In f (written_out H c) <-> exists b, inherits H c (f_name f) b f.
Proof.
  intros H c f K. unfold inherits. rewrite <- (looked_first H (h_mro H c) (f_name f) f (ho_names H K)).
  rewrite <- (looked_stack H c _ K), <- written_named. split.
  - intros I. apply dict_get_nodup; [rewrite named_fst; apply written_nodup|]. change (f_name f, f) with (named f). apply in_map, I.
  - intros G. apply dict_get_in in G. apply in_map_iff in G. destruct G as (g & Q & I). unfold named in Q. assert (g = f) by congruence. subst. exact I.
Qed.

Lemma first_in : forall H x cs b f, first_says H x cs b f -> In b cs.
Proof. intros H x cs b f F. induction F; [left; reflexivity | right; assumption]. Qed.

(** The annotations of the class with all fields written out. *)
Lemma written_hints : forall E H c m hs, hierarchy_ok H -> in_module H c m -> resolved_hints E H c = Ok hs ->
  mapM (fun '(x, t) => do t' <- resolve_hint E m t; Ok (x, t')) (map (fun f => (f_name f, f_type f)) (written_out H c)) = Ok hs.
Proof.
  intros E H c m hs K M R.
  destruct (mapM_total _ _ (fun '(x, t) => do t' <- resolve_hint E m t; Ok (x, t')) (map (fun f => (f_name f, f_type f)) (written_out H c))) as (r & Q).
  { intros [x t] I. apply in_map_iff in I. destruct I as (f & Z & I). assert (x = f_name f) by congruence. assert (t = f_type f) by congruence. subst.
    apply (written_rule H c f K) in I. destruct I as (b & F).
    assert (In (f_name f) (map fst hs)) as J.
    { rewrite (hints_names E H c hs K R). apply in_map. apply (written_rule H c f K). exists b. exact F. }
    apply in_map_iff in J. destruct J as ([x' t] & Z' & J). cbn [fst] in Z'. subst x'.
    apply (hints_rule E H c hs _ _ K R) in J. destruct J as (b' & f' & F' & Rf).
    destruct (first_unique H _ _ _ _ _ _ (ho_names H K) F F') as [<- <-]. rewrite (M b (first_in _ _ _ _ _ F)) in Rf. rewrite Rf. cbn [bind]. eauto. }
  rewrite Q. f_equal. apply mapM_ok in Q.
  assert (N : map fst r = map f_name (written_out H c)).
  { clear -Q. remember (written_out H c) as fs eqn:Z. clear Z. revert r Q. induction fs as [|f fs IH]; intros r Q; cbn [map] in Q; inversion Q as [|? [k t] ? r' P Q']; subst; [reflexivity|].
    cbn [map fst]. apply bind_ok in P. destruct P as (t' & _ & P). f_equal; [congruence | exact (IH _ Q')]. }
  apply dict_ext.
  - rewrite N. symmetry. exact (hints_names E H c hs K R).
  - rewrite N. apply written_nodup.
  - intros x I. destruct (dict_get r x) as [t|] eqn:G; [|apply dict_get_none in G; destruct (G I)]. symmetry.
    apply dict_get_nodup; [rewrite (hints_names E H c hs K R); apply written_nodup|].
    apply dict_get_in in G. destruct (Forall2_in_r _ _ _ _ _ _ Q G) as ([x' t0] & J & P). apply bind_ok in P. destruct P as (t1 & P & Z).
    assert (x' = x) by congruence. assert (t1 = t) by congruence. subst x' t1. clear Z. apply in_map_iff in J. destruct J as (f & Z & J).
    assert (x = f_name f) by congruence. assert (t0 = f_type f) by congruence. subst x t0. apply (written_rule H c f K) in J. destruct J as (b & F).
    apply (hints_rule E H c hs _ _ K R). exists b, f. split; [exact F|]. rewrite (M b (first_in _ _ _ _ _ F)). exact P.
Qed.

(** The fields that the class is read by. *)
Lemma read_names : forall (hs : list (pystr * typ)) (fs : list field), map fst hs = map f_name fs -> NoDup (map fst hs) ->
  mapM (fun f => match dict_get hs (f_name f) with Some t => Ok (f_name f, t) | None => Err EKey end) fs = Ok hs.
Proof.
  intros hs fs M N. apply mapM_ok.
  assert (A : forall hs', (forall kv, In kv hs' -> In kv hs) -> map fst hs' = map f_name fs ->
    Forall2 (fun f y => match dict_get hs (f_name f) with Some t => Ok (f_name f, t) | None => Err EKey end = Ok y) fs hs').
  { clear M. induction fs as [|f fs IH]; intros [|[k t] hs'] I M; cbn [map fst] in M; try discriminate; constructor.
    - assert (k = f_name f) by congruence. subst k. rewrite (dict_get_nodup hs (f_name f) t N (I _ (or_introl eq_refl))). reflexivity.
    - apply IH; [intros kv J; apply I; right; exact J | congruence]. }
  apply A; [intros kv I; exact I | exact M].
Qed.

Lemma fields_names : forall H c fs, hierarchy_ok H -> all_data H c -> fields_of H c = Some fs -> map f_name fs = map f_name (written_out H c).
Proof.
  intros H c fs K D R. unfold fields_of in R. rewrite (owner_self H c K D) in R. cbn [option_map] in R.
  assert (fs = data_fields H (S c) c) by congruence. subst fs.
  rewrite <- named_fst. change (map named (data_fields H (S c) c)) with (theirs H (S c) c).
  rewrite (data_names H K (S c) c) by (try assumption; lia). rewrite <- written_named, named_fst. reflexivity.
Qed.

Lemma read_all : forall E H c hs, hierarchy_ok H -> all_data H c -> resolved_hints E H c = Ok hs -> read_fields E H c = Ok hs.
Proof.
  intros E H c hs K D R. unfold read_fields. rewrite R. cbn [bind]. destruct (fields_of H c) as [fs|] eqn:F; [|reflexivity].
  apply read_names.
  - rewrite (hints_names E H c hs K R). symmetry. exact (fields_names H c fs K D F).
  - rewrite (hints_names E H c hs K R). apply written_nodup.
Qed.

Lemma no_fields : forall H c, no_data H c -> fields_of H c = None.
Proof.
  intros H c D. unfold fields_of, fields_owner. assert (Q : find (fun a => d_data (decl_of H a)) (h_mro H c) = None); [|rewrite Q; reflexivity].
  destruct (find (fun a => d_data (decl_of H a)) (h_mro H c)) as [a|] eqn:F; [|reflexivity].
  apply find_some in F. destruct F as [I F]. rewrite (D a I) in F. discriminate.
Qed.
