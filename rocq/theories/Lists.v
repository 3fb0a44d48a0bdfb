(** Facts about lists and about running partial functions over them. *)
From Coq Require Import String List NArith ZArith Bool Lia Permutation.
From Verif Require Import Base Json PyTypes Deser.
Import ListNotations.
Open Scope list_scope.
Open Scope nat_scope.

Lemma bind_ok : forall A B (x : res A) (f : A -> res B) b,
  bind x f = Ok b <-> exists a, x = Ok a /\ f a = Ok b.
Proof.
  intros A B [a|e] f b; cbn [bind]; split.
  - intros H. exists a. auto.
  - intros (a' & E & H). injection E as ->. exact H.
  - discriminate.
  - intros (a & H & _). discriminate.
Qed.

Lemma bind_err : forall A B (x : res A) (f : A -> res B) e,
  bind x f = Err e <-> x = Err e \/ exists a, x = Ok a /\ f a = Err e.
Proof.
  intros A B [a|e'] f e; cbn [bind]; split.
  - intros H. right. exists a. auto.
  - intros [H | (a' & H & H')]; [discriminate|]. injection H as ->. exact H'.
  - intros H. left. injection H as ->. reflexivity.
  - intros [H | (a & H & _)]; [injection H as ->; reflexivity | discriminate].
Qed.

Lemma mapM_ok : forall A B (f : A -> res B) l r,
  mapM f l = Ok r <-> Forall2 (fun x y => f x = Ok y) l r.
Proof.
  intros A B f. induction l as [|x l IH]; intros r; cbn [mapM]; split; intros H.
  - injection H as <-. constructor.
  - inversion H. reflexivity.
  - destruct (f x) eqn:E; [|discriminate]. destruct (mapM f l) eqn:E'; [|discriminate].
    injection H as <-. constructor; [exact E|]. apply IH. reflexivity.
  - inversion H as [|? y ? r' E F]; subst. rewrite E. apply IH in F. rewrite F. reflexivity.
Qed.

Lemma mapM_err : forall A B (f : A -> res B) l e,
  mapM f l = Err e -> exists x, In x l /\ f x = Err e.
Proof.
  intros A B f. induction l as [|x l IH]; intros e; cbn [mapM]; [discriminate|].
  destruct (f x) eqn:E.
  - destruct (mapM f l) eqn:E'; [discriminate|]. intros H. injection H as <-.
    destruct (IH _ eq_refl) as (y & I & Hy). exists y. split; [right; exact I | exact Hy].
  - intros H. injection H as <-. exists x. split; [left; reflexivity | exact E].
Qed.

Lemma mapM_total : forall A B (f : A -> res B) l,
  (forall x, In x l -> exists y, f x = Ok y) -> exists r, mapM f l = Ok r.
Proof.
  intros A B f. induction l as [|x l IH]; intros H; cbn [mapM]; [eauto|].
  destruct (H x (or_introl eq_refl)) as (y & ->).
  destruct IH as (r & ->); [intros z I; apply H; right; exact I | eauto].
Qed.

Lemma mapM_ext : forall A B (f g : A -> res B) l,
  (forall x, In x l -> f x = g x) -> mapM f l = mapM g l.
Proof.
  intros A B f g. induction l as [|x l IH]; intros H; cbn [mapM]; [reflexivity|].
  rewrite (H x (or_introl eq_refl)). rewrite IH; [reflexivity|].
  intros y I. apply H. right. exact I.
Qed.

Lemma Forall2_in_l : forall A B (R : A -> B -> Prop) l r x,
  Forall2 R l r -> In x l -> exists y, In y r /\ R x y.
Proof.
  intros A B R l r x H. induction H as [|a b l r Hab _ IH]; intros I; [destruct I|].
  destruct I as [<-|I]; [exists b; split; [left|]; auto|].
  destruct (IH I) as (y & J & Hy). exists y. split; [right; exact J | exact Hy].
Qed.

Lemma Forall2_in_r : forall A B (R : A -> B -> Prop) l r y,
  Forall2 R l r -> In y r -> exists x, In x l /\ R x y.
Proof.
  intros A B R l r y H. induction H as [|a b l r Hab _ IH]; intros I; [destruct I|].
  destruct I as [<-|I]; [exists a; split; [left|]; auto|].
  destruct (IH I) as (x & J & Hx). exists x. split; [right; exact J | exact Hx].
Qed.

Lemma Forall2_impl_in : forall A B (R S : A -> B -> Prop) l r,
  (forall x y, In x l -> In y r -> R x y -> S x y) -> Forall2 R l r -> Forall2 S l r.
Proof.
  intros A B R S l r H F. induction F as [|a b l r Hab _ IH]; constructor.
  - apply H; [left|left|]; auto.
  - apply IH. intros x y I J. apply H; right; assumption.
Qed.

Lemma Forall2_Forall_r : forall A B (R : A -> B -> Prop) (P : B -> Prop) l r,
  (forall x y, In x l -> R x y -> P y) -> Forall2 R l r -> Forall P r.
Proof.
  intros A B R P l r H F. induction F as [|a b l r Hab _ IH]; constructor.
  - apply (H a); [left; reflexivity | exact Hab].
  - apply IH. intros x y I. apply H. right. exact I.
Qed.

Lemma Forall2_flip : forall A B (R : A -> B -> Prop) l r,
  Forall2 R l r -> Forall2 (fun y x => R x y) r l.
Proof. intros A B R l r H. induction H; constructor; assumption. Qed.

Lemma Forall2_map_l : forall A B C (R : B -> C -> Prop) (f : A -> B) l r,
  Forall2 R (map f l) r <-> Forall2 (fun x y => R (f x) y) l r.
Proof.
  intros A B C R f. induction l as [|x l IH]; intros r; cbn [map]; split; intros H; inversion H; subst;
    constructor; auto; apply IH; assumption.
Qed.

Lemma Forall2_map_r : forall A B C (R : A -> C -> Prop) (f : B -> C) l r,
  Forall2 R l (map f r) <-> Forall2 (fun x y => R x (f y)) l r.
Proof.
  intros A B C R f l r. revert l. induction r as [|x r IH]; intros l; cbn [map]; split; intros H;
    inversion H; subst; constructor; auto; apply IH; assumption.
Qed.

Lemma Forall2_length_eq : forall A B (R : A -> B -> Prop) l r, Forall2 R l r -> length l = length r.
Proof. intros A B R l r H. induction H; cbn [length]; auto. Qed.

Lemma zip_parse_ok : forall p ts js vs, length js = length ts ->
  (zip_parse p ts js = Ok vs <->
   Forall2 (fun tj v => p (fst tj) (snd tj) = Ok v) (combine ts js) vs).
Proof.
  intros p. induction ts as [|t ts IH]; intros [|j js] vs L; try discriminate; cbn [zip_parse combine].
  - split; intros H; [injection H as <-; constructor | inversion H; reflexivity].
  - injection L as L. split; intros H.
    + destruct (p t j) eqn:E; [|discriminate]. destruct (zip_parse p ts js) eqn:E'; [|discriminate].
      injection H as <-. constructor; [exact E|]. apply IH; [exact L | exact E'].
    + inversion H as [|? v ? r E F]; subst. cbn [fst snd] in E. rewrite E.
      apply (IH js r L) in F. rewrite F. reflexivity.
Qed.

Lemma mem_str_in : forall s l, mem_str s l = true <-> In s l.
Proof.
  intros s l. unfold mem_str. rewrite existsb_exists. split.
  - intros (x & I & H). apply pystr_eqb_eq in H. subst. exact I.
  - intros I. exists s. split; [exact I | apply pystr_eqb_refl].
Qed.

Lemma mem_str_not_in : forall s l, mem_str s l = false <-> ~ In s l.
Proof.
  intros s l. rewrite <- mem_str_in. destruct (mem_str s l); split; congruence.
Qed.

Section DictFacts.
  Context {V : Type}.
  Implicit Types d : list (pystr * V).

  Lemma dict_get_in : forall d k v, dict_get d k = Some v -> In (k, v) d.
  Proof.
    induction d as [|[k' v'] d IH]; intros k v; cbn [dict_get]; [discriminate|].
    destruct (pystr_eqb k' k) eqn:E.
    - intros H. injection H as ->. apply pystr_eqb_eq in E. subst. left. reflexivity.
    - intros H. right. apply IH. exact H.
  Qed.

  Lemma dict_get_none : forall d k, dict_get d k = None <-> ~ In k (map fst d).
  Proof.
    induction d as [|[k' v'] d IH]; intros k; cbn [dict_get map fst]; [tauto|].
    destruct (pystr_eqb k' k) eqn:E.
    - apply pystr_eqb_eq in E. subst. split; [discriminate|]. intros H. destruct H. left. reflexivity.
    - apply pystr_eqb_neq in E. rewrite IH. cbn [In]. tauto.
  Qed.

  Lemma dict_get_nodup : forall d k v, NoDup (map fst d) -> In (k, v) d -> dict_get d k = Some v.
  Proof.
    induction d as [|[k' v'] d IH]; intros k v N I; cbn [dict_get]; [destruct I|].
    cbn [map fst] in N. inversion N as [|? ? N1 N2]; subst.
    destruct I as [I|I].
    - injection I as -> ->. rewrite pystr_eqb_refl. reflexivity.
    - destruct (pystr_eqb k' k) eqn:E.
      + apply pystr_eqb_eq in E. subst. destruct N1. apply (in_map fst) in I. exact I.
      + apply IH; assumption.
  Qed.

  Lemma dict_get_perm : forall d d' k, NoDup (map fst d) -> Permutation d d' ->
    dict_get d k = dict_get d' k.
  Proof.
    intros d d' k N P.
    assert (N' : NoDup (map fst d')).
    { apply (Permutation_NoDup (l := map fst d)); [apply Permutation_map; exact P | exact N]. }
    destruct (dict_get d k) eqn:E.
    - symmetry. apply dict_get_nodup; [exact N'|]. apply (Permutation_in _ P). apply dict_get_in. exact E.
    - symmetry. apply dict_get_none. apply dict_get_none in E. intros I. apply E.
      apply (Permutation_in (l := map fst d')); [apply Permutation_sym, Permutation_map; exact P | exact I].
  Qed.

  Lemma dict_set_fresh : forall d k v, ~ In k (map fst d) -> dict_set d k v = d ++ [(k, v)].
  Proof.
    induction d as [|[k' v'] d IH]; intros k v N; cbn [dict_set app]; [reflexivity|].
    cbn [map fst In] in N. destruct (pystr_eqb k' k) eqn:E.
    - apply pystr_eqb_eq in E. subst. destruct N. left. reflexivity.
    - rewrite IH; [reflexivity | tauto].
  Qed.
End DictFacts.

Lemma list_eqb_eq : forall A (f : A -> A -> bool) l l',
  (forall x y, In x l -> f x y = true -> x = y) -> list_eqb f l l' = true -> l = l'.
Proof.
  intros A f. induction l as [|x l IH]; intros [|y l'] H; cbn [list_eqb]; try discriminate; [reflexivity|].
  intros E. apply andb_true_iff in E. destruct E as [E1 E2]. f_equal.
  - apply (H x y); [left; reflexivity | exact E1].
  - apply IH; [|exact E2]. intros a b I. apply H. right. exact I.
Qed.

Lemma list_eqb_refl : forall A (f : A -> A -> bool) l,
  (forall x, In x l -> f x x = true) -> list_eqb f l l = true.
Proof.
  intros A f. induction l as [|x l IH]; intros H; cbn [list_eqb]; [reflexivity|].
  rewrite (H x (or_introl eq_refl)). cbn [andb]. apply IH. intros y I. apply H. right. exact I.
Qed.
