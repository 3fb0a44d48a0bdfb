(** Facts about the meaning of schemas. *)
From Coq Require Import String List NArith ZArith Bool Lia.
From Verif Require Import Base Json Lists SpecSchema.
Import ListNotations.
Open Scope list_scope.
Open Scope nat_scope.

(** ** Verdicts *)

Definition below (v w : verdict) : Prop := v = None \/ v = w.

Lemma below_refl : forall v, below v v.
Proof. intros v. right. reflexivity. Qed.

Lemma all_of_true : forall l, all_of l = Some true <-> Forall (fun v => v = Some true) l.
Proof.
  induction l as [|[[|]|] r IH]; cbn [all_of]; split; intros H; try constructor; try discriminate; auto; try (apply IH; assumption).
  - inversion H; subst. apply IH. assumption.
  - inversion H; subst; discriminate.
  - destruct (all_of r) as [[|]|]; discriminate.
  - destruct (all_of r) as [[|]|]; discriminate.
  - inversion H; subst; discriminate.
Qed.

Lemma all_of_false : forall l, all_of l = Some false <-> In (Some false) l.
Proof.
  induction l as [|[[|]|] r IH]; cbn [all_of In]; split; intros H; try discriminate; try contradiction; auto.
  - right. apply IH. assumption.
  - destruct H as [H|H]; [discriminate | apply IH; assumption].
  - right. apply IH. destruct (all_of r) as [[|]|]; [discriminate | reflexivity | discriminate].
  - destruct H as [H|H]; [discriminate|]. apply IH in H. rewrite H. reflexivity.
Qed.

Lemma all_of_below : forall l l', Forall2 below l l' -> below (all_of l) (all_of l').
Proof.
  intros l l' H. destruct (all_of l) as [[|]|] eqn:Q; [right | right | left; reflexivity]; symmetry.
  - apply all_of_true. apply all_of_true in Q. induction H as [|x y a b B H IH]; [constructor|].
    inversion Q; subst. constructor; [destruct B as [B|B]; [discriminate | congruence] | auto].
  - apply all_of_false. apply all_of_false in Q. induction H as [|x y a b B H IH]; [contradiction|].
    destruct Q as [->|Q]; [destruct B as [B|B]; [discriminate | left; congruence] | right; auto].
Qed.

Lemma count_below : forall l l', Forall2 below l l' -> count l = None \/ count l = count l'.
Proof.
  intros l l' H. induction H as [|x y a b B H IH]; [right; reflexivity|]. cbn [count].
  destruct x as [x|]; [|left; reflexivity]. destruct B as [B|B]; [discriminate|]. subst y.
  destruct IH as [-> | ->]; [left | right]; reflexivity.
Qed.

Lemma exactly_one_below : forall l l', Forall2 below l l' -> below (exactly_one l) (exactly_one l').
Proof.
  intros l l' H. unfold exactly_one. destruct (count_below l l' H) as [-> | ->]; [left; reflexivity | apply below_refl].
Qed.

Lemma Forall2_map_below : forall A (f g : A -> verdict) l, (forall x, In x l -> below (f x) (g x)) ->
  Forall2 below (map f l) (map g l).
Proof.
  intros A f g l H. induction l as [|x r IH]; cbn [map]; constructor; [apply H; left; reflexivity|].
  apply IH. intros y Y. apply H. right. exact Y.
Qed.

(** ** Fuel *)

Section Meaning.
  Variable asserts : pystr -> pystr -> json -> bool.
  Variable root : json.

  Notation keyword := (keyword asserts root).
  Notation check := (check asserts root).
  Notation accepts := (accepts asserts root).
  Notation rejects := (rejects asserts root).

  Lemma each_below : forall V W, (forall s d, below (V s d) (W s d)) -> forall ss ds, Forall2 below (each V ss ds) (each W ss ds).
  Proof.
    intros V W H ss. induction ss as [|s r IH]; intros [|d ds]; cbn [each]; constructor; auto.
  Qed.

  Lemma keyword_below : forall V W, (forall s d, below (V s d) (W s d)) -> forall kws d k x,
    below (keyword V kws d k x) (keyword W kws d k x).
  Proof.
    intros V W H kws d k x. unfold SpecSchema.keyword.
    repeat match goal with
    | |- below (if ?c then _ else _) (if ?c then _ else _) => destruct c; try apply below_refl
    end.
    - destruct x; try apply below_refl. apply exactly_one_below. apply Forall2_map_below. auto.
    - destruct x; try apply below_refl. destruct (points_to root s); [apply H | apply below_refl].
    - destruct d; try apply below_refl. apply all_of_below. apply Forall2_map_below. auto.
    - destruct x; try apply below_refl. destruct d; try apply below_refl. apply all_of_below. apply each_below. exact H.
    - destruct x; try apply below_refl. destruct d; try apply below_refl. apply all_of_below. apply Forall2_map_below.
      intros kv _. destruct (dict_get o (fst kv)); [apply H | apply below_refl].
    - destruct d; try apply below_refl. apply all_of_below. apply Forall2_map_below.
      intros kv _. cbv zeta. destruct (mem_str _ _); [apply below_refl | apply H].
    - destruct d; try apply below_refl. apply all_of_below. apply Forall2_map_below. auto.
  Qed.

  Lemma check_step : forall n s d, below (check n s d) (check (S n) s d).
  Proof.
    induction n as [|n IH]; intros s d; [left; reflexivity|].
    change (check (S n) s d) with (match s with JBool b => Some b
      | JObj kws => all_of (map (fun kx => keyword (check n) kws d (fst kx) (snd kx)) kws) | _ => None end).
    change (check (S (S n)) s d) with (match s with JBool b => Some b
      | JObj kws => all_of (map (fun kx => keyword (check (S n)) kws d (fst kx) (snd kx)) kws) | _ => None end).
    destruct s; try apply below_refl. apply all_of_below. apply Forall2_map_below. intros kx _. apply keyword_below. exact IH.
  Qed.

  Lemma below_trans : forall a b c, below a b -> below b c -> below a c.
  Proof. intros a b c [-> | ->] H; [left; reflexivity | exact H]. Qed.

  Lemma check_mono : forall n n' s d, n <= n' -> below (check n s d) (check n' s d).
  Proof.
    intros n n' s d L. induction L as [|n' L IH]; [apply below_refl|]. eapply below_trans; [exact IH | apply check_step].
  Qed.

  Lemma check_more : forall n n' s d b, n <= n' -> check n s d = Some b -> check n' s d = Some b.
  Proof. intros n n' s d b L H. destruct (check_mono n n' s d L) as [Q|Q]; congruence. Qed.

  Lemma keyword_more : forall n n' kws d k x b, n <= n' -> keyword (check n) kws d k x = Some b -> keyword (check n') kws d k x = Some b.
  Proof.
    intros n n' kws d k x b L H.
    destruct (keyword_below (check n) (check n') (fun s d => check_mono n n' s d L) kws d k x) as [Q|Q]; congruence.
  Qed.

  (** A schema cannot both accept and reject. *)
  Lemma accepts_rejects : forall s d, accepts s d -> rejects s d -> False.
  Proof.
    intros s d [n H] [k K]. apply (check_more _ (n + k)) in H; [|lia]. apply (check_more _ (n + k)) in K; [|lia]. congruence.
  Qed.

  (** ** Introduction *)

  Definition holds (kws : list (pystr * json)) (d : json) (k : pystr) (x : json) : Prop :=
    exists n, keyword (check n) kws d k x = Some true.
  Definition fails (kws : list (pystr * json)) (d : json) (k : pystr) (x : json) : Prop :=
    exists n, keyword (check n) kws d k x = Some false.

  Lemma common_fuel : forall A (P : nat -> A -> Prop) l, (forall n n' x, n <= n' -> P n x -> P n' x) ->
    Forall (fun x => exists n, P n x) l -> exists n, Forall (P n) l.
  Proof.
    intros A P l M H. induction H as [|x r [n X] H [k IH]]; [exists 0; constructor|].
    exists (n + k). constructor; [eapply M; [|exact X]; lia|]. eapply Forall_impl; [|exact IH]. intros y. apply M. lia.
  Qed.

  Lemma accepts_intro : forall kws d, Forall (fun kx => holds kws d (fst kx) (snd kx)) kws -> accepts (JObj kws) d.
  Proof.
    intros kws d H. unfold holds in H.
    apply (common_fuel _ (fun n kx => keyword (check n) kws d (fst kx) (snd kx) = Some true)) in H.
    - destruct H as [n H]. exists (S n). apply all_of_true. rewrite Forall_map. exact H.
    - intros n n' x L. apply keyword_more. exact L.
  Qed.

  Lemma rejects_intro : forall kws d k x, In (k, x) kws -> fails kws d k x -> rejects (JObj kws) d.
  Proof.
    intros kws d k x I [n H]. exists (S n). apply all_of_false. apply in_map_iff. exists (k, x). split; [exact H | exact I].
  Qed.

  Lemma accepts_elim : forall kws d k x, accepts (JObj kws) d -> In (k, x) kws -> holds kws d k x.
  Proof.
    intros kws d k x [[|n] H] I; [discriminate|]. exists n. apply all_of_true in H. rewrite Forall_map in H.
    rewrite Forall_forall in H. exact (H (k, x) I).
  Qed.

  Lemma accepts_true : forall d, accepts (JBool true) d.
  Proof. intros d. exists 1. reflexivity. Qed.

  Lemma rejects_false : forall d, rejects (JBool false) d.
  Proof. intros d. exists 1. reflexivity. Qed.

  (** All parts accept at some common fuel. *)
  Lemma all_accept : forall A (f : A -> json * json) l, (forall x, In x l -> accepts (fst (f x)) (snd (f x))) ->
    exists n, Forall (fun x => check n (fst (f x)) (snd (f x)) = Some true) l.
  Proof.
    intros A f l H. apply (common_fuel _ (fun n x => check n (fst (f x)) (snd (f x)) = Some true)).
    - intros n n' x L. apply check_more. exact L.
    - apply Forall_forall. exact H.
  Qed.

  (** *** Keyword by keyword *)

  Lemma holds_note : forall kws d k x,
    In k (map (fun s => str s) ["$schema"; "definitions"; "title"; "description"; "default"; "examples"]%string) -> holds kws d k x.
  Proof.
    intros kws d k x I. exists 0. unfold SpecSchema.keyword.
    replace (mem_str k _) with true; [reflexivity|]. symmetry. apply mem_str_in. exact I.
  Qed.

  Lemma holds_format : forall kws d f, asserts (str "format") f d = true -> holds kws d (str "format") (JStr f).
  Proof. intros kws d f H. exists 0. transitivity (Some (asserts (str "format") f d)); [reflexivity | rewrite H; reflexivity]. Qed.

  Lemma holds_encoding : forall kws d f, asserts (str "contentEncoding") f d = true -> holds kws d (str "contentEncoding") (JStr f).
  Proof. intros kws d f H. exists 0. transitivity (Some (asserts (str "contentEncoding") f d)); [reflexivity | rewrite H; reflexivity]. Qed.

  Lemma holds_type : forall kws d s, is_type s d = Some true -> holds kws d (str "type") (JStr s).
  Proof. intros kws d s H. exists 0. transitivity (is_type s d); [reflexivity | rewrite H; reflexivity]. Qed.

  Lemma fails_type : forall kws d s, is_type s d = Some false -> fails kws d (str "type") (JStr s).
  Proof. intros kws d s H. exists 0. transitivity (is_type s d); [reflexivity | rewrite H; reflexivity]. Qed.

  Lemma type_holds : forall kws d s, holds kws d (str "type") (JStr s) -> is_type s d = Some true.
  Proof. intros kws d s [n H]. exact H. Qed.

  Lemma holds_enum : forall kws d l, existsb (same d) l = true -> holds kws d (str "enum") (JArr l).
  Proof. intros kws d l H. exists 0. transitivity (Some (existsb (same d) l)); [reflexivity | rewrite H; reflexivity]. Qed.

  Lemma enum_holds : forall kws d l, holds kws d (str "enum") (JArr l) -> existsb (same d) l = true.
  Proof. intros kws d l [n H]. injection H as H. exact H. Qed.

  Lemma holds_const : forall kws d x, same d x = true -> holds kws d (str "const") x.
  Proof. intros kws d x H. exists 0. transitivity (Some (same d x)); [reflexivity | rewrite H; reflexivity]. Qed.

  Lemma const_holds : forall kws d x, holds kws d (str "const") x -> same d x = true.
  Proof. intros kws d x [n H]. injection H as H. exact H. Qed.

  Lemma fails_const : forall kws d x, same d x = false -> fails kws d (str "const") x.
  Proof. intros kws d x H. exists 0. transitivity (Some (same d x)); [reflexivity | rewrite H; reflexivity]. Qed.

  Lemma holds_ref : forall kws d r s, points_to root r = Some s -> accepts s d -> holds kws d (str "$ref") (JStr r).
  Proof.
    intros kws d r s P [n H]. exists n.
    transitivity (match points_to root r with Some s => check n s d | None => None end); [reflexivity|]. rewrite P. exact H.
  Qed.

  Lemma fails_ref : forall kws d r s, points_to root r = Some s -> rejects s d -> fails kws d (str "$ref") (JStr r).
  Proof.
    intros kws d r s P [n H]. exists n.
    transitivity (match points_to root r with Some s => check n s d | None => None end); [reflexivity|]. rewrite P. exact H.
  Qed.

  Lemma ref_holds : forall kws d r, holds kws d (str "$ref") (JStr r) -> exists s, points_to root r = Some s /\ accepts s d.
  Proof.
    intros kws d r [n H]. change (match points_to root r with Some s => check n s d | None => None end = Some true) in H.
    destruct (points_to root r) as [s|]; [|discriminate]. exists s. split; [reflexivity | exists n; exact H].
  Qed.

  Lemma count_false : forall l, Forall (fun v => v = Some false) l -> count l = Some 0.
  Proof. intros l H. induction H as [|v r -> H IH]; [reflexivity|]. cbn [count]. rewrite IH. reflexivity. Qed.

  Lemma count_app : forall l r a b, count l = Some a -> count r = Some b -> count (l ++ r) = Some (a + b).
  Proof.
    induction l as [|[v|] l IH]; intros r a b H K; cbn [count app] in *; try discriminate; [injection H as <-; exact K|].
    destruct (count l) as [n|]; [|discriminate]. rewrite (IH r n b eq_refl K). injection H as <-. destruct v; reflexivity.
  Qed.

  Lemma holds_one : forall kws d l1 s l2, accepts s d -> (forall x, In x l1 \/ In x l2 -> rejects x d) ->
    holds kws d (str "oneOf") (JArr (l1 ++ s :: l2)).
  Proof.
    intros kws d l1 s l2 [a A] R.
    assert (X : Forall (fun x => exists n, check n x d = Some false) (l1 ++ l2)).
    { apply Forall_forall. intros x I. apply in_app_or in I. exact (R x I). }
    apply (common_fuel _ (fun n x => check n x d = Some false)) in X; [|intros n n' x L; apply check_more; exact L].
    destruct X as [b B]. apply Forall_app in B. destruct B as [B1 B2]. exists (a + b).
    transitivity (exactly_one (map (fun s => check (a + b) s d) (l1 ++ s :: l2))); [reflexivity|].
    unfold exactly_one. rewrite map_app. cbn [map]. apply (check_more _ (a + b)) in A; [|lia]. rewrite A.
    assert (F : forall l, Forall (fun x => check b x d = Some false) l -> count (map (fun s => check (a + b) s d) l) = Some 0).
    { intros l H. apply count_false. rewrite Forall_map. eapply Forall_impl; [|exact H]. intros x. apply check_more. lia. }
    rewrite (count_app _ _ 0 1); [reflexivity | apply F; exact B1 |]. cbn [count]. rewrite (F l2 B2). reflexivity.
  Qed.

  Lemma fails_one : forall kws d l, (forall x, In x l -> rejects x d) -> fails kws d (str "oneOf") (JArr l).
  Proof.
    intros kws d l R.
    assert (X : Forall (fun x => exists n, check n x d = Some false) l) by (apply Forall_forall; exact R).
    apply (common_fuel _ (fun n x => check n x d = Some false)) in X; [|intros n n' x L; apply check_more; exact L].
    destruct X as [b B]. exists b.
    transitivity (exactly_one (map (fun s => check b s d) l)); [reflexivity|].
    unfold exactly_one. rewrite count_false; [reflexivity|]. rewrite Forall_map. exact B.
  Qed.

  Lemma count_pos : forall l n, count l = Some (S n) -> In (Some true) l.
  Proof.
    induction l as [|[v|] r IH]; intros n H; cbn [count] in H; try discriminate.
    destruct v; [left; reflexivity|]. right. destruct (count r) as [k|]; [|discriminate]. injection H as ->. exact (IH _ eq_refl).
  Qed.

  Lemma one_holds : forall kws d l, holds kws d (str "oneOf") (JArr l) -> exists s, In s l /\ accepts s d.
  Proof.
    intros kws d l [n H]. change (exactly_one (map (fun s => check n s d) l) = Some true) in H. unfold exactly_one in H.
    destruct (count _) as [c|] eqn:C; [|discriminate]. injection H as H. apply Nat.eqb_eq in H. subst c.
    apply count_pos in C. apply in_map_iff in C. destruct C as (s & Q & I). exists s. split; [exact I | exists n; exact Q].
  Qed.

  Lemma holds_items : forall kws ds x, dict_get kws (str "prefixItems") = None -> (forall d, In d ds -> accepts x d) ->
    holds kws (JArr ds) (str "items") x.
  Proof.
    intros kws ds x P H. destruct (all_accept _ (fun d => (x, d)) ds) as [n F]; [exact H|]. exists n.
    transitivity (all_of (map (check n x) (skipn (match dict_get kws (str "prefixItems") with Some (JArr l) => length l | _ => 0 end) ds)));
      [reflexivity|].
    rewrite P. apply all_of_true. rewrite Forall_map. exact F.
  Qed.

  Lemma items_holds : forall kws ds x, dict_get kws (str "prefixItems") = None -> holds kws (JArr ds) (str "items") x ->
    forall d, In d ds -> accepts x d.
  Proof.
    intros kws ds x P [n H] d I.
    change (all_of (map (check n x) (skipn (match dict_get kws (str "prefixItems") with Some (JArr l) => length l | _ => 0 end) ds)) = Some true) in H.
    rewrite P in H. apply all_of_true in H. rewrite Forall_map, Forall_forall in H. exists n. apply H. exact I.
  Qed.

  Lemma holds_prefix : forall kws ss ds, (forall s d, In (s, d) (combine ss ds) -> accepts s d) ->
    holds kws (JArr ds) (str "prefixItems") (JArr ss).
  Proof.
    intros kws ss ds H. destruct (all_accept _ (fun sd => sd) (combine ss ds)) as [n F]; [intros [s d] I; exact (H s d I)|].
    exists n. transitivity (all_of (each (check n) ss ds)); [reflexivity|]. apply all_of_true. clear H. revert ds F.
    induction ss as [|s r IH]; intros [|d ds] F; cbn [each combine] in *; constructor.
    - apply Forall_inv in F. exact F.
    - apply IH. apply Forall_inv_tail in F. exact F.
  Qed.

  Lemma prefix_holds : forall kws ss ds, holds kws (JArr ds) (str "prefixItems") (JArr ss) ->
    forall s d, In (s, d) (combine ss ds) -> accepts s d.
  Proof.
    intros kws ss ds [n H]. change (all_of (each (check n) ss ds) = Some true) in H. apply all_of_true in H.
    revert ds H. induction ss as [|s r IH]; intros [|d ds] F s' d' I; cbn [each combine In] in *; try contradiction.
    destruct I as [I|I]; [injection I as <- <-; apply Forall_inv in F; exists n; exact F | eapply IH; [|exact I]; apply Forall_inv_tail in F; exact F].
  Qed.

  Lemma holds_min_items : forall kws ds z, (z <= Z.of_nat (length ds))%Z -> holds kws (JArr ds) (str "minItems") (JInt z).
  Proof. intros kws ds z L. exists 0. apply Z.leb_le in L. transitivity (Some (z <=? Z.of_nat (length ds))%Z); [reflexivity | rewrite L; reflexivity]. Qed.

  Lemma holds_max_items : forall kws ds z, (Z.of_nat (length ds) <= z)%Z -> holds kws (JArr ds) (str "maxItems") (JInt z).
  Proof. intros kws ds z L. exists 0. apply Z.leb_le in L. transitivity (Some (Z.of_nat (length ds) <=? z)%Z); [reflexivity | rewrite L; reflexivity]. Qed.

  Lemma min_items_holds : forall kws ds z, holds kws (JArr ds) (str "minItems") (JInt z) -> (z <= Z.of_nat (length ds))%Z.
  Proof. intros kws ds z [n H]. injection H as H. apply Z.leb_le. exact H. Qed.

  Lemma max_items_holds : forall kws ds z, holds kws (JArr ds) (str "maxItems") (JInt z) -> (Z.of_nat (length ds) <= z)%Z.
  Proof. intros kws ds z [n H]. injection H as H. apply Z.leb_le. exact H. Qed.

  Lemma holds_unique : forall kws ds, distinct ds = true -> holds kws (JArr ds) (str "uniqueItems") (JBool true).
  Proof. intros kws ds H. exists 0. transitivity (Some (distinct ds)); [reflexivity | rewrite H; reflexivity]. Qed.

  Lemma holds_properties : forall kws o ps, (forall k x s, In (k, x) o -> dict_get ps k = Some s -> accepts s x) ->
    holds kws (JObj o) (str "properties") (JObj ps).
  Proof.
    intros kws o ps H.
    destruct (all_accept _ (fun kv => (match dict_get ps (fst kv) with Some s => s | None => JBool true end, snd kv)) o) as [n F].
    { intros [k x] I. cbn [fst snd]. destruct (dict_get ps k) as [s|] eqn:G; [exact (H k x s I G) | apply accepts_true]. }
    exists n.
    transitivity (all_of (map (fun kv => match dict_get ps (fst kv) with Some s => check n s (snd kv) | None => Some true end) o));
      [reflexivity|].
    apply all_of_true. rewrite Forall_map. eapply Forall_impl; [|exact F]. cbn [fst snd]. intros kv Q.
    destruct (dict_get ps (fst kv)); [exact Q | reflexivity].
  Qed.

  Lemma properties_holds : forall kws o ps, holds kws (JObj o) (str "properties") (JObj ps) ->
    forall k x s, In (k, x) o -> dict_get ps k = Some s -> accepts s x.
  Proof.
    intros kws o ps [n H] k x s I G.
    change (all_of (map (fun kv => match dict_get ps (fst kv) with Some s => check n s (snd kv) | None => Some true end) o) = Some true) in H.
    apply all_of_true in H. rewrite Forall_map, Forall_forall in H. specialize (H (k, x) I). cbn [fst snd] in H. rewrite G in H.
    exists n. exact H.
  Qed.

  Lemma fails_properties : forall kws o ps k x s, In (k, x) o -> dict_get ps k = Some s -> rejects s x ->
    fails kws (JObj o) (str "properties") (JObj ps).
  Proof.
    intros kws o ps k x s I G [n H]. exists n.
    transitivity (all_of (map (fun kv => match dict_get ps (fst kv) with Some s => check n s (snd kv) | None => Some true end) o));
      [reflexivity|].
    apply all_of_false. apply in_map_iff. exists (k, x). cbn [fst snd]. rewrite G. auto.
  Qed.

  Definition known_properties (kws : list (pystr * json)) : list pystr :=
    match dict_get kws (str "properties") with Some (JObj ps) => map fst ps | _ => [] end.

  Lemma holds_additional : forall kws o s, (forall k x, In (k, x) o -> ~ In k (known_properties kws) -> accepts s x) ->
    holds kws (JObj o) (str "additionalProperties") s.
  Proof.
    intros kws o s H.
    destruct (all_accept _ (fun kv => (if mem_str (fst kv) (known_properties kws) then JBool true else s, snd kv)) o) as [n F].
    { intros [k x] I. cbn [fst snd]. destruct (mem_str k _) eqn:M; [apply accepts_true|]. apply (H k x I).
      intros J. apply mem_str_in in J. congruence. }
    exists n.
    transitivity (all_of (map (fun kv => if mem_str (fst kv) (known_properties kws) then Some true else check n s (snd kv)) o)); [reflexivity|].
    apply all_of_true. rewrite Forall_map. eapply Forall_impl; [|exact F]. cbn [fst snd]. intros kv Q.
    destruct (mem_str _ _); [reflexivity | exact Q].
  Qed.

  Lemma additional_holds : forall kws o s, holds kws (JObj o) (str "additionalProperties") s ->
    forall k x, In (k, x) o -> ~ In k (known_properties kws) -> accepts s x.
  Proof.
    intros kws o s [n H] k x I N.
    change (all_of (map (fun kv => if mem_str (fst kv) (known_properties kws) then Some true else check n s (snd kv)) o) = Some true) in H.
    apply all_of_true in H. rewrite Forall_map, Forall_forall in H. specialize (H (k, x) I). cbn [fst snd] in H.
    destruct (mem_str k _) eqn:M; [apply mem_str_in in M; contradiction|]. exists n. exact H.
  Qed.

  Lemma holds_names : forall kws o s, (forall k x, In (k, x) o -> accepts s (JStr k)) -> holds kws (JObj o) (str "propertyNames") s.
  Proof.
    intros kws o s H. destruct (all_accept _ (fun kv : pystr * json => (s, JStr (fst kv))) o) as [n F]; [intros [k x] I; exact (H k x I)|].
    exists n. transitivity (all_of (map (fun kv => check n s (JStr (fst kv))) o)); [reflexivity|].
    apply all_of_true. rewrite Forall_map. exact F.
  Qed.

  Lemma names_hold : forall kws o s, holds kws (JObj o) (str "propertyNames") s -> forall k x, In (k, x) o -> accepts s (JStr k).
  Proof.
    intros kws o s [n H] k x I. change (all_of (map (fun kv : pystr * json => check n s (JStr (fst kv))) o) = Some true) in H.
    apply all_of_true in H. rewrite Forall_map, Forall_forall in H. exists n. exact (H (k, x) I).
  Qed.

  Lemma holds_pattern : forall kws p s, matches p s = Some true -> holds kws (JStr s) (str "pattern") (JStr p).
  Proof. intros kws p s H. exists 0. transitivity (matches p s); [reflexivity | rewrite H; reflexivity]. Qed.

  Lemma pattern_holds : forall kws p s, holds kws (JStr s) (str "pattern") (JStr p) -> matches p s = Some true.
  Proof. intros kws p s [n H]. exact H. Qed.

  Lemma strings_map : forall l, strings (map JStr l) = Some l.
  Proof. induction l as [|s r IH]; [reflexivity|]. cbn [map strings]. rewrite IH. reflexivity. Qed.

  Lemma holds_required : forall kws o l, (forall k, In k l -> In k (map fst o)) -> holds kws (JObj o) (str "required") (JArr (map JStr l)).
  Proof.
    intros kws o l H. exists 0.
    transitivity (match strings (map JStr l) with Some ks => Some (forallb (fun k => mem_str k (map fst o)) ks) | None => None end); [reflexivity|].
    rewrite strings_map. f_equal. apply forallb_forall. intros k I. apply mem_str_in. auto.
  Qed.

  Lemma required_holds : forall kws o l, holds kws (JObj o) (str "required") (JArr (map JStr l)) -> forall k, In k l -> In k (map fst o).
  Proof.
    intros kws o l [n H] k I.
    change (match strings (map JStr l) with Some ks => Some (forallb (fun k => mem_str k (map fst o)) ks) | None => None end = Some true) in H.
    rewrite strings_map in H. injection H as H. rewrite forallb_forall in H. apply mem_str_in. auto.
  Qed.

  Lemma holds_min_length : forall kws s z, (z <= Z.of_nat (length s))%Z -> holds kws (JStr s) (str "minLength") (JInt z).
  Proof. intros kws s z L. exists 0. apply Z.leb_le in L. transitivity (Some (z <=? Z.of_nat (length s))%Z); [reflexivity | rewrite L; reflexivity]. Qed.

  Lemma holds_max_length : forall kws s z, (Z.of_nat (length s) <= z)%Z -> holds kws (JStr s) (str "maxLength") (JInt z).
  Proof. intros kws s z L. exists 0. apply Z.leb_le in L. transitivity (Some (Z.of_nat (length s) <=? z)%Z); [reflexivity | rewrite L; reflexivity]. Qed.

  Lemma num_cmp_int : forall x y, num_cmp (x, 0%Z) (y, 0%Z) = Z.compare x y.
  Proof. intros x y. unfold num_cmp. rewrite Z.min_id, Z.sub_diag, !Z.pow_0_r, !Z.mul_1_r. reflexivity. Qed.

  Lemma holds_minimum : forall kws v z, (z <= v)%Z -> holds kws (JInt v) (str "minimum") (JInt z).
  Proof.
    intros kws v z L. exists 0. transitivity (Some (negb (num_ltb (v, 0%Z) (z, 0%Z)))); [reflexivity|].
    unfold num_ltb. rewrite num_cmp_int. destruct (v ?= z)%Z eqn:Q; try reflexivity. apply (proj1 (Z.compare_lt_iff _ _)) in Q. lia.
  Qed.

  Lemma holds_maximum : forall kws v z, (v <= z)%Z -> holds kws (JInt v) (str "maximum") (JInt z).
  Proof.
    intros kws v z L. exists 0. transitivity (Some (negb (num_ltb (z, 0%Z) (v, 0%Z)))); [reflexivity|].
    unfold num_ltb. rewrite num_cmp_int. destruct (z ?= v)%Z eqn:Q; try reflexivity. apply (proj1 (Z.compare_lt_iff _ _)) in Q. lia.
  Qed.

  (** ** Notes do not matter *)

  Definition note (k : pystr) : bool :=
    mem_str k (map (fun s => str s) ["$schema"; "definitions"; "title"; "description"; "default"; "examples"]%string).

  Definition core (kws : list (pystr * json)) : list (pystr * json) := filter (fun kx => negb (note (fst kx))) kws.

  Lemma core_get : forall kws k, note k = false -> dict_get (core kws) k = dict_get kws k.
  Proof.
    intros kws k N. induction kws as [|[k' x] r IH]; [reflexivity|]. unfold core in *. cbn [filter fst].
    destruct (note k') eqn:Q; cbn [negb dict_get].
    - destruct (pystr_eqb k' k) eqn:B; [apply pystr_eqb_eq in B; congruence | exact IH].
    - destruct (pystr_eqb k' k); [reflexivity | exact IH].
  Qed.

  Lemma keyword_core : forall V kws kws' d k x, core kws = core kws' -> keyword V kws d k x = keyword V kws' d k x.
  Proof.
    intros V kws kws' d k x C.
    assert (P : dict_get kws (str "prefixItems") = dict_get kws' (str "prefixItems")).
    { rewrite <- (core_get kws), <- (core_get kws'), C; reflexivity. }
    assert (Q : dict_get kws (str "properties") = dict_get kws' (str "properties")).
    { rewrite <- (core_get kws), <- (core_get kws'), C; reflexivity. }
    unfold SpecSchema.keyword. rewrite P, Q. reflexivity.
  Qed.

  Lemma all_of_core : forall V kws0 d kws,
    all_of (map (fun kx => keyword V kws0 d (fst kx) (snd kx)) kws) =
    all_of (map (fun kx => keyword V kws0 d (fst kx) (snd kx)) (core kws)).
  Proof.
    intros V kws0 d kws. induction kws as [|[k x] r IH]; [reflexivity|]. unfold core in *. cbn [filter fst].
    destruct (note k) eqn:Q; cbn [negb map fst snd].
    - unfold note in Q. assert (K : keyword V kws0 d k x = Some true) by (unfold SpecSchema.keyword; rewrite Q; reflexivity).
      rewrite K. exact IH.
    - cbn [all_of]. rewrite IH. reflexivity.
  Qed.

  Lemma check_core : forall kws kws' n d, core kws = core kws' -> check n (JObj kws) d = check n (JObj kws') d.
  Proof.
    intros kws kws' [|n] d C; [reflexivity|].
    transitivity (all_of (map (fun kx => keyword (check n) kws d (fst kx) (snd kx)) kws)); [reflexivity|].
    transitivity (all_of (map (fun kx => keyword (check n) kws' d (fst kx) (snd kx)) kws')); [|reflexivity].
    rewrite (all_of_core (check n) kws d kws), (all_of_core (check n) kws' d kws'), C.
    f_equal. apply map_ext. intros [k x]. apply keyword_core. exact C.
  Qed.

  Lemma accepts_core : forall kws kws' d, core kws = core kws' -> accepts (JObj kws) d -> accepts (JObj kws') d.
  Proof. intros kws kws' d C [n H]. exists n. rewrite <- H. symmetry. apply check_core. exact C. Qed.

  Lemma rejects_core : forall kws kws' d, core kws = core kws' -> rejects (JObj kws) d -> rejects (JObj kws') d.
  Proof. intros kws kws' d C [n H]. exists n. rewrite <- H. symmetry. apply check_core. exact C. Qed.
End Meaning.
