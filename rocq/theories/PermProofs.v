(** Deserialization does not depend on the order of properties. *)
From Coq Require Import String List NArith ZArith Bool Permutation Lia.
From Verif Require Import Base Json PyTypes Mapping Deser SpecTyping Lists TypingFacts SpecTypes SpecFields DeserSound SpecRecursion DeserFuel DeserBuild DeserUnfold
  SpecNumbers SpecDeser DeserFacts FieldProofs SpecTagged TaggedProofs SpecSer SpecRoundTrip RoundTrip SpecPerm.
Import ListNotations.
Open Scope list_scope.
Open Scope nat_scope.

Lemma forall2_perm : forall A B (R : A -> B -> Prop) a b c, Forall2 R a b -> Permutation b c ->
  exists a', Permutation a a' /\ Forall2 R a' c.
Proof.
  intros A B R a b c F P. apply Forall2_flip in F.
  destruct (Permutation_Forall2 P F) as (a' & PA & F'). exists a'. split; [exact PA|]. apply Forall2_flip in F'. exact F'.
Qed.

Definition entry_perm (a b : pystr * json) : Prop := fst a = fst b /\ jperm (snd a) (snd b).

Lemma jperm_obj : forall o j, jperm (JObj o) j -> exists o1 o', j = JObj o' /\ Forall2 entry_perm o o1 /\ Permutation o1 o'.
Proof.
  intros o j H. inversion H as [|? ? F|? o1 o' F P]; subst.
  - exists o, o. split; [reflexivity|]. split; [|reflexivity]. clear H. induction o; constructor; [|assumption]. split; [reflexivity | constructor].
  - exists o1, o'. auto.
Qed.

Lemma jperm_arr : forall js j, jperm (JArr js) j -> exists js', j = JArr js' /\ Forall2 jperm js js'.
Proof.
  intros js j H. inversion H as [|? ? F|? o1 o' F P]; subst.
  - exists js. split; [reflexivity|]. clear H. induction js; constructor; [constructor | assumption].
  - eauto.
Qed.

Lemma jperm_sym : forall j j', jperm j j' -> jperm j' j.
Proof.
  fix SYM 3. intros j j' H. destruct H as [j|js js' F|o o1 o' F P].
  - apply jp_same.
  - apply jp_arr. revert js js' F. fix GO 3. intros js js' F. destruct F as [|x y l l' H F].
    + constructor.
    + constructor; [apply SYM; exact H | apply GO; exact F].
  - assert (F' : Forall2 entry_perm o1 o).
    { clear P. revert o o1 F. fix GO 3. intros o o1 F. destruct F as [|x y l l' [Q H] F].
      + constructor.
      + constructor; [split; [symmetry; exact Q | apply SYM; exact H] | apply GO; exact F]. }
    destruct (Permutation_Forall2 P F') as (o2 & PP & F2). eapply jp_obj; [exact F2 | apply Permutation_sym; exact PP].
Qed.

Lemma entries_names : forall o o1, Forall2 entry_perm o o1 -> map fst o1 = map fst o.
Proof. intros o o1 F. induction F as [|a b o o1 [Q _] _ IH]; [reflexivity|]. cbn [map]. rewrite Q, IH. reflexivity. Qed.

Lemma jperm_wf : forall j j', jperm j j' -> json_wf j -> json_wf j'.
Proof.
  apply (json_induct (fun j => forall j', jperm j j' -> json_wf j -> json_wf j')); try (intros; match goal with H : jperm _ _ |- _ => inversion H; subst end; assumption).
  - intros l IH j' H W. apply jperm_arr in H. destruct H as (js' & -> & F). inversion W as [| | | | |? WF|]; subst. constructor.
    rewrite Forall_forall in *. intros x I. destruct (Forall2_in_r _ _ _ _ _ _ F I) as (y & Iy & P). eapply IH; eauto.
  - intros o IH j' H W. apply jperm_obj in H. destruct H as (o1 & o' & -> & F & P). inversion W as [| | | | | |? ND WF]; subst. constructor.
    + eapply Permutation_NoDup; [apply Permutation_map; exact P|]. rewrite (entries_names _ _ F). exact ND.
    + rewrite Forall_forall in *. intros x I. apply (Permutation_in _ (Permutation_sym P)) in I.
      destruct (Forall2_in_r _ _ _ _ _ _ F I) as (y & Iy & _ & Q). eapply IH; eauto.
Qed.

(** * The property of a given name *)
Definition opt_perm (a b : option json) : Prop :=
  match a, b with Some x, Some y => jperm x y | None, None => True | _, _ => False end.

Lemma entries_get : forall o o1 p, Forall2 entry_perm o o1 -> opt_perm (dict_get o p) (dict_get o1 p).
Proof.
  intros o o1 p F. induction F as [|[k x] [k' y] o o1 [Q H] _ IH]; cbn [dict_get opt_perm]; [exact I|]. cbn [fst snd] in Q, H.
  subst k'. destruct (pystr_eqb k p); [exact H | exact IH].
Qed.

Lemma perm_get : forall o o1 o' p, json_wf (JObj o) -> Forall2 entry_perm o o1 -> Permutation o1 o' ->
  opt_perm (dict_get o p) (dict_get o' p).
Proof.
  intros o o1 o' p W F P. rewrite <- (dict_get_perm o1 o' p); [apply entries_get; exact F| |exact P].
  rewrite (entries_names _ _ F). inversion W; assumption.
Qed.

Lemma perm_get_some : forall o o' p, json_wf (JObj o) -> jperm (JObj o) (JObj o') -> opt_perm (dict_get o p) (dict_get o' p).
Proof.
  intros o o' p W H. apply jperm_obj in H. destruct H as (o1 & o2 & Q & F & P). injection Q as <-. eapply perm_get; eassumption.
Qed.

Lemma wf_get : forall o p x, json_wf (JObj o) -> dict_get o p = Some x -> json_wf x.
Proof.
  intros o p x W G. inversion W as [| | | | | |? _ F]; subst. rewrite Forall_forall in F. apply dict_get_in in G. exact (F _ G).
Qed.

Lemma forallb_perm : forall A (f : A -> bool) l l', Permutation l l' -> forallb f l = forallb f l'.
Proof.
  intros A f l l' P. induction P; cbn [forallb]; try congruence.
  rewrite !andb_assoc, (andb_comm (f y)). reflexivity.
Qed.

Lemma perm_known : forall (f : pystr -> bool) o o', jperm (JObj o) (JObj o') ->
  forallb (fun kv => f (fst kv)) o = forallb (fun kv => f (fst kv)) o'.
Proof.
  intros f o o' H. apply jperm_obj in H. destruct H as (o1 & o2 & Q & F & P). injection Q as <-.
  rewrite <- (forallb_perm _ _ _ _ P). clear P. induction F as [|a b o o1 [Q _] _ IH]; [reflexivity|]. cbn [forallb]. rewrite Q, IH. reflexivity.
Qed.

Lemma jperm_kind : forall j j', jperm j j' -> kind_of j = kind_of j'.
Proof. intros j j' H. destruct H; reflexivity. Qed.

Lemma tag_select_perm : forall tbl ps o o', json_wf (JObj o) -> jperm (JObj o) (JObj o') ->
  tag_select tbl ps o = tag_select tbl ps o'.
Proof.
  intros tbl ps o o' W H. induction ps as [|p ps IH]; [reflexivity|]. cbn [tag_select].
  pose proof (perm_get_some o o' p W H) as G.
  destruct (dict_get o p) as [x|], (dict_get o' p) as [y|]; cbn [opt_perm] in G; try contradiction; [|exact IH].
  destruct G; [|reflexivity|reflexivity]. destruct j; rewrite ?IH; reflexivity.
Qed.

Lemma enum_perm : forall c ms j j', jperm j j' -> parse_enum c ms j = parse_enum c ms j'.
Proof.
  intros c ms j j' H. unfold parse_enum.
  assert (X : enum_find ms j = enum_find ms j'); [|rewrite X; reflexivity].
  destruct H as [j| |]; [reflexivity| |]; induction ms as [|[x w] ms IH]; try reflexivity; cbn [enum_find]; rewrite IH;
    destruct w; reflexivity.
Qed.

Lemma scalar_perm : forall k j j', jperm j j' -> parse_scalar k j = parse_scalar k j'.
Proof. intros k j j' H. destruct H; [reflexivity| |]; destruct k; reflexivity. Qed.

(** * Equality and hashing of values *)
Definition attr_perm {A : Type} (a b : A * value) : Prop := fst a = fst b /\ vperm (snd a) (snd b).

Lemma hashable_perm : forall E v v', vperm v v' -> hashable E v = hashable E v'.
Proof.
  intros E. apply (value_induct (fun v => forall v', vperm v v' -> hashable E v = hashable E v')).
  - intros v. destruct v; try exact I; intros v' H; inversion H; subst; reflexivity.
  - intros vs F v' H; inversion H; subst; reflexivity.
  - intros vs F v' H; inversion H as [| |? vs' P| | |]; subst; [reflexivity|]. cbn [hashable]. clear H.
    induction P as [|x y l l' Q _ IH]; [reflexivity|]. inversion F as [|? ? Fx Fl]; subst. cbn [forallb]. rewrite (Fx _ Q), (IH Fl). reflexivity.
  - intros vs F v' H; inversion H; subst; reflexivity.
  - intros vs F v' H; inversion H; subst; reflexivity.
  - intros c attrs F v' H; inversion H as [| | | | |? ? attrs' P]; subst; [reflexivity|]. cbn [hashable]. clear H.
    assert (X : forallb (fun kv => hashable E (snd kv)) attrs = forallb (fun kv => hashable E (snd kv)) attrs').
    { induction P as [|x y l l' [_ Q] _ IH]; [reflexivity|]. inversion F as [|? ? Fx Fl]; subst. cbn [forallb]. rewrite (Fx _ Q), (IH Fl). reflexivity. }
    rewrite X. reflexivity.
Qed.

Lemma vperm_tuple : forall vs w, vperm (VTuple vs) w -> exists ws, w = VTuple ws /\ Forall2 vperm vs ws.
Proof.
  intros vs w H. inversion H as [| |? ws P| | |]; subst; [|eauto]. exists vs. split; [reflexivity|]. clear H. induction vs; constructor; [constructor | assumption].
Qed.

Lemma vperm_obj : forall c ps w, vperm (VObj c ps) w -> exists qs, w = VObj c qs /\ Forall2 attr_perm ps qs.
Proof.
  intros c ps w H. inversion H as [| | | | |? ? qs P]; subst; [|eauto]. exists ps. split; [reflexivity|]. clear H.
  induction ps; constructor; [split; [reflexivity | constructor] | assumption].
Qed.

Lemma py_eq_perm : forall E a a' b b', vperm a a' -> vperm b b' -> py_eq E a b = py_eq E a' b'.
Proof.
  intros E.
  assert (OTHER : forall v, (match v with VTuple _ | VObj _ _ | VList _ | VSet _ | VDict _ => False | _ => True end) -> forall w, vperm v w -> w = v).
  { intros v N w H. destruct H; try contradiction. reflexivity. }
  apply (value_induct (fun a => forall a' b b', vperm a a' -> vperm b b' -> py_eq E a b = py_eq E a' b')).
  - intros v. destruct v; try exact I; intros a' y0 y0' A B; (apply OTHER in A; [|exact I]); subst a'; destruct B; reflexivity.
  - intros vs F a' b b' A B. destruct b; inversion A; inversion B; subst; reflexivity.
  - intros vs F a' b b' A B. apply vperm_tuple in A. destruct A as (ws & -> & A).
    assert (LE : forall l l', Forall2 vperm l l' -> list_eqb (py_eq E) vs l = list_eqb (py_eq E) ws l').
    { clear B. revert F. induction A as [|x y vs ws Q _ IH]; intros F l l' P; inversion P as [|? ? ? ? P1 P2]; subst; try reflexivity.
      inversion F as [|? ? Fx Fl]; subst. cbn [list_eqb]. rewrite (Fx _ _ _ Q P1), (IH Fl _ _ P2). reflexivity. }
    destruct b; try (inversion B; subst; reflexivity).
    + apply vperm_tuple in B. destruct B as (us & -> & B). cbn [py_eq value_number]. apply LE. exact B.
    + apply vperm_obj in B. destruct B as (qs & -> & B). cbn [py_eq value_number]. f_equal. apply LE.
      clear - B. induction B as [|x y l l' [_ Q] _ IH]; constructor; assumption.
  - intros vs F a' b b' A B. destruct b; inversion A; inversion B; subst; reflexivity.
  - intros vs F a' b b' A B. destruct b; inversion A; inversion B; subst; reflexivity.
  - intros c attrs F a' b b' A B. apply vperm_obj in A. destruct A as (qs & -> & A).
    destruct b; try (inversion B; subst; reflexivity).
    + apply vperm_tuple in B. destruct B as (us & -> & B). cbn [py_eq value_number]. f_equal.
      revert F vs us B. induction A as [|x y l l' [_ Q] _ IH]; intros F vs us B; inversion B as [|? ? ? ? B1 B2]; subst; try reflexivity.
      inversion F as [|? ? Fx Fl]; subst. rewrite (Fx _ _ _ Q B1). f_equal. apply (IH Fl). exact B2.
    + apply vperm_obj in B. destruct B as (us & -> & B). cbn [py_eq value_number]. f_equal.
      revert F attrs0 us B. induction A as [|x y l l' [_ Q] _ IH]; intros F vs us B; inversion B as [|? ? ? ? [_ B1] B2]; subst; try reflexivity.
      inversion F as [|? ? Fx Fl]; subst. rewrite (Fx _ _ _ Q B1). f_equal. apply (IH Fl). exact B2.
Qed.

Lemma existsb_perm : forall E acc acc' v v', Forall2 vperm acc acc' -> vperm v v' ->
  existsb (fun u => py_eq E u v) acc = existsb (fun u => py_eq E u v') acc'.
Proof.
  intros E acc acc' v v' F P. induction F as [|x y l l' Q _ IH]; [reflexivity|]. cbn [existsb]. rewrite (py_eq_perm E _ _ _ _ Q P), IH. reflexivity.
Qed.

Lemma forall2_rev : forall A B (R : A -> B -> Prop) l l', Forall2 R l l' -> Forall2 R (rev l) (rev l').
Proof.
  intros A B R l l' F. induction F; cbn [rev]; [constructor|]. apply Forall2_app; [assumption|]. constructor; [assumption | constructor].
Qed.

Lemma set_of_perm : forall E vs vs' acc acc', Forall2 vperm vs vs' -> Forall2 vperm acc acc' ->
  Forall2 vperm (set_of E acc vs) (set_of E acc' vs').
Proof.
  intros E vs vs' acc acc' F. revert acc acc'. induction F as [|x y l l' Q _ IH]; intros acc acc' A; cbn [set_of]; [apply forall2_rev; exact A|].
  rewrite (existsb_perm E _ _ _ _ A Q). destruct (existsb _ acc'); apply IH; [exact A | constructor; assumption].
Qed.

Section Perm.
  Variable E : env.
  Hypothesis CE : canonical_env E.
  Hypothesis GE : guarded_env E.
  Hypothesis CALM : calm E.
  Variable skip : bool.

  Notation jto := (json_to_object E skip).

  Lemma order_free_reach : forall m t m' u, reach E m t m' u -> order_free E skip m t -> order_free E skip m' u.
  Proof.
    intros m t m' u R [A B]. split; intros; [eapply A | eapply B]; try eassumption; eapply reach_trans; eassumption.
  Qed.

  Lemma dict_free_reach : forall m t m' u, reach E m t m' u -> dict_free E m t -> dict_free E m' u.
  Proof.
    intros m t m' u R [A B]. split; intros; [intros H; eapply A | eapply B]; try eassumption; eapply reach_trans; eassumption.
  Qed.

  (** Enough fuel is always available. *)
  Lemma parse_jto : forall n m t j r, ready E m t -> parse E skip n m t j = r -> r <> Err ERecursion -> jto m t j = r.
  Proof. intros n m t j r [P (vis & C)] H N. apply (jto_outcome E GE CALM skip m t j r vis P C N). exists n. exact H. Qed.

  Lemma forall2_choose : forall A B (R : A -> B -> Prop) l, (forall x, In x l -> exists y, R x y) -> exists r, Forall2 R l r.
  Proof.
    intros A B R. induction l as [|x l IH]; intros X; [exists []; constructor|].
    destruct (X x (or_introl eq_refl)) as (y & Q). destruct IH as (r & F); [intros; apply X; right; assumption|]. exists (y :: r). constructor; assumption.
  Qed.

  Lemma mapM_perm : forall A B (f g : A -> res B) (RA : A -> A -> Prop) (RB : B -> B -> Prop) l l' vs,
    Forall2 RA l l' -> mapM f l = Ok vs -> (forall a a' v, In a l -> RA a a' -> f a = Ok v -> exists v', g a' = Ok v' /\ RB v v') ->
    exists vs', mapM g l' = Ok vs' /\ Forall2 RB vs vs'.
  Proof.
    intros A B f g RA RB l l' vs F. revert vs. induction F as [|a a' l l' Q _ IH]; intros vs H X.
    - injection H as <-. exists []. split; [reflexivity | constructor].
    - apply mapM_ok in H. inversion H as [|? v ? ws H1 H2]; subst. destruct (X a a' v (or_introl eq_refl) Q H1) as (v' & G & RV).
      destruct (IH ws) as (ws' & GW & FW).
      { apply mapM_ok. exact H2. }
      { intros b b' u I. apply X. right. exact I. }
      exists (v' :: ws'). split; [|constructor; assumption]. apply mapM_ok. constructor; [exact G|]. apply mapM_ok in GW. exact GW.
  Qed.

  Lemma mapM_permutation : forall A B (f : A -> res B) l l' vs, Permutation l l' -> mapM f l = Ok vs ->
    exists vs', mapM f l' = Ok vs' /\ Permutation vs vs'.
  Proof.
    intros A B f l l' vs P H. apply mapM_ok in H. destruct (Permutation_Forall2 P H) as (vs' & PV & F).
    exists vs'. split; [apply mapM_ok; exact F | exact PV].
  Qed.

  Lemma zip_perm : forall (f g : typ -> json -> res value) ts js js' vs, Forall2 jperm js js' -> zip_parse f ts js = Ok vs ->
    (forall t x x' v, In t ts -> In x js -> jperm x x' -> f t x = Ok v -> exists v', g t x' = Ok v' /\ vperm v v') ->
    exists vs', zip_parse g ts js' = Ok vs' /\ Forall2 vperm vs vs'.
  Proof.
    intros f g ts js js' vs F. revert ts vs. induction F as [|x x' js js' Q _ IH]; intros [|t ts] vs H X; cbn [zip_parse] in *;
      try (injection H as <-; exists []; split; [reflexivity | constructor]).
    destruct (f t x) as [v|] eqn:FV; [|discriminate]. destruct (zip_parse f ts js) as [us|] eqn:Z; [|discriminate]. injection H as <-.
    destruct (X t x x' v (or_introl eq_refl) (or_introl eq_refl) Q FV) as (v' & G & RV).
    destruct (IH ts us) as (us' & GZ & RU); [exact Z | intros; eapply X; try eassumption; right; assumption |].
    exists (v' :: us'). rewrite G, GZ. split; [reflexivity | constructor; assumption].
  Qed.

  (** * Accepted documents *)
  Theorem perm_accepted : forall n m t j j' v, ready E m t -> order_free E skip m t -> json_wf j -> jperm j j' ->
    parse E skip n m t j = Ok v -> exists v', jto m t j' = Ok v' /\ vperm v v'.
  Proof.
    induction n as [|n IH]; intros m t j j' v R O W P H; [discriminate|].
    assert (IH' : forall m' u x x' w, reach E m t m' u -> json_wf x -> jperm x x' -> parse E skip n m' u x = Ok w ->
      exists w', jto m' u x' = Ok w' /\ vperm w w').
    { intros m' u x x' w RE. apply IH; [eapply (ready_reach E CE GE); eassumption | eapply order_free_reach; eassumption]. }
    destruct t; cbn [parse] in H; try discriminate.
    - exists v. split; [|constructor]. rewrite jto_scalar, <- (scalar_perm _ _ _ P). exact H.
    - destruct j as [| | | | |js|]; try discriminate. apply bind_ok in H. destruct H as (vs & A & B). injection B as <-.
      apply jperm_arr in P. destruct P as (js' & -> & F). rewrite (jto_list E GE CALM skip _ _ _ R).
      inversion W as [| | | | |? WF|]; subst. rewrite Forall_forall in WF.
      destruct (mapM_perm _ _ _ (jto m t) _ vperm _ _ _ F A) as (vs' & M & FV).
      { intros a a' u Ia Q. apply IH'; [apply re_list, re_refl | apply WF; exact Ia | exact Q]. }
      rewrite M. exists (VList vs'). split; [reflexivity | constructor; exact FV].
    - destruct j as [| | | | |js|]; try discriminate. apply bind_ok in H. destruct H as (vs & A & B). injection B as <-.
      apply jperm_arr in P. destruct P as (js' & -> & F). rewrite (jto_set E GE CALM skip _ _ _ R).
      inversion W as [| | | | |? WF|]; subst. rewrite Forall_forall in WF.
      destruct (mapM_perm _ _ _ (fun x => do v <- jto m t x; if hashable E v then Ok v else Err EType) _ vperm _ _ _ F A) as (vs' & M & FV).
      { intros a a' u Ia Q H. apply bind_ok in H. destruct H as (w & H & HA).
        destruct (IH' m t a a' w) as (w' & J & V); [apply re_set, re_refl | apply WF; exact Ia | exact Q | exact H |].
        destruct (hashable E w) eqn:HW; [|discriminate]. injection HA as <-. rewrite (hashable_perm E _ _ V) in HW.
        exists w'. rewrite J. cbn [bind]. rewrite HW. auto. }
      rewrite M. exists (VSet (set_of E [] vs')). split; [reflexivity|]. constructor. apply set_of_perm; [exact FV | constructor].
    - destruct j as [| | | | | |o]; try discriminate. apply bind_ok in H. destruct H as (kvs & A & B). injection B as <-.
      apply jperm_obj in P. destruct P as (o1 & o' & -> & F & P). rewrite (jto_dict E GE CALM skip _ _ _ _ R).
      inversion W as [| | | | | |? ND WF]; subst. rewrite Forall_forall in WF.
      destruct (mapM_perm _ _ _ (fun '(s, x) => do kv <- parse_key E t1 s; do v <- jto m t2 x; Ok (kv, v)) _ attr_perm _ _ _ F A) as (kvs1 & M & FV).
      { intros [s a] [s' a'] u Ia [Q1 Q] H. cbn [fst snd] in Q1, Q. subst s'. apply bind_ok in H. destruct H as (kv & K & H).
        apply bind_ok in H. destruct H as (w & H & U). injection U as <-.
        destruct (IH' m t2 a a' w) as (w' & J & V); [apply re_dict, re_refl | apply (WF _ Ia) | exact Q | exact H |].
        exists (kv, w'). rewrite K. cbn [bind]. rewrite J. split; [reflexivity|]. split; [reflexivity | exact V]. }
      destruct (mapM_permutation _ _ _ _ _ _ P M) as (kvs' & M' & PK). rewrite M'. cbn [bind]. exists (VDict kvs'). split; [reflexivity|].
      eapply vp_dict; eassumption.
    - destruct j as [| | | | |js|]; try discriminate. destruct (Nat.eqb (length js) (length ts)) eqn:LEN; [|discriminate].
      apply bind_ok in H. destruct H as (vs & A & B). injection B as <-.
      apply jperm_arr in P. destruct P as (js' & -> & F). rewrite (jto_tuple E GE CALM skip _ _ _ R).
      inversion W as [| | | | |? WF|]; subst. rewrite Forall_forall in WF.
      rewrite <- (Forall2_length_eq _ _ _ _ _ F), LEN.
      destruct (zip_perm _ (jto m) ts _ _ vs F A) as (vs' & M & FV).
      { intros t x x' u It Ix Q. apply IH'; [eapply re_tuple; [exact It | apply re_refl] | apply WF; exact Ix | exact Q]. }
      rewrite M. exists (VTuple vs'). split; [reflexivity | constructor; exact FV].
    - pose proof (ready_union E GE _ _ _ R) as RU. rewrite Forall_forall in RU.
      rewrite (jto_union E GE CALM skip _ _ _ _ R). destruct (discriminating_properties E ts) as [ps|e] eqn:D; [|discriminate]. cbn [bind] in *.
      destruct ps as [|p ps].
      + apply union_try_spec in H. destruct H as (ts1 & u & ts2 & -> & H & F).
        assert (Iu : In u (ts1 ++ u :: ts2)) by (apply in_app_iff; right; left; reflexivity).
        destruct (IH' m u j j' v) as (v' & J & V); [eapply re_union; [exact Iu | apply re_refl] | exact W | exact P | exact H |].
        exists v'. split; [|exact V]. apply union_try_spec. exists ts1, u, ts2. split; [reflexivity|]. split; [exact J|].
        rewrite Forall_forall in *. intros w Iw. destruct (F w Iw) as (e & HW & S).
        assert (Iw' : In w (ts1 ++ u :: ts2)) by (apply in_app_iff; left; exact Iw).
        apply in_split in Iw. destruct Iw as (a & b & ->).
        assert (U : untagged E ((a ++ w :: b) ++ u :: ts2)) by (apply (untagged_iff E _ [] D); reflexivity).
        pose proof (of_union _ _ _ _ O m op _ (re_refl _ _ _) U) as SE.
        apply (SE a w (b ++ u :: ts2) u j j' v e); try assumption.
        * rewrite <- app_assoc. reflexivity.
        * apply in_app_iff. right. left. reflexivity.
        * apply (parse_jto n); [apply RU; exact Iu | exact H | discriminate].
        * apply (parse_jto n); [apply RU; exact Iw' | exact HW | destruct S as [-> | ->]; discriminate].
      + cbv zeta in *. destruct (tag_table E (e_order E (p :: ps)) ts) as [tbl|] eqn:T; [|discriminate]. cbn [bind] in *.
        destruct j as [| | | | | |o]; try discriminate. pose proof P as P0. apply jperm_obj in P0. destruct P0 as (_ & o' & -> & _).
        rewrite <- (tag_select_perm _ _ _ _ W P). apply bind_ok in H. destruct H as (u & S & H). rewrite S. cbn [bind].
        eapply IH'; try eassumption. eapply re_union; [|apply re_refl].
        apply tag_select_in in S. destruct S as (p' & l' & x & _ & I & _). apply (tag_table_in _ _ _ _ _ _ _ T) in I. tauto.
    - rewrite (jto_literal E GE CALM skip _ _ _ R). apply bind_ok in H. destruct H as (u & L & H). rewrite L. cbn [bind].
      apply bind_ok in H. destruct H as (w & Q & H). destruct (existsb _ ls) eqn:X; [|discriminate]. injection H as <-.
      destruct (IH' m u j j' w) as (w' & J & V).
      { destruct ls as [|l ls]; [discriminate|]. rewrite <- (literal_type_all _ _ L l (or_introl eq_refl)). eapply re_literal; [left; reflexivity | apply re_refl]. }
      { exact W. } { exact P. } { exact Q. }
      rewrite J. cbn [bind]. exists w'. split; [|exact V].
      assert (Y : existsb (fun l => py_eq E (lit_value l) w') ls = existsb (fun l => py_eq E (lit_value l) w) ls).
      { clear - V. induction ls as [|l ls IHl]; [reflexivity|]. cbn [existsb]. rewrite IHl. f_equal. symmetry. apply py_eq_perm; [constructor | exact V]. }
      rewrite Y, X. reflexivity.
    - rewrite (jto_annot E GE CALM skip _ _ _ _ R). destruct t; try discriminate; (eapply IH'; try eassumption; apply re_annot, re_refl).
    - destruct (get_class E c) as [cl|] eqn:G; [|discriminate].
      assert (X : fieldwise cl ->
        (do fps <- field_parsers E cl; parse_object (parse E skip n (c_module cl)) skip c cl fps j) = Ok v ->
        exists v', jto m (TClass c) j' = Ok v' /\ vperm v v').
      { intros FW Q. apply bind_ok in Q. destruct Q as (fps & F & Q).
        rewrite (jto_class E GE CALM skip m c cl fps j' R G (proj1 (fieldwise_by_fields cl) FW) F).
        destruct j as [| | | | | |o]; try discriminate. pose proof P as P0. apply jperm_obj in P0. destruct P0 as (_ & o' & -> & _).
        cbn [parse_object] in *. apply bind_ok in Q. destruct Q as (vals & V & Q).
        assert (RF : Forall2 (fun a b => a = b) fps fps) by (clear; induction fps; constructor; auto).
        destruct (mapM_perm _ _ _ (fun fp => do v <- parse_field (jto (c_module cl)) fp o'; Ok (fp_name fp, v)) _ attr_perm _ _ _ RF V) as (vals' & M & FV).
        { intros fp fp' y Ifp <- Z. apply bind_ok in Z. destruct Z as (w & Z & Y). injection Y as <-.
          assert (PF : exists w', parse_field (jto (c_module cl)) fp o' = Ok w' /\ vperm w w').
          { pose proof (perm_get_some o o' (fp_prop fp) W P) as GP. pose proof (wf_get o (fp_prop fp)) as WG.
            unfold parse_field in *.
            destruct (dict_get o (fp_prop fp)) as [x|] eqn:DG, (dict_get o' (fp_prop fp)) as [x'|]; cbn [opt_perm] in GP; try contradiction.
            - assert (REC : parse E skip n (c_module cl) (fp_type fp) x = Ok w -> exists w', jto (c_module cl) (fp_type fp) x' = Ok w' /\ vperm w w').
              { apply IH'; [eapply (field_types E CE); eassumption | apply (WG x W eq_refl) | exact GP]. }
              destruct (fp_mode fp); destruct GP as [x| |]; try destruct x; try discriminate; try (exists w; split; [exact Z | constructor]; fail);
                exact (REC Z).
            - destruct (fp_mode fp); try discriminate; exists w; (split; [exact Z | constructor]). }
          destruct PF as (w' & J & VP). exists (fp_name fp, w'). rewrite J. split; [reflexivity|]. split; [reflexivity | exact VP]. }
        rewrite M. cbn [bind]. rewrite <- (perm_known (fun p => mem_str p (map fp_prop fps)) o o' P).
        destruct (skip || _); [|discriminate].
        assert (VQ : v = VObj c vals) by (destruct (c_kind cl) as [| |[|]| |]; congruence).
        exists (VObj c vals'). split; [destruct (c_kind cl) as [| |[|]| |]; congruence|]. subst v. constructor. exact FV. }
      unfold fieldwise in X. pose proof (of_hook _ _ _ _ O m c cl) as HK.
      destruct (c_kind cl) eqn:K.
      + rewrite (jto_enum E skip m c cl _ j' G K). rewrite <- (enum_perm _ _ _ _ P). exists v. split; [exact H | constructor].
      + apply X; [exact I | exact H].
      + apply X; [exact I | exact H].
      + destruct (c_from_json cl) as [h|] eqn:FJ; [|apply X; [reflexivity | exact H]].
        rewrite (jto_hook E GE CALM skip m c cl h j' R G); [|rewrite K; exact I|exact FJ].
        eapply HK; [apply re_refl | exact G | split; [rewrite K; exact I | exact FJ] | exact P | exact H].
      + destruct (c_from_json cl) as [h|] eqn:FJ; [|apply X; [reflexivity | exact H]].
        rewrite (jto_hook E GE CALM skip m c cl h j' R G); [|rewrite K; exact I|exact FJ].
        eapply HK; [apply re_refl | exact G | split; [rewrite K; exact I | exact FJ] | exact P | exact H].
    - destruct (lookup E m s) as [[a u]|] eqn:L; [|discriminate]. rewrite (jto_ref E GE CALM skip m s a u j' R L).
      assert (X : parse E skip n m (deref u) j = Ok v -> exists v', jto m (deref u) j' = Ok v' /\ vperm v v').
      { apply IH'; [eapply re_ref; [exact L | apply re_refl] | exact W | exact P]. }
      destruct (deref u); try discriminate; exact (X H).
  Qed.

  Theorem jto_perm : forall m t j j' v, ready E m t -> order_free E skip m t -> json_wf j -> jperm j j' ->
    jto m t j = Ok v -> exists v', jto m t j' = Ok v' /\ vperm v v'.
  Proof.
    intros m t j j' v R O W P H. pose proof R as [EP (vis & C)].
    apply (jto_outcome E GE CALM skip m t j _ vis EP C) in H; [|discriminate]. destruct H as (n & H).
    eapply perm_accepted; eassumption.
  Qed.

  (** * Without dictionaries, rejections agree as well *)
  Lemma parse_perm : forall n m t j j', dict_free E m t -> json_wf j -> jperm j j' ->
    parse E skip n m t j = parse E skip n m t j'.
  Proof.
    induction n as [|n IH]; intros m t j j' O W P; [reflexivity|].
    assert (IH' : forall m' u x x', reach E m t m' u -> json_wf x -> jperm x x' -> parse E skip n m' u x = parse E skip n m' u x').
    { intros m' u x x' RE. apply IH. eapply dict_free_reach; eassumption. }
    assert (ARR : forall A (f : json -> res A) js js', Forall2 jperm js js' -> (forall x, In x js -> json_wf x) ->
      (forall x x', json_wf x -> jperm x x' -> f x = f x') -> mapM f js = mapM f js').
    { intros A f js js' F WF X. induction F as [|x x' js js' Q _ IHF]; [reflexivity|]. cbn [mapM].
      rewrite (X x x' (WF x (or_introl eq_refl)) Q), IHF; [reflexivity|]. intros; apply WF; right; assumption. }
    destruct t; cbn [parse]; try reflexivity.
    - apply scalar_perm. exact P.
    - destruct P as [|js js' F|]; try reflexivity. inversion W as [| | | | |? WF|]; subst. rewrite Forall_forall in WF.
      rewrite (ARR _ (parse E skip n m t) js js' F WF); [reflexivity|]. intros x x'. apply IH'. apply re_list, re_refl.
    - destruct P as [|js js' F|]; try reflexivity. inversion W as [| | | | |? WF|]; subst. rewrite Forall_forall in WF.
      rewrite (ARR _ (fun x => do v <- parse E skip n m t x; if hashable E v then Ok v else Err EType) js js' F WF); [reflexivity|].
      intros x x' Wx Px. rewrite (IH' m t x x'); [reflexivity | apply re_set, re_refl | exact Wx | exact Px].
    - destruct (df_dict _ _ _ O m t1 t2). apply re_refl.
    - destruct P as [|js js' F|]; try reflexivity. inversion W as [| | | | |? WF|]; subst. rewrite Forall_forall in WF.
      rewrite <- (Forall2_length_eq _ _ _ _ _ F). destruct (Nat.eqb _ _); [|reflexivity].
      assert (X : zip_parse (parse E skip n m) ts js = zip_parse (parse E skip n m) ts js'); [|rewrite X; reflexivity].
      assert (Y : forall t x x', In t ts -> json_wf x -> jperm x x' -> parse E skip n m t x = parse E skip n m t x').
      { intros t x x' It. apply IH'. eapply re_tuple; [exact It | apply re_refl]. }
      clear - F WF Y. revert ts Y. induction F as [|x x' js js' Q _ IHF]; intros ts Y; destruct ts as [|t ts]; try reflexivity.
      cbn [zip_parse]. rewrite (Y t x x' (or_introl eq_refl) (WF x (or_introl eq_refl)) Q), (IHF (fun z Iz => WF z (or_intror Iz)) ts (fun t x x' It => Y t x x' (or_intror It))).
      reflexivity.
    - destruct (discriminating_properties E ts) as [[|p ps]|e]; cbn [bind]; [|cbv zeta|reflexivity].
      + apply union_try_ext. intros t It. apply IH'; [eapply re_union; [exact It | apply re_refl] | exact W | exact P].
      + destruct (tag_table E (e_order E (p :: ps)) ts) as [tbl|e] eqn:T; [|reflexivity]. cbn [bind].
        destruct j as [| | | | | |o]; try (inversion P; subst; reflexivity). pose proof P as P0. apply jperm_obj in P0. destruct P0 as (_ & o' & -> & _).
        rewrite <- (tag_select_perm _ _ _ _ W P). destruct (tag_select tbl _ o) as [u|e] eqn:S; [|reflexivity]. cbn [bind].
        apply IH'; [|exact W|exact P]. eapply re_union; [|apply re_refl].
        apply tag_select_in in S. destruct S as (p' & l' & x & _ & I & _). apply (tag_table_in _ _ _ _ _ _ _ T) in I. tauto.
    - destruct (literal_type ls) as [u|e] eqn:L; [|reflexivity]. cbn [bind]. rewrite (IH' m u j j'); [reflexivity| |exact W|exact P].
      destruct ls as [|l ls]; [discriminate|]. rewrite <- (literal_type_all _ _ L l (or_introl eq_refl)). eapply re_literal; [left; reflexivity | apply re_refl].
    - rewrite (IH' m t j j'); [reflexivity | apply re_annot, re_refl | exact W | exact P].
    - destruct (get_class E c) as [cl|] eqn:G; [|reflexivity].
      assert (X : fieldwise cl ->
        (do fps <- field_parsers E cl; parse_object (parse E skip n (c_module cl)) skip c cl fps j) =
        (do fps <- field_parsers E cl; parse_object (parse E skip n (c_module cl)) skip c cl fps j')).
      { intros FW. destruct (field_parsers E cl) as [fps|e] eqn:F; [|reflexivity]. cbn [bind].
        destruct j as [| | | | | |o]; try (inversion P; subst; reflexivity). pose proof P as P0. apply jperm_obj in P0. destruct P0 as (_ & o' & -> & _).
        cbn [parse_object]. rewrite <- (perm_known (fun p => mem_str p (map fp_prop fps)) o o' P).
        rewrite (mapM_ext _ _ _ (fun fp => do v <- parse_field (parse E skip n (c_module cl)) fp o'; Ok (fp_name fp, v))); [reflexivity|].
        intros fp Ifp.
        assert (Q : parse_field (parse E skip n (c_module cl)) fp o = parse_field (parse E skip n (c_module cl)) fp o'); [|rewrite Q; reflexivity].
        pose proof (perm_get_some o o' (fp_prop fp) W P) as GP. pose proof (wf_get o (fp_prop fp)) as WG. unfold parse_field.
        destruct (dict_get o (fp_prop fp)) as [x|] eqn:DG, (dict_get o' (fp_prop fp)) as [x'|]; cbn [opt_perm] in GP; try contradiction; [|reflexivity].
        assert (REC : parse E skip n (c_module cl) (fp_type fp) x = parse E skip n (c_module cl) (fp_type fp) x').
        { apply IH'; [eapply (field_types E CE); eassumption | apply (WG x W eq_refl) | exact GP]. }
        destruct (fp_mode fp); destruct GP as [x| |]; try reflexivity; exact REC. }
      unfold fieldwise in X. pose proof (df_hook _ _ _ O m c cl) as HK.
      destruct (c_kind cl) eqn:K.
      + apply enum_perm. exact P.
      + apply X. exact I.
      + apply X. exact I.
      + destruct (c_from_json cl) as [h|] eqn:FJ; [|apply X; reflexivity].
        eapply HK; [apply re_refl | exact G | split; [rewrite K; exact I | exact FJ] | exact P].
      + destruct (c_from_json cl) as [h|] eqn:FJ; [|apply X; reflexivity].
        eapply HK; [apply re_refl | exact G | split; [rewrite K; exact I | exact FJ] | exact P].
    - destruct (lookup E m s) as [[a u]|] eqn:L; [|reflexivity].
      assert (X : parse E skip n m (deref u) j = parse E skip n m (deref u) j').
      { apply IH'; [eapply re_ref; [exact L | apply re_refl] | exact W | exact P]. }
      destruct (deref u); try reflexivity; exact X.
  Qed.

  Theorem jto_perm_exact : forall m t j j', ready E m t -> dict_free E m t -> json_wf j -> jperm j j' ->
    jto m t j' = jto m t j.
  Proof.
    intros m t j j' [EP C] O W P.
    rewrite <- (jto_parse E GE CALM skip m t j (parse_fuel E t j + parse_fuel E t j') EP); [|lia|exact C].
    rewrite <- (jto_parse E GE CALM skip m t j' (parse_fuel E t j + parse_fuel E t j') EP); [|lia|exact C].
    symmetry. apply parse_perm; assumption.
  Qed.

  (** * When alternatives are settled *)
  Hypothesis ORD : shuffles (e_order E).

  Theorem settled_when : forall m ts, Forall (ready E m) ts ->
    (forall ts1 w ts2 u, ts = ts1 ++ w :: ts2 -> In u ts2 ->
       dict_free E m w \/ kinds_apart E m w u \/ (gentle E skip m w /\ order_free E skip m w)) ->
    settled E skip m ts.
  Proof.
    intros m ts R X ts1 w ts2 u j j' v e -> Iu W P JU JW S.
    assert (Rw : ready E m w).
    { rewrite Forall_forall in R. apply R. apply in_app_iff. right. left. reflexivity. }
    destruct (X ts1 w ts2 u eq_refl Iu) as [DF|[KA|[GT OF]]].
    - exists e. split; [|exact S]. rewrite (jto_perm_exact m w j j' Rw DF W P). exact JW.
    - apply jto_admits in JU. apply KA in JU. destruct (refuses_soft E GE CALM ORD skip _ _ _ JU Rw j') as (e' & S' & J').
      + symmetry. apply jperm_kind. exact P.
      + exists e'. auto.
    - destruct (jto m w j') as [v'|e'] eqn:J.
      + destruct (jto_perm m w j' j v' Rw OF (jperm_wf _ _ P W) (jperm_sym _ _ P) J) as (v2 & J2 & _). congruence.
      + exists e'. split; [reflexivity|]. eapply GT. exact J.
  Qed.
End Perm.
