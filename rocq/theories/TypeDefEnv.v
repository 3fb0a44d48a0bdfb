(** Programs that grow by new types. *)
From Coq Require Import String List NArith ZArith Bool Lia.
From Verif Require Import Base Json PyTypes Mapping Deser ClassDef Lists TypingFacts DeserSound SpecTypes TypeAlgebraProofs SpecRecursion DeserFuel DeserBuild DeserUnfold TypeDef SpecTypeDef.
Import ListNotations.
Open Scope list_scope.
Open Scope nat_scope.

Definition flat (t : typ) : Prop := every_part (fun u => ~ is_ref u) t.

Lemma flat_guarded : forall E m t, flat t -> every_part (guarded E m) t.
Proof.
  intros E m. assert (L : forall ts, Forall (fun t => flat t -> every_part (guarded E m) t) ts ->
    fold_right (fun u a => every_part (fun u => ~ is_ref u) u /\ a) True ts -> Forall (every_part (guarded E m)) ts).
  { intros ts H F. apply every_part_list in F. rewrite Forall_forall in *. intros t I. apply H; [exact I | apply F; exact I]. }
  induction t as [k|b|u IH|u IH|k u IHk IH|ts IH|op ts IH|ls|u md IH|c|s|] using typ_induct; intros F; cbn [every_part];
    try (split; [apply g_leaf; exact Logic.I | try exact Logic.I]).
  - apply IH. exact (proj2 F).
  - apply IH. exact (proj2 F).
  - split; [apply IHk | apply IH]; apply (proj2 F).
  - apply every_part_list. apply L; [exact IH | exact (proj2 F)].
  - pose proof (L ts IH (proj2 F)) as P. split; [|apply every_part_list; exact P]. apply g_union.
    eapply Forall_impl; [|exact P]. intros a. apply every_part_top.
  - pose proof (IH (proj2 F)) as P. split; [|exact P]. apply g_annot. apply every_part_top. exact P.
  - destruct F as [F _]. destruct F. exact Logic.I.
Qed.

Lemma guarded_same : forall E F m, (forall s, lookup F m s = lookup E m s) -> forall t, guarded E m t -> guarded F m t.
Proof.
  intros E F m Q. fix IH 2. intros t G. destruct G as [t L|op ts H|t md H|s H].
  - apply g_leaf. exact L.
  - apply g_union. induction H; constructor; auto.
  - apply g_annot. apply IH. exact H.
  - apply g_ref. intros a t L. rewrite Q in L. apply IH. eapply H. exact L.
Qed.

Lemma parts_same : forall E F m, (forall s, lookup F m s = lookup E m s) -> forall t, every_part (guarded E m) t -> every_part (guarded F m) t.
Proof.
  intros E F m Q.
  assert (L : forall ts, Forall (fun t => every_part (guarded E m) t -> every_part (guarded F m) t) ts ->
    fold_right (fun u a => every_part (guarded E m) u /\ a) True ts -> fold_right (fun u a => every_part (guarded F m) u /\ a) True ts).
  { intros ts H. induction H as [|t ts Ht H IH]; cbn [fold_right]; [auto|]. intros [A B]. auto. }
  induction t as [k|b|u IH|u IH|k u IHk IH|ts IH|op ts IH|ls|u md IH|c|s|] using typ_induct; intros H; cbn [every_part] in *;
    (split; [eapply guarded_same; [exact Q | exact (proj1 H)]|]); try exact Logic.I; destruct H as [_ H]; auto.
  destruct H. auto.
Qed.

(** ** Growth *)

Definition ext (E F : env) : Prop := (exists cs, e_classes F = e_classes E ++ cs) /\ e_order F = e_order E.
Definition keeps (m : nat) (E F : env) : Prop := forall x b, lookup E m x = Some b -> lookup F m x = Some b.

Lemma ext_refl : forall E, ext E E.
Proof. intros E. split; [exists []; rewrite app_nil_r; reflexivity | reflexivity]. Qed.

Lemma ext_trans : forall E F G, ext E F -> ext F G -> ext E G.
Proof.
  intros E F G [[a A] OA] [[b B] OB]. split; [|congruence]. exists (a ++ b). rewrite B, A, app_assoc. reflexivity.
Qed.

Lemma keeps_refl : forall m E, keeps m E E.
Proof. intros m E x b H. exact H. Qed.

Lemma keeps_trans : forall m E F G, keeps m E F -> keeps m F G -> keeps m E G.
Proof. intros m E F G A B x b H. apply B, A, H. Qed.

Lemma ext_class : forall E F c cl, ext E F -> get_class E c = Some cl -> get_class F c = Some cl.
Proof.
  intros E F c cl [[cs Q] _] G. unfold get_class in *. rewrite Q, nth_error_app1; [exact G|]. apply nth_error_Some. congruence.
Qed.

Record sound (m : nat) (E : env) : Prop := {
  sn_guarded : guarded_env E;
  sn_calm : calm E;
  sn_plain : plain_module E m
}.

Lemma sound_grow : forall m E F, sound m E ->
  (forall m' s, m' <> m -> lookup F m' s = lookup E m' s) ->
  (forall x a t, lookup F m x = Some (a, t) -> flat t) ->
  (forall c cl, get_class F c = Some cl -> get_class E c = Some cl \/
     c_module cl = m /\ c_from_json cl = None /\ (forall y t, In (y, t) (raw_fields (c_kind cl)) -> flat t) /\
     (forall fr fs f, c_kind cl = CData fr fs -> In f fs -> f_default f <> Some (Err ERecursion))) ->
  sound m F.
Proof.
  intros m E F [GE CA PM] LK FL CL. constructor.
  - split.
    + intros c cl x t G I. destruct (CL c cl G) as [G'|(M & _ & P & _)]; [|apply flat_guarded; eapply P; exact I].
      destruct (Nat.eq_dec (c_module cl) m) as [Q|Q]; [apply flat_guarded; eapply pm_fields; eassumption|].
      eapply parts_same; [|eapply ge_fields; eassumption]. intros s. apply LK. exact Q.
    + intros m' s a t L. destruct (Nat.eq_dec m' m) as [->|Q]; [apply flat_guarded; eapply FL; exact L|].
      rewrite LK in L by exact Q. eapply parts_same; [|eapply ge_refs; eassumption]. intros s'. apply LK. exact Q.
    + intros m' s t L. destruct (Nat.eq_dec m' m) as [->|Q]; [eapply FL; exact L|]. rewrite LK in L by exact Q. eapply ge_plain; eassumption.
  - split.
    + intros c cl h j G J. destruct (CL c cl G) as [G'|(_ & Q & _)]; [eapply calm_hook; eassumption | congruence].
    + intros c cl fr fs f G K I. destruct (CL c cl G) as [G'|(_ & _ & _ & D)]; [eapply calm_default; eassumption | eapply D; eassumption].
  - split; [|exact FL]. intros c cl x t G M I. destruct (CL c cl G) as [G'|(_ & _ & P & _)]; [eapply pm_fields; eassumption | eapply P; exact I].
Qed.

Lemma lookup_set : forall E m x t m' s, lookup (module_set E m x t) m' s = if Nat.eqb m m' && pystr_eqb x s then Some (true, t) else lookup E m' s.
Proof. reflexivity. Qed.

Lemma set_sound : forall m E x t, sound m E -> flat t -> sound m (module_set E m x t).
Proof.
  intros m E x t S F. apply (sound_grow m E); [exact S|..].
  - intros m' s Q. rewrite lookup_set. destruct (Nat.eqb_spec m m'); [congruence | reflexivity].
  - intros y a u L. rewrite lookup_set, Nat.eqb_refl in L. cbn [andb] in L. destruct (pystr_eqb x y); [injection L as <- <-; exact F|].
    eapply pm_refs; [exact (sn_plain _ _ S) | exact L].
  - intros c cl G. left. exact G.
Qed.

Lemma set_ext : forall m E x t, ext E (module_set E m x t).
Proof. intros m E x t. split; [exists []; cbn; rewrite app_nil_r; reflexivity | reflexivity]. Qed.

Lemma taken_lookup : forall E m x b, lookup E m x = Some b -> taken E m x = true.
Proof. intros E m x b H. unfold taken. rewrite H. reflexivity. Qed.

Lemma untaken_lookup : forall E m x, taken E m x = false -> lookup E m x = None.
Proof. intros E m x H. destruct (lookup E m x) as [b|] eqn:Q; [|reflexivity]. apply taken_lookup in Q. congruence. Qed.

Lemma set_keeps : forall m E x t, lookup E m x = None -> keeps m E (module_set E m x t).
Proof.
  intros m E x t N y b L. rewrite lookup_set, Nat.eqb_refl. cbn [andb]. destruct (pystr_eqb x y) eqn:Q; [|exact L].
  apply pystr_eqb_eq in Q. congruence.
Qed.

Lemma new_class_ok : forall m E x k E' t, new_class E m x k = Ok (E', t) -> sound m E ->
  (forall y u, In (y, u) (raw_fields k) -> flat u) ->
  (forall fr fs f, k = CData fr fs -> In f fs -> f_default f <> Some (Err ERecursion)) ->
  sound m E' /\ ext E E' /\ keeps m E E' /\ exists c, t = TClass c /\ get_class E' c = Some (mkClass m x k None None).
Proof.
  intros m E x k E' t H S F D. unfold new_class in H. destruct (taken E m x) eqn:T; [discriminate H|]. injection H as <- <-.
  pose proof (untaken_lookup _ _ _ T) as LN.
  set (E1 := mkEnv (e_classes E ++ [mkClass m x k None None]) (e_refs E) (e_order E)).
  assert (X1 : ext E E1) by (split; [exists [mkClass m x k None None]; reflexivity | reflexivity]).
  assert (S1 : sound m E1).
  { apply (sound_grow m E); [exact S | reflexivity | intros y a u L; eapply pm_refs; [exact (sn_plain _ _ S) | exact L]|].
    intros c cl G. unfold get_class, E1 in G. cbn [e_classes] in G. unfold get_class.
    destruct (Nat.lt_ge_cases c (length (e_classes E))) as [L|L]; [left; rewrite nth_error_app1 in G by exact L; exact G|].
    right. rewrite nth_error_app2 in G by exact L. destruct (c - length (e_classes E)) as [|d]; [|destruct d; discriminate G].
    injection G as <-. cbn [c_module c_from_json c_kind]. auto. }
  split; [apply set_sound; [exact S1 | cbn; auto]|].
  split; [eapply ext_trans; [exact X1 | apply set_ext]|].
  split; [apply (set_keeps m E1); exact LN|].
  exists (length (e_classes E)). split; [reflexivity|]. change (nth_error (e_classes E ++ [mkClass m x k None None]) (length (e_classes E)) = Some (mkClass m x k None None)).
  rewrite nth_error_app2, Nat.sub_diag by apply le_n. reflexivity.
Qed.

(** ** Types without texts *)

Lemma flat_union_members : forall op ts, flat (TUnion op ts) <-> Forall flat ts.
Proof.
  intros op ts. unfold flat. cbn [every_part]. rewrite every_part_list. split; [tauto|]. intros H. split; [intros [] | exact H].
Qed.

Lemma flatten_flat : forall ts, Forall flat ts -> Forall flat (flatten_union ts).
Proof.
  intros ts H. apply Forall_forall. intros t I. unfold flatten_union in I. apply in_flat_map in I. destruct I as (u & Iu & I).
  rewrite Forall_forall in H. specialize (H u Iu).
  destruct u as [| | | | | |op us| | | | |]; try (destruct I as [<-|[]]; exact H). apply flat_union_members in H. rewrite Forall_forall in H. auto.
Qed.

Lemma mk_union_flat : forall op ts t, Forall flat ts -> mk_union op ts = Ok t -> flat t.
Proof.
  intros op ts t F H. unfold mk_union in H.
  assert (M : Forall flat (dedup [] (flatten_union ts))).
  { apply Forall_forall. intros u I. apply dedup_in in I. apply flatten_flat in F. rewrite Forall_forall in F. apply F. exact I. }
  destruct (dedup [] (flatten_union ts)) as [|a [|b r]]; [discriminate H | |]; injection H as <-.
  - inversion M; assumption.
  - apply flat_union_members. exact M.
Qed.

(** Evaluation leaves types without texts as they are. *)
Lemma mapM_id : forall A (f : A -> res A) l, Forall (fun x => f x = Ok x) l -> mapM f l = Ok l.
Proof. intros A f l H. apply mapM_ok. induction H; constructor; auto. Qed.

Lemma resolve_flat : forall E m n g t, flat t -> canonical t -> resolve E m n g t = Ok t.
Proof.
  intros E m n g t F C. revert F C.
  assert (X : forall t, flat t -> canonical t -> resolve E m n g t = Ok t).
  { clear t. induction t as [k|b|u IH|u IH|k u IHk IH|ts IH|op ts IH|ls|u md IH|c|s|] using typ_induct; intros F C; rewrite resolve_eq; try reflexivity.
    - inversion C; subst. rewrite IH; [reflexivity | exact (proj2 F) | assumption].
    - inversion C; subst. rewrite IH; [reflexivity | exact (proj2 F) | assumption].
    - inversion C; subst. rewrite IHk, IH; [reflexivity | apply (proj2 F) | assumption | apply (proj2 F) | assumption].
    - inversion C as [| | | | |? CF| | | | | |]; subst. rewrite mapM_id; [reflexivity|]. destruct F as [_ F]. apply every_part_list in F.
      rewrite Forall_forall in *. intros x I. apply IH; [exact I | apply F; exact I | apply CF; exact I].
    - inversion C as [| | | | | |? ? L N CF| | | | |]; subst. rewrite mapM_id.
      + cbn [bind]. unfold mk_union. rewrite flatten_none; [|eapply Forall_impl; [|exact CF]; intros a [_ A]; exact A].
        rewrite dedup_nodup; [|exact N | intros t _ []]. destruct ts as [|a [|b r]]; cbn in L; try lia. reflexivity.
      + destruct F as [_ F]. apply every_part_list in F. rewrite Forall_forall in *. intros x I.
        apply IH; [exact I | apply F; exact I | apply (CF x I)].
    - inversion C as [| | | | | | | |? ? CU NA| | |]; subst. rewrite IH; [|exact (proj2 F) | exact CU]. cbn [bind]. destruct u; try reflexivity. destruct NA. exact Logic.I.
    - destruct F as [F _]. destruct F. exact Logic.I. }
  intros F C. apply X; assumption.
Qed.
