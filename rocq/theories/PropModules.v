(** C73: what is declared in a module. *)
From Coq Require Import String List NArith Bool Sorted Permutation Lia.
From Verif Require Import Base Lists Json PyTypes Ser SpecSer SerFacts Docstring DocType SpecDocType DocTypeProofs Modules SpecModules.
Import ListNotations.
Open Scope list_scope.
Open Scope nat_scope.

Lemma filter_perm : forall {A} (p : A -> bool) l r, Permutation l r -> Permutation (filter p l) (filter p r).
Proof.
  intros A p l r H. induction H as [|x l r H IH|x y l|l r s H IH K IH']; cbn [filter].
  - constructor.
  - destruct (p x); [constructor|]; exact IH.
  - destruct (p x), (p y); try apply Permutation_refl. apply perm_swap.
  - eapply Permutation_trans; eassumption.
Qed.

Lemma members_perm : forall m p, Permutation (filter (fun kv => p (snd kv)) (mo_dict m)) (getmembers m p).
Proof. intros m p. unfold getmembers. eapply Permutation_trans; [apply filter_perm, sort_perm | apply sort_perm]. Qed.

Lemma keys_sorted : forall {A} (l : list (pystr * A)), Sorted (fun a b => before (fst a) (fst b)) l -> Sorted before (map fst l).
Proof.
  intros A l H. induction H as [|a l H IH D]; cbn [map]; [constructor|]. constructor; [exact IH|]. destruct D; cbn [map]; constructor. assumption.
Qed.

Lemma filter_keys : forall {A} (p : pystr * A -> bool) l, NoDup (map fst l) -> NoDup (map fst (filter p l)).
Proof.
  intros A p l. induction l as [|[x y] l IH]; intros N; cbn [filter map]; [constructor|]. inversion N as [|? ? X N']; subst.
  destruct (p (x, y)); [|apply IH; exact N']. cbn [map]. constructor; [|apply IH; exact N'].
  intros I. apply X. apply in_map_iff in I. destruct I as (z & Q & I). apply filter_In in I. apply in_map_iff. exists z. split; [exact Q | apply I].
Qed.

Lemma members_list : forall m p (P : member -> Prop), namespace m -> (forall x, p x = true <-> P x) -> lists m P (map snd (getmembers m p)).
Proof.
  intros m p P N K. pose proof (members_perm m p) as H. exists (map fst (getmembers m p)). repeat split.
  - eapply Permutation_NoDup; [apply Permutation_map; exact H | apply filter_keys; exact N].
  - apply keys_sorted. apply sort_sorted.
  - assert (F : forall kv, In kv (getmembers m p) -> In kv (mo_dict m) /\ P (snd kv)).
    { intros kv I. apply (Permutation_in _ (Permutation_sym H)), filter_In in I. split; [apply I | apply K, I]. }
    clear H. induction (getmembers m p) as [|[x y] l IH]; constructor; [exact (F _ (or_introl eq_refl)) | apply IH; intros kv I; apply F; right; exact I].
  - intros x y I Y. apply in_map_iff. exists (x, y). split; [reflexivity|]. apply (Permutation_in _ H), filter_In. split; [exact I | apply K; exact Y].
Qed.

(** C73.  For all modules: the classes, and the functions, listed are those that names of
    the module are bound to and that are of the module, in the order of these names. *)
Theorem C73_listed : forall m, namespace m -> lists m (class_of m) (get_module_classes m) /\ lists m (function_of m) (get_module_functions m).
Proof.
  intros m N. split; apply members_list; try exact N; intros x; split.
  - destruct x; cbn; try discriminate. intros Q. apply pystr_eqb_eq in Q. subst. eexists. reflexivity.
  - intros (n & ->). apply pystr_eqb_refl.
  - destruct x; cbn; try discriminate. intros Q. apply pystr_eqb_eq in Q. subst. eexists. reflexivity.
  - intros (n & ->). apply pystr_eqb_refl.
Qed.
Print Assumptions C73_listed.

Lemma perm_snd_in : forall m p y, In y (map snd (getmembers m p)) <-> exists x, In (x, y) (mo_dict m) /\ p y = true.
Proof.
  intros m p y. rewrite in_map_iff. pose proof (members_perm m p) as H. split.
  - intros ([x z] & Q & I). cbn in Q. subst z. apply (Permutation_in _ (Permutation_sym H)), filter_In in I. exists x. exact I.
  - intros (x & I). exists (x, y). split; [reflexivity|]. apply (Permutation_in _ H), filter_In. exact I.
Qed.

(** C73.  The order in which a module binds its names does not matter. *)
Theorem C73_order : forall m m', namespace m -> mo_name m = mo_name m' -> Permutation (mo_dict m) (mo_dict m') ->
  get_module_classes m = get_module_classes m' /\ get_module_functions m = get_module_functions m'.
Proof.
  assert (U : forall l r : list (pystr * member), NoDup (map fst l) -> Permutation l r -> Sorted (fun a b => before (fst a) (fst b)) l -> Sorted (fun a b => before (fst a) (fst b)) r -> l = r).
  { assert (TR : forall a b c, before a b -> before b c -> before a c).
    { induction a as [|x a IH]; intros [|y b] [|z c]; cbn [before]; try tauto. intros [A|(-> & A)] [B|(-> & B)]; [left; eapply N.lt_trans; eassumption | left; exact A | left; exact B | right; split; [reflexivity | eapply IH; eassumption]]. }
    assert (AS : forall a b, before a b -> before b a -> a = b).
    { induction a as [|x a IH]; intros [|y b]; cbn [before]; try tauto. intros [A|(-> & A)] [B|(Q & B)]; try lia. rewrite (IH b A B). reflexivity. }
    induction l as [|[x u] l IH]; intros r N H S T.
    - apply Permutation_nil in H. subst. reflexivity.
    - apply Sorted_StronglySorted in S; [|intros a b c; apply TR]. apply Sorted_StronglySorted in T; [|intros a b c; apply TR].
      destruct r as [|[y v] r]; [apply Permutation_sym, Permutation_nil in H; discriminate H|].
      inversion S as [|? ? S1 S2]; subst. inversion T as [|? ? T1 T2]; subst. rewrite Forall_forall in S2, T2.
      assert (Q : (y, v) = (x, u)).
      { pose proof (Permutation_in _ (Permutation_sym H) (or_introl eq_refl)) as [I|I]; [symmetry; exact I|].
        pose proof (Permutation_in _ H (or_introl eq_refl)) as [J|J]; [exact J|].
        assert (x = y) as -> by (apply AS; [exact (S2 _ I) | exact (T2 _ J)]).
        inversion N as [|? ? X _]; subst. destruct X. apply in_map_iff. exists (y, v). split; [reflexivity | exact I]. }
      injection Q as -> ->. f_equal. apply IH; [inversion N; assumption | eapply Permutation_cons_inv; exact H | apply StronglySorted_Sorted; exact S1 | apply StronglySorted_Sorted; exact T1]. }
  intros m m' N Q H.
  assert (G : forall p p', (forall x, p x = p' x) -> getmembers m p = getmembers m' p').
  { intros p p' E. pose proof (members_perm m p) as A. pose proof (members_perm m' p') as B. apply U.
    - eapply Permutation_NoDup; [apply Permutation_map; exact A | apply filter_keys; exact N].
    - eapply Permutation_trans; [apply Permutation_sym; exact A|]. eapply Permutation_trans; [|exact B].
      eapply Permutation_trans; [apply filter_perm; exact H|]. rewrite (filter_ext _ (fun kv => p' (snd kv))); [apply Permutation_refl | intros kv; apply E].
    - apply sort_sorted.
    - apply sort_sorted. }
  unfold get_module_classes, get_module_functions. split; f_equal; apply G; intros x; unfold is_class_member, is_function_member; rewrite Q; reflexivity.
Qed.
Print Assumptions C73_order.

(** C73.  Nothing is listed twice if no object is bound to two names; a class with an alias is. *)
Theorem C73_once : forall m, NoDup (map snd (mo_dict m)) -> NoDup (get_module_classes m) /\ NoDup (get_module_functions m).
Proof.
  intros m N. assert (G : forall p, NoDup (map snd (getmembers m p))).
  { intros p. eapply Permutation_NoDup; [apply Permutation_map, members_perm|]. revert N. generalize (mo_dict m). clear m. intros l.
    induction l as [|[x y] l IH]; intros N; cbn [filter map]; [constructor|]. inversion N as [|? ? X N']; subst. cbn [snd] in *. destruct (p y); [|apply IH; exact N'].
    cbn [map snd]. constructor; [|apply IH; exact N']. intros I. apply X. apply in_map_iff in I. destruct I as (z & Q & I). apply filter_In in I. apply in_map_iff. exists z. split; [exact Q | apply I]. }
  split; apply G.
Qed.
Print Assumptions C73_once.

Definition shapes : module := mkModule (str "shapes")
  [(str "Square", MClass 1 (str "shapes")); (str "date", MClass 2 (str "datetime")); (str "area", MFunction 3 (str "shapes")); (str "Circle", MClass 4 (str "shapes"));
   (str "Box", MClass 1 (str "shapes")); (str "limit", MOther 5)].
Example C73_witness : namespace shapes /\ get_module_classes shapes = [MClass 1 (str "shapes"); MClass 4 (str "shapes"); MClass 1 (str "shapes")]
  /\ get_module_functions shapes = [MFunction 3 (str "shapes")].
Proof.
  split; [|split; reflexivity]. unfold namespace. cbn. repeat (apply NoDup_cons; [cbn [In]; intros X; repeat (destruct X as [X|X]; [discriminate X|]); exact X|]). apply NoDup_nil.
Qed.

Theorem C73_alias_refuted : exists m, namespace m /\ ~ NoDup (get_module_classes m).
Proof.
  exists shapes. split; [apply C73_witness|]. intros N. rewrite (proj1 (proj2 C73_witness)) in N. inversion N as [|? ? X _]; subst. apply X. right. left. reflexivity.
Qed.
Print Assumptions C73_alias_refuted.

(** C73.  [create_module] raises KeyError for names that are taken.  Otherwise the new module,
    which has the name and declares nothing, is entered; all others stay as they are. *)
Theorem C73_create : forall modules name,
  match create_module modules name with
  | Ok (m, modules') => dict_get modules name = None /\ mo_name m = name /\ namespace m /\ get_module_classes m = [] /\ get_module_functions m = [] /\
      (forall x, dict_get modules' x = if pystr_eqb x name then Some m else dict_get modules x)
  | Err e => e = EKey /\ exists m, dict_get modules name = Some m
  end.
Proof.
  intros modules name. unfold create_module. destruct (dict_get modules name) as [m|] eqn:G; [split; [reflexivity | exists m; reflexivity]|].
  repeat split.
  - unfold namespace. cbn. repeat (apply NoDup_cons; [cbn [In]; intros X; repeat (destruct X as [X|X]; [discriminate X|]); exact X|]). apply NoDup_nil.
  - intros x. match goal with |- dict_get (dict_set _ _ ?m) _ = _ => generalize m end. intros m. clear G. induction modules as [|[y w] l IH]; cbn [dict_set dict_get].
    + destruct (pystr_eqb name x) eqn:Q.
      * apply pystr_eqb_eq in Q. subst. rewrite pystr_eqb_refl. reflexivity.
      * destruct (pystr_eqb x name) eqn:Q'; [apply pystr_eqb_eq in Q'; subst; rewrite pystr_eqb_refl in Q; discriminate Q | reflexivity].
    + destruct (pystr_eqb y name) eqn:Q; cbn [dict_get].
      * apply pystr_eqb_eq in Q. subst y. destruct (pystr_eqb name x) eqn:R.
        -- apply pystr_eqb_eq in R. subst. rewrite pystr_eqb_refl. reflexivity.
        -- destruct (pystr_eqb x name) eqn:Q'; [apply pystr_eqb_eq in Q'; subst; rewrite pystr_eqb_refl in R; discriminate R | reflexivity].
      * destruct (pystr_eqb y x) eqn:R; [|exact IH]. apply pystr_eqb_eq in R. subst y. rewrite Q. reflexivity.
Qed.
Print Assumptions C73_create.

Example C73_witness_create : exists m l, create_module [(str "shapes", shapes)] (str "empty") = Ok (m, l) /\ create_module l (str "empty") = Err EKey.
Proof. eexists. eexists. split; reflexivity. Qed.

Lemma dict_fresh : forall (l d : list (pystr * member)), NoDup (map fst (d ++ l)) -> fold_left (fun d kv => dict_set d (fst kv) (snd kv)) l d = d ++ l.
Proof.
  induction l as [|[x y] l IH]; intros d N; cbn [fold_left fst snd]; [rewrite app_nil_r; reflexivity|].
  assert (X : ~ In x (map fst d)). { rewrite map_app in N. cbn [map fst] in N. apply NoDup_remove_2 in N. intros I. apply N, in_or_app. left. exact I. }
  rewrite dict_set_fresh by exact X. rewrite IH; rewrite <- app_assoc; [reflexivity | exact N].
Qed.

(** C73.  The exceptions found by name are those that names of the module are bound to,
    imported ones included, under all of these names. *)
Theorem C73_exceptions : forall exc m x y, namespace m ->
  (dict_get (get_exceptions exc m) x = Some y <-> In (x, y) (mo_dict m) /\ exception exc y).
Proof.
  intros exc m x y N. pose proof (members_perm m (is_exception exc)) as H.
  assert (K : NoDup (map fst (getmembers m (is_exception exc)))) by (eapply Permutation_NoDup; [apply Permutation_map; exact H | apply filter_keys; exact N]).
  unfold get_exceptions. rewrite dict_fresh by exact K. cbn [app].
  assert (P : is_exception exc y = true <-> exception exc y).
  { destruct y as [n s|n s|n]; cbn [is_exception]; (split; [intros Q | intros (n' & s' & Q & X)]); try discriminate Q.
    - exists n, s. split; [reflexivity | exact Q].
    - injection Q as -> ->. exact X. }
  rewrite <- P. split.
  - intros G. apply dict_get_in in G. apply (Permutation_in _ (Permutation_sym H)), filter_In in G. exact G.
  - intros I. apply dict_get_nodup; [exact K|]. apply (Permutation_in _ H), filter_In. exact I.
Qed.
Print Assumptions C73_exceptions.

Example C73_witness_exceptions : dict_get (get_exceptions (Nat.eqb 2) shapes) (str "date") = Some (MClass 2 (str "datetime"))
  /\ dict_get (get_exceptions (Nat.eqb 2) shapes) (str "Circle") = None.
Proof. split; reflexivity. Qed.

Lemma exceptions_once : forall exc m, namespace m -> NoDup (map fst (get_exceptions exc m)).
Proof.
  intros exc m N. pose proof (members_perm m (is_exception exc)) as H.
  assert (K : NoDup (map fst (getmembers m (is_exception exc)))) by (eapply Permutation_NoDup; [apply Permutation_map; exact H | apply filter_keys; exact N]).
  unfold get_exceptions. rewrite dict_fresh by exact K. exact K.
Qed.

Lemma table_once : forall exc m, namespace m -> NoDup (map fst (exception_table exc m)).
Proof. intros exc m N. unfold exception_table. rewrite map_map. apply exceptions_once. exact N. Qed.

Lemma table_in : forall exc m n c, namespace m ->
  (In (n, c) (exception_table exc m) <-> exc c = true /\ exists s, In (n, MClass c s) (mo_dict m)).
Proof.
  intros exc m n c N. unfold exception_table. rewrite in_map_iff. split.
  - intros ([x y] & Q & I). cbn [fst snd] in Q. injection Q as -> <-.
    apply (dict_get_nodup _ _ _ (exceptions_once exc m N)), C73_exceptions in I; [|exact N].
    destruct I as (I & k & s & -> & X). split; [exact X | exists s; exact I].
  - intros (X & s & I). exists (n, MClass c s). split; [reflexivity|]. apply dict_get_in, C73_exceptions; [exact N|].
    split; [exact I | exists c, s; split; [reflexivity | exact X]].
Qed.

(** C73.  The class assigned to a documented exception is the exception that the name is
    bound to in the module of the documented class or function, or else in [builtins]; a
    name that the module binds to something else counts as a built-in one. *)
Theorem C73_raises : forall exc b m x bases t, namespace b -> namespace m -> d_module x = Some (exception_table exc m) ->
  match d_kind x with DData ps | DOther ps => NoDup (map fst ps) | DFunction sg _ => NoDup (map fst sg) | DEnum => True end ->
  parse_type (exception_table exc b) x bases = Ok t ->
  forall n c, In (n, c) (t_raises t) <-> In n (map fst (raises (t_doc t))) /\ exc c = true /\
    ((exists s, In (n, MClass c s) (mo_dict m)) \/
     (forall c' s, In (n, MClass c' s) (mo_dict m) -> exc c' = false) /\ exists s, In (n, MClass c s) (mo_dict b)).
Proof.
  intros exc b m x bases t NB NM M K P n c.
  assert (O : names_once (exception_table exc b) x).
  { split; [apply table_once; exact NB|]. split; [|exact K]. intros names Q. rewrite M in Q. injection Q as <-. apply table_once. exact NM. }
  destruct (parse_type_types _ _ _ _ O P) as (_ & _ & R). rewrite R. unfold exception_named. rewrite M. split.
  - intros (I & names & Q & H). injection Q as <-. split; [exact I|]. destruct H as [H|[H G]].
    + apply table_in in H; [|exact NM]. destruct H as [X S]. split; [exact X | left; exact S].
    + apply table_in in G; [|exact NB]. destruct G as [X S]. split; [exact X|]. right. split; [|exact S].
      intros c' s J. destruct (exc c') eqn:Y; [|reflexivity]. exfalso. apply (H c'). apply table_in; [exact NM|]. split; [exact Y | exists s; exact J].
  - intros (I & X & H). split; [exact I|]. eexists. split; [reflexivity|]. destruct H as [S|[H S]].
    + left. apply table_in; [exact NM|]. split; [exact X | exact S].
    + right. split; [|apply table_in; [exact NB | split; [exact X | exact S]]].
      intros c' J. apply table_in in J; [|exact NM]. destruct J as (Y & s & J). rewrite (H c' s J) in Y. discriminate Y.
Qed.
Print Assumptions C73_raises.

(** "Returns all exception classes declared in a module": imported ones, too. *)
Theorem C73_declared_refuted : exists exc m x n s, namespace m /\ dict_get (get_exceptions exc m) x = Some (MClass n s) /\ s <> mo_name m.
Proof. exists (Nat.eqb 2), shapes, (str "date"), 2, (str "datetime"). split; [apply C73_witness|]. split; [reflexivity | discriminate]. Qed.
Print Assumptions C73_declared_refuted.

Definition core : module := mkModule (str "builtins") [(str "KeyError", MClass 7 (str "builtins")); (str "Box", MClass 9 (str "builtins"))].
Definition packing : entity := Entity (str "pack") (Some (str "Packs.

:raises Box: When full.
:raises KeyError: When empty.")) (DFunction [] None) (Some (exception_table (Nat.leb 2) shapes)).
Example C73_witness_raises : namespace core /\ exists t, parse_type (exception_table (Nat.leb 2) core) packing [] = Ok t
  /\ t_raises t = [(str "Box", 9); (str "KeyError", 7)].
Proof.
  split; [repeat (apply NoDup_cons; [cbn [In]; intros X; repeat (destruct X as [X|X]; [discriminate X|]); exact X|]); apply NoDup_nil|].
  eexists. split; reflexivity.
Qed.
