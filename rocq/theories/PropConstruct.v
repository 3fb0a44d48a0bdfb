(** Theorems for property C69: how objects are made. *)
From Coq Require Import String List NArith ZArith Bool Lia.
From Verif Require Import Base Json PyTypes Lists Samples Construct.
Import ListNotations.
Open Scope list_scope.
Open Scope nat_scope.

(** [values_for d fv]: one value for each field, in order, as the deserializer has them
    before it makes an object. *)
Definition values_for (d : data_class) (fv : list (pystr * value)) : Prop := map fst fv = map sl_name (fields_of_class d).

Definition class_names_ok (d : data_class) : Prop := NoDup (map sl_name (dc_slots d)).

(** No field is called [self]. *)
Definition no_self (d : data_class) : Prop := ~ In (str "self") (map sl_name (fields_of_class d)).

Lemma nodup_fields : forall d, class_names_ok d -> NoDup (map sl_name (fields_of_class d)).
Proof.
  intros d. unfold class_names_ok, fields_of_class. induction (dc_slots d) as [|s l IH]; cbn [map filter]; intros N; [constructor|].
  inversion N as [|? ? N1 N2]; subst. destruct (is_field s); [|exact (IH N2)]. cbn [map]. constructor; [|exact (IH N2)].
  intros I. apply N1. apply in_map_iff in I. destruct I as (s' & Q & I). apply filter_In in I. rewrite <- Q. apply in_map, I.
Qed.

Lemma called : forall d fv body, values_for d fv -> no_self d -> call_create fv body = body.
Proof.
  intros d fv body V N. unfold call_create. rewrite V. destruct (mem_str (str "self") (map sl_name (fields_of_class d))) eqn:Q; [|reflexivity].
  apply mem_str_in in Q. destruct (N Q).
Qed.

Lemma set_all : forall fv acc, NoDup (map fst (acc ++ fv)) ->
  fold_left (fun (attrs : list (pystr * value)) kv => dict_set attrs (fst kv) (snd kv)) fv acc = acc ++ fv.
Proof.
  induction fv as [|[x v] fv IH]; intros acc N; cbn [fold_left fst snd]; [symmetry; apply app_nil_r|].
  rewrite dict_set_fresh.
  - rewrite IH; rewrite <- app_assoc; [reflexivity | exact N].
  - intros I. rewrite map_app in N. cbn [map fst] in N. apply NoDup_remove_2 in N. apply N. apply in_or_app. left. exact I.
Qed.

(** C69.  An object of a class that is not frozen has exactly the values read; neither
    [__post_init__] nor [init=False] matters. *)
Theorem C69_mutable : forall d fv, class_names_ok d -> values_for d fv -> no_self d -> dc_frozen d = false ->
  create d fv = Ok fv.
Proof.
  intros d fv N V S F. unfold create. rewrite (called d fv _ V S), F. f_equal. apply (set_all fv []). cbn [app]. rewrite V. apply nodup_fields, N.
Qed.
Print Assumptions C69_mutable.

Lemma field_given : forall d fv s, class_names_ok d -> values_for d fv -> In s (fields_of_class d) -> exists v, dict_get fv (sl_name s) = Some v /\ In (sl_name s, v) fv.
Proof.
  intros d fv s N V I. assert (J : In (sl_name s) (map fst fv)) by (rewrite V; apply in_map, I).
  destruct (dict_get fv (sl_name s)) as [v|] eqn:Q; [|apply dict_get_none in Q; destruct (Q J)]. exists v. split; [reflexivity | apply dict_get_in, Q].
Qed.

Lemma same_slot : forall d s s', class_names_ok d -> In s (dc_slots d) -> In s' (dc_slots d) -> sl_name s = sl_name s' -> s = s'.
Proof.
  intros d s s'. unfold class_names_ok. induction (dc_slots d) as [|a l IH]; intros N I J Q; [destruct I|].
  cbn [map] in N. inversion N as [|? ? N1 N2]; subst. destruct I as [-> | I], J as [-> | J].
  - reflexivity.
  - destruct N1. rewrite Q. apply in_map, J.
  - destruct N1. rewrite <- Q. apply in_map, I.
  - exact (IH N2 I J Q).
Qed.

(** The fields of an object, when all of them are parameters. *)
Lemma parts_given : forall fv ss, NoDup (map fst fv) -> map fst fv = map sl_name ss -> (forall s, In s ss -> sl_init s = true) ->
  exists parts, mapM (init_field fv) ss = Ok parts /\ concat parts = fv.
Proof.
  intros fv ss N V A.
  assert (G : forall l, (forall kv, In kv l -> In kv fv) -> map fst l = map sl_name ss -> exists parts, mapM (init_field fv) ss = Ok parts /\ concat parts = l).
  { clear V. induction ss as [|s ss IH]; intros [|[x v] l] I M; cbn [map fst] in M; try discriminate M; [exists []; split; reflexivity|].
    assert (x = sl_name s) by congruence. subst x. destruct (IH (fun s' J => A s' (or_intror J)) l (fun kv J => I kv (or_intror J)) ltac:(congruence)) as (ps & P & C).
    exists ([(sl_name s, v)] :: ps). cbn [mapM]. unfold init_field at 1. rewrite (A s (or_introl eq_refl)). unfold argument.
    rewrite (dict_get_nodup fv (sl_name s) v N (I _ (or_introl eq_refl))). cbn [bind]. rewrite P. split; [reflexivity|]. cbn [concat app]. rewrite C. reflexivity. }
  exact (G fv (fun kv I => I) V).
Qed.

(** What a frozen class needs: each field is a parameter of [__init__], each [InitVar] has
    a default. *)
Definition initable (d : data_class) : Prop :=
  (forall s, In s (dc_slots d) -> sl_role s = RField -> sl_init s = true) /\
  (forall s, In s (dc_slots d) -> sl_role s = RInitVar -> sl_default s <> None).

Lemma init_given : forall d fv, class_names_ok d -> values_for d fv -> initable d ->
  init d fv = do vars <- mapM (fun s => match sl_default s with Some r => r | None => Err EType end) (filter is_initvar (dc_slots d));
              match dc_post d with Some post => post fv vars | None => Ok fv end.
Proof.
  intros d fv N V [AF AV]. unfold init.
  assert (F : forall s, In s (fields_of_class d) -> In s (dc_slots d) /\ sl_role s = RField).
  { intros s I. unfold fields_of_class in I. apply filter_In in I. destruct I as [I R]. split; [exact I|]. unfold is_field in R. destruct (sl_role s); try discriminate R. reflexivity. }
  assert (B1 : forallb (fun kv => mem_str (fst kv) (map sl_name (filter is_param (dc_slots d)))) fv = true).
  { apply forallb_forall. intros [x v] I. cbn [fst]. apply mem_str_in. apply (in_map fst) in I. rewrite V in I. cbn [fst] in I. apply in_map_iff in I. destruct I as (s & <- & I).
    destruct (F s I) as [J R]. apply in_map. apply filter_In. split; [exact J|]. unfold is_param. rewrite R. exact (AF s J R). }
  rewrite B1. cbn [negb].
  assert (B2 : existsb (fun s => match dict_get fv (sl_name s), sl_default s with None, None => true | _, _ => false end) (filter is_param (dc_slots d)) = false).
  { match goal with |- ?e = false => destruct e eqn:X; [|reflexivity] end. apply existsb_exists in X. destruct X as (s & I & X). apply filter_In in I. destruct I as [I P]. unfold is_param in P.
    destruct (sl_role s) eqn:R.
    - destruct (field_given d fv s N V) as (v & G & _); [unfold fields_of_class; apply filter_In; split; [exact I | unfold is_field; rewrite R; reflexivity]|]. rewrite G in X. discriminate X.
    - pose proof (AV s I R) as D. destruct (dict_get fv (sl_name s)); [discriminate X|]. destruct (sl_default s); [discriminate X | destruct (D eq_refl)].
    - discriminate P. }
  rewrite B2. destruct (parts_given fv (fields_of_class d)) as (parts & P & C).
  - rewrite V. apply nodup_fields, N.
  - exact V.
  - intros s I. destruct (F s I) as [J R]. exact (AF s J R).
  - rewrite P. cbn [bind]. rewrite C.
    rewrite (mapM_ext _ _ (argument fv) (fun s => match sl_default s with Some r => r | None => Err EType end)); [reflexivity|].
    intros s I. apply filter_In in I. destruct I as [I R]. unfold argument.
    destruct (dict_get fv (sl_name s)) as [v|] eqn:G; [|reflexivity]. exfalso. apply dict_get_in in G. apply (in_map fst) in G. rewrite V in G. cbn [fst] in G.
    apply in_map_iff in G. destruct G as (s' & Q & I'). destruct (F s' I') as [J R']. rewrite (same_slot d s' s N J I Q) in R'. unfold is_initvar in R. rewrite R' in R. discriminate R.
Qed.

(** An object of a frozen class is made by its constructor: it has the values read, and
    [__post_init__] is run on them. *)
Theorem C69_frozen : forall d fv, class_names_ok d -> values_for d fv -> no_self d -> dc_frozen d = true -> initable d ->
  create d fv = do vars <- mapM (fun s => match sl_default s with Some r => r | None => Err EType end) (filter is_initvar (dc_slots d));
                match dc_post d with Some post => post fv vars | None => Ok fv end.
Proof. intros d fv N V S F A. unfold create. rewrite (called d fv _ V S), F. exact (init_given d fv N V A). Qed.
Print Assumptions C69_frozen.

(** It cannot be made at all, whatever is read, if a field is not a parameter of
    [__init__] or an [InitVar] has no default. *)
Theorem C69_frozen_never : forall d fv, class_names_ok d -> values_for d fv -> dc_frozen d = true -> ~ initable d ->
  create d fv = Err EType.
Proof.
  intros d fv N V F A. unfold create, call_create. destruct (mem_str (str "self") (map fst fv)); [reflexivity|]. rewrite F. unfold init.
  destruct (forallb (fun kv => mem_str (fst kv) (map sl_name (filter is_param (dc_slots d)))) fv) eqn:B1; [cbn [negb] | reflexivity].
  match goal with |- (if ?e then _ else _) = _ => destruct e eqn:B2; [reflexivity|] end. exfalso. apply A. split.
  - intros s I R. assert (J : In s (fields_of_class d)) by (unfold fields_of_class; apply filter_In; split; [exact I | unfold is_field; rewrite R; reflexivity]).
    destruct (field_given d fv s N V J) as (v & _ & G). pose proof (proj1 (forallb_forall _ _) B1 _ G) as M. cbn [fst] in M. apply mem_str_in in M.
    apply in_map_iff in M. destruct M as (s' & Q & M). apply filter_In in M. destruct M as [M P]. rewrite (same_slot d s' s N M I Q) in P. unfold is_param in P. rewrite R in P. exact P.
  - intros s I R D. assert (X : existsb (fun s => match dict_get fv (sl_name s), sl_default s with None, None => true | _, _ => false end) (filter is_param (dc_slots d)) = true); [|congruence].
    apply existsb_exists. exists s. split; [apply filter_In; split; [exact I | unfold is_param; rewrite R; reflexivity]|].
    assert (G : dict_get fv (sl_name s) = None); [|rewrite G, D; reflexivity]. apply dict_get_none. rewrite V. intros J. apply in_map_iff in J. destruct J as (s' & Q & J).
    unfold fields_of_class in J. apply filter_In in J. destruct J as [J P]. rewrite (same_slot d s' s N J I Q) in P. unfold is_field in P. rewrite R in P. discriminate P.
Qed.
Print Assumptions C69_frozen_never.

(** A class with a field called [self] is never read. *)
Theorem C69_self : forall d fv, values_for d fv -> ~ no_self d -> create d fv = Err EType /\ create_tuple fv = Err EType.
Proof.
  intros d fv V S. assert (M : mem_str (str "self") (map fst fv) = true).
  { destruct (mem_str (str "self") (map fst fv)) eqn:Q; [reflexivity|]. exfalso. apply S. intros I. rewrite <- V in I. apply mem_str_in in I. congruence. }
  unfold create, create_tuple, call_create. rewrite M. split; reflexivity.
Qed.
Print Assumptions C69_self.

(** Without [__post_init__] and with ordinary fields only, both sorts of classes have the
    objects that the constructor makes of the values. *)
Theorem C69_constructor : forall d fv, class_names_ok d -> values_for d fv -> no_self d ->
  dc_post d = None -> (forall s, In s (dc_slots d) -> sl_role s <> RInitVar /\ (sl_role s = RField -> sl_init s = true)) ->
  create d fv = init d fv /\ create d fv = Ok fv.
Proof.
  intros d fv N V S P A.
  assert (AI : initable d).
  { split; [intros s I R; exact (proj2 (A s I) R) | intros s I R; destruct (proj1 (A s I) R)]. }
  assert (Q : init d fv = Ok fv).
  { rewrite (init_given d fv N V AI), P. assert (Z : filter is_initvar (dc_slots d) = []); [|rewrite Z; reflexivity].
    destruct (filter is_initvar (dc_slots d)) as [|s l] eqn:Z; [reflexivity|]. exfalso. assert (I : In s (filter is_initvar (dc_slots d))) by (rewrite Z; left; reflexivity).
    apply filter_In in I. destruct I as [I R]. apply (proj1 (A s I)). unfold is_initvar in R. destruct (sl_role s); try discriminate R. reflexivity. }
  rewrite Q. destruct (dc_frozen d) eqn:F.
  - unfold create. rewrite (called d fv _ V S), F, Q. split; reflexivity.
  - rewrite (C69_mutable d fv N V S F). split; reflexivity.
Qed.
Print Assumptions C69_constructor.

(** * Cases. *)
Definition fld (x : string) : slot := mkSlot (str x) RField true None.
Arguments fld x%string.

(** [__post_init__] that raises ValueError unless [low <= high], and sets [width]. *)
Definition check_range (attrs : list (pystr * value)) (vars : list value) : res (list (pystr * value)) :=
  match dict_get attrs (str "low"), dict_get attrs (str "high") with
  | Some (VInt l), Some (VInt h) => if Z.leb l h then Ok (attrs ++ [(str "width", VInt (h - l))]) else Err EValue
  | _, _ => Err EAttribute
  end.

Definition Range (frozen : bool) := mkData frozen [mkSlot (str "count") RClassVar true (Some (Ok (VInt 0))); fld "low"; fld "high"; mkSlot (str "strict") RInitVar true (Some (Ok (VBool true)))] (Some check_range).
Definition range (l h : Z) := [(str "low", VInt l); (str "high", VInt h)].

Lemma range_ok : forall b l h, class_names_ok (Range b) /\ values_for (Range b) (range l h) /\ no_self (Range b) /\ initable (Range b).
Proof.
  intros b l h. split; [unfold class_names_ok; cbn; nodup|]. split; [reflexivity|]. split; [intros [Q | [Q | []]]; discriminate Q|].
  split; intros s I R; cbn in I; repeat (destruct I as [<- | I]; [first [reflexivity | discriminate R | discriminate]|]); destruct I.
Qed.

Example C69_witness : create (Range false) (range 1 3) = Ok (range 1 3) /\
  create (Range true) (range 1 3) = Ok (range 1 3 ++ [(str "width", VInt 2)]) /\ create (Range true) (range 3 1) = Err EValue.
Proof. split; [|split]; reflexivity. Qed.

(** @dataclass(frozen=True) class Sealed: x: int; y: int = field(init=False, default=0) *)
Definition Sealed := mkData true [fld "x"; mkSlot (str "y") RField false (Some (Ok (VInt 0)))] None.
Example C69_witness_never : class_names_ok Sealed /\ ~ initable Sealed /\ values_for Sealed [(str "x", VInt 1); (str "y", VInt 0)] /\
  init Sealed [(str "x", VInt 1)] = Ok [(str "x", VInt 1); (str "y", VInt 0)] /\ create Sealed [(str "x", VInt 1); (str "y", VInt 0)] = Err EType.
Proof.
  split; [unfold class_names_ok; cbn; nodup|]. split; [|split; [reflexivity | split; reflexivity]].
  intros [A _]. discriminate (A (mkSlot (str "y") RField false (Some (Ok (VInt 0)))) (or_intror (or_introl eq_refl)) eq_refl).
Qed.

Example C69_witness_self : let d := mkData false [fld "self"; fld "x"] None in
  values_for d [(str "self", VInt 1); (str "x", VInt 2)] /\ ~ no_self d /\
  init d [(str "self", VInt 1); (str "x", VInt 2)] = Ok [(str "self", VInt 1); (str "x", VInt 2)].
Proof. cbn zeta. split; [reflexivity|]. split; [intros N; apply N; left; reflexivity | reflexivity]. Qed.

(** What [__post_init__] rejects is accepted, and what it computes is missing, when a
    class is not frozen. *)
Theorem C69_post_init_refuted : exists d bad good attrs x, class_names_ok d /\ values_for d bad /\ values_for d good /\ no_self d /\ initable d /\
  init d bad = Err EValue /\ create d bad = Ok bad /\
  init d good = Ok attrs /\ create d good = Ok good /\ In x (map fst attrs) /\ ~ In x (map fst good).
Proof.
  exists (Range false), (range 3 1), (range 1 3), (range 1 3 ++ [(str "width", VInt 2)]), (str "width").
  destruct (range_ok false 3 1) as (N & V & S & A). split; [exact N|]. split; [exact V|]. split; [reflexivity|]. split; [exact S|]. split; [exact A|].
  split; [reflexivity|]. split; [reflexivity|]. split; [reflexivity|]. split; [reflexivity|]. split; [right; right; left; reflexivity|].
  intros [Q | [Q | []]]; discriminate Q.
Qed.
Print Assumptions C69_post_init_refuted.

(** [__post_init__] of a frozen class is run again on what it has made: an object that
    is made, written and read is not the same. *)
Definition Doubling := mkData true [fld "x"] (Some (fun attrs _ => match dict_get attrs (str "x") with Some (VInt z) => Ok [(str "x", VInt (2 * z))] | _ => Err EType end)).

Theorem C69_twice_refuted : exists d kw obj obj', class_names_ok d /\ values_for d obj /\ no_self d /\ initable d /\
  init d kw = Ok obj /\ create d obj = Ok obj' /\ obj' <> obj.
Proof.
  exists Doubling, [(str "x", VInt 1)], [(str "x", VInt 2)], [(str "x", VInt 4)].
  split; [unfold class_names_ok; cbn; nodup|]. split; [reflexivity|]. split; [intros [Q | []]; discriminate Q|].
  split; [split; intros s I R; cbn in I; repeat (destruct I as [<- | I]; [first [reflexivity | discriminate R | discriminate]|]); destruct I|].
  split; [reflexivity|]. split; [reflexivity|]. discriminate.
Qed.
Print Assumptions C69_twice_refuted.

(** A class with two fields, one of them with a default, frozen or not. *)
Example C69_witness_constructor : forall b, let d := mkData b [mkSlot (str "n") RClassVar true None; fld "x"; mkSlot (str "y") RField true (Some (Ok (VInt 7)))] None in
  class_names_ok d /\ values_for d [(str "x", VInt 1); (str "y", VInt 2)] /\ no_self d /\ dc_post d = None /\
  (forall s, In s (dc_slots d) -> sl_role s <> RInitVar /\ (sl_role s = RField -> sl_init s = true)) /\
  create d [(str "x", VInt 1); (str "y", VInt 2)] = Ok [(str "x", VInt 1); (str "y", VInt 2)].
Proof.
  intros b. cbn zeta. split; [unfold class_names_ok; cbn; nodup|]. split; [reflexivity|]. split; [intros [Q | [Q | []]]; discriminate Q|]. split; [reflexivity|].
  split; [|destruct b; reflexivity]. intros s I. cbn in I. repeat (destruct I as [<- | I]; [split; [discriminate | reflexivity]|]). destruct I.
Qed.
