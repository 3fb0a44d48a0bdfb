(** Proofs about the flattening of schemas. *)
From Coq Require Import String List NArith ZArith Bool Lia.
From Verif Require Import Base Json PyTypes Deser Ser ClassDef ClassDefProofs Lists SpecTyping SpecSer SpecSerTotal Samples SerTotal TypingFacts DeserSound RoundTrip Flatten SpecFlatten.
Import ListNotations.
Open Scope list_scope.
Open Scope nat_scope.

(** ** Attributes *)

Definition attrs_typed (fs : list (pystr * typ)) (attrs : list (pystr * value)) : Prop :=
  map fst attrs = map fst fs /\ Forall2 (has_type Nodes 0) (map snd fs) (map snd attrs).

Lemma attrs_get : forall fs attrs x t, attrs_typed fs attrs -> NoDup (map fst fs) -> In (x, t) fs ->
  exists w, dict_get attrs x = Some w /\ has_type Nodes 0 t w.
Proof.
  intros fs attrs x t [NM F] ND I. revert attrs NM F. induction fs as [|[y u] fs IH]; [destruct I|].
  intros [|[a w] attrs] NM F; cbn [map fst snd] in *; [discriminate NM|]. injection NM as -> NM. inversion F as [|? ? ? ? F1 F2]; subst.
  inversion ND as [|? ? N1 N2]; subst. cbn [dict_get]. destruct I as [I|I].
  - injection I as -> ->. exists w. rewrite pystr_eqb_refl. auto.
  - destruct (pystr_eqb y x) eqn:Q; [|auto]. apply pystr_eqb_eq in Q. subst y. exfalso. apply N1. apply in_map_iff. exists (x, t). auto.
Qed.

Lemma attrs_set : forall fs attrs x t w, attrs_typed fs attrs -> NoDup (map fst fs) -> In (x, t) fs -> has_type Nodes 0 t w ->
  attrs_typed fs (dict_set attrs x w).
Proof.
  intros fs attrs x t w [NM F] ND I HT. revert attrs NM F. induction fs as [|[y u] fs IH]; [destruct I|].
  intros [|[a v] attrs] NM F; cbn [map fst snd] in *; [discriminate NM|]. injection NM as -> NM. inversion F as [|? ? ? ? F1 F2]; subst.
  inversion ND as [|? ? N1 N2]; subst. cbn [dict_set]. destruct (pystr_eqb y x) eqn:Q.
  - apply pystr_eqb_eq in Q. subst y. destruct I as [I|I].
    + injection I as ->. split; cbn [map fst snd]; [congruence | constructor; assumption].
    + exfalso. apply N1. apply in_map_iff. exists (x, t). auto.
  - destruct I as [I|I]; [injection I as -> ->; rewrite pystr_eqb_refl in Q; discriminate Q|].
    destruct (IH N2 I attrs NM F2) as [A B]. split; cbn [map fst snd]; [congruence | constructor; assumption].
Qed.

Lemma attrs_nodup : forall fs attrs, attrs_typed fs attrs -> NoDup (map fst fs) -> NoDup (map fst attrs).
Proof. intros fs attrs [NM _] ND. rewrite NM. exact ND. Qed.

(** ** Nodes *)

Definition node_attrs (c : nat) : list (pystr * typ) :=
  map (fun f => (f_name f, f_type f)) (object_fields ++ if Nat.eqb c 8 then
    [field "schema" (TAnnot (TScalar KStr) [AAlias (str "$schema")]); field "definitions" (opt (TDict (TScalar KStr) any_node))] else []).

Lemma node_attrs_nodup : forall c, node_class c -> NoDup (map fst (node_attrs c)).
Proof.
  intros c [->| ->]; cbn; repeat constructor; cbn [In]; intros I; repeat (destruct I as [I|I]; [discriminate I|]); exact I.
Qed.

Lemma node_typed : forall m c v, node_class c -> has_type Nodes m (TClass c) v <-> exists attrs, v = VObj c attrs /\ attrs_typed (node_attrs c) attrs.
Proof.
  intros m c v N. split.
  - intros H. destruct N as [->| ->];
      (inversion H as [| | | | | | | | |? ? cl ms x G K|? ? cl attrs G K NM F|? ? cl xs attrs G K|? ? cl h attrs G K FJ]; subst; injection G as <-;
        [discriminate K | | discriminate K | discriminate FJ]); exists attrs; (split; [reflexivity|]); split; assumption.
  - intros (attrs & -> & NM & F). destruct N as [->| ->]; eapply ht_obj; try reflexivity; assumption.
Qed.

Lemma field_in : forall c x t, node_class c -> In (field x t) object_fields -> In (str x, t) (node_attrs c).
Proof. intros c x t N I. unfold node_attrs. apply in_map_iff. exists (field x t). split; [reflexivity|]. apply in_app_iff. left. exact I. Qed.

Definition props_value (ps : list (pystr * value)) : value := match ps with [] => VNone | l => VDict (map (fun q => (VStr (fst q), snd q)) l) end.
Definition reqs_value (rs : list pystr) : value := match rs with [] => VNone | l => VList (map VStr l) end.

Definition odef {A} (o : option (list A)) : list A := match o with Some l => l | None => [] end.

Lemma opt_typed : forall t v, has_type Nodes 0 (opt t) v <-> v = VNone \/ has_type Nodes 0 t v.
Proof.
  intros t v. unfold opt. rewrite ht_union_iff. split.
  - intros (u & [<-|[<-|[]]] & H); [right; exact H|]. inversion H; subst. destruct v; try contradiction. left. reflexivity.
  - intros [->|H]; [exists (TScalar KNone) | exists t]; (split; [cbn; auto|]); [apply ht_scalar; exact Logic.I | exact H].
Qed.

Lemma props_typed : forall v, has_type Nodes 0 (TDict (TScalar KStr) any_node) v ->
  exists ps, v = VDict (map (fun q => (VStr (fst q), snd q)) ps) /\ NoDup (map fst ps) /\ Forall (fun q => has_type Nodes 0 any_node (snd q)) ps /\
    mapM (fun kv => match fst kv with VStr x => Ok (x, snd kv) | _ => Err EUnmodelled end) (map (fun q => (VStr (fst q), snd q)) ps) = Ok ps.
Proof.
  intros v H. apply ht_dict_iff in H. destruct H as (kvs & -> & K & T & ND).
  assert (X : exists ps, kvs = map (fun q => (VStr (fst q), snd q)) ps).
  { clear T ND. induction kvs as [|[k v] kvs IH]; [exists []; reflexivity|]. inversion K as [|? ? K1 K2]; subst. destruct (IH K2) as (ps & ->).
    cbn [fst] in K1. inversion K1; subst. destruct k; try contradiction. exists ((s, v) :: ps). reflexivity. }
  destruct X as (ps & ->). exists ps. split; [reflexivity|]. split; [|split].
  - rewrite map_map in ND. cbn [fst] in ND. rewrite <- (map_map fst VStr) in ND. apply NoDup_map_inv in ND. exact ND.
  - rewrite Forall_map in T. exact T.
  - clear. induction ps as [|[x p] ps IH]; [reflexivity|]. cbn [map mapM fst snd bind]. cbn [bind] in IH. rewrite IH. reflexivity.
Qed.

Lemma reqs_typed : forall v, has_type Nodes 0 (TList (TScalar KStr)) v ->
  exists rs, v = VList (map VStr rs) /\ mapM (fun v => match v with VStr x => Ok x | _ => Err EUnmodelled end) (map VStr rs) = Ok rs.
Proof.
  intros v H. apply ht_list_iff in H. destruct H as (vs & -> & F). induction vs as [|v vs IH]; [exists []; auto|].
  inversion F as [|? ? F1 F2]; subst. destruct (IH F2) as (rs & Q & R). injection Q as ->. inversion F1; subst. destruct v; try contradiction.
  exists (s :: rs). split; [reflexivity|]. cbn [map mapM bind]. rewrite R. reflexivity.
Qed.

(** What an object node looks like. *)
Record view (c : nat) (attrs : list (pystr * value)) (ops : option (list (pystr * value))) (ors : option (list pystr)) : Prop := {
  vw_type : getattr (VObj c attrs) (str "type") = Ok (VStr (str "object"));
  vw_props : get_properties (VObj c attrs) = Ok ops;
  vw_reqs : get_required (VObj c attrs) = Ok ors;
  vw_describes : describes (VObj c attrs) (odef ops) (odef ors);
  vw_nodup : NoDup (map fst (odef ops));
  vw_typed : forall x p, In (x, p) (odef ops) -> has_type Nodes 0 any_node p;
  vw_depth : forall x p, In (x, p) (odef ops) -> vdepth p < vdepth (VObj c attrs)
}.

Lemma node_view : forall c attrs, node_class c -> attrs_typed (node_attrs c) attrs -> exists ops ors, view c attrs ops ors.
Proof.
  intros c attrs NC T. pose proof (node_attrs_nodup c NC) as ND.
  assert (FT : In (str "type", TLiteral [LStr (str "object")]) (node_attrs c)) by (apply (field_in c "type"); [exact NC | cbn; auto 10]).
  assert (FP : In (str "properties", opt (TDict (TScalar KStr) any_node)) (node_attrs c)) by (apply (field_in c "properties"); [exact NC | cbn; auto 10]).
  assert (FR : In (str "required", opt (TList (TScalar KStr))) (node_attrs c)) by (apply (field_in c "required"); [exact NC | cbn; auto 10]).
  destruct (attrs_get _ _ _ _ T ND FT) as (wt & Gt & Ht). destruct (attrs_get _ _ _ _ T ND FP) as (wp & Gp & Hp). destruct (attrs_get _ _ _ _ T ND FR) as (wr & Gr & Hr).
  apply ht_literal_iff in Ht. destruct Ht as (l & [<-|[]] & ->). cbn [lit_value] in Gt.
  apply opt_typed in Hp, Hr.
  assert (Ip : In (str "properties", wp) attrs) by (apply dict_get_in; exact Gp).
  assert (Ir : In (str "required", wr) attrs) by (apply dict_get_in; exact Gr).
  assert (Pp : exists ops, get_properties (VObj c attrs) = Ok ops /\ (wp = VNone /\ odef ops = [] \/ wp = VDict (map (fun q => (VStr (fst q), snd q)) (odef ops))) /\
    NoDup (map fst (odef ops)) /\ forall x p, In (x, p) (odef ops) -> has_type Nodes 0 any_node p /\ vdepth p < vdepth (VObj c attrs)).
  { unfold get_properties, getattr. rewrite Gp. cbn [bind]. destruct Hp as [->|Hp].
    - exists None. split; [reflexivity|]. split; [left; auto|]. split; [constructor | intros x p []].
    - destruct (props_typed _ Hp) as (ps & -> & N & F & M). exists (Some ps). rewrite M. split; [reflexivity|]. split; [right; reflexivity|].
      split; [exact N|]. intros x p J. rewrite Forall_forall in F. split; [exact (F _ J)|].
      eapply Nat.lt_trans; [|eapply vdepth_obj; exact Ip]. apply (vdepth_dict _ (VStr x)). apply in_map_iff. exists (x, p). auto. }
  assert (Rr : exists ors, get_required (VObj c attrs) = Ok ors /\ (wr = VNone /\ odef ors = [] \/ wr = VList (map VStr (odef ors)))).
  { unfold get_required, getattr. rewrite Gr. cbn [bind]. destruct Hr as [->|Hr].
    - exists None. split; [reflexivity | left; auto].
    - destruct (reqs_typed _ Hr) as (rs & -> & M). exists (Some rs). rewrite M. split; [reflexivity | right; reflexivity]. }
  destruct Pp as (ops & P1 & P2 & P3 & P4). destruct Rr as (ors & R1 & R2). exists ops, ors. split; auto.
  - unfold getattr. rewrite Gt. reflexivity.
  - econstructor; eassumption.
  - intros x p J. apply (P4 x p J).
  - intros x p J. apply (P4 x p J).
Qed.

Lemma describes_fun : forall c attrs ps rs qs ss, NoDup (map fst attrs) -> describes (VObj c attrs) ps rs -> describes (VObj c attrs) qs ss -> ps = qs /\ rs = ss.
Proof.
  intros c attrs ps rs qs ss ND A B. inversion A as [? ? p r ? ? _ Ip Ir Hp Hr]; subst. inversion B as [? ? p' r' ? ? _ Ip' Ir' Hp' Hr']; subst.
  apply (dict_get_nodup _ _ _ ND) in Ip, Ir, Ip', Ir'. rewrite Ip in Ip'. injection Ip' as <-. rewrite Ir in Ir'. injection Ir' as <-. split.
  - destruct Hp as [(-> & ->)| ->], Hp' as [(Q & ->)|Q]; try discriminate Q; [reflexivity|]. injection Q as Q. clear - Q. revert qs Q.
    induction ps as [|[x p] ps IH]; intros [|[y q] qs] Q; try discriminate Q; [reflexivity|]. cbn [map fst snd] in Q. injection Q as -> -> Q. f_equal. auto.
  - destruct Hr as [(-> & ->)| ->], Hr' as [(Q & ->)|Q]; try discriminate Q; [reflexivity|]. injection Q as Q. clear - Q. revert ss Q.
    induction rs as [|x ps IH]; intros [|y qs] Q; try discriminate Q; [reflexivity|]. cbn [map fst snd] in Q. injection Q as -> Q. f_equal. auto.
Qed.

Lemma object_node_spec : forall v, is_object_node v = true <-> for_objects v.
Proof.
  intros v. split.
  - destruct v as [| | | | | | | | | | | | | | | | | |c attrs|]; try discriminate. intros H. apply orb_true_iff in H. exists c, attrs. split; [reflexivity|].
    destruct H as [H|H]; apply Nat.eqb_eq in H; [left | right]; exact H.
  - intros (c & attrs & -> & [->| ->]); reflexivity.
Qed.

Lemma any_object : forall m p, has_type Nodes m any_node p -> for_objects p -> exists attrs, p = VObj 6 attrs /\ attrs_typed (node_attrs 6) attrs.
Proof.
  intros m p H (c & attrs & -> & NC). apply ht_ref_iff in H. destruct H as (a & t & L & H). unfold lookup, Nodes in L. cbn [e_refs find_ref] in L.
  destruct (Nat.eqb 0 m && _) in L; [|discriminate L]. injection L as <- <-. apply ht_union_iff in H. destruct H as (u & I & H).
  assert (X : u = TClass c).
  { cbn [In] in I. repeat (destruct I as [<-|I]; [inversion H; subst; reflexivity|]). destruct I. }
  subst u. assert (Y : c = 6) by (destruct NC as [->| ->]; [reflexivity|]; cbn [In] in I; repeat (destruct I as [I|I]; [discriminate I|]); destruct I).
  subst c. apply node_typed in H; [|left; reflexivity]. exact H.
Qed.

(** ** Leaves of a node, by its properties *)

Definition leaf_from (deep : bool) (x : pystr) (q : value) (path : list pystr) (p : value) : Prop :=
  (path = [x] /\ p = q /\ ~ for_objects q) \/
  (deep = true /\ for_objects q /\ exists path', path = x :: path' /\ leaf deep q path' p) \/
  (deep = false /\ exists qs ss y, describes q qs ss /\ In (y, p) qs /\ path = [x; y]).

Definition asked_from (deep : bool) (rs : list pystr) (x : pystr) (q : value) (path : list pystr) : Prop :=
  (path = [x] /\ In x rs /\ ~ for_objects q) \/
  (deep = true /\ for_objects q /\ exists path', path = x :: path' /\ asked deep q path') \/
  (deep = false /\ exists qs ss y, describes q qs ss /\ In y ss /\ path = [x; y]).

Lemma leaf_by : forall deep c attrs ps rs path p, NoDup (map fst attrs) -> describes (VObj c attrs) ps rs ->
  leaf deep (VObj c attrs) path p <-> exists x q, In (x, q) ps /\ leaf_from deep x q path p.
Proof.
  intros deep c attrs ps rs path p ND D. split.
  - intros L. inversion L as [? ps' rs' x ? D' I N|? ps' rs' x o path' ? Dp D' I O L'|? ps' rs' x o qs ss y ? Dp D' I D2 J]; subst;
      destruct (describes_fun _ _ _ _ _ _ ND D D') as (<- & _).
    + exists x, p. split; [exact I|]. left. auto.
    + exists x, o. split; [exact I|]. right. left. eauto.
    + exists x, o. split; [exact I|]. right. right. split; [reflexivity|]. exists qs, ss, y. auto.
  - intros (x & q & I & [(-> & -> & N)|[(-> & O & path' & -> & L)|(-> & qs & ss & y & D2 & J & ->)]]).
    + eapply lf_here; eassumption.
    + eapply lf_in; try eassumption. reflexivity.
    + eapply lf_step; try eassumption. reflexivity.
Qed.

Lemma asked_by : forall deep c attrs ps rs path, NoDup (map fst attrs) -> describes (VObj c attrs) ps rs ->
  asked deep (VObj c attrs) path <-> exists x q, In (x, q) ps /\ asked_from deep rs x q path.
Proof.
  intros deep c attrs ps rs path ND D. split.
  - intros L. inversion L as [? ps' rs' x ? D' I N R|? ps' rs' x o path' Dp D' I O L'|? ps' rs' x o qs ss y Dp D' I D2 J]; subst;
      destruct (describes_fun _ _ _ _ _ _ ND D D') as (<- & <-).
    + exists x, p. split; [exact I|]. left. auto.
    + exists x, o. split; [exact I|]. right. left. eauto.
    + exists x, o. split; [exact I|]. right. right. split; [reflexivity|]. exists qs, ss, y. auto.
  - intros (x & q & I & [(-> & N & O)|[(-> & O & path' & -> & L)|(-> & qs & ss & y & D2 & J & ->)]]).
    + eapply ak_here; eassumption.
    + eapply ak_in; try eassumption. reflexivity.
    + eapply ak_step; try eassumption. reflexivity.
Qed.

Lemma leaf_path : forall deep v path p, leaf deep v path p -> path <> [].
Proof. intros deep v path p L. destruct L; discriminate. Qed.

Lemma asked_path : forall deep v path, asked deep v path -> path <> [].
Proof. intros deep v path L. destruct L; discriminate. Qed.

Lemma flat_name_cons : forall o x path, path <> [] -> flat_name (qualified_names o) (x :: path) = inner_name o x (flat_name (qualified_names o) path).
Proof. intros o x [|y path] N; [congruence|]. unfold inner_name. cbn [flat_name]. destruct (qualified_names o); reflexivity. Qed.

(** ** The loop *)

Section Loop.
  Variables (o : options) (flat : value -> res value) (reqs : list pystr).

  Definition part (q : pystr * value) (c : list (pystr * value) * list pystr) : Prop :=
    if is_object_node (snd q)
    then exists obj ops ors, (if recursive o then flat (snd q) else Ok (snd q)) = Ok obj /\ get_properties obj = Ok ops /\ get_required obj = Ok ors /\
      c = (map (fun r => (inner_name o (fst q) (fst r), snd r)) (odef ops), map (inner_name o (fst q)) (odef ors))
    else c = ([q], if mem_str (fst q) reqs then [fst q] else []).

  Lemma loop_spec : forall ps cs, Forall2 part ps cs -> forall tp tr,
    flatten_loop o flat reqs ps tp tr = Ok (dict_update tp (flat_map fst cs), tr ++ flat_map snd cs).
  Proof.
    intros ps cs F. induction F as [|[x q] c ps cs P F IH]; intros tp tr.
    - cbn [flatten_loop flat_map]. rewrite app_nil_r. reflexivity.
    - cbn [flatten_loop]. unfold part in P. cbn [fst snd] in P. destruct (is_object_node q) eqn:O; cbn [negb].
      + destruct P as (obj & ops & ors & Fl & GP & GR & ->). rewrite Fl. cbn [bind]. rewrite GP. cbn [bind]. rewrite GR. cbn [bind]. rewrite IH.
        cbn [flat_map fst snd]. f_equal. f_equal.
        * unfold dict_update. rewrite fold_left_app. destruct ops; reflexivity.
        * rewrite app_assoc. destruct ors; cbn [odef map]; [reflexivity | rewrite app_nil_r; reflexivity].
      + subst c. rewrite IH. cbn [flat_map fst snd]. f_equal. f_equal. rewrite app_assoc. destruct (mem_str x reqs); [reflexivity | rewrite app_nil_r; reflexivity].
  Qed.
End Loop.

Lemma update_in : forall (kvs : list (pystr * value)) d x p, In (x, p) (dict_update d kvs) -> NoDup (map fst d) -> In (x, p) d \/ In (x, p) kvs.
Proof.
  induction kvs as [|[k v] kvs IH] using rev_ind; intros d x p I ND; [left; exact I|]. rewrite update_snoc in I.
  assert (ND' : NoDup (map fst (dict_set (dict_update d kvs) k v))) by (apply set_nodup, update_nodup; exact ND).
  apply (dict_get_nodup _ _ _ ND') in I. rewrite set_get in I. destruct (pystr_eqb k x) eqn:Q.
  - injection I as ->. apply pystr_eqb_eq in Q. subst k. right. apply in_app_iff. right. left. reflexivity.
  - apply dict_get_in in I. apply IH in I; [|exact ND]. destruct I as [I|I]; [left; exact I | right; apply in_app_iff; left; exact I].
Qed.

Lemma update_has : forall (kvs : list (pystr * value)) d x, In x (map fst d) \/ In x (map fst kvs) -> In x (map fst (dict_update d kvs)).
Proof.
  induction kvs as [|[k v] kvs IH]; intros d x I.
  - destruct I as [I|[]]. exact I.
  - unfold dict_update. cbn [fold_left fst snd]. apply IH. cbn [map fst] in I.
    assert (X : In x (map fst (dict_set d k v)) <-> In x (map fst d) \/ k = x).
    { split.
      - intros J. destruct (set_names d k v) as [Q|Q]; rewrite Q in J; [auto|]. apply in_app_iff in J. destruct J as [J|[J|[]]]; auto.
      - intros J. destruct (dict_get (dict_set d k v) x) as [w|] eqn:G; [apply dict_get_in in G; apply in_map_iff; exists (x, w); auto|].
        rewrite set_get in G. destruct (pystr_eqb k x) eqn:Q; [discriminate G|]. destruct J as [J| ->]; [|rewrite pystr_eqb_refl in Q; discriminate Q].
        apply (proj1 (dict_get_none _ _)) in G. contradiction. }
    cbn [In] in I. rewrite X. tauto.
Qed.

(** ** What flattening yields *)

(** [flattens o v v']: [v'] is the flat version of [v]. *)
Record flattens (o : options) (c : nat) (attrs attrs' : list (pystr * value)) (ps : list (pystr * value)) (rs : list pystr) : Prop := {
  fl_typed : attrs_typed (node_attrs c) attrs';
  fl_describes : describes (VObj c attrs') ps rs;
  fl_nodup : NoDup (map fst ps);
  fl_leaf : forall x p, In (x, p) ps -> exists path, leaf (recursive o) (VObj c attrs) path p /\ x = flat_name (qualified_names o) path;
  fl_name : forall path p, leaf (recursive o) (VObj c attrs) path p -> In (flat_name (qualified_names o) path) (map fst ps);
  fl_required : forall x, In x rs <-> exists path, asked (recursive o) (VObj c attrs) path /\ x = flat_name (qualified_names o) path;
  fl_closed : dict_get attrs' (str "additionalProperties") = Some (VBool false);
  fl_rest : forall x, x <> str "properties" -> x <> str "additionalProperties" -> x <> str "required" -> dict_get attrs' x = dict_get attrs x
}.

(** The contribution of one property. *)
Record contributes (o : options) (rs : list pystr) (x : pystr) (q : value) (c : list (pystr * value) * list pystr) : Prop := {
  ct_typed : forall y p, In (y, p) (fst c) -> has_type Nodes 0 any_node p;
  ct_leaf : forall y p, In (y, p) (fst c) -> exists path, leaf_from (recursive o) x q path p /\ y = flat_name (qualified_names o) path;
  ct_name : forall path p, leaf_from (recursive o) x q path p -> In (flat_name (qualified_names o) path) (map fst (fst c));
  ct_required : forall y, In y (snd c) <-> exists path, asked_from (recursive o) rs x q path /\ y = flat_name (qualified_names o) path
}.

Lemma part_leaf : forall o flat rs x q, is_object_node q = false -> has_type Nodes 0 any_node q ->
  exists c, part o flat rs (x, q) c /\ contributes o rs x q c.
Proof.
  intros o flat rs x q O T. assert (NO : ~ for_objects q) by (intros H; apply object_node_spec in H; congruence).
  assert (ND : forall qs ss, ~ describes q qs ss) by (intros qs ss D; apply NO; inversion D; subst; eexists _, _; eauto).
  exists ([(x, q)], if mem_str x rs then [x] else []). split; [unfold part; cbn [fst snd]; rewrite O; reflexivity|].
  split; cbn [fst snd].
  - intros y p [Q|[]]. injection Q as <- <-. exact T.
  - intros y p [Q|[]]. injection Q as <- <-. exists [x]. split; [left; auto | reflexivity].
  - intros path p [(-> & -> & _)|[(_ & H & _)|(_ & qs & ss & y & D & _)]]; [left; reflexivity | contradiction | exfalso; exact (ND _ _ D)].
  - intros y. split.
    + intros I. destruct (mem_str x rs) eqn:M; [|destruct I]. destruct I as [<-|[]]. apply mem_str_in in M. exists [x]. split; [left; auto | reflexivity].
    + intros (path & [(-> & I & _)|[(_ & H & _)|(_ & qs & ss & z & D & _)]] & ->); [|contradiction|exfalso; exact (ND _ _ D)].
      cbn [flat_name]. apply mem_str_in in I. rewrite I. left. reflexivity.
Qed.

Lemma asked_from_object : forall deep rs x q path, for_objects q -> asked_from deep rs x q path ->
  exists path', path = x :: path' /\ path' <> [] /\ (deep = true /\ asked deep q path' \/ deep = false /\ exists qs ss y, describes q qs ss /\ In y ss /\ path' = [y]).
Proof.
  intros deep rs x q path O [(_ & _ & N)|[(-> & _ & path' & -> & A)|(-> & qs & ss & y & D & I & ->)]]; [contradiction| |].
  - exists path'. split; [reflexivity|]. split; [eapply asked_path; exact A | left; auto].
  - exists [y]. split; [reflexivity|]. split; [discriminate|]. right. split; [reflexivity|]. exists qs, ss, y. auto.
Qed.

Lemma leaf_from_object : forall deep x q path p, for_objects q -> leaf_from deep x q path p ->
  exists path', path = x :: path' /\ path' <> [] /\ (deep = true /\ leaf deep q path' p \/ deep = false /\ exists qs ss y, describes q qs ss /\ In (y, p) qs /\ path' = [y]).
Proof.
  intros deep x q path p O [(_ & _ & N)|[(-> & _ & path' & -> & A)|(-> & qs & ss & y & D & I & ->)]]; [contradiction| |].
  - exists path'. split; [reflexivity|]. split; [eapply leaf_path; exact A | left; auto].
  - exists [y]. split; [reflexivity|]. split; [discriminate|]. right. split; [reflexivity|]. exists qs, ss, y. auto.
Qed.

Lemma in_inner : forall o x (l : list (pystr * value)) y p,
  In (y, p) (map (fun r => (inner_name o x (fst r), snd r)) l) <-> exists z, In (z, p) l /\ y = inner_name o x z.
Proof.
  intros o x l y p. rewrite in_map_iff. split.
  - intros ([z w] & Q & I). cbn [fst snd] in Q. injection Q as <- <-. exists z. auto.
  - intros (z & I & ->). exists (z, p). auto.
Qed.

Lemma part_object_deep : forall o flat rs x attrs attrs' ps ss, recursive o = true ->
  flat (VObj 6 attrs) = Ok (VObj 6 attrs') -> flattens o 6 attrs attrs' ps ss -> NoDup (map fst attrs') ->
  exists c, part o flat rs (x, VObj 6 attrs) c /\ contributes o rs x (VObj 6 attrs) c.
Proof.
  intros o flat rs x attrs attrs' ps ss R Fl F ND. destruct F as [FT FD FN FL FM FR _ _].
  assert (NC : node_class 6) by (left; reflexivity). assert (OB : for_objects (VObj 6 attrs)) by (exists 6, attrs; auto).
  destruct (node_view 6 attrs' NC FT) as (ops & ors & V). destruct (describes_fun _ _ _ _ _ _ ND FD (vw_describes _ _ _ _ V)) as (-> & ->).
  eexists. split.
  - unfold part. cbn [fst snd]. replace (is_object_node (VObj 6 attrs)) with true by reflexivity. rewrite R.
    exists (VObj 6 attrs'), ops, ors. split; [exact Fl|]. split; [apply (vw_props _ _ _ _ V)|]. split; [apply (vw_reqs _ _ _ _ V) | reflexivity].
  - split; cbn [fst snd].
    + intros y p I. apply in_inner in I. destruct I as (z & I & ->). exact (vw_typed _ _ _ _ V _ _ I).
    + intros y p I. apply in_inner in I. destruct I as (z & I & ->). destruct (FL _ _ I) as (path & L & ->). exists (x :: path).
      split; [right; left; rewrite R in *; eauto|]. symmetry. apply flat_name_cons. eapply leaf_path. exact L.
    + intros path p L. apply leaf_from_object in L; [|exact OB]. destruct L as (path' & -> & NE & [(_ & L)|(D & _)]); [|congruence].
      rewrite flat_name_cons by exact NE. apply FM in L. apply in_map_iff in L. destruct L as ([z w] & Q & I). cbn [fst] in Q. rewrite <- Q.
      apply in_map_iff. exists (inner_name o x z, w). split; [reflexivity|]. apply in_inner. exists z. auto.
    + intros y. rewrite in_map_iff. split.
      * intros (z & <- & I). apply FR in I. destruct I as (path & A & ->). exists (x :: path). split; [right; left; rewrite R in *; eauto|].
        symmetry. apply flat_name_cons. eapply asked_path. exact A.
      * intros (path & A & ->). apply asked_from_object in A; [|exact OB]. destruct A as (path' & -> & NE & [(_ & A)|(D & _)]); [|congruence].
        rewrite flat_name_cons by exact NE. eexists. split; [reflexivity|]. apply FR. eauto.
Qed.

Lemma part_object_shallow : forall o flat rs x attrs, recursive o = false -> attrs_typed (node_attrs 6) attrs -> NoDup (map fst attrs) ->
  exists c, part o flat rs (x, VObj 6 attrs) c /\ contributes o rs x (VObj 6 attrs) c.
Proof.
  intros o flat rs x attrs R T ND.
  assert (NC : node_class 6) by (left; reflexivity). assert (OB : for_objects (VObj 6 attrs)) by (exists 6, attrs; auto).
  destruct (node_view 6 attrs NC T) as (ops & ors & V). pose proof (vw_describes _ _ _ _ V) as FD.
  eexists. split.
  - unfold part. cbn [fst snd]. replace (is_object_node (VObj 6 attrs)) with true by reflexivity. rewrite R.
    exists (VObj 6 attrs), ops, ors. split; [reflexivity|]. split; [apply (vw_props _ _ _ _ V)|]. split; [apply (vw_reqs _ _ _ _ V) | reflexivity].
  - split; cbn [fst snd].
    + intros y p I. apply in_inner in I. destruct I as (z & I & ->). exact (vw_typed _ _ _ _ V _ _ I).
    + intros y p I. apply in_inner in I. destruct I as (z & I & ->). exists [x; z].
      split; [right; right; split; [exact R|]; eexists _, _, z; eauto|]. symmetry. apply (flat_name_cons o x [z]). discriminate.
    + intros path p L. apply leaf_from_object in L; [|exact OB]. destruct L as (path' & -> & NE & [(D & _)|(_ & qs & ss & z & D & I & ->)]); [congruence|].
      destruct (describes_fun _ _ _ _ _ _ ND FD D) as (<- & <-). rewrite flat_name_cons by exact NE. 
      apply in_map_iff. exists (inner_name o x z, p). split; [reflexivity|]. apply in_inner. exists z. auto.
    + intros y. rewrite in_map_iff. split.
      * intros (z & <- & I). exists [x; z]. split; [right; right; split; [exact R|]; eexists _, _, z; eauto|].
        symmetry. apply (flat_name_cons o x [z]). discriminate.
      * intros (path & A & ->). apply asked_from_object in A; [|exact OB]. destruct A as (path' & -> & NE & [(D & _)|(_ & qs & ss & z & D & I & ->)]); [congruence|].
        destruct (describes_fun _ _ _ _ _ _ ND FD D) as (<- & <-). rewrite flat_name_cons by exact NE. eexists. split; [reflexivity|]. exact I.
Qed.

Lemma props_value_typed : forall ps, NoDup (map fst ps) -> (forall x p, In (x, p) ps -> has_type Nodes 0 any_node p) ->
  has_type Nodes 0 (opt (TDict (TScalar KStr) any_node)) (props_value ps).
Proof.
  intros ps ND T. apply opt_typed. destruct ps as [|q ps]; [left; reflexivity | right]. unfold props_value. apply ht_dict_iff.
  eexists. split; [reflexivity|]. split; [|split].
  - apply Forall_forall. intros kv I. apply in_map_iff in I. destruct I as (r & <- & _). apply ht_scalar. exact Logic.I.
  - apply Forall_forall. intros kv I. apply in_map_iff in I. destruct I as ([x p] & <- & J). exact (T x p J).
  - rewrite map_map. cbn [fst]. rewrite <- (map_map fst VStr). apply FinFun.Injective_map_NoDup; [|exact ND]. intros a b Q. injection Q as ->. reflexivity.
Qed.

Lemma reqs_value_typed : forall rs, has_type Nodes 0 (opt (TList (TScalar KStr))) (reqs_value rs).
Proof.
  intros rs. apply opt_typed. destruct rs as [|r rs]; [left; reflexivity | right]. unfold reqs_value. apply ht_list_iff. eexists. split; [reflexivity|].
  apply Forall_forall. intros v I. apply in_map_iff in I. destruct I as (x & <- & _). apply ht_scalar. exact Logic.I.
Qed.

Lemma flat_map_in2 : forall {A B C} (R : A -> B -> Prop) (f : B -> list C) l l', Forall2 R l l' -> forall y,
  In y (flat_map f l') <-> exists a b, In a l /\ In b l' /\ R a b /\ In y (f b).
Proof.
  intros A B C R f l l' F y. rewrite in_flat_map. split.
  - intros (b & I & J). destruct (Forall2_in_r _ _ _ _ _ _ F I) as (a & Ia & Ra). exists a, b. auto.
  - intros (a & b & _ & I & _ & J). exists b. auto.
Qed.

Theorem flatten_spec : forall o n c attrs, node_class c -> attrs_typed (node_attrs c) attrs -> vdepth (VObj c attrs) < n ->
  exists attrs' ps rs, flatten o n (VObj c attrs) = Ok (VObj c attrs') /\ flattens o c attrs attrs' ps rs.
Proof.
  intros o n. induction n as [|n IH]; intros c attrs NC T Dp; [lia|].
  destruct (node_view c attrs NC T) as (ops & ors & V). pose proof (attrs_nodup _ _ T (node_attrs_nodup c NC)) as ND.
  assert (P : exists cs, Forall2 (part o (flatten o n) (odef ors)) (odef ops) cs /\ Forall2 (fun q c => contributes o (odef ors) (fst q) (snd q) c) (odef ops) cs).
  { pose proof (vw_typed _ _ _ _ V) as VT. pose proof (vw_depth _ _ _ _ V) as VD. induction (odef ops) as [|[x q] l IHl]; [exists []; auto|].
    destruct IHl as (cs & F1 & F2); [intros y p I; eapply VT; right; exact I | intros y p I; eapply VD; right; exact I|].
    assert (X : exists c, part o (flatten o n) (odef ors) (x, q) c /\ contributes o (odef ors) x q c).
    { pose proof (VT x q (or_introl eq_refl)) as Tq. pose proof (VD x q (or_introl eq_refl)) as Dq.
      destruct (is_object_node q) eqn:O; [|apply part_leaf; assumption]. apply object_node_spec in O. destruct (any_object _ _ Tq O) as (qa & -> & Ta).
      assert (N6 : node_class 6) by (left; reflexivity).
      destruct (recursive o) eqn:R.
      - destruct (IH 6 qa N6 Ta ltac:(lia)) as (qa' & qs & ss & Fq & FF). eapply part_object_deep; eauto.
        eapply attrs_nodup; [exact (fl_typed _ _ _ _ _ _ FF) | apply node_attrs_nodup; exact N6].
      - apply part_object_shallow; auto. eapply attrs_nodup; [exact Ta | apply node_attrs_nodup; exact N6]. }
    destruct X as (k & K1 & K2). exists (k :: cs). split; constructor; auto. }
  destruct P as (cs & F1 & F2).
  set (tp := dict_update [] (flat_map fst cs)). set (tr := flat_map snd cs).
  assert (NT : NoDup (map fst tp)) by (apply update_nodup; constructor).
  assert (IN : forall x p, In (x, p) tp -> exists q c, In q (odef ops) /\ contributes o (odef ors) (fst q) (snd q) c /\ In (x, p) (fst c)).
  { intros x p I. apply update_in in I; [|constructor]. destruct I as [[]|I]. apply (flat_map_in2 _ fst _ _ F2) in I. destruct I as (q & k & I1 & _ & K & J). eauto. }
  assert (TT : forall x p, In (x, p) tp -> has_type Nodes 0 any_node p).
  { intros x p I. destruct (IN _ _ I) as (q & k & _ & K & J). exact (ct_typed _ _ _ _ _ K _ _ J). }
  exists (dict_set (dict_set (dict_set attrs (str "properties") (props_value tp)) (str "additionalProperties") (VBool false)) (str "required") (reqs_value tr)), tp, tr.
  split.
  - cbn [flatten]. rewrite (vw_type _ _ _ _ V). cbn [bind]. rewrite pystr_eqb_refl. cbn [negb]. rewrite (vw_props _ _ _ _ V), (vw_reqs _ _ _ _ V). cbn [bind].
    change (match ors with Some l => l | None => [] end) with (odef ors). change (match ops with Some l => l | None => [] end) with (odef ops).
    rewrite (loop_spec _ _ _ _ _ F1). unfold setattr. cbn [bind fst snd app]. unfold props_value, reqs_value, tp, tr.
    destruct (dict_update [] (flat_map fst cs)), (flat_map snd cs); reflexivity.
  - assert (NA := node_attrs_nodup c NC).
    assert (TY : attrs_typed (node_attrs c) (dict_set (dict_set (dict_set attrs (str "properties") (props_value tp)) (str "additionalProperties") (VBool false)) (str "required") (reqs_value tr))).
    { apply (attrs_set _ _ _ (opt (TList (TScalar KStr)))); [|exact NA|apply (field_in c "required"); [exact NC | cbn; auto 10] | apply reqs_value_typed].
      apply (attrs_set _ _ _ (opt (TScalar KBool))); [|exact NA|apply (field_in c "additionalProperties"); [exact NC | cbn; auto 10] | apply opt_typed; right; apply ht_scalar; exact Logic.I].
      apply (attrs_set _ _ _ (opt (TDict (TScalar KStr) any_node))); [exact T|exact NA|apply (field_in c "properties"); [exact NC | cbn; auto 10] | apply props_value_typed; assumption]. }
    pose proof (attrs_nodup _ _ TY NA) as ND'.
    split; auto.
    + econstructor; [exact NC| | | |].
      * apply dict_get_in. rewrite set_get. cbn [pystr_eqb]. replace (pystr_eqb (str "required") (str "properties")) with false by reflexivity.
        rewrite set_get. replace (pystr_eqb (str "additionalProperties") (str "properties")) with false by reflexivity. rewrite set_get, pystr_eqb_refl. reflexivity.
      * apply dict_get_in. rewrite set_get, pystr_eqb_refl. reflexivity.
      * unfold props_value. destruct tp; [left; auto | right; reflexivity].
      * unfold reqs_value. destruct tr; [left; auto | right; reflexivity].
    + intros x p I. destruct (IN _ _ I) as ([y q] & k & Iq & K & J). destruct (ct_leaf _ _ _ _ _ K _ _ J) as (path & L & ->). exists path. split; [|reflexivity].
      apply (leaf_by _ _ _ _ _ _ _ ND (vw_describes _ _ _ _ V)). eauto.
    + intros path p L. apply (leaf_by _ _ _ _ _ _ _ ND (vw_describes _ _ _ _ V)) in L. destruct L as (x & q & I & L).
      destruct (Forall2_in_l _ _ _ _ _ _ F2 I) as (k & Ik & K). apply (ct_name _ _ _ _ _ K) in L. apply update_has. right.
      apply in_map_iff in L. destruct L as (r & Q & Ir). apply in_map_iff. exists r. split; [exact Q|]. apply in_flat_map. eauto.
    + intros x. unfold tr. rewrite (flat_map_in2 _ snd _ _ F2). split.
      * intros ([y q] & k & I & _ & K & J). apply (ct_required _ _ _ _ _ K) in J. destruct J as (path & A & ->). exists path. split; [|reflexivity].
        apply (asked_by _ _ _ _ _ _ ND (vw_describes _ _ _ _ V)). eauto.
      * intros (path & A & ->). apply (asked_by _ _ _ _ _ _ ND (vw_describes _ _ _ _ V)) in A. destruct A as (y & q & I & A).
        destruct (Forall2_in_l _ _ _ _ _ _ F2 I) as (k & Ik & K). exists (y, q), k. split; [exact I|]. split; [exact Ik|]. split; [exact K|].
        apply (ct_required _ _ _ _ _ K). eauto.
    + rewrite set_get. replace (pystr_eqb (str "required") (str "additionalProperties")) with false by reflexivity. rewrite set_get, pystr_eqb_refl. reflexivity.
    + intros x N1 N2 N3. rewrite !set_get. rewrite !(proj2 (pystr_eqb_neq _ _)) by congruence. reflexivity.
Qed.

(** ** Consequences *)

Lemma leaf_fun : forall deep path c attrs p p', node_class c -> attrs_typed (node_attrs c) attrs ->
  leaf deep (VObj c attrs) path p -> leaf deep (VObj c attrs) path p' -> p = p'.
Proof.
  intros deep path. induction path as [|x path IH]; intros c attrs p p' NC T L L'; [exfalso; exact (leaf_path _ _ _ _ L eq_refl)|].
  destruct (node_view c attrs NC T) as (ops & ors & V). pose proof (attrs_nodup _ _ T (node_attrs_nodup c NC)) as ND.
  pose proof (vw_describes _ _ _ _ V) as D. apply (leaf_by _ _ _ _ _ _ _ ND D) in L, L'.
  destruct L as (y & q & I & L), L' as (y' & q' & I' & L').
  assert (Y : y = x) by (destruct L as [(Q & _)|[(_ & _ & ? & Q & _)|(_ & ? & ? & ? & _ & _ & Q)]]; injection Q; congruence).
  assert (Y' : y' = x) by (destruct L' as [(Q & _)|[(_ & _ & ? & Q & _)|(_ & ? & ? & ? & _ & _ & Q)]]; injection Q; congruence).
  subst y y'. apply (dict_get_nodup _ _ _ (vw_nodup _ _ _ _ V)) in I'. pose proof I as I0. apply (dict_get_nodup _ _ _ (vw_nodup _ _ _ _ V)) in I0.
  rewrite I0 in I'. injection I' as <-. destruct (is_object_node q) eqn:O.
  - apply object_node_spec in O. destruct (any_object _ _ (vw_typed _ _ _ _ V _ _ I) O) as (qa & -> & Ta). assert (N6 : node_class 6) by (left; reflexivity).
    apply leaf_from_object in L, L'; try exact O. destruct L as (r & Q & NE & L), L' as (r' & Q' & NE' & L'). injection Q as <-. injection Q' as <-.
    destruct L as [(R & L)|(R & qs & ss & y & D1 & J & Q)], L' as [(R' & L')|(R' & qs' & ss' & y' & D1' & J' & Q')]; try congruence.
    + exact (IH _ _ _ _ N6 Ta L L').
    + destruct (node_view 6 qa N6 Ta) as (ops6 & ors6 & V6). pose proof (attrs_nodup _ _ Ta (node_attrs_nodup 6 N6)) as ND6. rewrite Q in Q'. injection Q' as <-.
      destruct (describes_fun _ _ _ _ _ _ ND6 D1 D1') as (<- & _). destruct (describes_fun _ _ _ _ _ _ ND6 D1 (vw_describes _ _ _ _ V6)) as (-> & _).
      apply (dict_get_nodup _ _ _ (vw_nodup _ _ _ _ V6)) in J, J'. congruence.
  - assert (NO : ~ for_objects q) by (intros H; apply object_node_spec in H; congruence).
    assert (NQ : forall qs ss, ~ describes q qs ss) by (intros qs ss Dq; apply NO; inversion Dq; subst; eexists _, _; eauto).
    destruct L as [(_ & -> & _)|[(_ & H & _)|(_ & qs & ss & y & Dq & _)]]; [|contradiction|exfalso; exact (NQ _ _ Dq)].
    destruct L' as [(_ & -> & _)|[(_ & H & _)|(_ & qs & ss & y & Dq & _)]]; [reflexivity|contradiction|exfalso; exact (NQ _ _ Dq)].
Qed.

Lemma flattens_exact : forall o c attrs attrs' ps rs, node_class c -> attrs_typed (node_attrs c) attrs -> flattens o c attrs attrs' ps rs ->
  no_clash (qualified_names o) (recursive o) (VObj c attrs) ->
  forall x p, In (x, p) ps <-> exists path, leaf (recursive o) (VObj c attrs) path p /\ x = flat_name (qualified_names o) path.
Proof.
  intros o c attrs attrs' ps rs NC T F CL x p. split; [apply (fl_leaf _ _ _ _ _ _ F)|]. intros (path & L & ->).
  pose proof (fl_name _ _ _ _ _ _ F _ _ L) as I. apply in_map_iff in I. destruct I as ([y q] & Q & I). cbn [fst] in Q. subst y.
  destruct (fl_leaf _ _ _ _ _ _ F _ _ I) as (path' & L' & Q). pose proof (CL _ _ _ _ L L' Q) as <-.
  rewrite (leaf_fun _ _ _ _ _ _ NC T L L'). exact I.
Qed.

Lemma leaf_plain : forall v path p, leaf true v path p -> ~ for_objects p.
Proof. intros v path p L. induction L; [assumption|assumption|discriminate]. Qed.

Lemma asked_leaf : forall v path, asked true v path -> exists p, leaf true v path p.
Proof.
  intros v path A. induction A as [v ps rs x p D I N R|v ps rs x o path _ D I O A (p & IH)|]; [| |discriminate].
  - exists p. eapply lf_here; eassumption.
  - exists p. eapply lf_in; eauto.
Qed.

Lemma flattens_required : forall o c attrs attrs' ps rs, flattens o c attrs attrs' ps rs ->
  (recursive o = true \/ forall ops ors x q qs ss, describes (VObj c attrs) ops ors -> In (x, q) ops -> describes q qs ss -> incl ss (map fst qs)) ->
  incl rs (map fst ps).
Proof.
  intros o c attrs attrs' ps rs F H x I. apply (fl_required _ _ _ _ _ _ F) in I. destruct I as (path & A & ->). destruct (recursive o) eqn:R.
  - destruct (asked_leaf _ _ A) as (p & L). apply (fl_name _ _ _ _ _ _ F path p). rewrite R. exact L.
  - destruct H as [H|H]; [discriminate H|]. inversion A as [? ops ors x p D I N RQ|? ? ? ? ? ? B|? ops ors x q qs ss y _ D I D2 J]; subst; [|discriminate B|].
    + apply (fl_name _ _ _ _ _ _ F [x] p). eapply lf_here; eassumption.
    + pose proof (H _ _ _ _ _ _ D I D2 _ J) as K. apply in_map_iff in K. destruct K as ([z w] & Q & K). cbn [fst] in Q. subst z.
      apply (fl_name _ _ _ _ _ _ F [x; y] w). rewrite R. eapply lf_step; eauto.
Qed.

Lemma dot_split : forall x y a b : pystr, ~ In 46%N x -> ~ In 46%N y -> x ++ str "." ++ a = y ++ str "." ++ b -> x = y /\ a = b.
Proof.
  induction x as [|c x IH]; intros [|d y] a b Nx Ny Q; cbn [app] in Q.
  - injection Q as ->. auto.
  - injection Q as <- _. exfalso. apply Ny. left. reflexivity.
  - injection Q as -> _. exfalso. apply Nx. left. reflexivity.
  - injection Q as -> Q. destruct (IH y a b) as (-> & ->); auto; intros H; [apply Nx | apply Ny]; right; exact H.
Qed.

Lemma flat_name_inj : forall path path', path <> [] -> path' <> [] ->
  (forall x, In x path -> ~ In 46%N x) -> (forall x, In x path' -> ~ In 46%N x) -> flat_name true path = flat_name true path' -> path = path'.
Proof.
  assert (HD : forall x r, r <> [] -> In 46%N (flat_name true (x :: r))).
  { intros x [|y r] N; [congruence|]. cbn [flat_name]. apply in_app_iff. right. left. reflexivity. }
  induction path as [|x path IH]; intros [|y path'] N N' U U' Q; try congruence.
  destruct path as [|a path], path' as [|b path'].
  - cbn [flat_name] in Q. congruence.
  - exfalso. apply (U x); [left; reflexivity|]. change x with (flat_name true [x]). rewrite Q. apply HD. discriminate.
  - exfalso. apply (U' y); [left; reflexivity|]. change y with (flat_name true [y]). rewrite <- Q. apply HD. discriminate.
  - change (x ++ str "." ++ flat_name true (a :: path) = y ++ str "." ++ flat_name true (b :: path')) in Q. apply dot_split in Q.
    + destruct Q as (-> & Q). f_equal. apply IH; try discriminate; auto; intros z I; [apply U | apply U']; right; exact I.
    + apply U. left. reflexivity.
    + apply U'. left. reflexivity.
Qed.

Lemma undotted_no_clash : forall deep v, undotted deep v -> no_clash true deep v.
Proof.
  intros deep v U path path' p p' L L' Q. apply flat_name_inj; eauto using leaf_path; intros x I; eapply U; eassumption.
Qed.

(** ** Writing the nodes *)

Inductive tidy : typ -> Prop :=
| ti_scalar : forall k, In k [KNone; KBool; KInt; KFloat; KStr] -> tidy (TScalar k)
| ti_list : forall t, tidy t -> tidy (TList t)
| ti_dict : forall t, tidy t -> tidy (TDict (TScalar KStr) t)
| ti_union : forall op ts, (forall t, In t ts -> tidy t) -> tidy (TUnion op ts)
| ti_literal : forall x, tidy (TLiteral [LStr x])
| ti_annot : forall t md, tidy t -> tidy (TAnnot t md)
| ti_class : forall c, tidy (TClass c)
| ti_ref : tidy any_node.

Definition nodal (v : value) : Prop := exists t, tidy t /\ has_type Nodes 0 t v.

Definition node_shape (v : value) : Prop :=
  (match v with VNone | VBool _ | VInt _ | VFloat _ | VStr _ => True | _ => False end) \/
  (exists vs, v = VList vs /\ forall w, In w vs -> nodal w) \/
  (exists kvs, v = VDict kvs /\ (forall k w, In (k, w) kvs -> exists s, k = VStr s) /\ forall k w, In (k, w) kvs -> nodal w) \/
  (exists c cl attrs, v = VObj c attrs /\ get_class Nodes c = Some cl /\ annotated cl /\ map fst attrs = map fst (raw_fields (c_kind cl)) /\
    Forall2 (has_type Nodes (c_module cl)) (map snd (raw_fields (c_kind cl))) (map snd attrs) /\ forall x w, In (x, w) attrs -> nodal w).

Ltac is_tidy := repeat first
  [ exact ti_ref | apply ti_class | apply ti_literal | apply ti_annot | apply ti_list | apply ti_dict
  | apply ti_scalar; cbn; tauto
  | apply ti_union; intros ?t ?I; cbn [In] in I; repeat (destruct I as [<-|I]); [..|destruct I] ].

Lemma nodes_class : forall c cl, get_class Nodes c = Some cl ->
  c_module cl = 0 /\ c_to_json cl = None /\ c_from_json cl = None /\ annotated cl /\ (exists fs, c_kind cl = CData false fs) /\
  Forall tidy (map snd (raw_fields (c_kind cl))).
Proof.
  intros c cl G. unfold get_class, Nodes in G. cbn [e_classes] in G.
  do 9 (destruct c as [|c]; [injection G as <-; (split; [reflexivity|]); (split; [reflexivity|]); (split; [reflexivity|]); (split; [exact Logic.I|]); (split; [eexists; reflexivity|]);
    cbn; repeat (apply Forall_cons; [is_tidy|]); apply Forall_nil|]).
  destruct c; discriminate G.
Qed.

Lemma nodal_shape : forall v, nodal v -> node_shape v.
Proof.
  intros v (t & T & H). revert v H. induction T as [k I|t T IH|t T IH|op ts T IH|x|t md T IH|c| ]; intros v H.
  - left. inversion H; subst. cbn [In] in I. repeat (destruct I as [<-|I]; [destruct v; try contradiction; exact Logic.I|]). destruct I.
  - apply ht_list_iff in H. destruct H as (vs & -> & F). right. left. exists vs. split; [reflexivity|]. intros w I. rewrite Forall_forall in F. exists t. auto.
  - apply ht_dict_iff in H. destruct H as (kvs & -> & K & F & _). right. right. left. exists kvs. split; [reflexivity|]. rewrite Forall_forall in K, F. split.
    + intros k w I. specialize (K _ I). cbn [fst] in K. inversion K; subst. destruct k; try contradiction. eauto.
    + intros k w I. exists t. split; [exact T | exact (F _ I)].
  - apply ht_union_iff in H. destruct H as (u & I & H). exact (IH u I v H).
  - apply ht_literal_iff in H. destruct H as (l & [<-|[]] & ->). left. exact Logic.I.
  - apply ht_annot_iff in H. exact (IH v H).
  - inversion H as [| | | | | | | | |? ? cl ms x G K|? ? cl attrs G K NM F|? ? cl xs attrs G K|? ? cl h attrs G K FJ]; subst;
      destruct (nodes_class _ _ G) as (M0 & N1 & N2 & AN & (fs & KD) & TD); try congruence.
    right. right. right. exists c, cl, attrs. split; [reflexivity|]. split; [exact G|]. split; [exact AN|]. split; [exact NM|]. split; [exact F|].
    intros x w I. apply (in_map snd) in I. destruct (Forall2_in_r _ _ _ _ _ _ F I) as (u & Iu & Hu). cbn [snd] in Hu. rewrite M0 in Hu. rewrite Forall_forall in TD. exists u. auto.
  - apply ht_ref_iff in H. destruct H as (a & t & L & H). unfold lookup, Nodes in L. cbn [e_refs find_ref] in L. destruct (_ && _) in L; [|discriminate L].
    injection L as <- <-. apply ht_union_iff in H. destruct H as (u & I & H). 
    assert (X : exists c, u = TClass c) by (cbn [In] in I; repeat (destruct I as [<-|I]; [eexists; reflexivity|]); destruct I).
    destruct X as (c & ->).
    inversion H as [| | | | | | | | |? ? cl ms x G K|? ? cl attrs G K NM F|? ? cl xs attrs G K|? ? cl h attrs G K FJ]; subst;
      destruct (nodes_class _ _ G) as (M0 & N1 & N2 & AN & (fs & KD) & TD); try congruence.
    right. right. right. exists c, cl, attrs. split; [reflexivity|]. split; [exact G|]. split; [exact AN|]. split; [exact NM|]. split; [exact F|].
    intros x w J. apply (in_map snd) in J. destruct (Forall2_in_r _ _ _ _ _ _ F J) as (u & Iu & Hu). cbn [snd] in Hu. rewrite M0 in Hu. rewrite Forall_forall in TD. exists u. auto.
Qed.

Lemma nodal_written : forall u v, written Nodes u v -> nodal v -> nodal u.
Proof.
  intros u v W. induction W as [|w vs I W IH|w vs I W IH|w vs I W IH|k w kvs I W IH|c cl fs attrs x t w G TJ AN CP I GA NN W IH|c cl xs attrs x w G TJ K I GA W IH|c cl attrs x w G TJ K I ND NN W IH];
    intros NV; auto; apply IH; pose proof (nodal_shape _ NV) as [S1|[(us & S1 & S2)|[(us & S1 & S2 & S3)|(c' & cl' & at' & S1 & _ & _ & _ & _ & S2)]]];
    try discriminate S1; try contradiction; injection S1; intros; subst; eauto.
  - eapply S2. apply dict_get_in. exact GA.
  - eapply S2. apply dict_get_in. exact GA.
Qed.

Lemma nodes_ok : env_ok Nodes.
Proof.
  intros c cl G. destruct (nodes_class _ _ G) as (M0 & N1 & N2 & AN & (fs & KD) & TD). split; rewrite ?KD; try discriminate; try congruence.
  - unfold get_class, Nodes in G. cbn [e_classes] in G. cbn [raw_fields].
    do 9 (destruct c as [|c]; [injection G as <-; injection KD as <-; cbn; nodup|]). destruct c; discriminate G.
  - intros fr gs f v Q I D. injection Q as <- <-. unfold get_class, Nodes in G. cbn [e_classes] in G.
    assert (X : Forall (fun f => f_default f = None) fs).
    { clear - G KD. do 9 (destruct c as [|c]; [injection G as <-; injection KD as <-; cbn; repeat (apply Forall_cons; [reflexivity|]); apply Forall_nil|]). destruct c; discriminate G. }
    rewrite Forall_forall in X. rewrite (X f I) in D. discriminate D.
Qed.

Lemma nodes_writable : forall c cl, get_class Nodes c = Some cl -> writable Nodes None (TClass c).
Proof.
  intros c cl G. destruct (nodes_class _ _ G) as (M0 & N1 & N2 & AN & (fs & KD) & TD).
  eapply wr_fields; [exact G | unfold class_properties; rewrite KD; reflexivity|]. rewrite M0. 
  assert (X : Forall (fun f => writable Nodes (Some 0) (f_type f)) fs).
  { clear - G KD. unfold get_class, Nodes in G. cbn [e_classes] in G.
    do 9 (destruct c as [|c]; [injection G as <-; injection KD as <-; cbn; repeat (apply Forall_cons; [cbn;
      first [apply wr_union | apply wr_annot, wr_scalar | eapply wr_literal; [left; reflexivity | intros ? [<-|[]]; reflexivity | apply wr_scalar]
            | try apply wr_list; eapply wr_ref; [reflexivity | discriminate | apply wr_union]]|]); apply Forall_nil|]). destruct c; discriminate G. }
  intros x t I. cbn [raw_fields] in I. apply in_map_iff in I. destruct I as (f & Q & I). injection Q as _ <-. rewrite Forall_forall in X. exact (X f I).
Qed.

Lemma no_naive : forall v, nodal v -> ~ naive v.
Proof.
  intros v NV (d & -> & _). destruct (nodal_shape _ NV) as [S1|[(us & S1 & S2)|[(us & S1 & S2 & S3)|(c' & cl' & at' & S1 & _)]]]; try discriminate S1; contradiction.
Qed.

Lemma nodal_storable : forall n v, vdepth v < n -> nodal v -> storable Nodes v.
Proof.
  induction n as [|n IH]; intros v D NV; [lia|].
  destruct (nodal_shape _ NV) as [S1|[(us & -> & S2)|[(us & -> & S2 & S3)|(c & cl & attrs & -> & G & AN & NM & F & S2)]]].
  - apply sv_scalar. destruct v; try contradiction; exact Logic.I.
  - apply sv_list. intros w I. apply IH; [|auto]. pose proof (vdepth_list _ _ I). lia.
  - apply sv_dict; [left; exact S2|]. intros k w I. apply IH; [|eauto]. pose proof (vdepth_dict _ _ _ I). lia.
  - eapply sv_fields; eauto using nodes_writable. intros x w I. apply IH; [|eauto]. pose proof (vdepth_obj c _ _ _ I). lia.
Qed.

Lemma nodal_conforms : forall n v, vdepth v < n -> nodal v -> conforms Nodes v.
Proof.
  induction n as [|n IH]; intros v D NV; [lia|].
  destruct (nodal_shape _ NV) as [S1|[(us & -> & S2)|[(us & -> & S2 & S3)|(c & cl & attrs & -> & G & AN & NM & F & S2)]]].
  - apply cf_leaf. destruct v; try contradiction; exact Logic.I.
  - apply cf_list. apply Forall_forall. intros w I. apply IH; [|auto]. pose proof (vdepth_list _ _ I). lia.
  - apply cf_dict. apply Forall_forall. intros [k w] I. cbn [snd]. apply IH; [|eauto]. pose proof (vdepth_dict _ _ _ I). lia.
  - eapply cf_fields; eauto. apply Forall_forall. intros [x w] I. cbn [snd]. apply IH; [|eauto]. pose proof (vdepth_obj c _ _ _ I). lia.
Qed.

Lemma nodal_writes : forall v, nodal v -> exists j, object_to_json Nodes v = Ok j.
Proof.
  intros v NV. apply (object_to_json_total Nodes nodes_ok); [exact (nodal_storable (Datatypes.S (vdepth v)) v ltac:(lia) NV)|].
  intros u e W [(NA & _)|(c & cl & h & _ & G & TJ & _)].
  - apply (no_naive u); [eapply nodal_written; eassumption | exact NA].
  - destruct (nodes_class _ _ G) as (_ & N1 & _). congruence.
Qed.

Lemma loop_more : forall o (f g : value -> res value) reqs, (forall v w, f v = Ok w -> g v = Ok w) -> forall ps tp tr r,
  flatten_loop o f reqs ps tp tr = Ok r -> flatten_loop o g reqs ps tp tr = Ok r.
Proof.
  intros o f g reqs FG. induction ps as [|[x q] ps IH]; intros tp tr r H; [exact H|]. cbn [flatten_loop] in *.
  destruct (negb (is_object_node q)); [exact (IH _ _ _ H)|]. destruct (recursive o).
  - destruct (f q) as [w|] eqn:Q; cbn [bind] in H; [|discriminate H]. rewrite (FG _ _ Q). cbn [bind].
    destruct (get_properties w) as [ops|]; cbn [bind] in *; [|discriminate H]. destruct (get_required w) as [ors|]; cbn [bind] in *; [|discriminate H]. exact (IH _ _ _ H).
  - cbn [bind] in *. destruct (get_properties q) as [ops|]; cbn [bind] in *; [|discriminate H]. destruct (get_required q) as [ors|]; cbn [bind] in *; [|discriminate H]. exact (IH _ _ _ H).
Qed.

Lemma flatten_more : forall o n k v w, flatten o n v = Ok w -> n <= k -> flatten o k v = Ok w.
Proof.
  intros o n. induction n as [|n IH]; intros k v w H L; [discriminate H|]. destruct k as [|k]; [lia|]. cbn [flatten] in *.
  destruct (getattr v (str "type")) as [ty|]; cbn [bind] in *; [|discriminate H]. destruct (negb _) in *; [exact H|].
  destruct (get_properties v) as [ops|]; cbn [bind] in *; [|discriminate H]. destruct (get_required v) as [ors|]; cbn [bind] in *; [|discriminate H].
  match type of H with bind ?x _ = _ => destruct x as [r|] eqn:Q; cbn [bind] in H; [|discriminate H] end.
  rewrite (loop_more o _ (flatten o k) _ (fun v w Fv => IH k v w Fv ltac:(lia)) _ _ _ _ Q). exact H.
Qed.

Theorem flatten_schema_total : forall o schema v, json_wf schema -> json_to_object Nodes false 0 (TClass c_top) schema = Ok v ->
  exists attrs attrs' ps rs, v = VObj c_top attrs /\ flattens o c_top attrs attrs' ps rs /\
  exists j, object_to_json Nodes (VObj c_top attrs') = Ok j /\ forall n, vdepth v < n -> flatten_schema o n schema = Ok j.
Proof.
  intros o schema v WF R. assert (NC : node_class c_top) by (right; reflexivity).
  pose proof (json_to_object_sound Nodes false nodes_ok 0 (TClass c_top) schema v WF R) as T.
  apply (proj1 (node_typed 0 c_top v NC)) in T. destruct T as (attrs & -> & T).
  destruct (flatten_spec o (Datatypes.S (vdepth (VObj c_top attrs))) c_top attrs NC T ltac:(lia)) as (attrs' & ps & rs & Fl & FF).
  exists attrs, attrs', ps, rs. split; [reflexivity|]. split; [exact FF|].
  destruct (nodal_writes (VObj c_top attrs')) as (j & W).
  { exists (TClass c_top). split; [apply ti_class|]. apply (proj2 (node_typed 0 c_top _ NC)). exists attrs'. split; [reflexivity | exact (fl_typed _ _ _ _ _ _ FF)]. }
  exists j. split; [exact W|]. intros n D. unfold flatten_schema. rewrite R. cbn [bind]. rewrite (flatten_more _ _ n _ _ Fl ltac:(lia)). cbn [bind]. exact W.
Qed.
