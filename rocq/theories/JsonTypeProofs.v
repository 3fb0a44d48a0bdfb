(** The JSON types of the library: reading, writing, schemas. *)
From Coq Require Import String List NArith ZArith Bool Lia.
From Verif Require Import Base Json PyTypes TypeAlgebra Mapping Deser Ser Catalog Names Schema JsonTypes Lists TypingFacts DeserSound SpecRecursion
  DeserFuel DeserBuild DeserUnfold SpecSchema SchemaSem SchemaProofs SerFacts CatalogProofs SpecGenerate SpecJsonTypes.
Import ListNotations.
Open Scope list_scope.
Open Scope nat_scope.

(** Both types at once. *)
Definition json_union (nulls : bool) (s : pystr) : typ :=
  TUnion false ((if nulls then [TScalar KNone] else []) ++
                [TScalar KBool; TScalar KInt; TScalar KFloat; TScalar KStr; TDict (TScalar KStr) (TRef s); TList (TRef s)]).

(** ** Data *)

Lemma data_total : forall j, exists v, data_of j v.
Proof.
  intros j. induction j using json_induct; try (eexists; constructor; fail).
  - assert (X : exists vs, Forall2 data_of l vs).
    { induction H as [|x r (v & V) _ (vs & VS)]; [exists []; constructor | exists (v :: vs); constructor; assumption]. }
    destruct X as (vs & X). exists (VList vs). constructor. exact X.
  - assert (X : exists kvs, Forall2 (fun p kv => fst kv = VStr (fst p) /\ data_of (snd p) (snd kv)) o kvs).
    { induction H as [|[s x] r (v & V) _ (vs & VS)]; [exists []; constructor | exists ((VStr s, v) :: vs); constructor; [split; [reflexivity | exact V] | assumption]]. }
    destruct X as (kvs & X). exists (VDict kvs). constructor. exact X.
Qed.

Lemma data_unique : forall j v w, data_of j v -> data_of j w -> v = w.
Proof.
  intros j. induction j using json_induct; intros v w A B; inversion A; subst; inversion B; subst; try reflexivity.
  - f_equal. clear A B. revert vs vs0 H1 H2. induction H as [|x r X _ IH]; intros vs ws F G; inversion F; subst; inversion G; subst; [reflexivity|].
    f_equal; [apply X; assumption | apply IH; assumption].
  - f_equal. clear A B. revert kvs kvs0 H1 H2. induction H as [|x r X _ IH]; intros vs ws F G; inversion F as [|? [k1 v1] ? ? [K1 V1] F1]; subst; inversion G as [|? [k2 v2] ? ? [K2 V2] G1]; subst; [reflexivity|].
    cbn [fst snd] in *. subst. f_equal; [f_equal; apply X; assumption | apply IH; assumption].
Qed.

Lemma anywhere_dec : forall P, (forall j, P j \/ ~ P j) -> forall j, anywhere P j \/ ~ anywhere P j.
Proof.
  intros P DEC j. destruct (DEC j) as [Y|N]; [left; apply any_here; exact Y|]. induction j using json_induct;
    try (right; intros A; inversion A; subst; destruct (N ltac:(assumption)); fail).
  - assert (X : (exists x, In x l /\ anywhere P x) \/ ~ (exists x, In x l /\ anywhere P x)).
    { clear N. induction H as [|x r X _ IH]; [right; intros (x & [] & _)|].
      assert (A : anywhere P x \/ ~ anywhere P x) by (destruct (DEC x) as [Y|N]; [left; apply any_here; exact Y | apply X; exact N]).
      destruct A as [A|A]; [left; exists x; split; [left; reflexivity | exact A]|].
      destruct IH as [(y & I & B)|B]; [left; exists y; split; [right; exact I | exact B]|].
      right. intros (y & [<-|I] & C); [apply A; exact C | apply B; exists y; auto]. }
    destruct X as [(x & I & A)|X]; [left; eapply any_item; eassumption|].
    right. intros A. inversion A; subst; [destruct (N ltac:(assumption)) | apply X; eexists; split; eassumption].
  - assert (X : (exists k x, In (k, x) o /\ anywhere P x) \/ ~ (exists k x, In (k, x) o /\ anywhere P x)).
    { clear N. induction H as [|[k x] r X _ IH]; [right; intros (k & x & [] & _)|]. cbn [snd] in X.
      assert (A : anywhere P x \/ ~ anywhere P x) by (destruct (DEC x) as [Y|N]; [left; apply any_here; exact Y | apply X; exact N]).
      destruct A as [A|A]; [left; exists k, x; split; [left; reflexivity | exact A]|].
      destruct IH as [(k' & y & I & B)|B]; [left; exists k', y; split; [right; exact I | exact B]|].
      right. intros (k' & y & [Q|I] & C); [injection Q as -> ->; apply A; exact C | apply B; exists k', y; auto]. }
    destruct X as [(k & x & I & A)|X]; [left; eapply any_member; eassumption|].
    right. intros A. inversion A; subst; [destruct (N ltac:(assumption)) | apply X; do 2 eexists; split; eassumption].
Qed.

Lemma null_dec : forall j, anywhere is_null j \/ ~ anywhere is_null j.
Proof. apply anywhere_dec. intros []; (left; reflexivity) || (right; discriminate). Qed.

Lemma integer_dec : forall j, anywhere is_integer j \/ ~ anywhere is_integer j.
Proof.
  apply anywhere_dec. intros []; cbn [is_integer]; try (right; tauto); [left; exact Logic.I|].
  destruct (whole f); [left; reflexivity | right; discriminate].
Qed.

(** ** Reading *)

Section Read.
  Variable E : env.
  Hypothesis GE : guarded_env E.
  Hypothesis CALM : calm E.
  Variables (skip : bool) (m : nat) (nulls : bool) (s : pystr).
  Hypothesis L : lookup E m s = Some (true, json_union nulls s).

  Notation jto := (json_to_object E skip m).

  Lemma json_ready : forall t, t = json_union nulls s \/ In t [TDict (TScalar KStr) (TRef s); TList (TRef s); TRef s] -> ready E m t.
  Proof.
    pose proof (ge_refs E GE m s true _ L) as G.
    assert (R : static_ok E (fun k => In k [KeyAlias m s]) m (TRef s)).
    { eapply so_ref_attr; [exact L | exact Logic.I | left; reflexivity]. }
    assert (U : static_ok E (fun k => In k [KeyAlias m s]) m (json_union nulls s)).
    { unfold json_union. apply (so_union _ _ _ _ _ []); [destruct nulls; reflexivity | left; reflexivity |].
      apply Forall_app. split; [destruct nulls; repeat constructor|].
      do 4 (constructor; [apply so_scalar|]).
      constructor; [apply so_dict; [reflexivity | exact R]|]. constructor; [apply so_list; exact R | constructor]. }
    assert (C : closed E (fun k => In k [KeyAlias m s])).
    { intros k [<-|[]]. exists (json_union nulls s). split; [exact L|]. split; [exact U | exact Logic.I]. }
    assert (GR : guarded E m (TRef s)).
    { apply g_ref. intros a t L'. rewrite L in L'. injection L' as _ <-. exact (proj1 G). }
    intros t [->|I].
    - eapply (static_ready E GE); [exact C | exact U | exact G].
    - eapply (static_ready E GE); [exact C | |].
      + destruct I as [<-|[<-|[<-|[]]]]; [apply so_dict; [reflexivity | exact R] | apply so_list; exact R | exact R].
      + destruct I as [<-|[<-|[<-|[]]]]; cbn [every_part]; repeat split; try exact GR; apply g_leaf; exact Logic.I.
  Qed.

  Lemma jto_name : forall j, jto (TRef s) j = jto (json_union nulls s) j.
  Proof.
    intros j. rewrite (jto_ref E GE CALM skip m s true (json_union nulls s)); [reflexivity | apply json_ready; right; auto 6 using in_eq, in_cons | exact L].
  Qed.

  Lemma jto_json : forall j, jto (json_union nulls s) j =
    match j with
    | JNull => if nulls then Ok VNone else Err EJsonKey
    | JBool b => Ok (VBool b)
    | JInt z => Ok (VInt z)
    | JFloat f => Ok (VFloat f)
    | JStr x => Ok (VStr x)
    | JObj o => match mapM (fun '(k, x) => do v <- jto (json_union nulls s) x; Ok (VStr k, v)) o with
                | Err EJsonKey | Err EJsonType => Err EJsonKey
                | Ok kvs => Ok (VDict kvs)
                | Err e => Err e
                end
    | JArr l => match mapM (jto (json_union nulls s)) l with
                | Err EJsonKey | Err EJsonType => Err EJsonKey
                | Ok vs => Ok (VList vs)
                | Err e => Err e
                end
    end.
  Proof.
    intros j.
    assert (D : jto (TDict (TScalar KStr) (TRef s)) j = match j with
      | JObj o => do kvs <- mapM (fun '(k, x) => do v <- jto (json_union nulls s) x; Ok (VStr k, v)) o; Ok (VDict kvs)
      | _ => Err EJsonType end).
    { rewrite (jto_dict E GE CALM) by (apply json_ready; right; auto 6 using in_eq, in_cons). destruct j; try reflexivity.
      f_equal. apply mapM_ext. intros [k x] _. cbn [parse_key bind]. rewrite jto_name. reflexivity. }
    assert (A : jto (TList (TRef s)) j = match j with
      | JArr js => do vs <- mapM (jto (json_union nulls s)) js; Ok (VList vs)
      | _ => Err EJsonType end).
    { rewrite (jto_list E GE CALM) by (apply json_ready; right; auto 6 using in_eq, in_cons). destruct j; try reflexivity.
      f_equal. apply mapM_ext. intros x _. apply jto_name. }
    unfold json_union at 1. rewrite (jto_union E GE CALM) by (apply json_ready; left; reflexivity).
    assert (Q : discriminating_properties E ((if nulls then [TScalar KNone] else []) ++
                [TScalar KBool; TScalar KInt; TScalar KFloat; TScalar KStr; TDict (TScalar KStr) (TRef s); TList (TRef s)]) = Ok [])
      by (destruct nulls; reflexivity).
    rewrite Q. cbn [bind].
    destruct nulls; cbn [app union_try]; rewrite !jto_scalar; destruct j; cbn [parse_scalar]; rewrite ?D, ?A; try reflexivity;
      match goal with |- context [mapM ?f ?l] => destruct (mapM f l) as [vs|[]] end; reflexivity.
  Qed.

  Theorem json_read : forall j v, data_of j v -> (nulls = true \/ ~ anywhere is_null j) -> jto (json_union nulls s) j = Ok v.
  Proof.
    intros j. induction j using json_induct; intros v D N; inversion D; subst; rewrite jto_json; try reflexivity.
    - destruct nulls; [reflexivity|]. destruct N as [N|N]; [discriminate N|]. destruct N. apply any_here. reflexivity.
    - assert (X : mapM (jto (json_union nulls s)) l = Ok vs); [|rewrite X; reflexivity].
      assert (N' : forall x, In x l -> nulls = true \/ ~ anywhere is_null x).
      { intros x I. destruct N as [N|N]; [left; exact N | right; intros A; apply N; eapply any_item; eassumption]. }
      clear N D. revert vs H1. induction H as [|x r X _ IH]; intros vs F; inversion F; subst; [reflexivity|].
      cbn [mapM]. rewrite (X _ H1 (N' x (or_introl eq_refl))). cbn [bind]. rewrite (IH (fun x I => N' x (or_intror I)) _ H3). reflexivity.
    - match goal with |- match ?M with _ => _ end = _ => assert (X : M = Ok kvs) end; [|rewrite X; reflexivity].
      assert (N' : forall k x, In (k, x) o -> nulls = true \/ ~ anywhere is_null x).
      { intros k x I. destruct N as [N|N]; [left; exact N | right; intros A; apply N; eapply any_member; eassumption]. }
      clear N D. revert kvs H1. induction H as [|[k x] r X _ IH]; intros kvs F; inversion F as [|? [k1 v1] ? ? [K1 V1] F1]; subst; [reflexivity|].
      cbn [fst snd] in *. subst. cbn [mapM bind]. rewrite (X _ V1 (N' k x (or_introl eq_refl))). cbn [bind].
      rewrite (IH (fun k x I => N' k x (or_intror I)) _ F1). reflexivity.
  Qed.

  Theorem json_null : nulls = false -> forall j, anywhere is_null j -> jto (json_union nulls s) j = Err EJsonKey.
  Proof.
    intros Z j. induction j using json_induct; intros A; rewrite jto_json; try (inversion A as [? B| |]; subst; discriminate B).
    - rewrite Z. reflexivity.
    - assert (B : exists x, In x l /\ anywhere is_null x) by (inversion A as [? B|? x I B|]; subst; [discriminate B | exists x; auto]).
      assert (X : mapM (jto (json_union nulls s)) l = Err EJsonKey); [|rewrite X; reflexivity].
      clear A. destruct B as (x & I & B). induction H as [|y r Y F IH]; [destruct I|]. cbn [mapM].
      destruct (null_dec y) as [NY|NY]; [rewrite (Y NY); reflexivity|].
      destruct I as [->|I]; [destruct (NY B)|]. destruct (data_total y) as (v & V). rewrite (json_read y v V (or_intror NY)).
      cbn [bind]. rewrite (IH I). reflexivity.
    - assert (B : exists k x, In (k, x) o /\ anywhere is_null x) by (inversion A as [? B| |? k x I B]; subst; [discriminate B | exists k, x; auto]).
      match goal with |- match ?M with _ => _ end = _ => assert (X : M = Err EJsonKey) end; [|rewrite X; reflexivity].
      clear A. destruct B as (k & x & I & B). induction H as [|[k' y] r Y F IH]; [destruct I|]. cbn [mapM bind fst snd] in *.
      destruct (null_dec y) as [NY|NY]; [rewrite (Y NY); reflexivity|].
      destruct I as [Q|I]; [injection Q as -> ->; destruct (NY B)|]. destruct (data_total y) as (v & V). rewrite (json_read y v V (or_intror NY)).
      cbn [bind]. rewrite (IH I). reflexivity.
  Qed.
End Read.

(** ** Writing *)

Lemma data_written : forall E j v, data_of j v -> json_wf j -> object_to_json E v = Ok j.
Proof.
  intros E j v D W. unfold object_to_json.
  assert (X : forall j v, data_of j v -> json_wf j -> forall n, vdepth v < n -> (do s <- serializer_of E (typeof v); gen E n s v) = Ok j);
    [|apply X; [exact D | exact W | unfold gen_fuel; lia]].
  clear j v D W. intros j. induction j using json_induct; intros v D W n N; (destruct n as [|n]; [lia|]); inversion D; subst; try reflexivity.
  - change (serializer_of E (typeof (VList vs))) with (Ok (GBare BList)). cbn [bind gen].
    assert (X : mapM (fun v => do s <- serializer_of E (typeof v); gen E n s v) vs = Ok l); [|rewrite X; reflexivity].
    inversion W as [| | | | |? WL|]; subst. cbn [vdepth] in N. clear D W. revert vs H1 N.
    induction H as [|x r X _ IH]; intros vs F N; inversion F as [|? v ? vs' V F']; subst; [reflexivity|].
    inversion WL; subst. cbn [mapM fold_right] in *. rewrite (X v V) by (try assumption; lia). cbn [bind].
    rewrite (IH ltac:(assumption) vs' F') by lia. reflexivity.
  - change (serializer_of E (typeof (VDict kvs))) with (Ok (GBare BDict)). cbn [bind gen].
    assert (FE : first_is_enum kvs = false) by (inversion H1 as [|? [k v] ? ? [K _] _]; subst; [reflexivity | cbn [fst] in K; subst; reflexivity]).
    rewrite FE. inversion W as [| | | | | |? ND WO]; subst. cbn [vdepth] in N.
    assert (X : mapM (fun '(k, x) => do k' <- str_key k; do j <- (do s <- serializer_of E (typeof x); gen E n s x); Ok (k', j)) kvs = Ok o).
    { clear D W ND FE. revert kvs H1 N.
      induction H as [|[k x] r X _ IH]; intros vs F N; inversion F as [|? [k1 v] ? vs' [K V] F']; subst; [reflexivity|].
      inversion WO as [|? ? WX WR]; subst. cbn [mapM fold_right fst snd] in *. subst. cbn [str_key bind]. rewrite (X v V WX) by lia. cbn [bind].
      rewrite (IH WR vs' F') by lia. reflexivity. }
    rewrite X. cbn [bind]. rewrite (merged_distinct o ND). reflexivity.
Qed.

(** ** Registration *)

Lemma added : forall c t sch s ex c', add c t sch s ex = Ok c' ->
  let e := {| en_schema := sch; en_identifier := s; en_examples := ex |} in
  type_get (by_type c) t = None /\ by_name c' = dict_set (by_name c) s e /\
  forall u, type_get (by_type c') u = if typ_eqb t u then Some e else type_get (by_type c) u.
Proof.
  intros c t sch s ex c' H. unfold add in H.
  destruct t; try discriminate H; destruct (type_get (by_type c) _) eqn:Q; try discriminate H; injection H as <-; cbn [by_type by_name];
    (split; [reflexivity || exact Q|]); (split; [reflexivity|]); intros u; apply type_set_get.
Qed.

Lemma attempt_cases : forall E c r, attempt E c r = c \/
  exists s, add c (rq_type r) (rq_schema r) s (rq_examples r) = Ok (attempt E c r).
Proof.
  intros E c r. unfold attempt, register_schema.
  destruct (match rq_name r with Some s => Ok s | None => python_type_to_name E false (rq_type r) end) as [s|e]; cbn [bind]; [|left; reflexivity].
  destruct (add c (rq_type r) (rq_schema r) s (rq_examples r)) as [c'|e] eqn:A; [right; exists s; exact A | left; reflexivity].
Qed.

Lemma attempt_keeps : forall E c r t e, type_get (by_type c) t = Some e -> type_get (by_type (attempt E c r)) t = Some e.
Proof.
  intros E c r t e H. destruct (attempt_cases E c r) as [->|(s & A)]; [exact H|]. apply added in A. destruct A as (N & _ & G). rewrite G.
  destruct (typ_eqb (rq_type r) t) eqn:Q; [|exact H]. apply typ_eqb_eq in Q. congruence.
Qed.

Lemma attempts_keep : forall E rs c t e, type_get (by_type c) t = Some e -> type_get (by_type (attempts E c rs)) t = Some e.
Proof. intros E. induction rs as [|r rs IH]; intros c t e H; [exact H|]. apply (IH (attempt E c r)). apply attempt_keeps. exact H. Qed.

Lemma attempts_none : forall E rs c t, type_get (by_type c) t = None -> ~ In t (map rq_type rs) -> type_get (by_type (attempts E c rs)) t = None.
Proof.
  intros E. induction rs as [|r rs IH]; intros c t H N; [exact H|]. apply (IH (attempt E c r)); [|intros I; apply N; right; exact I].
  destruct (attempt_cases E c r) as [->|(s & A)]; [exact H|]. apply added in A. destruct A as (_ & _ & G). rewrite G.
  destruct (typ_eqb (rq_type r) t) eqn:Q; [|exact H]. apply typ_eqb_eq in Q. destruct N. left. exact Q.
Qed.

Definition honest (c : catalog) : Prop := forall s e, In (s, e) (by_name c) -> en_identifier e = s.

Lemma attempts_honest : forall E rs c, honest c -> honest (attempts E c rs).
Proof.
  intros E. induction rs as [|r rs IH]; intros c H; [exact H|]. apply (IH (attempt E c r)).
  destruct (attempt_cases E c r) as [->|(s & A)]; [exact H|]. apply added in A. destruct A as (_ & G & _). unfold honest. rewrite G.
  intros s' e I. apply dict_set_in in I. destruct I as [(-> & ->)|I]; [reflexivity | apply H; exact I].
Qed.

Record imported (E : env) (c : catalog) : Prop := {
  im_json : type_get (by_type c) JsonType =
    Some {| en_schema := None; en_identifier := str "JsonType"; en_examples := Some (JArr [json_example]) |};
  im_strict : type_get (by_type c) StrictJsonType =
    Some {| en_schema := None; en_identifier := str "StrictJsonType"; en_examples := Some (JArr [strict_example]) |};
  im_object : forall jo ja, library E jo ja = Ok c -> type_get (by_type c) (TClass jo) =
    Some {| en_schema := None; en_identifier := str "JsonObject"; en_examples := None |};
  im_array : forall jo ja, library E jo ja = Ok c -> type_get (by_type c) (TClass ja) =
    Some {| en_schema := None; en_identifier := str "JsonArray"; en_examples := None |};
  im_none : forall t, t <> JsonType -> t <> StrictJsonType -> (forall n, t <> TClass n) -> type_get (by_type c) t = None;
  im_names : honest c
}.

Lemma library_imported : forall E jo ja c, library E jo ja = Ok c -> imported E c.
Proof.
  intros E jo ja c H. unfold library, register_schema in H. cbn [bind] in H.
  apply bind_ok in H. destruct H as (c1 & A1 & H). apply bind_ok in H. destruct H as (c2 & A2 & H). apply bind_ok in H. destruct H as (c3 & A3 & A4).
  apply added in A1, A2, A3, A4. destruct A1 as (_ & N1 & G1), A2 as (_ & N2 & G2), A3 as (_ & N3 & G3), A4 as (_ & N4 & G4).
  split.
  - rewrite G4, G3. reflexivity.
  - rewrite G4. reflexivity.
  - clear. intros jo ja H. unfold library, register_schema in H. cbn [bind] in H.
    apply bind_ok in H. destruct H as (c1 & A1 & H). apply bind_ok in H. destruct H as (c2 & A2 & H). apply bind_ok in H. destruct H as (c3 & A3 & A4).
    apply added in A1, A2, A3, A4. destruct A1 as (_ & N1 & G1), A2 as (F2 & N2 & G2), A3 as (_ & N3 & G3), A4 as (_ & N4 & G4).
    rewrite G4, (typ_eqb_other StrictJsonType) by discriminate. rewrite G3, (typ_eqb_other JsonType) by discriminate. rewrite G2. rewrite G1 in F2. destruct (typ_eqb (TClass jo) (TClass ja)) eqn:Q; [discriminate F2|].
    rewrite typ_eqb_other by (intros X; rewrite X, typ_eqb_same in Q; discriminate Q). rewrite G1, typ_eqb_same. reflexivity.
  - clear. intros jo ja H. unfold library, register_schema in H. cbn [bind] in H.
    apply bind_ok in H. destruct H as (c1 & A1 & H). apply bind_ok in H. destruct H as (c2 & A2 & H). apply bind_ok in H. destruct H as (c3 & A3 & A4).
    apply added in A1, A2, A3, A4. destruct A1 as (_ & N1 & G1), A2 as (F2 & N2 & G2), A3 as (_ & N3 & G3), A4 as (_ & N4 & G4).
    rewrite G4, (typ_eqb_other StrictJsonType) by discriminate. rewrite G3, (typ_eqb_other JsonType) by discriminate. rewrite G2, typ_eqb_same. reflexivity.
  - intros t T1 T2 T3. rewrite G4, (typ_eqb_other StrictJsonType t) by congruence. rewrite G3, (typ_eqb_other JsonType t) by congruence.
    rewrite G2, (typ_eqb_other (TClass ja) t) by (intros Q; exact (T3 ja (eq_sym Q))).
    rewrite G1, (typ_eqb_other (TClass jo) t) by (intros Q; exact (T3 jo (eq_sym Q))). reflexivity.
  - unfold honest. rewrite N4, N3, N2, N1. intros s e I.
    do 4 (apply dict_set_in in I; destruct I as [(-> & ->)|I]; [reflexivity|]). destruct I.
Qed.

Lemma library_ok : forall E jo ja, jo <> ja -> exists c, library E jo ja = Ok c.
Proof.
  intros E jo ja N. unfold library, register_schema, add, new_catalog. cbn [bind by_type by_name type_get type_set typ_eqb].
  rewrite (proj2 (Nat.eqb_neq jo ja) N). cbn [bind by_type by_name type_get type_set typ_eqb]. eexists. reflexivity.
Qed.

(** ** Schemas *)

Section Form.
  Variables (E : env) (S : senv) (nulls : bool) (s : pystr) (e : entry).
  Notation T := (json_union nulls s).
  Hypothesis GET : type_get (by_type (s_catalog S)) T = Some e.
  Hypothesis ID : en_identifier e = s.
  Hypothesis NOSCHEMA : en_schema e = None.
  Hypothesis HONEST : honest (s_catalog S).
  Hypothesis NODICT : type_get (by_type (s_catalog S)) (TDict (TScalar KStr) (TRef s)) = None.
  Hypothesis NOLIST : type_get (by_type (s_catalog S)) (TList (TRef s)) = None.
  Hypothesis EVAL : s_eval S s = Some T.

  Definition alternatives : list json :=
    (if nulls then [JObj (Schema.typed (str "null"))] else []) ++
    [JObj (Schema.typed (str "boolean")); JObj (Schema.typed (str "integer")); JObj (Schema.typed (str "number")); JObj (Schema.typed (str "string"));
     JObj (Schema.typed (str "object") ++ [(str "additionalProperties", JObj (ref_to S s))]);
     JObj (Schema.typed (str "array") ++ [(str "items", JObj (ref_to S s))])].

  Definition definition : list (pystr * json) :=
    (str "oneOf", JArr alternatives) ::
    match en_examples e with
    | Some j => if s_exemplify S && truthy j then [(str "examples", j)] else []
    | None => []
    end.

  Definition document : json :=
    JObj ([(str "$schema", JStr (str "https://json-schema.org/draft/2020-12/schema"));
           (str "definitions", JObj [(s, JObj definition)])] ++ ref_to S s).

  Lemma ref_form : forall n, type_to_schema E S (Datatypes.S n) false (TRef s) [(s, T)] = Ok (ref_to S s, [(s, T)]).
  Proof.
    intros n. cbn [type_to_schema simple_type_to_schema negb]. cbn [andb].
    assert (X : expand E S (type_to_schema E S n) false (TRef s) [(s, T)] = Ok (ref_to S s, [(s, T)])).
    { cbn [expand]. rewrite EVAL. cbn [dict_set]. rewrite pystr_eqb_refl. reflexivity. }
    destruct (in_catalog S (TRef s)) eqn:Q; [|exact X].
    cbn [in_catalog contains] in Q. apply andb_true_iff in Q. destruct Q as [_ Q]. unfold dict_mem in Q. cbn [get].
    destruct (dict_get (by_name (s_catalog S)) s) as [e'|] eqn:G; [|discriminate Q]. cbn [bind].
    apply dict_get_in in G. rewrite (HONEST s e' G). unfold setdefault, dict_mem. cbn [dict_get]. rewrite pystr_eqb_refl. reflexivity.
  Qed.

  Lemma dict_form : forall n, type_to_schema E S (Datatypes.S (Datatypes.S n)) false (TDict (TScalar KStr) (TRef s)) [(s, T)] =
    Ok (Schema.typed (str "object") ++ [(str "additionalProperties", JObj (ref_to S s))], [(s, T)]).
  Proof.
    intros n. remember (Datatypes.S n) as n' eqn:N. cbn [type_to_schema simple_type_to_schema negb in_catalog contains]. rewrite NODICT. cbn [andb].
    cbn [expand check_schema_key bind]. subst n'. rewrite ref_form. reflexivity.
  Qed.

  Lemma list_form : forall n, type_to_schema E S (Datatypes.S (Datatypes.S n)) false (TList (TRef s)) [(s, T)] =
    Ok (Schema.typed (str "array") ++ [(str "items", JObj (ref_to S s))], [(s, T)]).
  Proof.
    intros n. remember (Datatypes.S n) as n' eqn:N. cbn [type_to_schema simple_type_to_schema negb in_catalog contains]. rewrite NOLIST. cbn [andb].
    cbn [expand bind]. subst n'. rewrite ref_form. reflexivity.
  Qed.

  Lemma scalar_form : forall n k d u, simple_type_to_schema (TScalar k) = Some d -> type_to_schema E S (Datatypes.S n) false (TScalar k) u = Ok (d, u).
  Proof. intros n k d u H. cbn [type_to_schema]. rewrite H. reflexivity. Qed.

  Lemma json_form : forall n, type_to_schema E S (Datatypes.S (Datatypes.S (Datatypes.S n))) true T [(s, T)] =
    Ok ([(str "oneOf", JArr alternatives)], [(s, T)]).
  Proof.
    intros n. remember (Datatypes.S (Datatypes.S n)) as n' eqn:N. unfold json_union at 1.
    cbn [type_to_schema simple_type_to_schema negb andb expand].
    assert (U : is_type_union (TUnion false ((if nulls then [TScalar KNone] else []) ++
      [TScalar KBool; TScalar KInt; TScalar KFloat; TScalar KStr; TDict (TScalar KStr) (TRef s); TList (TRef s)])) = true)
      by (destruct nulls; reflexivity).
    rewrite U. subst n'. unfold alternatives.
    pose proof (dict_form n) as DF. pose proof (list_form n) as LF. clear GET EVAL U.
    destruct nulls; cbn [app seq_schema];
      rewrite ?(scalar_form _ KNone _ _ eq_refl); cbn [bind fst snd];
      rewrite (scalar_form _ KBool _ _ eq_refl); cbn [bind fst snd]; rewrite (scalar_form _ KInt _ _ eq_refl); cbn [bind fst snd];
      rewrite (scalar_form _ KFloat _ _ eq_refl); cbn [bind fst snd]; rewrite (scalar_form _ KStr _ _ eq_refl); cbn [bind fst snd];
      rewrite DF; cbn [bind fst snd]; rewrite LF; reflexivity.
  Qed.

  Lemma json_short : forall n, n < 3 -> type_to_schema E S n true T [(s, T)] = Err ERecursion.
  Proof.
    intros n L.
    assert (U : is_type_union (TUnion false ((if nulls then [TScalar KNone] else []) ++
      [TScalar KBool; TScalar KInt; TScalar KFloat; TScalar KStr; TDict (TScalar KStr) (TRef s); TList (TRef s)])) = true)
      by (destruct nulls; reflexivity).
    destruct n as [|[|[|n]]]; [reflexivity | | | lia].
    - unfold json_union at 1. cbn [type_to_schema simple_type_to_schema negb andb expand]. rewrite U. destruct nulls; reflexivity.
    - assert (D : type_to_schema E S 1 false (TDict (TScalar KStr) (TRef s)) [(s, T)] = Err ERecursion).
      { cbn [type_to_schema simple_type_to_schema negb in_catalog contains]. rewrite NODICT. reflexivity. }
      remember 1 as n eqn:N. unfold json_union at 1. cbn [type_to_schema simple_type_to_schema negb andb expand]. rewrite U. subst n.
      clear GET EVAL U. destruct nulls; cbn [app seq_schema];
      rewrite ?(scalar_form _ KNone _ _ eq_refl); cbn [bind fst snd];
      rewrite (scalar_form _ KBool _ _ eq_refl); cbn [bind fst snd]; rewrite (scalar_form _ KInt _ _ eq_refl); cbn [bind fst snd];
      rewrite (scalar_form _ KFloat _ _ eq_refl); cbn [bind fst snd]; rewrite (scalar_form _ KStr _ _ eq_refl); cbn [bind fst snd];
      rewrite D; reflexivity.
  Qed.

  Lemma got : get (s_catalog S) T = Ok e.
  Proof. change (match type_get (by_type (s_catalog S)) T with Some e => Ok e | None => Err EKey end = Ok e). rewrite GET. reflexivity. Qed.

  Lemma first_form : forall n, type_to_schema E S (Datatypes.S n) false T [] = Ok (ref_to S s, [(s, T)]).
  Proof.
    intros n. change (type_to_schema E S (Datatypes.S n) false T []) with
      (if in_catalog S T then do e <- get (s_catalog S) T; Ok (ref_to S (en_identifier e), setdefault [] (en_identifier e) T)
       else expand E S (type_to_schema E S n) false T []).
    assert (Q : in_catalog S T = true)
      by (change (match type_get (by_type (s_catalog S)) T with Some _ => true | None => false end = true); rewrite GET; reflexivity).
    rewrite Q, got. cbn [bind]. rewrite ID. reflexivity.
  Qed.

  Lemma lookup_form : forall n, type_to_schema_with_lookup E S n T [(s, T)] =
    do x <- type_to_schema E S n true T [(s, T)];
    Ok (match en_examples e with
        | Some j => if s_exemplify S && truthy j then dict_set (fst x) (str "examples") j else fst x
        | None => fst x
        end, snd x).
  Proof.
    intros n. change (type_to_schema_with_lookup E S n T [(s, T)]) with
      (do e <- get (s_catalog S) T;
       do x <- (match en_schema e with None => type_to_schema E S n true T [(s, T)] | Some (JObj d) => Ok (d, [(s, T)]) | Some _ => Err EUnmodelled end);
       let d := if s_describe S && false then upd (fst x) (docstring_to_schema S T) else fst x in
       Ok (match en_examples e with Some j => if s_exemplify S && truthy j then dict_set d (str "examples") j else d | None => d end, snd x)).
    rewrite got. cbn [bind]. rewrite NOSCHEMA, andb_false_r. reflexivity.
  Qed.

  Lemma generate_form : forall n k, generate E S n k false T =
    do x <- type_to_schema E S n false T []; do defs <- define_loop E S n k [] (snd x); Ok (fst x, sort_attrs defs).
  Proof. reflexivity. Qed.

  Lemma document_form : forall n k, classdef_to_schema E S (Datatypes.S (Datatypes.S (Datatypes.S n))) (Datatypes.S k) T = Ok document.
  Proof.
    intros n k.
    assert (B : type_to_schema_with_lookup E S (Datatypes.S (Datatypes.S (Datatypes.S n))) T [(s, T)] = Ok (definition, [(s, T)])).
    { rewrite lookup_form, json_form. cbn [bind fst snd]. unfold definition.
      destruct (en_examples e) as [x|]; [|reflexivity]. destruct (s_exemplify S && truthy x); reflexivity. }
    assert (C : generate E S (Datatypes.S (Datatypes.S (Datatypes.S n))) (Datatypes.S k) false T = Ok (ref_to S s, [(s, JObj definition)])).
    { rewrite generate_form, first_form. cbn [bind fst snd]. cbn [define_loop length Nat.ltb Nat.leb filter dict_mem dict_get negb fst].
      cbn [define_all]. rewrite B. cbn [bind fst snd dict_set]. destruct k; reflexivity. }
    unfold classdef_to_schema. rewrite C. reflexivity.
  Qed.

  Lemma document_only : forall n k doc, classdef_to_schema E S n k T = Ok doc -> doc = document.
  Proof.
    intros n k doc H. unfold classdef_to_schema in H. destruct n as [|n]; [rewrite generate_form in H; discriminate H|].
    destruct k as [|k]; [rewrite generate_form, first_form in H; discriminate H|].
    destruct (le_lt_dec 3 (Datatypes.S n)) as [L|L].
    - destruct n as [|[|n]]; [lia | lia|]. fold (classdef_to_schema E S (Datatypes.S (Datatypes.S (Datatypes.S n))) (Datatypes.S k) T) in H. rewrite document_form in H. congruence.
    - rewrite generate_form, first_form in H. cbn [bind fst snd] in H. cbn [define_loop length Nat.ltb Nat.leb filter dict_mem dict_get negb fst] in H.
      cbn [define_all] in H. rewrite lookup_form, (json_short _ L) in H. discriminate H.
  Qed.

  Section Meaning.
    Variable asserts : pystr -> pystr -> json -> bool.
    Hypothesis PATH : s_path S = str "#/definitions/".
    Hypothesis PLAIN : plain_name s.

    Notation yes := (accepts asserts document).
    Notation no := (rejects asserts document).

    Definition fine (j : json) : Prop := ~ anywhere is_integer j /\ (nulls = true \/ ~ anywhere is_null j).

    Lemma document_points : points_to document (s_path S ++ s) = Some (JObj definition).
    Proof. rewrite PATH, (pointer _ _ PLAIN). unfold document. cbn [app walk]. cbn. rewrite pystr_eqb_refl. reflexivity. Qed.

    Lemma ref_yes : forall j, yes (JObj definition) j -> yes (JObj (ref_to S s)) j.
    Proof. intros j A. apply accepts_intro. constructor; [|constructor]. eapply holds_ref; [exact document_points | exact A]. Qed.

    Lemma ref_no : forall j, no (JObj definition) j -> no (JObj (ref_to S s)) j.
    Proof. intros j A. eapply rejects_intro; [left; reflexivity|]. eapply fails_ref; [exact document_points | exact A]. Qed.

    Lemma type_yes : forall x j, is_type (str x) j = Some true -> yes (JObj (Schema.typed (str x))) j.
    Proof. intros x j A. apply accepts_intro. constructor; [apply holds_type; exact A | constructor]. Qed.

    Lemma type_no : forall x d j, is_type (str x) j = Some false -> no (JObj (Schema.typed (str x) ++ d)) j.
    Proof. intros x d j A. eapply rejects_intro; [left; reflexivity|]. apply fails_type. exact A. Qed.

    Lemma definition_yes : forall l1 x l2 j, alternatives = l1 ++ x :: l2 -> yes x j -> (forall y, In y (l1 ++ l2) -> no y j) -> yes (JObj definition) j.
    Proof.
      intros l1 x l2 j Q A R. eapply accepts_core; [|apply (accepts_intro asserts document [(str "oneOf", JArr alternatives)])].
      - unfold definition, core. destruct (en_examples e) as [ex|]; [|reflexivity]. destruct (s_exemplify S && truthy ex); reflexivity.
      - constructor; [|constructor]. cbn [fst snd]. rewrite Q. apply holds_one; [exact A|]. intros y I. apply R. apply in_or_app. exact I.
    Qed.

    Lemma definition_core : core definition = core [(str "oneOf", JArr alternatives)].
    Proof. unfold definition, core. destruct (en_examples e) as [ex|]; [|reflexivity]. destruct (s_exemplify S && truthy ex); reflexivity. Qed.

    Lemma definition_none : forall j, (forall y, In y alternatives -> no y j) -> no (JObj definition) j.
    Proof.
      intros j R. eapply rejects_core; [symmetry; exact definition_core|].
      eapply rejects_intro; [left; reflexivity|]. apply fails_one. exact R.
    Qed.

    Lemma definition_two : forall l1 x y l2 j, alternatives = l1 ++ x :: y :: l2 -> yes x j -> yes y j ->
      (forall z, In z (l1 ++ l2) -> no z j) -> no (JObj definition) j.
    Proof.
      intros l1 x y l2 j Q [a A] [b B] R. eapply rejects_core; [symmetry; exact definition_core|].
      eapply rejects_intro; [left; reflexivity|]. rewrite Q.
      assert (X : Forall (fun x => exists n, check asserts document n x j = Some false) (l1 ++ l2)) by (apply Forall_forall; exact R).
      apply (common_fuel _ (fun n x => check asserts document n x j = Some false)) in X; [|intros n n' z L; apply check_more; exact L].
      destruct X as [c C]. apply Forall_app in C. destruct C as [C1 C2]. exists (a + b + c).
      transitivity (exactly_one (map (fun s => check asserts document (a + b + c) s j) (l1 ++ x :: y :: l2))); [reflexivity|].
      unfold exactly_one. rewrite map_app. cbn [map].
      apply (check_more asserts document _ (a + b + c)) in A; [|lia]. apply (check_more asserts document _ (a + b + c)) in B; [|lia]. rewrite A, B.
      assert (F : forall l, Forall (fun x => check asserts document c x j = Some false) l -> count (map (fun s => check asserts document (a + b + c) s j) l) = Some 0).
      { intros l H. apply count_false. rewrite Forall_map. eapply Forall_impl; [|exact H]. intros z. apply check_more. lia. }
      rewrite (count_app _ _ 0 2); [reflexivity | apply F; exact C1 |]. cbn [count]. rewrite (F l2 C2). reflexivity.
    Qed.

    Lemma array_no : forall l x, In x l -> no (JObj (ref_to S s)) x -> no (JObj (Schema.typed (str "array") ++ [(str "items", JObj (ref_to S s))])) (JArr l).
    Proof.
      intros l x I [n R]. eapply rejects_intro; [right; left; reflexivity|]. exists n.
      transitivity (all_of (map (check asserts document n (JObj (ref_to S s))) l)); [reflexivity|].
      apply all_of_false. apply in_map_iff. exists x. auto.
    Qed.

    Lemma object_no : forall o k x, In (k, x) o -> no (JObj (ref_to S s)) x ->
      no (JObj (Schema.typed (str "object") ++ [(str "additionalProperties", JObj (ref_to S s))])) (JObj o).
    Proof.
      intros o k x I [n R]. eapply rejects_intro; [right; left; reflexivity|]. exists n.
      transitivity (all_of (map (fun kv => check asserts document n (JObj (ref_to S s)) (snd kv)) o)); [reflexivity|].
      apply all_of_false. apply in_map_iff. exists (k, x). auto.
    Qed.

    Lemma array_yes : forall l, (forall x, In x l -> yes (JObj (ref_to S s)) x) ->
      yes (JObj (Schema.typed (str "array") ++ [(str "items", JObj (ref_to S s))])) (JArr l).
    Proof.
      intros l A. apply accepts_intro. constructor; [apply holds_type; reflexivity|]. constructor; [|constructor].
      apply holds_items; [reflexivity | exact A].
    Qed.

    Lemma object_yes : forall o, (forall k x, In (k, x) o -> yes (JObj (ref_to S s)) x) ->
      yes (JObj (Schema.typed (str "object") ++ [(str "additionalProperties", JObj (ref_to S s))])) (JObj o).
    Proof.
      intros o A. apply accepts_intro. constructor; [apply holds_type; reflexivity|]. constructor; [|constructor].
      apply holds_additional. intros k x I _. exact (A k x I).
    Qed.

    Definition first_part : list json := if nulls then [JObj (Schema.typed (str "null"))] else [].

    Lemma first_in : forall y, In y first_part -> y = JObj (Schema.typed (str "null")).
    Proof. unfold first_part. intros y I. destruct nulls; [destruct I as [<-|[]]; reflexivity | destruct I]. Qed.

    Ltac unlike :=
      match goal with
      | |- no (JObj (Schema.typed (str ?x) ++ ?d)) _ => apply (type_no x d); reflexivity
      | |- no (JObj (Schema.typed (str ?x))) _ => apply (type_no x []); reflexivity
      end.

    Ltac others :=
      let y := fresh "y" in let I := fresh "I" in
      intros y I; repeat rewrite in_app_iff in I; cbn [In] in I;
      repeat match goal with
      | H : _ \/ _ |- _ => destruct H
      | H : In _ first_part |- _ => apply first_in in H
      | H : False |- _ => destruct H
      end; subst; try unlike.

    Ltac choose l1 x l2 := apply (definition_yes l1 x l2); [reflexivity || (unfold alternatives; rewrite <- app_assoc; reflexivity) | | others].

    Notation alt_b := (JObj (Schema.typed (str "boolean"))).
    Notation alt_i := (JObj (Schema.typed (str "integer"))).
    Notation alt_f := (JObj (Schema.typed (str "number"))).
    Notation alt_t := (JObj (Schema.typed (str "string"))).
    Notation alt_o := (JObj (Schema.typed (str "object") ++ [(str "additionalProperties", JObj (ref_to S s))])).
    Notation alt_a := (JObj (Schema.typed (str "array") ++ [(str "items", JObj (ref_to S s))])).

    Lemma fine_dec : forall j, fine j \/ ~ fine j.
    Proof.
      intros j. unfold fine. destruct (integer_dec j); [right; tauto|]. destruct (null_dec j); [|left; tauto].
      destruct (bool_dec nulls true); [left; tauto | right; tauto].
    Qed.

    Lemma meaning : forall j, (fine j /\ yes (JObj definition) j) \/ (~ fine j /\ no (JObj definition) j).
    Proof.
      intros j. induction j using json_induct.
      - destruct (bool_dec nulls true) as [Q|Q].
        + left. split; [split; [intros A; inversion A; subst; contradiction | left; exact Q]|].
          apply (definition_yes [] (JObj (Schema.typed (str "null"))) [alt_b; alt_i; alt_f; alt_t; alt_o; alt_a]); [unfold alternatives; rewrite Q; reflexivity | apply type_yes; reflexivity | others].
        + right. split; [intros [_ [F|F]]; [contradiction | apply F; apply any_here; reflexivity]|].
          apply definition_none. unfold alternatives. apply not_true_is_false in Q. rewrite Q. others.
      - left. split; [split; [|right]; intros A; inversion A as [? B| |]; subst; [destruct B | discriminate B]|].
        choose first_part constr:(alt_b) [alt_i; alt_f; alt_t; alt_o; alt_a]. apply type_yes. reflexivity.
      - right. split; [intros [F _]; apply F; apply any_here; exact Logic.I|].
        apply (definition_two (first_part ++ [alt_b]) alt_i alt_f [alt_t; alt_o; alt_a]); [unfold alternatives; rewrite <- app_assoc; reflexivity | apply type_yes; reflexivity | apply type_yes; reflexivity | others].
      - destruct (whole f) eqn:W.
        + right. split; [intros [F _]; apply F; apply any_here; exact W|].
          apply (definition_two (first_part ++ [alt_b]) alt_i alt_f [alt_t; alt_o; alt_a]); [unfold alternatives; rewrite <- app_assoc; reflexivity | | apply type_yes; reflexivity | others].
          apply type_yes. change (Some (whole f) = Some true). rewrite W. reflexivity.
        + left. split; [split; [|right]; intros A; inversion A as [? B| |]; subst; [cbn [is_integer] in B; congruence | discriminate B]|].
          choose (first_part ++ [alt_b; alt_i]) constr:(alt_f) [alt_t; alt_o; alt_a]; [apply type_yes; reflexivity|].
          apply (type_no "integer" []). change (Some (whole f) = Some false). rewrite W. reflexivity.
      - left. split; [split; [|right]; intros A; inversion A as [? B| |]; subst; [destruct B | discriminate B]|].
        choose (first_part ++ [alt_b; alt_i; alt_f]) constr:(alt_t) [alt_o; alt_a]. apply type_yes. reflexivity.
      - destruct (fine_dec (JArr l)) as [F|F]; [left | right]; (split; [exact F|]).
        + choose (first_part ++ [alt_b; alt_i; alt_f; alt_t; alt_o]) constr:(alt_a) (@nil json). apply array_yes. intros x I.
          rewrite Forall_forall in H. destruct (H x I) as [(_ & Y)|(N & _)]; [apply ref_yes; exact Y|].
          destruct N. destruct F as [F1 F2]. split; [intros A; apply F1; eapply any_item; eassumption|].
          destruct F2 as [F2|F2]; [left; exact F2 | right; intros A; apply F2; eapply any_item; eassumption].
        + assert (X : exists x, In x l /\ no (JObj definition) x).
          { destruct (integer_dec (JArr l)) as [A|A].
            - inversion A as [? B|? x I B|]; subst; [destruct B|]. exists x. split; [exact I|]. rewrite Forall_forall in H.
              destruct (H x I) as [((N & _) & _)|(_ & N)]; [destruct (N B) | exact N].
            - destruct (null_dec (JArr l)) as [A'|A']; [|destruct F; split; [exact A | right; exact A']].
              inversion A' as [? B|? x I B|]; subst; [discriminate B|]. exists x. split; [exact I|]. rewrite Forall_forall in H.
              destruct (H x I) as [((_ & [N|N]) & _)|(_ & N)]; [destruct F; split; [exact A | left; exact N] | destruct (N B) | exact N]. }
          destruct X as (x & I & N). apply definition_none. change alternatives with (first_part ++ [alt_b; alt_i; alt_f; alt_t; alt_o; alt_a]). others. eapply array_no; [exact I | apply ref_no; exact N].
      - destruct (fine_dec (JObj o)) as [F|F]; [left | right]; (split; [exact F|]).
        + choose (first_part ++ [alt_b; alt_i; alt_f; alt_t]) constr:(alt_o) [alt_a]. apply object_yes. intros k x I.
          rewrite Forall_forall in H. destruct (H (k, x) I) as [(_ & Y)|(N & _)]; [apply ref_yes; exact Y|]. cbn [snd] in *.
          destruct N. destruct F as [F1 F2]. split; [intros A; apply F1; eapply any_member; eassumption|].
          destruct F2 as [F2|F2]; [left; exact F2 | right; intros A; apply F2; eapply any_member; eassumption].
        + assert (X : exists k x, In (k, x) o /\ no (JObj definition) x).
          { destruct (integer_dec (JObj o)) as [A|A].
            - inversion A as [? B| |? k x I B]; subst; [destruct B|]. exists k, x. split; [exact I|]. rewrite Forall_forall in H.
              destruct (H (k, x) I) as [((N & _) & _)|(_ & N)]; [destruct (N B) | exact N].
            - destruct (null_dec (JObj o)) as [A'|A']; [|destruct F; split; [exact A | right; exact A']].
              inversion A' as [? B| |? k x I B]; subst; [discriminate B|]. exists k, x. split; [exact I|]. rewrite Forall_forall in H.
              destruct (H (k, x) I) as [((_ & [N|N]) & _)|(_ & N)]; [destruct F; split; [exact A | left; exact N] | destruct (N B) | exact N]. }
          destruct X as (k & x & I & N). apply definition_none. change alternatives with (first_part ++ [alt_b; alt_i; alt_f; alt_t; alt_o; alt_a]). others. eapply object_no; [exact I | apply ref_no; exact N].
    Qed.

    Lemma whole_document : forall j, (yes (JObj definition) j -> yes document j) /\ (no (JObj definition) j -> no document j).
    Proof.
      intros j. assert (C : core (ref_to S s) = core ([(str "$schema", JStr (str "https://json-schema.org/draft/2020-12/schema"));
           (str "definitions", JObj [(s, JObj definition)])] ++ ref_to S s)) by reflexivity.
      split; intros A; [apply (accepts_core _ _ _ _ _ C), ref_yes, A | apply (rejects_core _ _ _ _ _ C), ref_no, A].
    Qed.

    Theorem document_meaning : forall j, (satisfies asserts document j <-> fine j) /\ (violates asserts document j <-> ~ fine j).
    Proof.
      intros j. destruct (whole_document j) as [Y N]. destruct (meaning j) as [(F & A)|(F & A)].
      - split; split; intros X; try assumption; [apply Y, A | destruct (accepts_rejects _ _ _ _ (Y A) X) | destruct (X F)].
      - split; split; intros X; try assumption; [destruct (accepts_rejects _ _ _ _ X (N A)) | destruct (F X) | apply N, A].
    Qed.
  End Meaning.
End Form.

(** What a program gets. *)
Section Program.
  Variables (E : env) (S : senv) (jo ja : nat) (c : catalog) (rs : list request).
  Hypothesis LIB : library E jo ja = Ok c.
  Hypothesis CAT : s_catalog S = attempts E c rs.

  Definition untouched (s : pystr) : Prop :=
    ~ In (TDict (TScalar KStr) (TRef s)) (map rq_type rs) /\ ~ In (TList (TRef s)) (map rq_type rs).

  Lemma still : forall t e, type_get (by_type c) t = Some e -> type_get (by_type (s_catalog S)) t = Some e.
  Proof. intros t e G. rewrite CAT. apply attempts_keep. exact G. Qed.

  Lemma still_honest : honest (s_catalog S).
  Proof. rewrite CAT. apply attempts_honest. apply (im_names E), (library_imported E jo ja), LIB. Qed.

  Lemma still_none : forall t, (match t with TDict _ _ | TList _ => True | _ => False end) -> ~ In t (map rq_type rs) ->
    type_get (by_type (s_catalog S)) t = None.
  Proof.
    intros t K N. rewrite CAT. apply attempts_none; [|exact N]. apply (im_none E c (library_imported E jo ja c LIB)); intros; destruct t; discriminate || destruct K.
  Qed.

  Theorem json_schema : forall nulls s e, type_get (by_type c) (json_union nulls s) = Some e -> en_identifier e = s -> en_schema e = None ->
    untouched s -> s_eval S s = Some (json_union nulls s) ->
    (forall n k, 3 <= n -> 1 <= k -> exists doc, classdef_to_schema E S n k (json_union nulls s) = Ok doc) /\
    (s_path S = str "#/definitions/" -> plain_name s -> forall asserts n k doc j, classdef_to_schema E S n k (json_union nulls s) = Ok doc ->
      (satisfies asserts doc j <-> fine nulls j) /\ (violates asserts doc j <-> ~ fine nulls j)).
  Proof.
    intros nulls s e G ID NS [U1 U2] EV. pose proof (still _ _ G) as G'.
    pose proof (still_none (TDict (TScalar KStr) (TRef s)) Logic.I U1) as N1. pose proof (still_none (TList (TRef s)) Logic.I U2) as N2. pose proof still_honest as HO. split.
    - intros n k L1 L2. destruct n as [|[|[|n]]]; try lia. destruct k as [|k]; [lia|]. eexists.
      eapply document_form; eassumption.
    - intros P PL asserts n k doc j H. rewrite (document_only E S nulls s e G' ID NS HO N1 N2 EV n k doc H).
      eapply document_meaning; eassumption.
  Qed.

  (** Classes without annotations. *)
  Section Empty.
    Variables (x : nat) (cl : class) (e : entry).
    Hypothesis CL : get_class E x = Some cl.
    Hypothesis KIND : c_kind cl = CPlain [].
    Hypothesis GET : type_get (by_type (s_catalog S)) (TClass x) = Some e.
    Hypothesis NOSCHEMA : en_schema e = None.
    Hypothesis NOEXAMPLES : en_examples e = None.
    Notation s := (en_identifier e).

    Definition described : list (pystr * json) :=
      let d := describe S (TClass x) (Schema.typed (str "object")) in
      if s_describe S && true then upd d (docstring_to_schema S (TClass x)) else d.

    Definition empty_document : json :=
      JObj ([(str "$schema", JStr (str "https://json-schema.org/draft/2020-12/schema"));
             (str "definitions", JObj [(s, JObj described)])] ++ ref_to S s).

    Lemma empty_form : forall n k, classdef_to_schema E S (Datatypes.S n) (Datatypes.S k) (TClass x) = Ok empty_document.
    Proof.
      intros n k. unfold classdef_to_schema, generate.
      assert (A : type_to_schema E S (Datatypes.S n) false (TClass x) [] = Ok (ref_to S s, [(s, TClass x)])).
      { cbn [type_to_schema simple_type_to_schema negb in_catalog contains get]. rewrite GET. reflexivity. }
      assert (B : type_to_schema_with_lookup E S (Datatypes.S n) (TClass x) [(s, TClass x)] = Ok (described, [(s, TClass x)])).
      { unfold type_to_schema_with_lookup. cbn [get]. rewrite GET. cbn [bind]. rewrite NOSCHEMA, NOEXAMPLES.
        cbn [type_to_schema simple_type_to_schema negb andb expand]. rewrite CL, KIND. unfold class_properties, hints. rewrite KIND. reflexivity. }
      rewrite A. cbn [bind fst snd]. cbn [define_loop length Nat.ltb Nat.leb filter dict_mem dict_get negb fst].
      cbn [define_all]. rewrite B. cbn [bind fst snd dict_set]. destruct k; reflexivity.
    Qed.

    Lemma empty_only : forall n k doc, classdef_to_schema E S n k (TClass x) = Ok doc -> doc = empty_document.
    Proof.
      intros n k doc H. destruct n as [|n]; [discriminate H|]. destruct k as [|k]; [|rewrite empty_form in H; congruence].
      unfold classdef_to_schema, generate in H. cbn [type_to_schema simple_type_to_schema negb in_catalog contains get] in H. rewrite GET in H. discriminate H.
    Qed.

    Lemma empty_meaning : forall asserts j, s_path S = str "#/definitions/" -> plain_name s ->
      (satisfies asserts empty_document j <-> exists o, j = JObj o) /\ (violates asserts empty_document j <-> ~ exists o, j = JObj o).
    Proof.
      intros asserts j P PL.
      assert (PT : points_to empty_document (s_path S ++ s) = Some (JObj described))
        by (rewrite P, (pointer _ _ PL); unfold empty_document; cbn; rewrite pystr_eqb_refl; reflexivity).
      assert (C : core described = core (Schema.typed (str "object"))).
      { unfold described, core. transitivity (filter (fun kx => negb (note (fst kx))) (describe S (TClass x) (Schema.typed (str "object")))).
        - destruct (s_describe S && true); [apply (upd_filter (fun k => negb (note k))), (docs_keys (fun k => negb (note k))); reflexivity | reflexivity].
        - apply (describe_filter (fun k => negb (note k))); reflexivity. }
      assert (R : core (ref_to S s) = core ([(str "$schema", JStr (str "https://json-schema.org/draft/2020-12/schema"));
           (str "definitions", JObj [(s, JObj described)])] ++ ref_to S s)) by reflexivity.
      assert (D : {exists o, j = JObj o} + {is_type (str "object") j = Some false /\ ~ exists o, j = JObj o}).
      { destruct j; try (right; split; [reflexivity | intros (o' & Q); discriminate Q]). left. eexists. reflexivity. }
      destruct D as [Y|(F & N)].
      - assert (A : satisfies asserts empty_document j).
        { apply (accepts_core _ _ _ _ _ R). apply accepts_intro. constructor; [|constructor]. eapply holds_ref; [exact PT|].
          apply (accepts_core _ _ _ _ _ (eq_sym C)). apply accepts_intro. constructor; [|constructor]. apply holds_type. destruct Y as (o & ->). reflexivity. }
        split; split; intros X; try assumption; [destruct (accepts_rejects _ _ _ _ A X) | destruct (X Y)].
      - assert (A : violates asserts empty_document j).
        { apply (rejects_core _ _ _ _ _ R). eapply rejects_intro; [left; reflexivity|]. eapply fails_ref; [exact PT|].
          apply (rejects_core _ _ _ _ _ (eq_sym C)). eapply rejects_intro; [left; reflexivity|]. apply fails_type. exact F. }
        split; split; intros X; try assumption; [destruct (accepts_rejects _ _ _ _ X A) | destruct (N X)].
    Qed.
  End Empty.
End Program.

Lemma plain_names : forall s, In s [str "JsonType"; str "StrictJsonType"; str "JsonObject"; str "JsonArray"] -> plain_name s.
Proof.
  intros s I. assert (F : forallb (fun c => negb ((c =? 47) || (c =? 126) || (c =? 37))%N) s = true)
    by (destruct I as [<-|[<-|[<-|[<-|[]]]]]; reflexivity).
  intros c J. rewrite forallb_forall in F. specialize (F c J).
  destruct (N.eqb_spec c 47), (N.eqb_spec c 126), (N.eqb_spec c 37); try discriminate F; auto.
Qed.

(** Reading a class without annotations. *)
Lemma empty_read : forall E m x cl j, get_class E x = Some cl -> c_kind cl = CPlain [] -> c_from_json cl = None ->
  json_to_object E false m (TClass x) j =
  match j with JObj [] => Ok (VObj x []) | JObj _ => Err EJsonKey | _ => Err EJsonType end.
Proof.
  intros E m x cl j CL K F.
  assert (P : field_parsers E cl = Ok []) by (unfold field_parsers, hints; rewrite K; reflexivity).
  assert (B : create_deserializer E m (TClass x) = Ok [KeyClass x]).
  { unfold create_deserializer. destruct (build_fuel E (TClass x)) as [|n] eqn:FU; [discriminate FU|].
    cbn [build existsb]. rewrite CL, K, F, P. reflexivity. }
  unfold json_to_object. rewrite B. cbn [bind].
  destruct (parse_fuel E (TClass x) j) as [|n] eqn:FU; [discriminate FU|]. cbn [parse]. rewrite CL, K, F, P. cbn [bind]. unfold parse_object.
  destruct j as [| | | | | |[|[k y] o]]; try reflexivity. cbn [mapM bind forallb orb map]. rewrite K. reflexivity.
Qed.
