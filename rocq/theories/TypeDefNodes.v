(** Schemas read as nodes. *)
From Coq Require Import String List NArith ZArith Bool Lia.
From Verif Require Import Base Json PyTypes Mapping Deser ClassDef Lists TypingFacts DeserSound SpecRecursion Samples DeserFuel DeserBuild DeserUnfold Flatten TypeDef.
Import ListNotations.
Open Scope list_scope.
Open Scope nat_scope.

Notation read := (json_to_object Nodes false 0).

Ltac nodes_class c H :=
  unfold get_class, Nodes in H; cbn [e_classes] in H;
  destruct c as [|[|[|[|[|[|[|[|[|?c]]]]]]]]]; cbn [nth_error] in H;
  [injection H as <-.. | destruct c; discriminate H].

(** Cases on the number of a class. *)
Ltac node_cases c L := destruct c as [|[|[|[|[|[|[|[|[|?c]]]]]]]]]; [.. | lia].

Lemma nodes_refs : forall m s a t, lookup Nodes m s = Some (a, t) ->
  m = 0 /\ s = str "JsonSchemaAny" /\ a = true /\
  t = TUnion false [TClass 0; TClass 1; TClass 2; TClass 3; TClass 4; TClass 5; TClass 6; TClass 7].
Proof.
  intros m s a t L. unfold lookup, Nodes in L; cbn [e_refs find_ref] in L.
  destruct (Nat.eqb 0 m && pystr_eqb (str "JsonSchemaAny") s) eqn:Q; [|discriminate L].
  apply andb_true_iff in Q. destruct Q as [Q1 Q2]. apply Nat.eqb_eq in Q1. apply pystr_eqb_eq in Q2. injection L as <- <-. auto.
Qed.

Lemma nodes_guarded : guarded_env Nodes.
Proof.
  assert (RR : forall m s, guarded Nodes m (TRef s)).
  { intros m s. apply g_ref. intros a t L. apply nodes_refs in L. destruct L as (_ & _ & _ & ->); prove_guarded. }
  split.
  - intros c cl x t H I. nodes_class c H;
      cbn [raw_fields c_kind map f_name f_type In dataclass node_fields typed_fields value_fields object_fields app field] in I;
      repeat (destruct I as [I|I]; [injection I as <- <-|]); try contradiction; unfold opt, any_node; cbn [every_part fold_right]; prove_guarded; apply RR.
  - intros m s a t L. apply nodes_refs in L. destruct L as (_ & _ & _ & ->); cbn [every_part fold_right]; prove_guarded.
  - intros m s t L. apply nodes_refs in L. destruct L as (_ & _ & Q & _). discriminate Q.
Qed.

Lemma nodes_calm : calm Nodes.
Proof.
  split.
  - intros c cl h j H. nodes_class c H; cbn; discriminate.
  - intros c cl fr fs f H. nodes_class c H; cbn [c_kind dataclass]; intros Q; injection Q as <- <-; 
      intros I; repeat (destruct I as [<-|I]; [discriminate|]); destruct I.
Qed.

(** ** Field parsers of nodes *)

Definition fo (x : string) (t : typ) : fparser := mkFP (str x) (str x) t FOptional.
Definition fr (x : string) (t : typ) : fparser := mkFP (str x) (str x) t FRequired.

Definition node_fp : list fparser := [fo "title" (TScalar KStr); fo "description" (TScalar KStr)].
Definition typed_fp (ty : string) : list fparser := node_fp ++ [fr "type" (TLiteral [LStr (str ty)]); fo "format" (TScalar KStr)].
Definition value_fp (t : typ) : list fparser := [fo "const" t; fo "default" t; fo "examples" (TList t)].

Definition schemas_union : typ := TUnion false [TClass 0; TClass 1; TClass 2; TClass 3; TClass 4; TClass 5; TClass 6; TClass 7].

Definition object_fp : list fparser :=
  typed_fp "object" ++ [fo "properties" (TDict (TScalar KStr) schemas_union); fo "additionalProperties" (TScalar KBool); fo "required" (TList (TScalar KStr))].

Definition node_fps (c : nat) : list fparser :=
  match c with
  | 0 => node_fp ++ [mkFP (str "$ref") (str "ref") (TAnnot (TScalar KStr) [AAlias (str "$ref")]) FRequired]
  | 1 => typed_fp "boolean" ++ value_fp (TScalar KBool)
  | 2 => typed_fp "integer" ++ value_fp (TScalar KInt) ++ [fo "enum" (TList (TScalar KInt)); fo "minimum" (TScalar KInt); fo "maximum" (TScalar KInt)]
  | 3 => typed_fp "number" ++ value_fp (TScalar KFloat) ++
      [fo "minimum" (TScalar KFloat); fo "maximum" (TScalar KFloat); fo "exclusiveMinimum" (TScalar KFloat); fo "exclusiveMaximum" (TScalar KFloat);
       fo "multipleOf" (TScalar KFloat)]
  | 4 => typed_fp "string" ++ value_fp (TScalar KStr) ++ [fo "enum" (TList (TScalar KStr)); fo "minLength" (TScalar KInt); fo "maxLength" (TScalar KInt)]
  | 5 => typed_fp "array" ++ [fr "items" schemas_union]
  | 6 => object_fp
  | 7 => node_fp ++ [fr "oneOf" (TList schemas_union)]
  | _ => object_fp ++ [mkFP (str "$schema") (str "schema") (TAnnot (TScalar KStr) [AAlias (str "$schema")]) FRequired;
      fo "definitions" (TDict (TScalar KStr) schemas_union)]
  end.

Lemma node_class_of : forall c, c < 9 -> exists cl, get_class Nodes c = Some cl /\ by_fields cl /\ field_parsers Nodes cl = Ok (node_fps c) /\
  c_module cl = 0 /\ exists fs, c_kind cl = CData false fs.
Proof.
  intros c L. node_cases c L; (eexists; split; [reflexivity|]; split; [exact Logic.I|]; split; [reflexivity|]; split; [reflexivity|]; eexists; reflexivity).
Qed.

Lemma nodes_ready : forall c, c < 9 -> ready Nodes 0 (TClass c).
Proof.
  intros c L. split; [cbn; split; [apply g_leaf; exact Logic.I | exact Logic.I]|].
  node_cases c L; eexists; vm_compute; reflexivity.
Qed.

Lemma union_ready : ready Nodes 0 schemas_union.
Proof. split; [cbn [every_part fold_right schemas_union]; prove_guarded | eexists; vm_compute; reflexivity]. Qed.

(** The parsing of a node. *)
Definition parsed (c : nat) (kws : list (pystr * json)) (v : value) : Prop :=
  exists attrs, v = VObj c attrs /\
  mapM (fun fp => do w <- parse_field read fp kws; Ok (fp_name fp, w)) (node_fps c) = Ok attrs /\
  forall k x, In (k, x) kws -> In k (map fp_prop (node_fps c)).

Lemma class_parsed : forall c s v, c < 9 -> read (TClass c) s = Ok v -> exists kws, s = JObj kws /\ parsed c kws v.
Proof.
  intros c s v L H. destruct (node_class_of c L) as (cl & G & B & F & M & fs & K).
  rewrite (jto_class Nodes nodes_guarded nodes_calm false 0 c cl (node_fps c) s (nodes_ready c L) G B F), M in H.
  destruct s as [| | | | | |kws]; try discriminate H. exists kws. split; [reflexivity|]. cbn [parse_object] in H.
  apply bind_ok in H. destruct H as (attrs & A & H). cbn [orb] in H.
  destruct (forallb _ kws) eqn:Q; [|discriminate H]. rewrite K in H. injection H as <-. exists attrs. split; [reflexivity|]. split; [exact A|].
  intros k x I. rewrite forallb_forall in Q. specialize (Q _ I). apply mem_str_in in Q. exact Q.
Qed.

Lemma union_parsed : forall s v, read schemas_union s = Ok v -> exists c kws, c < 8 /\ s = JObj kws /\ parsed c kws v.
Proof.
  intros s v H. rewrite (jto_union Nodes nodes_guarded nodes_calm false 0 _ _ _ union_ready) in H.
  assert (Q : discriminating_properties Nodes [TClass 0; TClass 1; TClass 2; TClass 3; TClass 4; TClass 5; TClass 6; TClass 7] = Ok []) by (vm_compute; reflexivity).
  rewrite Q in H. cbn [bind] in H. apply union_try_ok in H. destruct H as (t & I & H).
  assert (X : exists c, c < 8 /\ t = TClass c).
  { cbn [In] in I. repeat (destruct I as [<-|I]; [eexists; split; [|reflexivity]; lia|]). destruct I. }
  destruct X as (c & L & ->). destruct (class_parsed c s v) as (kws & -> & P); [lia | exact H|]. eauto.
Qed.

Lemma parsed_get : forall c kws v fp, parsed c kws v -> NoDup (map fp_name (node_fps c)) -> In fp (node_fps c) ->
  exists w, getattr v (fp_name fp) = Ok w /\ parse_field read fp kws = Ok w.
Proof.
  intros c kws v fp (attrs & -> & M & _) N I. apply mapM_ok in M. cbn [getattr].
  revert attrs M. induction (node_fps c) as [|g fps IH]; [destruct I|]. intros attrs M. inversion M as [|? [x w] ? r Q F]; subst.
  apply bind_ok in Q. destruct Q as (w' & P & Q). injection Q as <- <-. cbn [map] in N. inversion N as [|? ? N1 N2]; subst.
  cbn [dict_get]. destruct I as [->|I].
  - exists w'. rewrite pystr_eqb_refl. auto.
  - destruct (IH N2 I r F) as (w & D & Pw). exists w. destruct (pystr_eqb (fp_name g) (fp_name fp)) eqn:E; [|auto].
    apply pystr_eqb_eq in E. exfalso. apply N1. rewrite E. apply in_map. exact I.
Qed.

Lemma node_fps_nodup : forall c, c < 9 -> NoDup (map fp_name (node_fps c)).
Proof.
  intros c L. node_cases c L; cbn; repeat (constructor; [cbn [In]; intros I; repeat (destruct I as [I|I]; [discriminate I|]); exact I|]); constructor.
Qed.

(** ** Attributes *)

(** An optional attribute. *)
Definition att (kws : list (pystr * json)) (v : value) (x : string) (t : typ) : Prop :=
  exists w, getattr v (str x) = Ok w /\
  ((dict_get kws (str x) = None \/ dict_get kws (str x) = Some JNull) /\ w = VNone \/
   exists j, dict_get kws (str x) = Some j /\ j <> JNull /\ read t j = Ok w).
Arguments att kws v x%string t.

Lemma parsed_att : forall c kws v x t, c < 9 -> parsed c kws v -> In (fo x t) (node_fps c) -> att kws v x t.
Proof.
  intros c kws v x t L P I. destruct (parsed_get _ _ _ _ P (node_fps_nodup c L) I) as (w & G & F). exists w. split; [exact G|].
  unfold parse_field, fo in F. cbn [fp_mode fp_prop fp_type] in F.
  destruct (dict_get kws (str x)) as [j|]; [|injection F as <-; left; auto].
  destruct j; try (right; eexists; split; [reflexivity|]; split; [discriminate | exact F]). injection F as <-. left. auto.
Qed.

Lemma parsed_req : forall c kws v fp, c < 9 -> parsed c kws v -> In fp (node_fps c) -> fp_mode fp = FRequired ->
  exists j w, dict_get kws (fp_prop fp) = Some j /\ j <> JNull /\ getattr v (fp_name fp) = Ok w /\ read (fp_type fp) j = Ok w.
Proof.
  intros c kws v fp L P I M. destruct (parsed_get _ _ _ _ P (node_fps_nodup c L) I) as (w & G & F).
  unfold parse_field in F. rewrite M in F. destruct (dict_get kws (fp_prop fp)) as [j|]; [|discriminate F].
  exists j, w. split; [reflexivity|]. destruct j; try discriminate F; (split; [discriminate|]; auto).
Qed.

Lemma literal_ready : forall s, ready Nodes 0 (TLiteral [LStr s]).
Proof. intros s. split; [cbn; split; [apply g_leaf; exact Logic.I | exact Logic.I] | eexists; reflexivity]. Qed.

Lemma read_str_literal : forall s j w, read (TLiteral [LStr s]) j = Ok w -> j = JStr s.
Proof.
  intros s j w H. rewrite (jto_literal Nodes nodes_guarded nodes_calm false 0 _ _ (literal_ready s)) in H. cbn [literal_type forallb lit_type bind] in H.
  rewrite jto_scalar in H. destruct j; try discriminate H. cbn [parse_scalar bind existsb lit_value orb] in H.
  destruct (py_eq Nodes (VStr s) (VStr s0)) eqn:Q; cbn [orb] in H; [|discriminate H]. cbn in Q. apply pystr_eqb_eq in Q. congruence.
Qed.

Lemma dict_ready : ready Nodes 0 (TDict (TScalar KStr) schemas_union).
Proof. split; [cbn [every_part fold_right schemas_union]; prove_guarded | eexists; vm_compute; reflexivity]. Qed.

Lemma list_ready : ready Nodes 0 (TList schemas_union).
Proof. split; [cbn [every_part fold_right schemas_union]; prove_guarded | eexists; vm_compute; reflexivity]. Qed.

Lemma strings_ready : ready Nodes 0 (TList (TScalar KStr)).
Proof. split; [cbn [every_part]; prove_guarded | eexists; vm_compute; reflexivity]. Qed.

Definition pair_read (ps : list (pystr * json)) (vs : list (pystr * value)) : Prop :=
  Forall2 (fun p v => fst p = fst v /\ read schemas_union (snd p) = Ok (snd v)) ps vs.

Lemma read_dict : forall j w, read (TDict (TScalar KStr) schemas_union) j = Ok w -> exists ps vs, j = JObj ps /\
  w = VDict (map (fun q => (VStr (fst q), snd q)) vs) /\ pair_read ps vs.
Proof.
  intros j w H. rewrite (jto_dict Nodes nodes_guarded nodes_calm false 0 _ _ _ dict_ready) in H. destruct j as [| | | | | |ps]; try discriminate H.
  apply bind_ok in H. destruct H as (kvs & M & H). injection H as <-. apply mapM_ok in M. exists ps.
  assert (X : exists vs, kvs = map (fun q => (VStr (fst q), snd q)) vs /\ pair_read ps vs).
  { induction M as [|[x j] kv ps kvs Q M IH]; [exists []; split; [reflexivity | constructor]|]. destruct IH as (vs & -> & F).
    cbn [parse_key bind] in Q. apply bind_ok in Q. destruct Q as (v & R & Q). injection Q as <-.
    exists ((x, v) :: vs). split; [reflexivity|]. constructor; [split; [reflexivity | exact R] | exact F]. }
  destruct X as (vs & -> & F). exists vs. auto.
Qed.

Lemma read_list : forall j w, read (TList schemas_union) j = Ok w -> exists ss vs, j = JArr ss /\ w = VList vs /\
  Forall2 (fun s v => read schemas_union s = Ok v) ss vs.
Proof.
  intros j w H. rewrite (jto_list Nodes nodes_guarded nodes_calm false 0 _ _ list_ready) in H. destruct j as [| | | | |ss|]; try discriminate H.
  apply bind_ok in H. destruct H as (vs & M & H). injection H as <-. apply mapM_ok in M. eauto.
Qed.

Lemma read_strings : forall j w, read (TList (TScalar KStr)) j = Ok w -> exists ss, j = JArr (map JStr ss) /\ w = VList (map VStr ss).
Proof.
  intros j w H. rewrite (jto_list Nodes nodes_guarded nodes_calm false 0 _ _ strings_ready) in H. destruct j as [| | | | |js|]; try discriminate H.
  apply bind_ok in H. destruct H as (vs & M & H). injection H as <-. apply mapM_ok in M.
  assert (X : exists ss, js = map JStr ss /\ vs = map VStr ss).
  { induction M as [|j v js vs Q M IH]; [exists []; auto|]. destruct IH as (ss & -> & ->). rewrite jto_scalar in Q.
    destruct j; try discriminate Q. injection Q as <-. exists (s :: ss). auto. }
  destruct X as (ss & -> & ->). eauto.
Qed.

Lemma dict_pairs : forall vs, mapM (fun kv => match fst kv with VStr x => Ok (x, snd kv) | _ => Err EUnmodelled end)
  (map (fun q : pystr * value => (VStr (fst q), snd q)) vs) = Ok vs.
Proof. induction vs as [|[x v] vs IH]; [reflexivity|]. cbn [map mapM fst snd bind] in *. rewrite IH. reflexivity. Qed.

Lemma str_values : forall ss, mapM (fun v => match v with VStr x => Ok x | _ => Err EUnmodelled end) (map VStr ss) = Ok ss.
Proof. induction ss as [|x ss IH]; [reflexivity|]. cbn [map mapM bind] in *. rewrite IH. reflexivity. Qed.

(** Optional attributes of simple types. *)
Lemma att_none : forall A (conv : value -> option A) kws v x t r, att kws v x t -> optional_attr conv v (str x) = Ok r ->
  (forall j, read t j <> Ok VNone) ->
  match r with
  | None => dict_get kws (str x) = None \/ dict_get kws (str x) = Some JNull
  | Some a => exists j w, dict_get kws (str x) = Some j /\ j <> JNull /\ read t j = Ok w /\ conv w = Some a
  end.
Proof.
  intros A conv kws v x t r (w & G & D) H N. unfold optional_attr in H. rewrite G in H. cbn [bind] in H.
  destruct D as [[D ->]|(j & D & NJ & R)].
  - injection H as <-. exact D.
  - assert (X : match conv w with Some a => Ok (Some a) | None => Err EUnmodelled end = Ok r).
    { destruct w; try exact H. destruct (N j R). }
    destruct (conv w) as [a|] eqn:C; [|discriminate X]. injection X as <-. eauto 7.
Qed.

Lemma scalar_some : forall k j, k <> KNone -> read (TScalar k) j <> Ok VNone.
Proof.
  intros k j N H. rewrite jto_scalar in H. destruct k; try contradiction; destruct j; try discriminate H; cbn [parse_scalar] in H;
    try (apply bind_ok in H; destruct H as (? & _ & H); discriminate H).
Qed.

Lemma strings_some : forall j, read (TList (TScalar KStr)) j <> Ok VNone.
Proof. intros j H. apply read_strings in H. destruct H as (ss & _ & H). discriminate H. Qed.

Lemma all_some_map : forall ss, all_some (map as_str (map VStr ss)) = Some ss.
Proof. induction ss as [|s ss IH]; [reflexivity|]. cbn [map all_some as_str]. rewrite IH. reflexivity. Qed.

(** ** Views *)

Definition typed (ty : string) (kws : list (pystr * json)) : Prop := dict_get kws (str "type") = Some (JStr (str ty)).

Lemma parsed_typed : forall c kws v ty, c < 9 -> parsed c kws v -> In (fr "type" (TLiteral [LStr (str ty)])) (node_fps c) -> typed ty kws.
Proof.
  intros c kws v ty L P I. destruct (parsed_req _ _ _ _ L P I eq_refl) as (j & w & D & _ & _ & R). cbn [fp_prop fr fp_type] in *.
  apply read_str_literal in R. subst j. exact D.
Qed.

Inductive view (kws : list (pystr * json)) (v : value) : Prop :=
| vw_ref : forall attrs r, v = VObj 0 attrs -> dict_get kws (str "$ref") = Some (JStr r) -> getattr v (str "ref") = Ok (VStr r) -> view kws v
| vw_boolean : forall attrs, v = VObj 1 attrs -> typed "boolean" kws -> att kws v "const" (TScalar KBool) -> view kws v
| vw_integer : forall attrs, v = VObj 2 attrs -> typed "integer" kws -> att kws v "const" (TScalar KInt) -> view kws v
| vw_number : forall attrs, v = VObj 3 attrs -> typed "number" kws -> att kws v "const" (TScalar KFloat) -> view kws v
| vw_string : forall attrs, v = VObj 4 attrs -> typed "string" kws -> att kws v "const" (TScalar KStr) -> att kws v "format" (TScalar KStr) ->
    att kws v "enum" (TList (TScalar KStr)) -> view kws v
| vw_array : forall attrs j w, v = VObj 5 attrs -> typed "array" kws -> dict_get kws (str "items") = Some j -> getattr v (str "items") = Ok w ->
    read schemas_union j = Ok w -> view kws v
| vw_object : forall c attrs, v = VObj c attrs -> c = 6 \/ c = 8 -> typed "object" kws -> att kws v "properties" (TDict (TScalar KStr) schemas_union) ->
    att kws v "additionalProperties" (TScalar KBool) -> att kws v "required" (TList (TScalar KStr)) -> view kws v
| vw_union : forall attrs ss vs, v = VObj 7 attrs -> dict_get kws (str "oneOf") = Some (JArr ss) -> getattr v (str "oneOf") = Ok (VList vs) ->
    Forall2 (fun s v => read schemas_union s = Ok v) ss vs -> view kws v.

Ltac inl := cbn; repeat (first [left; reflexivity | right]).

Lemma parsed_view : forall c kws v, c < 9 -> parsed c kws v -> view kws v.
Proof.
  intros c kws v L P. pose proof P as (attrs & Q & _).
  destruct c as [|[|[|[|[|[|[|[|[|c]]]]]]]]]; [..|lia].
  - destruct (parsed_req _ _ _ (mkFP (str "$ref") (str "ref") (TAnnot (TScalar KStr) [AAlias (str "$ref")]) FRequired) L P ltac:(inl) eq_refl) as (j & w & D & _ & G & R).
    cbn [fp_prop fp_name fp_type] in *. rewrite (jto_annot Nodes nodes_guarded nodes_calm) in R.
    + rewrite jto_scalar in R. destruct j; try discriminate R. injection R as <-. eapply vw_ref; eassumption.
    + split; [cbn [every_part]; prove_guarded | eexists; vm_compute; reflexivity].
  - eapply vw_boolean; [exact Q | eapply parsed_typed; [exact L | exact P | inl] | eapply parsed_att; [exact L | exact P | inl]].
  - eapply vw_integer; [exact Q | eapply parsed_typed; [exact L | exact P | inl] | eapply parsed_att; [exact L | exact P | inl]].
  - eapply vw_number; [exact Q | eapply parsed_typed; [exact L | exact P | inl] | eapply parsed_att; [exact L | exact P | inl]].
  - eapply vw_string; [exact Q | eapply parsed_typed; [exact L | exact P | inl] | eapply parsed_att; [exact L | exact P | inl] ..].
  - destruct (parsed_req _ _ _ (fr "items" schemas_union) L P ltac:(inl) eq_refl) as (j & w & D & _ & G & R).
    eapply vw_array; [exact Q | eapply parsed_typed; [exact L | exact P | inl] | exact D | exact G | exact R].
  - eapply vw_object; [exact Q | auto | eapply parsed_typed; [exact L | exact P | inl] | eapply parsed_att; [exact L | exact P | inl] ..].
  - destruct (parsed_req _ _ _ (fr "oneOf" (TList schemas_union)) L P ltac:(inl) eq_refl) as (j & w & D & _ & G & R).
    apply read_list in R. destruct R as (ss & vs & -> & -> & F). eapply vw_union; [exact Q | exact D | exact G | exact F].
  - eapply vw_object; [exact Q | auto | eapply parsed_typed; [exact L | exact P | inl] | eapply parsed_att; [exact L | exact P | inl] ..].
Qed.

(** Keywords of a node. *)
Definition keywords_of (c : nat) : list pystr := map fp_prop (node_fps c).
