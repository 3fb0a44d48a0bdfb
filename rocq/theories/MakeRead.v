(** Schemas from which types can be made are read as nodes. *)
From Coq Require Import String List NArith ZArith Bool Lia.
From Verif Require Import Base Json PyTypes Mapping Deser ClassDef Lists TypingFacts DeserSound SpecRecursion Samples DeserFuel DeserBuild DeserUnfold Flatten TypeDef
  SpecClassDef SpecTypeDef TypeDefNodes TypeDefEnv TypeDefGrow SpecMake.
Import ListNotations.
Open Scope list_scope.
Open Scope nat_scope.

(** ** Keywords *)

Lemma only_lacks : forall s ks k, only s ks -> forallb (fun x => negb (pystr_eqb (str x) (str k))) ks = true -> lacks s k.
Proof.
  intros s ks k (kws & -> & O) B j (kws' & Q & I). injection Q as <-. destruct (O _ _ I) as (x & J & Q).
  pose proof (proj1 (forallb_forall _ _) B x J) as N. apply negb_true_iff in N. rewrite <- Q, pystr_eqb_refl in N. discriminate N.
Qed.

Lemma lacks_may : forall s k P, lacks s k -> may s k P.
Proof. intros s k P L j H. destruct (L j H). Qed.

Lemma may_get : forall kws k P j, may (JObj kws) k P -> dict_get kws (str k) = Some j -> P j.
Proof. intros kws k P j M D. apply M, get_has, D. Qed.

Lemma lacks_get : forall kws k, lacks (JObj kws) k -> dict_get kws (str k) = None.
Proof. intros kws k L. destruct (dict_get kws (str k)) as [j|] eqn:D; [|reflexivity]. destruct (L j (get_has _ _ _ D)). Qed.

(** ** Values *)

Definition readable_as (t : typ) (P : json -> Prop) : Prop := forall j, P j -> exists w, read t j = Ok w.

Lemma read_text : readable_as (TScalar KStr) text.
Proof. intros j (s & ->). eexists. rewrite jto_scalar. reflexivity. Qed.
Lemma read_truth : readable_as (TScalar KBool) truth.
Proof. intros j (s & ->). eexists. rewrite jto_scalar. reflexivity. Qed.
Lemma read_whole : readable_as (TScalar KInt) whole.
Proof. intros j (s & ->). eexists. rewrite jto_scalar. reflexivity. Qed.
Lemma read_natural : readable_as (TScalar KInt) natural.
Proof. intros j (s & -> & _). eexists. rewrite jto_scalar. reflexivity. Qed.
Lemma read_real : readable_as (TScalar KFloat) real.
Proof. intros j (s & ->). eexists. rewrite jto_scalar. reflexivity. Qed.

Lemma scalars_ready : forall k, ready Nodes 0 (TList (TScalar k)).
Proof. intros k. split; [cbn [every_part]; prove_guarded | destruct k; eexists; vm_compute; reflexivity]. Qed.

Lemma read_each : forall k P, readable_as (TScalar k) P -> readable_as (TList (TScalar k)) (each P).
Proof.
  intros k P R j (js & -> & F). rewrite (jto_list Nodes nodes_guarded nodes_calm false 0 _ _ (scalars_ready k)).
  assert (X : exists vs, mapM (json_to_object Nodes false 0 (TScalar k)) js = Ok vs).
  { apply mapM_total. intros x I. exact (R x (F x I)). }
  destruct X as (vs & ->). eexists. reflexivity.
Qed.

(** ** Fields *)

Definition field_reads (kws : list (pystr * json)) (fp : fparser) : Prop := exists w, parse_field read fp kws = Ok w.

Lemma fo_reads : forall kws x t P, may (JObj kws) x P -> readable_as t P -> field_reads kws (fo x t).
Proof.
  intros kws x t P M R. unfold field_reads, parse_field, fo. cbn [fp_mode fp_prop fp_type].
  destruct (dict_get kws (str x)) as [j|] eqn:D; [|eauto]. destruct (R j (may_get _ _ _ _ M D)) as (w & W). destruct j; eauto.
Qed.

Lemma fr_reads : forall kws p x t j w, dict_get kws p = Some j -> j <> JNull -> read t j = Ok w -> field_reads kws (mkFP p x t FRequired).
Proof.
  intros kws p x t j w D N R. unfold field_reads, parse_field. cbn [fp_mode fp_prop fp_type]. rewrite D. exists w. destruct j; try exact R. destruct (N eq_refl).
Qed.

Lemma alias_reads : forall kws p x s, dict_get kws p = Some (JStr s) -> field_reads kws (mkFP p x (TAnnot (TScalar KStr) [AAlias p]) FRequired).
Proof.
  intros kws p x s D. apply (fr_reads kws p x _ (JStr s) (VStr s) D); [discriminate|].
  rewrite (jto_annot Nodes nodes_guarded nodes_calm); [reflexivity|].
  split; [cbn [every_part]; prove_guarded | eexists; reflexivity].
Qed.

Lemma read_literal : forall a b, read (TLiteral [LStr a]) (JStr b) = if pystr_eqb a b then Ok (VStr b) else Err EJsonType.
Proof.
  intros a b. rewrite (jto_literal Nodes nodes_guarded nodes_calm false 0 _ _ (literal_ready a)). cbn [literal_type forallb lit_type bind].
  rewrite jto_scalar. cbn [parse_scalar bind existsb lit_value orb]. 
  assert (Q : py_eq Nodes (VStr a) (VStr b) = pystr_eqb a b) by reflexivity. rewrite Q. destruct (pystr_eqb a b); reflexivity.
Qed.

Lemma type_reads : forall kws ty, dict_get kws (str "type") = Some (JStr (str ty)) -> field_reads kws (fr "type" (TLiteral [LStr (str ty)])).
Proof.
  intros kws ty D. apply (fr_reads kws _ _ _ (JStr (str ty)) (VStr (str ty)) D); [discriminate|]. rewrite read_literal, pystr_eqb_refl. reflexivity.
Qed.

Lemma class_reads : forall c kws, c < 9 -> Forall (field_reads kws) (node_fps c) -> (forall k x, In (k, x) kws -> In k (map fp_prop (node_fps c))) ->
  exists v, read (TClass c) (JObj kws) = Ok v.
Proof.
  intros c kws L F K. destruct (node_class_of c L) as (cl & G & B & FP & M & fs & CK).
  rewrite (jto_class Nodes nodes_guarded nodes_calm false 0 c cl (node_fps c) _ (nodes_ready c L) G B FP), M. cbn [parse_object].
  assert (X : exists attrs, mapM (fun fp => do w <- parse_field (json_to_object Nodes false 0) fp kws; Ok (fp_name fp, w)) (node_fps c) = Ok attrs).
  { apply mapM_total. intros fp I. rewrite Forall_forall in F. destruct (F fp I) as (w & W). rewrite W. eexists. reflexivity. }
  destruct X as (attrs & X). rewrite X. cbn [bind orb].
  assert (Y : forallb (fun kv => mem_str (fst kv) (map fp_prop (node_fps c))) kws = true).
  { apply forallb_forall. intros [k x] I. cbn [fst]. apply mem_str_in. exact (K k x I). }
  rewrite Y, CK. eexists. reflexivity.
Qed.

(** ** Members of the union *)

Lemma class_rejects : forall c kws fp rest e, c < 9 -> node_fps c = fo "title" (TScalar KStr) :: fo "description" (TScalar KStr) :: fp :: rest ->
  labelled (JObj kws) -> parse_field read fp kws = Err e -> read (TClass c) (JObj kws) = Err e.
Proof.
  intros c kws fp rest e L Q [LT LD] P. destruct (node_class_of c L) as (cl & G & B & FP & M & fs & CK).
  rewrite (jto_class Nodes nodes_guarded nodes_calm false 0 c cl (node_fps c) _ (nodes_ready c L) G B FP), M. cbn [parse_object]. rewrite Q. cbn [mapM].
  destruct (fo_reads kws "title" _ _ LT read_text) as (w1 & ->). destruct (fo_reads kws "description" _ _ LD read_text) as (w2 & ->). cbn [bind]. rewrite P. reflexivity.
Qed.

Definition passed_over (c : nat) (kws : list (pystr * json)) : Prop := read (TClass c) (JObj kws) = Err EJsonKey \/ read (TClass c) (JObj kws) = Err EJsonType.

Lemma ref_passed : forall kws, labelled (JObj kws) -> lacks (JObj kws) "$ref" -> passed_over 0 kws.
Proof.
  intros kws L N. left. eapply class_rejects; [lia | reflexivity | exact L|]. unfold parse_field. cbn [fp_mode fp_prop]. rewrite (lacks_get _ _ N). reflexivity.
Qed.

Definition type_of_node (c : nat) : string :=
  match c with 1 => "boolean" | 2 => "integer" | 3 => "number" | 4 => "string" | 5 => "array" | _ => "object" end%string.

Lemma typed_passed : forall c kws, 1 <= c <= 6 -> labelled (JObj kws) ->
  (lacks (JObj kws) "type" \/ exists ty, dict_get kws (str "type") = Some (JStr (str ty)) /\ pystr_eqb (str (type_of_node c)) (str ty) = false) -> passed_over c kws.
Proof.
  intros c kws C L T.
  assert (X : exists rest, node_fps c = fo "title" (TScalar KStr) :: fo "description" (TScalar KStr) :: fr "type" (TLiteral [LStr (str (type_of_node c))]) :: rest).
  { destruct c as [|[|[|[|[|[|[|c]]]]]]]; try lia; eexists; reflexivity. }
  destruct X as (rest & X). destruct T as [T | (ty & D & N)].
  - left. eapply class_rejects; [lia | exact X | exact L|]. unfold parse_field. cbn [fr fp_mode fp_prop]. rewrite (lacks_get _ _ T). reflexivity.
  - right. eapply class_rejects; [lia | exact X | exact L|]. unfold parse_field. cbn [fr fp_mode fp_prop fp_type]. rewrite D, read_literal, N. reflexivity.
Qed.

Lemma union_reads : forall c kws v, c < 8 -> read (TClass c) (JObj kws) = Ok v -> (forall c', c' < c -> passed_over c' kws) -> read schemas_union (JObj kws) = Ok v.
Proof.
  intros c kws v L R P. unfold schemas_union. rewrite (jto_union Nodes nodes_guarded nodes_calm false 0 _ _ _ union_ready).
  assert (Q : discriminating_properties Nodes [TClass 0; TClass 1; TClass 2; TClass 3; TClass 4; TClass 5; TClass 6; TClass 7] = Ok []) by (vm_compute; reflexivity).
  rewrite Q. cbn [bind].
  assert (X : forall k d, k + d = c -> union_try (fun u => read u (JObj kws)) (map TClass (seq k (8 - k))) = Ok v).
  { intros k d. revert k. induction d as [|d IH]; intros k S.
    - assert (k = c) by lia. subst k. destruct (8 - c) as [|n] eqn:Z; [lia|]. cbn [seq map union_try]. rewrite R. reflexivity.
    - destruct (8 - k) as [|n] eqn:Z; [lia|]. cbn [seq map union_try]. assert (n = 8 - Datatypes.S k) by lia. subst n.
      destruct (P k ltac:(lia)) as [-> | ->]; apply IH; lia. }
  exact (X 0 c eq_refl).
Qed.

(** The node of a schema with a type. *)
Lemma typed_reads : forall c kws, 1 <= c <= 6 -> headed (JObj kws) (type_of_node c) -> json_wf (JObj kws) -> lacks (JObj kws) "$ref" ->
  Forall (field_reads kws) (node_fps c) -> (forall k x, In (k, x) kws -> In k (map fp_prop (node_fps c))) ->
  exists v, read schemas_union (JObj kws) = Ok v.
Proof.
  intros c kws C (L & T & _) W N F K. destruct (class_reads c kws ltac:(lia) F K) as (v & R). exists v. apply (union_reads c); [lia | exact R|].
  intros c' LT. destruct c' as [|c']; [apply ref_passed; assumption|]. apply typed_passed; [lia | exact L|]. right. exists (type_of_node c).
  split; [apply wf_has; assumption|]. destruct c as [|[|[|[|[|[|[|c]]]]]]]; try lia; destruct c' as [|[|[|[|[|[|c']]]]]]; try lia; reflexivity.
Qed.

(** ** Schemas *)

Lemma only_props : forall kws ks ps, only (JObj kws) ks -> forallb (fun x => mem_str (str x) ps) ks = true -> forall k (x : json), In (k, x) kws -> In k ps.
Proof.
  intros kws ks ps (kws' & Q & O) B k x I. injection Q as <-. destruct (O _ _ I) as (y & J & ->). apply mem_str_in. exact (proj1 (forallb_forall _ _) B y J).
Qed.

Scheme makes_mut := Minimality for makes Sort Prop
  with makes_class_mut := Minimality for makes_class Sort Prop
  with makes_properties_mut := Minimality for makes_properties Sort Prop
  with makes_members_mut := Minimality for makes_members Sort Prop.
Combined Scheme makes_all from makes_mut, makes_class_mut, makes_properties_mut, makes_members_mut.

Ltac without := first [eassumption | apply lacks_may; eapply only_lacks; [eassumption | reflexivity]].
Ltac readable := match goal with
  | |- readable_as (TList _) (each _) => apply read_each; readable
  | |- readable_as _ text => exact read_text
  | |- readable_as _ truth => exact read_truth
  | |- readable_as _ whole => exact read_whole
  | |- readable_as _ natural => exact read_natural
  | |- readable_as _ real => exact read_real
  | |- readable_as _ (fun _ => False) => intros ? []
  end.
Ltac field_read := match goal with
  | |- field_reads _ (fr "type" _) => apply type_reads; apply wf_has; assumption
  | M : may (JObj ?kws) ?x ?P |- field_reads ?kws (fo ?x _) => apply (fo_reads kws x _ P M); readable
  | O : only (JObj ?kws) ?ks |- field_reads ?kws (fo ?x _) =>
      apply (fo_reads kws x _ (fun _ => False)); [apply lacks_may; apply (only_lacks _ ks x O); reflexivity | readable]
  end.
Ltac fields_read := cbn [node_fps typed_fp node_fp value_fp object_fp app]; repeat (apply Forall_cons; [try field_read|]); try apply Forall_nil.
Ltac open_schema O := let kws := fresh "kws" in pose proof O as (kws & -> & _).

Lemma values_texts : forall s values, has s "enum" (JArr (map JStr values)) -> json_wf s -> may s "enum" (each text).
Proof.
  intros s values (kws & -> & I) W j H. apply wf_has in H; [|exact W]. apply (wf_get _ _ _ W) in I. exists (map JStr values). split; [congruence|].
  intros x J. apply in_map_iff in J. destruct J as (v & <- & _). exists v. reflexivity.
Qed.

Lemma lacks_of : forall s k, lacks s k -> may s k (fun _ => False).
Proof. intros s k L j H. exact (L j H). Qed.

Section Read.
  Variable U : unicode.
  Variable D : list pystr.

  Definition reads (s : json) : Prop := json_wf s -> exists v, read schemas_union s = Ok v.

  Lemma reads_all :
    (forall context s names, makes U D context s names -> reads s) /\
    (forall context s names, makes_class U D context s names -> reads s) /\
    (forall context ps names, makes_properties U D context ps names -> forall x s, In (x, s) ps -> reads s) /\
    (forall context ss names, makes_members U D context ss names -> forall s, In s ss -> reads s).
  Proof.
    apply makes_all.
    - (* ref *)
      intros context s x O [LT LD] H _ _ _ W. open_schema O. destruct (class_reads 0 kws ltac:(lia)) as (v & R).
      + fields_read. eapply alias_reads. apply wf_has; eassumption.
      + eapply only_props; [exact O | reflexivity].
      + exists v. apply (union_reads 0); [lia | exact R | intros c' Q; lia].
    - intros context s O ((LT & LD) & T & F) (V1 & V2 & V3) W. open_schema O. apply (typed_reads 1); [lia | repeat split; assumption | exact W | without | fields_read | eapply only_props; [exact O | reflexivity]].
    - intros context s O ((LT & LD) & T & F) (V1 & V2 & V3) M1 M2 M3 W. open_schema O.
      assert (M4 : may (JObj kws) "enum" (each whole)) by (intros j H; apply (M3 j H)). clear M3.
      apply (typed_reads 2); [lia | repeat split; assumption | exact W | without | fields_read | eapply only_props; [exact O | reflexivity]].
    - intros context s O ((LT & LD) & T & F) (V1 & V2 & V3) M1 M2 W. open_schema O.
      apply (typed_reads 3); [lia | repeat split; assumption | exact W | without | fields_read | eapply only_props; [exact O | reflexivity]].
    - intros context s O ((LT & LD) & T & F) (V1 & V2 & V3) M1 M2 _ W. open_schema O.
      apply (typed_reads 4); [lia | repeat split; assumption | exact W | without | fields_read | eapply only_props; [exact O | reflexivity]].
    - (* array *)
      intros context s i names O ((LT & LD) & T & F) HI _ _ IH W. open_schema O. pose proof (wf_has _ _ _ W HI) as G.
      destruct (IH (wf_value _ _ _ W (dict_get_in _ _ _ G))) as (w & R).
      apply (typed_reads 5); [lia | repeat split; assumption | exact W | without | fields_read | eapply only_props; [exact O | reflexivity]].
      eapply fr_reads; [exact G | | exact R]. intros ->. vm_compute in R. discriminate R.
    - intros context s O ((LT & LD) & T & F) M1 M2 W. open_schema O.
      apply (typed_reads 6); [lia | repeat split; assumption | exact W | without | fields_read | eapply only_props; [exact O | reflexivity]].
    - (* oneOf *)
      intros context s ss names O [LT LD] H _ _ IH W. open_schema O. pose proof (wf_has _ _ _ W H) as G.
      pose proof (wf_value _ _ _ W (dict_get_in _ _ _ G)) as WS.
      assert (X : exists w, read (TList schemas_union) (JArr ss) = Ok w).
      { rewrite (jto_list Nodes nodes_guarded nodes_calm false 0 _ _ list_ready).
        assert (Y : exists vs, mapM (json_to_object Nodes false 0 schemas_union) ss = Ok vs); [|destruct Y as (vs & ->); eexists; reflexivity].
        apply mapM_total. intros x I. apply (IH x I). exact (wf_element _ _ WS I). }
      destruct X as (w & X). destruct (class_reads 7 kws ltac:(lia)) as (v & R).
      + fields_read. eapply fr_reads; [exact G | discriminate | exact X].
      + eapply only_props; [exact O | reflexivity].
      + exists v. apply (union_reads 7); [lia | exact R|]. intros [|c'] Q; [apply ref_passed; [split; assumption | without]|].
        apply typed_passed; [lia | split; assumption | left; without].
    - intros context s names _ IH. exact IH.
    - (* enumeration *)
      intros context s values O ((LT & LD) & T & F) (V1 & V2 & V3) HE _ _ M1 M2 W. open_schema O. pose proof (values_texts _ _ HE W) as ME.
      apply (typed_reads 4); [lia | repeat split; assumption | exact W | without | fields_read | eapply only_props; [exact O | reflexivity]].
    - (* object *)
      intros context s ps names O ((LT & LD) & T & F) HP HA M1 _ IH W. open_schema O. pose proof (wf_has _ _ _ W HP) as G.
      pose proof (wf_value _ _ _ W (dict_get_in _ _ _ G)) as WP.
      assert (X : exists w, read (TDict (TScalar KStr) schemas_union) (JObj ps) = Ok w).
      { rewrite (jto_dict Nodes nodes_guarded nodes_calm false 0 _ _ _ dict_ready).
        match goal with |- context [mapM ?f ps] => assert (Y : exists vs, mapM f ps = Ok vs) end; [|destruct Y as (vs & ->); eexists; reflexivity].
        apply mapM_total. intros [x p] I. cbn [parse_key bind]. destruct (IH x p I (wf_value _ _ _ WP I)) as (v & ->). eexists. reflexivity. }
      destruct X as (w & X). assert (MA : may (JObj kws) "additionalProperties" truth).
      { intros j H. apply wf_has in H; [|exact W]. apply wf_has in HA; [|exact W]. exists false. congruence. }
      apply (typed_reads 6); [lia | repeat split; assumption | exact W | without | fields_read | eapply only_props; [exact O | reflexivity]].
      unfold field_reads, parse_field. cbn [fo fp_mode fp_prop fp_type]. rewrite G. exists w. exact X.
    - intros context x s [].
    - intros context x s ps n1 n2 _ _ IH1 _ IH2 y p [Q|I]; [injection Q as <- <-; exact IH1 | exact (IH2 y p I)].
    - intros context s [].
    - intros context s ss n1 n2 _ IH1 _ _ IH2 p [<-|I]; [exact IH1 | exact (IH2 p I)].
  Qed.
End Read.
