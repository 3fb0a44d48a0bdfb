(** C47: what is written for a field with a literal type. *)
From Coq Require Import String List NArith ZArith Bool Lia.
From Verif Require Import Base Json PyTypes Mapping Deser Ser Samples Lists SpecTyping SpecTypes SpecFields SpecSer SerFacts FieldProofs DocstringProofs.
Import ListNotations.
Open Scope list_scope.
Open Scope nat_scope.

(** The values listed are no None, and enumerations leave the choice of the
    document to the library. *)
Definition plain_literal (E : env) (l : lit) : Prop :=
  match l with
  | LNone => False
  | LEnum c _ => exists cl ms, get_class E c = Some cl /\ c_kind cl = CEnum ms /\ c_to_json cl = None
  | _ => True
  end.

(** Values of built-in types and members of enumerations are written as usual. *)
Inductive as_usual (E : env) : value -> json -> Prop :=
| au_scalar : forall v j, scalar_image v j -> as_usual E v j
| au_enum : forall c cl ms x j, get_class E c = Some cl -> c_kind cl = CEnum ms -> In (x, j) ms -> as_usual E (VEnum c x) j.

Lemma literal_gen : forall E n ctx ls s m v j, (forall l, In l ls -> plain_literal E l) -> mkser E n ctx (TLiteral ls) = Ok s ->
  gen E m s v = Ok j -> as_usual E v j.
Proof.
  intros E n ctx ls s m v j P B G. destruct n as [|n]; [discriminate B|]. cbn [mkser] in B.
  apply bind_ok in B. destruct B as (u & L & B). apply bind_ok in B. destruct B as (s' & B & Q). injection Q as <-.
  destruct ls as [|l ls]; [discriminate L|]. unfold literal_type in L.
  destruct (forallb _ ls); [|discriminate L]. injection L as <-. specialize (P l (or_introl eq_refl)).
  destruct m as [|m]; [discriminate G|]. cbn [gen] in G. destruct m as [|m]; [discriminate G|].
  destruct n as [|n]; [discriminate B|].
  assert (AI : as_is v = Ok j -> as_usual E v j).
  { intros Q. apply au_scalar. destruct v; try discriminate Q; injection Q as <-; constructor. }
  destruct l as [|b|z|x|x|c y]; cbn [lit_type mkser] in B.
  - destruct P.
  - injection B as <-. exact (AI G).
  - injection B as <-. exact (AI G).
  - injection B as <-. exact (AI G).
  - injection B as <-. cbn [gen gen_scalar] in G. destruct v; try discriminate G. injection G as <-. apply au_scalar. constructor.
  - destruct P as (cl & ms & Gc & K & H). rewrite Gc, H, K in B. injection B as <-. cbn [gen] in G.
    unfold enum_value in G. destruct v as [| | | | | | | | | | | | |c' y'| | | | | |]; try discriminate G.
    destruct (get_class E c') as [cl'|] eqn:Gc'; [|discriminate G]. destruct (c_kind cl') as [ms'| | | |] eqn:K'; try discriminate G.
    destruct (dict_get ms' y') as [j'|] eqn:D; [|discriminate G]. injection G as <-. apply dict_get_in in D.
    eapply au_enum; eassumption.
Qed.

Lemma class_ser : forall E n ctx c cl fs s, get_class E c = Some cl -> c_to_json cl = None -> annotated cl -> class_properties E cl = Ok fs -> fs <> [] ->
  mkser E n ctx (TClass c) = Ok s ->
  exists k gs, s = GClass gs /\ Forall2 (fun f g => fst (fst g) = fst f /\ snd (fst g) = json_property (fst f) (Some (snd f)) /\
    mkser E k (Some (c_module cl)) (snd f) = Ok (snd g)) fs gs.
Proof.
  intros E n ctx c cl fs s G H A P NE B. destruct n as [|n]; [discriminate B|]. cbn [mkser] in B. rewrite G, H in B. cbv zeta in B.
  assert (X : (do ps <- class_properties E cl;
               do gs <- mapM (fun '(x, u) => do s <- mkser E n (Some (c_module cl)) u; Ok (x, json_property x (Some u), s)) ps;
               Ok (GClass gs)) = Ok s).
  { unfold annotated in A. destruct (c_kind cl) as [ms|hs| |fr hs|hs] eqn:K; try contradiction; try exact B.
    - destruct hs; [|exact B]. unfold class_properties in P. rewrite K in P. unfold hints in P. rewrite K in P. cbn in P. injection P as <-. destruct (NE eq_refl).
    - destruct hs; [destruct (A eq_refl) | exact B]. }
  rewrite P in X. cbn [bind] in X. apply bind_ok in X. destruct X as (gs & M & Q). injection Q as <-. exists n, gs. split; [reflexivity|].
  apply mapM_ok in M. clear -M. induction M as [|[x u] g fs gs H M IH]; [constructor|]. constructor; [|exact IH].
  apply bind_ok in H. destruct H as (s & B & Q). injection Q as <-. cbn [fst snd]. auto.
Qed.

Lemma fold_get : forall (Q : json -> Prop) p ps acc, (forall j, In (p, j) ps -> Q j) ->
  (exists j, In (p, j) ps) \/ (exists j, dict_get acc p = Some j /\ Q j) ->
  exists j, Q j /\ dict_get (fold_left (fun d kv => dict_set d (fst kv) (snd kv)) ps acc) p = Some j.
Proof.
  intros Q p. induction ps as [|[k i] ps IH]; intros acc A B; cbn [fold_left fst snd].
  - destruct B as [(j & [])|(j & B & C)]. eauto.
  - apply IH; [intros j J; apply A; right; exact J|].
    destruct (pystr_eq_dec k p) as [->|N].
    + right. exists i. split; [rewrite dict_get_set, pystr_eqb_refl; reflexivity | apply A; left; reflexivity].
    + destruct B as [(j & [B|B])|(j & B & C)]; [congruence | left; eauto|]. right. exists j. rewrite dict_get_set. destruct (pystr_eqb k p) eqn:X; [apply pystr_eqb_eq in X; congruence | auto].
Qed.

Lemma field_written : forall (Q : json -> Prop) E c cl fs attrs x t v p o, get_class E c = Some cl -> c_to_json cl = None -> annotated cl ->
  class_properties E cl = Ok fs -> In (x, t) fs -> prop_name x t p -> (forall y u, In (y, u) fs -> prop_name y u p -> (y, u) = (x, t)) ->
  dict_get attrs x = Some v -> v <> VNone -> object_to_json E (VObj c attrs) = Ok (JObj o) ->
  (forall k s m j, mkser E k (Some (c_module cl)) t = Ok s -> gen E m s v = Ok j -> Q j) ->
  exists j, Q j /\ dict_get o p = Some j.
Proof.
  intros Q E c cl fs attrs x t v p o G H A P I PN U D NV O R. unfold object_to_json, serializer_of in O. apply bind_ok in O. destruct O as (s & B & O).
  cbn [typeof] in B. eapply class_ser in B; [|eassumption..|intros ->; destruct I]. destruct B as (k & gs & -> & F).
  destruct (gen_fuel (VObj c attrs)) as [|m]; [discriminate O|]. cbn [gen] in O. apply bind_ok in O. destruct O as (o' & X & Y). injection Y as ->.
  apply gen_fields_spec in X. destruct X as (ps & -> & FP & _).
  apply (fold_get Q).
  - intros j J. destruct (Forall2_in_r _ _ _ _ _ _ FP J) as (g & J' & Q0 & w & Dw & Gw). cbn [fst snd] in *. apply filter_In in J'. destruct J' as (J' & _).
    destruct (Forall2_in_r _ _ _ _ _ _ F J') as ([y u] & If & Q1 & Q2 & B). cbn [fst snd] in *.
    assert (Y : (y, u) = (x, t)) by (apply U; [exact If | rewrite <- Q0, Q2; apply json_property_some]).
    injection Y as -> ->. rewrite Q1, D in Dw. injection Dw as <-. eapply R; eassumption.
  - left. destruct (Forall2_in_l _ _ _ _ _ _ F I) as (g & Ig & Q1 & Q2 & B). cbn [fst snd] in *.
    assert (Ig' : In g (filter (fun f => match dict_get attrs (fst (fst f)) with Some VNone => false | _ => true end) gs)).
    { apply filter_In. split; [exact Ig|]. rewrite Q1, D. destruct v; congruence. }
    destruct (Forall2_in_l _ _ _ _ _ _ FP Ig') as ([q j] & Ip & Q3 & _). cbn [fst snd] in Q3. exists j.
    replace p with q; [exact Ip|]. rewrite <- Q3, Q2. eapply prop_name_fun; [apply json_property_some | exact PN].
Qed.

(** C47 (in part).  Whatever value the field [x] with a literal type holds, if the
    object is serialized at all then the property is that value, written as usual:
    the values listed are not consulted. *)
Theorem C47_as_is_partial : forall E c cl fs attrs x ls v p o, get_class E c = Some cl -> c_to_json cl = None -> annotated cl ->
  class_properties E cl = Ok fs -> In (x, TLiteral ls) fs -> (forall l, In l ls -> plain_literal E l) ->
  prop_name x (TLiteral ls) p -> (forall y u, In (y, u) fs -> prop_name y u p -> (y, u) = (x, TLiteral ls)) ->
  dict_get attrs x = Some v -> v <> VNone -> object_to_json E (VObj c attrs) = Ok (JObj o) ->
  exists j, as_usual E v j /\ dict_get o p = Some j.
Proof.
  intros E c cl fs attrs x ls v p o G H A P I PL PN U D NV O.
  eapply (field_written (as_usual E v)); try eassumption. intros k s m j. apply literal_gen. exact PL.
Qed.
Print Assumptions C47_as_is_partial.

(** Literals that are written in JSON as they are. *)
Definition json_literal (l : lit) (j : json) : Prop :=
  match l, j with
  | LBool b, JBool b' => b = b'
  | LInt z, JInt z' => z = z'
  | LStr s, JStr s' => s = s'
  | _, _ => False
  end.

(** C47 (in part).  For these, the property is one of the values listed exactly
    if the field holds one. *)
Theorem C47_listed_partial : forall E c cl fs attrs x ls v p o, get_class E c = Some cl -> c_to_json cl = None -> annotated cl ->
  class_properties E cl = Ok fs -> In (x, TLiteral ls) fs -> (forall l, In l ls -> exists j, json_literal l j) ->
  prop_name x (TLiteral ls) p -> (forall y u, In (y, u) fs -> prop_name y u p -> (y, u) = (x, TLiteral ls)) ->
  dict_get attrs x = Some v -> v <> VNone -> object_to_json E (VObj c attrs) = Ok (JObj o) ->
  exists j, dict_get o p = Some j /\ ((exists l, In l ls /\ json_literal l j) <-> (exists l, In l ls /\ v = lit_value l)).
Proof.
  intros E c cl fs attrs x ls v p o G H A P I PL PN U D NV O.
  destruct (field_written (fun j => as_is v = Ok j) E c cl fs attrs x (TLiteral ls) v p o G H A P I PN U D NV O) as (j & Q & R).
  - intros n s m j B Gn. destruct n as [|n]; [discriminate B|]. cbn [mkser] in B.
    apply bind_ok in B. destruct B as (u & L & B). apply bind_ok in B. destruct B as (s' & B & Q). injection Q as <-.
    destruct ls as [|l ls]; [discriminate L|]. unfold literal_type in L. destruct (forallb _ ls); [|discriminate L]. injection L as <-.
    destruct (PL l (or_introl eq_refl)) as (jl & J). destruct m as [|m]; [discriminate Gn|]. cbn [gen] in Gn. destruct m as [|m]; [discriminate Gn|].
    destruct n as [|n]; [discriminate B|]. destruct l; try contradiction; cbn [lit_type mkser] in B; injection B as <-; exact Gn.
  - exists j. split; [exact R|]. split; intros (l & Il & K); exists l; (split; [exact Il|]).
    + destruct l, j; try contradiction; cbn in K; subst; destruct v; try discriminate Q; injection Q as <-; reflexivity.
    + subst v. destruct (PL l Il) as (jl & J). destruct l; try contradiction; injection Q as <-; reflexivity.
Qed.
Print Assumptions C47_listed_partial.

(** A dog that says it is a bird: the property is what the field holds. *)
Example C47_witness : exists o, object_to_json Zoo (VObj 4 [(str "kind", vstr "bird"); (str "age", VInt 1)]) = Ok (JObj o) /\
  get_class Zoo 4 = Some Dog /\ c_to_json Dog = None /\ annotated Dog /\ prop_name (str "kind") (TLiteral [LStr (str "dog")]) (str "kind") /\
  (exists fs, class_properties Zoo Dog = Ok fs /\ In (str "kind", TLiteral [LStr (str "dog")]) fs /\
   forall y u, In (y, u) fs -> prop_name y u (str "kind") -> (y, u) = (str "kind", TLiteral [LStr (str "dog")])) /\
  dict_get o (str "kind") = Some (jstr "bird").
Proof.
  eexists. split; [vm_compute; reflexivity|]. split; [reflexivity|]. split; [reflexivity|]. split; [exact Logic.I|].
  split; [apply json_property_spec; vm_compute; reflexivity|]. split; [|reflexivity].
  eexists. split; [reflexivity|]. split; [left; reflexivity|]. intros y u [Q|[Q|[]]] PN; injection Q as <- <-; [reflexivity|].
  apply json_property_spec in PN. vm_compute in PN. discriminate PN.
Qed.
