(** Types made from nodes: what becomes of the program. *)
From Coq Require Import String List NArith ZArith Bool Lia.
From Verif Require Import Base Json PyTypes Mapping Deser ClassDef Lists TypingFacts DeserSound SpecTypes TypeAlgebraProofs SpecRecursion DeserFuel DeserBuild DeserUnfold Flatten TypeDef SpecTypeDef TypeDefNodes TypeDefEnv.
Import ListNotations.
Open Scope list_scope.
Open Scope nat_scope.

(** ** Nodes *)

Definition nd (s : json) (v : value) : Prop := exists kws, s = JObj kws /\ view kws v /\
  exists c attrs, v = VObj c attrs /\ forall k x, In (k, x) kws -> In k (keywords_of c).

Lemma union_nd : forall s v, read schemas_union s = Ok v -> nd s v.
Proof.
  intros s v H. apply union_parsed in H. destruct H as (c & kws & L & -> & P). exists kws. split; [reflexivity|].
  split; [eapply parsed_view; [|exact P]; lia|]. destruct P as (attrs & Q & _ & K). eauto.
Qed.

Lemma top_nd : forall s v, read (TClass c_top) s = Ok v -> nd s v.
Proof.
  intros s v H. apply class_parsed in H; [|unfold c_top; lia]. destruct H as (kws & -> & P). exists kws. split; [reflexivity|].
  split; [eapply parsed_view; [|exact P]; unfold c_top; lia|]. destruct P as (attrs & Q & _ & K). eauto.
Qed.

Lemma wf_get : forall kws k x, json_wf (JObj kws) -> (dict_get kws k = Some x <-> In (k, x) kws).
Proof. intros kws k x W. inversion W as [| | | | | |? N _]; subst. split; [apply dict_get_in | apply dict_get_nodup; exact N]. Qed.

Lemma wf_has : forall kws k x, json_wf (JObj kws) -> has (JObj kws) k x -> dict_get kws (str k) = Some x.
Proof. intros kws k x W (o & Q & I). injection Q as <-. apply wf_get; assumption. Qed.

Lemma get_has : forall kws k x, dict_get kws (str k) = Some x -> has (JObj kws) k x.
Proof. intros kws k x H. exists kws. split; [reflexivity|]. apply dict_get_in. exact H. Qed.

Lemma wf_value : forall kws k x, json_wf (JObj kws) -> In (k, x) kws -> json_wf x.
Proof. intros kws k x W I. inversion W as [| | | | | |? _ F]; subst. rewrite Forall_forall in F. exact (F _ I). Qed.

Lemma wf_element : forall js x, json_wf (JArr js) -> In x js -> json_wf x.
Proof. intros js x W I. inversion W as [| | | | |? F|]; subst. rewrite Forall_forall in F. exact (F _ I). Qed.

(** ** Simple nodes *)

Lemma with_default_inv : forall E m t d E' t' d', with_default E m t d = Ok (E', (t', d')) -> E' = E /\ t' = t.
Proof.
  intros E m t [j|] E' t' d' H; cbn [with_default] in H.
  - apply bind_ok in H. destruct H as (v & _ & H). injection H as <- <- _. auto.
  - injection H as <- <- _. auto.
Qed.

Lemma boolean_inv : forall E m v E' t d, boolean_node E m v = Ok (E', (t, d)) -> exists const,
  optional_attr as_bool v (str "const") = Ok const /\ E' = E /\ t = match const with Some b => TLiteral [LBool b] | None => TScalar KBool end.
Proof.
  intros E m v E' t d H. unfold boolean_node in H. apply bind_ok in H. destruct H as (const & C & H). exists const. split; [exact C|].
  destruct const as [b|]; [injection H as <- <- _; auto|]. apply bind_ok in H. destruct H as (x & _ & H). apply with_default_inv in H. exact H.
Qed.

Lemma integer_inv : forall E m v E' t d, integer_node E m v = Ok (E', (t, d)) -> exists const,
  optional_attr as_int v (str "const") = Ok const /\ E' = E /\ match const with Some z => t = TLiteral [LInt z] | None => exists ty, t = integer_type ty end.
Proof.
  intros E m v E' t d H. unfold integer_node in H. apply bind_ok in H. destruct H as (const & C & H). exists const. split; [exact C|].
  destruct const as [b|]; [injection H as <- <- _; auto|]. repeat (apply bind_ok in H; destruct H as (? & _ & H)).
  apply with_default_inv in H. destruct H as [-> ->]. eauto.
Qed.

Lemma number_inv : forall E m v E' t d, number_node E m v = Ok (E', (t, d)) ->
  optional_attr as_float v (str "const") = Ok None /\ E' = E /\ (t = TScalar KFloat \/ exists n, t = TAnnot (TScalar KFloat) [AStorage n]).
Proof.
  intros E m v E' t d H. unfold number_node in H. apply bind_ok in H. destruct H as (const & C & H).
  destruct const as [b|]; [discriminate H|]. split; [exact C|]. do 4 (apply bind_ok in H; destruct H as (? & _ & H)).
  apply bind_ok in H. destruct H as (ot & A & H). apply bind_ok in H. destruct H as (t1 & B & H). apply bind_ok in H. destruct H as (? & _ & H).
  apply with_default_inv in H. destruct H as [-> ->]. split; [reflexivity|].
  assert (A' : ot = None \/ exists n, ot = Some (TAnnot (TScalar KFloat) [AStorage n])).
  { destruct x as [f|]; [|injection A as <-; auto]. destruct (pystr_eqb f (str "float32")); [injection A as <-; eauto|].
    destruct (pystr_eqb f (str "float64")); injection A as <-; eauto. }
  destruct A' as [->|(n & ->)]; [|injection B as <-; eauto]. left. destruct x0, x1, x2; congruence.
Qed.

Inductive string_case (U : unicode) (m : nat) (ctx : pystr) (v : value) (E E' : env) (t : typ) : Prop :=
| sc_const : forall s, optional_attr as_str v (str "const") = Ok (Some s) -> E' = E -> t = TLiteral [LStr s] -> string_case U m ctx v E E' t
| sc_format : forall f k, optional_attr as_str v (str "const") = Ok None -> optional_attr as_str v (str "format") = Ok (Some f) -> format_type f = Some k ->
    E' = E -> t = TScalar k -> string_case U m ctx v E E' t
| sc_enum : forall fm vs ms, optional_attr as_str v (str "const") = Ok None -> optional_attr as_str v (str "format") = Ok fm ->
    optional_attr (as_list as_str) v (str "enum") = Ok (Some vs) ->
    enum_values_to_type (u_word U) ctx vs = Ok ms -> new_class E m ctx (CEnum ms) = Ok (E', t) -> string_case U m ctx v E E' t
| sc_plain : forall fm, optional_attr as_str v (str "const") = Ok None -> optional_attr as_str v (str "format") = Ok fm -> 
    optional_attr (as_list as_str) v (str "enum") = Ok None ->
    E' = E -> t = TScalar KStr \/ (exists n, t = TAnnot (TScalar KStr) [AMaxLength n]) -> string_case U m ctx v E E' t.

Lemma string_inv : forall U E m ctx v E' t d, string_node U E m ctx v = Ok (E', (t, d)) -> string_case U m ctx v E E' t.
Proof.
  intros U E m ctx v E' t d H. unfold string_node in H. apply bind_ok in H. destruct H as (const & C & H).
  destruct const as [s|]; [injection H as <- <- _; eapply sc_const; [exact C | reflexivity | reflexivity]|].
  apply bind_ok in H. destruct H as (fm & F & H). apply bind_ok in H. destruct H as (enum & N & H). apply bind_ok in H. destruct H as (longest & _ & H).
  apply bind_ok in H. destruct H as ([E1 t1] & A & H). apply bind_ok in H. destruct H as (df & _ & H). cbn [fst snd] in H.
  apply with_default_inv in H. destruct H as [-> ->].
  destruct (match fm with Some f => format_type f | None => None end) as [k|] eqn:K.
  - destruct fm as [f|]; [|discriminate K]. injection A as <- <-. eapply sc_format; [exact C | exact F | exact K | reflexivity | reflexivity].
  - destruct enum as [vs|].
    + apply bind_ok in A. destruct A as (ms & M & A). eapply sc_enum; eassumption.
    + destruct longest as [n|]; [destruct (n <? 0)%Z; [discriminate A|]|]; injection A as <- <-;
        (eapply sc_plain; [exact C | exact F | exact N | reflexivity | eauto]).
Qed.

Lemma sort_in : forall fs f, In f (sort_fields fs) <-> In f fs.
Proof.
  intros fs f. unfold sort_fields. rewrite in_app_iff, !filter_In. destruct (f_default f); intuition congruence.
Qed.

(** ** Growth *)

Section Grow.
  Variable U : unicode.
  Variable m : nat.

  Definition listed (s : json) : Prop := json_wf s /\ forall p, inside s p -> of_type p "object" -> exists ps, has p "properties" (JObj ps).

  Definition grows (E E' : env) : Prop := sound m E' /\ ext E E' /\ keeps m E E'.

  Lemma grows_refl : forall E, sound m E -> grows E E.
  Proof. intros E S. split; [exact S | split; [apply ext_refl | apply keeps_refl]]. Qed.

  Lemma grows_trans : forall E F G, grows E F -> grows F G -> grows E G.
  Proof. intros E F G (_ & A & B) (S & C & D). split; [exact S | split; [eapply ext_trans; eassumption | eapply keeps_trans; eassumption]]. Qed.

  Lemma listed_property : forall kws ps x p, listed (JObj kws) -> dict_get kws (str "properties") = Some (JObj ps) -> In (x, p) ps -> listed p.
  Proof.
    intros kws ps x p [W L] D I. pose proof (dict_get_in _ _ _ D) as I'. split.
    - eapply wf_value; [eapply wf_value; [exact W | exact I'] | exact I].
    - intros q Q. apply L. eapply in_property; [apply get_has; exact D | exact I | exact Q].
  Qed.

  Lemma listed_items : forall kws p, listed (JObj kws) -> dict_get kws (str "items") = Some p -> listed p.
  Proof.
    intros kws p [W L] D. pose proof (dict_get_in _ _ _ D) as I'. split; [eapply wf_value; [exact W | exact I']|].
    intros q Q. apply L. eapply in_items; [apply get_has; exact D | exact Q].
  Qed.

  Lemma listed_member : forall kws ss p, listed (JObj kws) -> dict_get kws (str "oneOf") = Some (JArr ss) -> In p ss -> listed p.
  Proof.
    intros kws ss p [W L] D I. pose proof (dict_get_in _ _ _ D) as I'. split; [eapply wf_element; [eapply wf_value; [exact W | exact I'] | exact I]|].
    intros q Q. apply L. eapply in_member; [apply get_has; exact D | exact I | exact Q].
  Qed.

  Section Parts.
    Variable rec : env -> pystr -> value -> res (env * (typ * option value)).
    Hypothesis REC : forall E ctx v s E' t d, rec E ctx v = Ok (E', (t, d)) -> nd s v -> listed s -> sound m E -> grows E E' /\ flat t.

    Lemma fields_grow : forall ctx req ps vs E E' fs, property_fields rec E ctx req vs = Ok (E', fs) -> pair_read ps vs ->
      (forall x p, In (x, p) ps -> listed p) -> sound m E ->
      grows E E' /\ forall f, In f fs -> flat (f_type f) /\ f_default f <> Some (Err ERecursion).
    Proof.
      intros ctx req ps vs E E' fs H F. revert E E' fs H. induction F as [|[x p] [y v] ps vs [Q R] F IH]; intros E E' fs H L S; cbn [property_fields] in H.
      - injection H as <- <-. split; [apply grows_refl; exact S | intros f []].
      - apply bind_ok in H. destruct H as ([E1 [t d]] & H1 & H). apply bind_ok in H. destruct H as (u & HU & H).
        apply bind_ok in H. destruct H as ([E2 fs'] & H2 & H). cbn [fst snd] in H. injection H as <- <-. cbn [fst snd] in *.
        destruct (REC _ _ _ _ _ _ _ H1 (union_nd _ _ R) (L x p (or_introl eq_refl)) S) as [G1 Ft].
        destruct (IH _ _ _ H2 (fun x p I => L x p (or_intror I)) (proj1 G1)) as [G2 Fs].
        split; [eapply grows_trans; eassumption|]. intros f [<-|I]; [|exact (Fs f I)]. cbn [f_type f_default]. split.
        + destruct (mem_str y req); [injection HU as <-; exact Ft|]. eapply mk_union_flat; [|exact HU].
          constructor; [cbn; auto|]. constructor; [exact Ft | constructor].
        + destruct d; discriminate.
    Qed.

    Lemma members_grow : forall ctx ss vs E E' ds, member_types rec E ctx vs = Ok (E', ds) -> Forall2 (fun s v => read schemas_union s = Ok v) ss vs ->
      (forall p, In p ss -> listed p) -> sound m E -> grows E E' /\ Forall flat (map fst ds).
    Proof.
      intros ctx ss vs E E' ds H F. revert E E' ds H. induction F as [|s v ss vs R F IH]; intros E E' ds H L S; cbn [member_types] in H.
      - injection H as <- <-. split; [apply grows_refl; exact S | constructor].
      - apply bind_ok in H. destruct H as ([E1 [t d]] & H1 & H). apply bind_ok in H. destruct H as ([E2 ds'] & H2 & H). cbn [fst snd] in *. injection H as <- <-.
        destruct (REC _ _ _ _ _ _ _ H1 (union_nd _ _ R) (L s (or_introl eq_refl)) S) as [G1 Ft].
        destruct (IH _ _ _ H2 (fun p I => L p (or_intror I)) (proj1 G1)) as [G2 Fs].
        split; [eapply grows_trans; eassumption|]. constructor; assumption.
    Qed.
  End Parts.

  Lemma object_attrs : forall kws v, listed (JObj kws) -> typed "object" kws -> att kws v "properties" (TDict (TScalar KStr) schemas_union) ->
    exists ps vs, dict_get kws (str "properties") = Some (JObj ps) /\ pair_read ps vs /\ get_properties v = Ok (Some vs).
  Proof.
    intros kws v [W L] T (w & G & D). destruct (L _ (in_self _) (get_has _ _ _ T)) as (ps & P). apply wf_has in P; [|exact W].
    destruct D as [[[D|D] _]|(j & D & _ & R)]; [congruence | congruence|].
    apply read_dict in R. destruct R as (ps' & vs & -> & -> & PR). exists ps', vs. split; [exact D|]. split; [exact PR|].
    unfold get_properties. rewrite G. cbn [bind]. rewrite dict_pairs. reflexivity.
  Qed.

  (** The model of an object node. *)
  Definition object_node (rec : env -> pystr -> value -> res (env * (typ * option value))) (E : env) (ctx : pystr) (v : value) : res (env * (typ * option value)) :=
        do ops <- get_properties v;
        match ops with
        | None => Ok (E, (JsonType, None))
        | Some ps =>
            do extra <- optional_attr as_bool v (str "additionalProperties");
            match extra with
            | Some false =>
                do ors <- get_required v;
                do fs <- property_fields rec E ctx (match ors with Some l => l | None => [] end) ps;
                do _ <- mapM (fun f => check_field_name U (f_name f)) (sort_fields (snd fs));
                do c <- new_class (fst fs) m ctx (CData false (sort_fields (snd fs)));
                Ok (fst c, (snd c, None))
            | _ => Err EType
            end
        end.

  Lemma node_object : forall n E ctx c attrs, c = 6 \/ c = 8 ->
    node_to_typedef U m (S n) E ctx (VObj c attrs) = object_node (node_to_typedef U m n) E ctx (VObj c attrs).
  Proof. intros n E ctx c attrs [->| ->]; reflexivity. Qed.

  (** An object node gives a data class. *)
  Lemma object_inv : forall rec E ctx v E' t d kws, object_node rec E ctx v = Ok (E', (t, d)) -> listed (JObj kws) -> typed "object" kws ->
    att kws v "properties" (TDict (TScalar KStr) schemas_union) -> att kws v "additionalProperties" (TScalar KBool) ->
    att kws v "required" (TList (TScalar KStr)) ->
    exists ps vs req E1 fs, dict_get kws (str "properties") = Some (JObj ps) /\ pair_read ps vs /\
      dict_get kws (str "additionalProperties") = Some (JBool false) /\
      (dict_get kws (str "required") = Some (JArr (map JStr req)) \/
        req = [] /\ (dict_get kws (str "required") = None \/ dict_get kws (str "required") = Some JNull)) /\
      property_fields rec E ctx req vs = Ok (E1, fs) /\ mapM (fun f => check_field_name U (f_name f)) (sort_fields fs) = Ok (map (fun _ => tt) (sort_fields fs)) /\
      new_class E1 m ctx (CData false (sort_fields fs)) = Ok (E', t).
  Proof.
    intros rec E ctx v E' t d kws H L T AP AA AR. destruct (object_attrs _ _ L T AP) as (ps & vs & D & PR & G).
    unfold object_node in H. rewrite G in H. cbn [bind] in H. apply bind_ok in H. destruct H as (extra & X & H).
    pose proof (att_none _ _ _ _ _ _ _ AA X (fun j => scalar_some KBool j ltac:(discriminate))) as XA.
    destruct extra as [[|]|]; try discriminate H. destruct XA as (j & w & DA & _ & R & C). rewrite jto_scalar in R.
    destruct j; try discriminate R. injection R as <-. injection C as ->.
    apply bind_ok in H. destruct H as (ors & RQ & H). apply bind_ok in H. destruct H as ([E1 fs] & PF & H). apply bind_ok in H. destruct H as (us & CK & H).
    apply bind_ok in H. destruct H as ([E2 c] & NC & H). cbn [fst snd] in *. injection H as <- <- _.
    exists ps, vs, (match ors with Some l => l | None => [] end), E1, fs. split; [exact D|]. split; [exact PR|]. split; [exact DA|]. split; [|split; [exact PF|split; [|exact NC]]].
    - destruct AR as (wr & GR & DR). unfold get_required in RQ. rewrite GR in RQ. cbn [bind] in RQ.
      destruct DR as [[DR ->]|(jr & DR & _ & RR)].
      + injection RQ as <-. auto.
      + apply read_strings in RR. destruct RR as (ss & -> & ->). rewrite str_values in RQ. injection RQ as <-. auto.
    - rewrite CK. f_equal. apply mapM_ok in CK. clear NC. induction CK as [|? [] ? ? _ _ IH]; [reflexivity|]. cbn [map]. f_equal. exact IH.
  Qed.

  Lemma grow : forall n E ctx v s E' t d, node_to_typedef U m n E ctx v = Ok (E', (t, d)) -> nd s v -> listed s -> sound m E ->
    grows E E' /\ flat t.
  Proof.
    induction n as [|n IH]; intros E ctx v s E' t d H (kws & -> & V & _) L S; [discriminate H|].
    destruct V as [attrs r -> D G|attrs -> T A|attrs -> T A|attrs -> T A|attrs -> T A F N|attrs j w -> T D G R|c attrs -> C T AP AA AR|attrs ss vs -> D G F].
    - cbn [node_to_typedef] in H. rewrite G in H. cbn [bind] in H. destruct (reference_name U r) as [x|]; [|discriminate H].
      apply bind_ok in H. destruct H as (u & M & H). injection H as <- <- _. split; [apply grows_refl; exact S|].
      unfold module_get in M. destruct (lookup E m x) as [[[|] u']|] eqn:LK; try discriminate M. injection M as <-.
      eapply pm_refs; [exact (sn_plain _ _ S) | exact LK].
    - apply boolean_inv in H. destruct H as (const & _ & -> & ->). split; [apply grows_refl; exact S|]. destruct const; cbn; auto.
    - apply integer_inv in H. destruct H as (const & _ & -> & H). split; [apply grows_refl; exact S|].
      destruct const; [subst; cbn; auto|]. destruct H as (ty & ->). destruct ty; cbn; auto.
    - apply number_inv in H. destruct H as (_ & -> & [->|(k & ->)]); (split; [apply grows_refl; exact S | cbn; auto]).
    - apply string_inv in H. destruct H as [z _ -> ->|f k _ _ _ -> ->|fm vs ms _ _ _ _ NC|fm _ _ _ -> [->|(k & ->)]];
        try (split; [apply grows_refl; exact S | cbn; auto]; fail).
      destruct (new_class_ok _ _ _ _ _ _ NC S) as (S' & X & K & c & -> & _); [intros y u [] | intros; discriminate|].
      split; [split; [exact S' | split; assumption] | cbn; auto].
    - cbn [node_to_typedef] in H. rewrite G in H. cbn [bind] in H. apply bind_ok in H. destruct H as ([E1 [t1 d1]] & H1 & H). cbn [fst snd] in H.
      destruct (has_default (t1, d1)); [discriminate H|]. injection H as <- <- _.
      destruct (IH _ _ _ _ _ _ _ H1 (union_nd _ _ R) (listed_items _ _ L D) S) as [G1 Ft]. split; [exact G1|]. split; [intros [] | exact Ft].
    - rewrite node_object in H by exact C. destruct (object_inv _ _ _ _ _ _ _ _ H L T AP AA AR) as (ps & vs & req & E1 & fs & D & PR & _ & _ & PF & _ & NC).
      destruct (fields_grow _ IH _ _ _ _ _ _ _ PF PR (fun x p I => listed_property _ _ _ _ L D I) S) as [G1 Ff].
      destruct (new_class_ok _ _ _ _ _ _ NC (proj1 G1)) as (S' & X & K & k & -> & _).
      + intros y u I. cbn [raw_fields] in I. apply in_map_iff in I. destruct I as (f & Q & I). injection Q as <- <-. apply (proj1 (sort_in _ _)) in I. apply (Ff f I).
      + intros fr fs' f Q I. injection Q as <- <-. apply (proj1 (sort_in _ _)) in I. apply (Ff f I).
      + split; [|cbn; auto]. eapply grows_trans; [exact G1|]. split; [exact S' | split; assumption].
    - cbn [node_to_typedef] in H. rewrite G in H. cbn [bind] in H. apply bind_ok in H. destruct H as ([E1 ds] & H1 & H). cbn [fst snd] in H.
      destruct (existsb has_default ds); [discriminate H|]. apply bind_ok in H. destruct H as (u & HU & H). injection H as <- <- _.
      destruct (members_grow _ IH _ _ _ _ _ _ H1 F (fun p I => listed_member _ _ _ L D I) S) as [G1 Fs].
      split; [exact G1|]. eapply mk_union_flat; eassumption.
  Qed.
End Grow.
