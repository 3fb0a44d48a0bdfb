(** Types made from the schemas of types are copies of these. *)
From Coq Require Import String List NArith ZArith Bool Lia Permutation.
From Verif Require Import Base Json PyTypes TypeAlgebra TypeAlgebraProofs Mapping Deser Ser ClassDef Lists TypingFacts SerFacts FieldProofs Catalog CatalogProofs Schema
  SpecTyping SpecTypes SpecFields SpecSer SpecTagged SpecSchema SchemaSem SpecGenerate SchemaProofs SchemaClass SpecValid SchemaForm SchemaValid SpecRecursion SpecClassDef Flatten TypeDef SpecTypeDef
  TypeDefEnv TypeDefParts TypeDefGrow TypeDefProofs SpecTypeShape TypeDefShape SpecMeta MetaProofs SpecMirror MirrorWords.
Import ListNotations.
Open Scope list_scope.
Open Scope nat_scope.

(** ** Keywords *)

Lemma core_has : forall dx d k x, json_wf (JObj dx) -> core dx = core d -> note (str k) = false -> (has (JObj dx) k x <-> dict_get d (str k) = Some x).
Proof.
  intros dx d k x W Q N. split.
  - intros H. apply wf_has in H; [|exact W]. rewrite <- (core_get _ _ N), <- Q, (core_get _ _ N). exact H.
  - intros H. apply get_has. rewrite <- (core_get _ _ N), Q, (core_get _ _ N). exact H.
Qed.

Lemma only_key : forall s ks k x, only s ks -> has s k x -> In (str k) (map (fun k => str k) ks).
Proof. intros s ks k x (kws & -> & O) (kws' & Q & J). injection Q as <-. eapply O. exact J. Qed.

Lemma has_once : forall s k x y, json_wf s -> has s k x -> has s k y -> x = y.
Proof. intros s k x y W (kws & -> & J) H. apply wf_has in H; [|exact W]. assert (H' : has (JObj kws) k x) by (exists kws; auto). apply wf_has in H'; [|exact W]. congruence. Qed.

(** Schemas that neither refer nor are unions. *)
Definition kind (s : json) (ty : string) : Prop := of_type s ty /\ (forall x, ~ has s "$ref" x) /\ (forall x, ~ has s "oneOf" x).

(** Which keywords a schema of some type may have. *)
Lemma spoken_kind : forall s ty k x, json_wf s -> spoken s -> kind s ty -> has s k x ->
  exists ty' ks, str ty' = str ty /\ In (ty', ks) vocabulary /\ In (str k) (map (fun k => str k) ks).
Proof.
  intros s ty k x W [(ty' & ks & V & T & O)|[(r & R & _)|(ss & R & _)]] (K & NR & NO) H; [|destruct (NR _ R) | destruct (NO _ R)].
  pose proof (has_once _ _ _ _ W T K) as Q. injection Q as Q. exists ty', ks. split; [exact Q|]. split; [exact V | eapply only_key; eassumption].
Qed.

(** A schema with a keyword that is not understood. *)
Ltac unspoken W SP K H :=
  let ty := fresh in let ks := fresh in let Q := fresh in let V := fresh in let J := fresh in
  destruct (spoken_kind _ _ _ _ W SP K H) as (ty & ks & Q & V & J); exfalso; cbn in V;
  repeat (destruct V as [V|V]; [injection V as <- <-; first [discriminate Q | cbn in J; repeat (destruct J as [J|J]; [discriminate J|]); exact J]|]); exact V.

Lemma lacks_none : forall s k, (forall x, ~ has s k x) -> lacks s k.
Proof. intros s k N x H. destruct (N _ H). Qed.

Lemma lacks_not : forall s k x, lacks s k -> has s k x -> x <> JNull -> False.
Proof. intros s k x L H N. exact (N (L _ H)). Qed.

Lemma core_lacks : forall dx d k, json_wf (JObj dx) -> core dx = core d -> note (str k) = false -> dict_get d (str k) = None -> forall x, ~ has (JObj dx) k x.
Proof. intros dx d k W Q N D x H. apply (proj1 (core_has _ _ _ _ W Q N)) in H. congruence. Qed.

Lemma core_kind : forall dx d ty, json_wf (JObj dx) -> core dx = core d -> dict_get d (str "type") = Some (JStr (str ty)) -> dict_get d (str "$ref") = None ->
  dict_get d (str "oneOf") = None -> kind (JObj dx) ty.
Proof.
  intros dx d ty W Q T R O. split; [apply (core_has dx d); auto|]. split; eapply core_lacks; eauto.
Qed.

Lemma filter_get : forall (q : pystr -> bool) (d : list (pystr * json)) k, q k = true -> dict_get (filter (fun kv => q (fst kv)) d) k = dict_get d k.
Proof.
  intros q d k Q. induction d as [|[k' x] d IH]; [reflexivity|]. cbn [filter fst dict_get]. destruct (q k') eqn:B; cbn [dict_get].
  - destruct (pystr_eqb k' k); [reflexivity | exact IH].
  - destruct (pystr_eqb k' k) eqn:B'; [apply pystr_eqb_eq in B'; congruence | exact IH].
Qed.

Lemma upd_other : forall d e k, ~ In k (map fst e) -> dict_get (upd d e) k = dict_get d k.
Proof.
  intros d e k N. rewrite <- (filter_get (fun x => pystr_eqb x k) (upd d e) k), <- (filter_get (fun x => pystr_eqb x k) d k) by apply pystr_eqb_refl.
  f_equal. apply (upd_filter (fun x => pystr_eqb x k)). rewrite Forall_forall. intros [k' v] I. cbn [fst]. destruct (pystr_eqb k' k) eqn:B; [|reflexivity].
  apply pystr_eqb_eq in B. subst k'. destruct N. apply (in_map fst) in I. exact I.
Qed.

Lemma upd_app : forall d e e', upd d (e ++ e') = upd (upd d e) e'.
Proof. intros d e e'. unfold upd. apply fold_left_app. Qed.

(** ** Metadata *)

Definition metadata_keys : list pystr := map (fun k => str k) ["minimum"; "maximum"; "multipleOf"; "exclusiveMinimum"; "exclusiveMaximum"; "minLength"; "maxLength"]%string.

Lemma meta_other : forall S md d k, ~ In k metadata_keys -> dict_get (with_metadata S d md) k = dict_get d k.
Proof.
  intros S md d k N. rewrite <- (filter_get (fun x => pystr_eqb x k) (with_metadata S d md) k), <- (filter_get (fun x => pystr_eqb x k) d k) by apply pystr_eqb_refl.
  f_equal. apply (with_metadata_filter (fun x => pystr_eqb x k)). rewrite Forall_forall. intros k' I. destruct (pystr_eqb k' k) eqn:B; [|reflexivity].
  apply pystr_eqb_eq in B. subst k'. destruct (N I).
Qed.

Lemma meta_snoc : forall S md a d, with_metadata S d (md ++ [a]) = upd (with_metadata S d md) (metadata_to_schema S a).
Proof. intros S md a d. unfold with_metadata. rewrite fold_left_app. reflexivity. Qed.

Lemma meta_range : forall S md d, dict_get d (str "minimum") = None -> dict_get d (str "maximum") = None ->
  ((forall lo hi, ~ In (AIntegerRange lo hi) md) /\ dict_get (with_metadata S d md) (str "minimum") = None) \/
  exists lo hi, last_range md lo hi /\ dict_get (with_metadata S d md) (str "minimum") = Some (JInt lo) /\ dict_get (with_metadata S d md) (str "maximum") = Some (JInt hi).
Proof.
  intros S md d M X. induction md as [|a md IH] using rev_ind; [left; split; [intros lo hi [] | exact M]|]. rewrite meta_snoc.
  assert (R : (exists lo hi, a = AIntegerRange lo hi) \/ (forall lo hi, a <> AIntegerRange lo hi) /\
    (forall k, k = str "minimum" \/ k = str "maximum" -> ~ In k (map fst (metadata_to_schema S a)))).
  { destruct a; first [left; eauto; fail | right; split; [intros ? ?; discriminate | intros k [-> | ->] I; cbn in I; intuition discriminate]]. }
  destruct R as [(lo & hi & ->)|[N O]].
  - right. exists lo, hi. split; [exists md, []; split; [reflexivity | intros ? ? []]|].
    cbn [metadata_to_schema]. unfold upd. cbn [fold_left fst snd]. rewrite !set_lookup. split; reflexivity.
  - rewrite !upd_other by (apply O; auto). destruct IH as [[NI Q]|(lo & hi & (p & q & -> & L) & Q)].
    + left. split; [|exact Q]. intros lo hi I. apply in_app_iff in I. destruct I as [I|[I|[]]]; [exact (NI _ _ I) | exact (N _ _ I)].
    + right. exists lo, hi. split; [|exact Q]. exists p, (q ++ [a]). split; [rewrite <- app_assoc; reflexivity|].
      intros lo' hi' I. apply in_app_iff in I. destruct I as [I|[I|[]]]; [exact (L _ _ I) | exact (N _ _ I)].
Qed.

Lemma meta_bound : forall S md d, dict_get d (str "maxLength") = None ->
  ((forall n, ~ In (AMaxLength n) md) /\ dict_get (with_metadata S d md) (str "maxLength") = None) \/
  exists n, last_bound md n /\ dict_get (with_metadata S d md) (str "maxLength") = Some (JInt (Z.of_N n)).
Proof.
  intros S md d X. induction md as [|a md IH] using rev_ind; [left; split; [intros n [] | exact X]|]. rewrite meta_snoc.
  assert (R : (exists n, a = AMaxLength n) \/ (forall n, a <> AMaxLength n) /\ ~ In (str "maxLength") (map fst (metadata_to_schema S a))).
  { destruct a; first [left; eauto; fail | right; split; [intros ?; discriminate | intros I; cbn in I; intuition discriminate]]. }
  destruct R as [(n & ->)|[N O]].
  - right. exists n. split; [exists md, []; split; [reflexivity | intros ? []]|].
    cbn [metadata_to_schema]. unfold upd. cbn [fold_left fst snd]. rewrite !set_lookup. reflexivity.
  - rewrite !upd_other by exact O. destruct IH as [[NI Q]|(n & (p & q & -> & L) & Q)].
    + left. split; [|exact Q]. intros n I. apply in_app_iff in I. destruct I as [I|[I|[]]]; [exact (NI _ I) | exact (N _ I)].
    + right. exists n. split; [|exact Q]. exists p, (q ++ [a]). split; [rewrite <- app_assoc; reflexivity|].
      intros n' I. apply in_app_iff in I. destruct I as [I|[I|[]]]; [exact (L _ I) | exact (N _ I)].
Qed.

Lemma meta_precision : forall S md d sig dec, In (APrecision sig dec) md -> exists j, dict_get (with_metadata S d md) (str "multipleOf") = Some j /\ j <> JNull.
Proof.
  intros S md d sig dec. induction md as [|a md IH] using rev_ind; [intros []|]. intros I. rewrite meta_snoc.
  assert (R : (exists sig dec, a = APrecision sig dec) \/ (forall sig dec, a <> APrecision sig dec) /\ ~ In (str "multipleOf") (map fst (metadata_to_schema S a))).
  { destruct a; first [left; eauto; fail | right; split; [intros ? ?; discriminate | intros J; cbn in J; intuition discriminate]]. }
  destruct R as [(s & d' & ->)|[N O]].
  - cbn [metadata_to_schema]. unfold upd. cbn [fold_left fst snd]. rewrite !set_lookup. cbv [pystr_eqb str]. cbn. eexists. split; [reflexivity|].
    unfold pow10. destruct (0 <=? _)%Z; discriminate.
  - rewrite upd_other by exact O. apply IH. apply in_app_iff in I. destruct I as [I|[I|[]]]; [exact I | destruct (N _ _ I)].
Qed.

(** ** Defaults *)

Lemma keeps_default : forall (d d' : list (pystr * json)), filter (fun kv => pystr_eqb (fst kv) (str "default")) d' = filter (fun kv => pystr_eqb (fst kv) (str "default")) d ->
  dict_get d (str "default") = None -> dict_get d' (str "default") = None.
Proof.
  intros d d' Q N. rewrite <- (filter_get (fun x => pystr_eqb x (str "default"))) in N |- * by reflexivity. rewrite Q. exact N.
Qed.

Lemma describe_default : forall S t d, dict_get d (str "default") = None -> dict_get (describe S t d) (str "default") = None.
Proof. intros S t d. apply keeps_default. apply (describe_filter (fun x => pystr_eqb x (str "default"))); reflexivity. Qed.

Lemma simple_default : forall t d, simple_type_to_schema t = Some d -> dict_get d (str "default") = None.
Proof. intros t d H. destruct t; try discriminate H. destruct k; try discriminate H; injection H as <-; reflexivity. Qed.

(** Schemas of types have no default. *)
Lemma no_default : forall E S n force t u d u', type_to_schema E S n force t u = Ok (d, u') -> dict_get d (str "default") = None.
Proof.
  intros E S n. induction n as [|n IH]; intros force t u d u' H; [discriminate H|]. cbn [type_to_schema] in H.
  destruct (simple_type_to_schema t) as [d0|] eqn:B; [injection H as <- _; eapply simple_default; exact B|].
  destruct (negb force && in_catalog S t).
  { apply bind_ok in H. destruct H as (e & _ & H). cbv zeta in H. injection H as <- _. reflexivity. }
  assert (X : forall t, expand E S (type_to_schema E S n) force t u = Ok (d, u') -> dict_get d (str "default") = None).
  { clear H. intros w H. destruct w as [k|b|w|w|k w|ts|op ts|ls|w md|c|s|]; cbn [expand] in H; try discriminate H.
    - injection H as <- _. apply describe_default. reflexivity.
    - injection H as <- _. apply describe_default. reflexivity.
    - apply bind_ok in H. destruct H as (x & _ & H). injection H as <- _. reflexivity.
    - apply bind_ok in H. destruct H as (x & _ & H). injection H as <- _. reflexivity.
    - apply bind_ok in H. destruct H as ([] & _ & H). apply bind_ok in H. destruct H as (x & _ & H). apply bind_ok in H. destruct H as (dk & D & H).
      injection H as <- _. change (dict_get dk (str "default") = None). unfold dict_to_schema in D.
      destruct k as [[]| | | | | | | |k' md'|c| |]; try discriminate D; try (injection D as <-; reflexivity).
      + destruct k'; discriminate D.
      + destruct (get_class E c) as [cl|]; [|discriminate D]. destruct (c_kind cl); try discriminate D. apply bind_ok in D. destruct D as (vs & _ & D).
        destruct (4 <? length vs); injection D as <-; reflexivity.
    - apply bind_ok in H. destruct H as (x & _ & H). injection H as <- _. reflexivity.
    - destruct (is_type_union (TUnion op ts)); [|discriminate H]. apply bind_ok in H. destruct H as (x & _ & H). injection H as <- _. reflexivity.
    - destruct ls as [|l [|? ?]]; try discriminate H. apply bind_ok in H. destruct H as (j & _ & H). apply bind_ok in H. destruct H as ([dw u1] & A & H).
      injection H as <- _. cbn [fst]. rewrite set_lookup. cbn. eapply IH. exact A.
    - destruct (get_class E c) as [cl|]; [|discriminate H].
      assert (Y : (do ps <- class_properties E cl; do x <- properties_schema (type_to_schema E S n false) E S c ps [] [] u;
          Ok (describe S (TClass c) (object_schema (fst (fst x)) (snd (fst x))), snd x)) = Ok (d, u') -> dict_get d (str "default") = None).
      { intros H'. apply bind_ok in H'. destruct H' as (ps & _ & H'). apply bind_ok in H'. destruct H' as ([[props required] u1] & P & H').
        injection H' as <- _. apply describe_default. unfold object_schema. cbn [fst snd]. destruct props, required; reflexivity. }
      destruct (c_kind cl); try exact (Y H). apply bind_ok in H. destruct H as (d' & D & H). injection H as <- _. unfold enum_to_schema in D.
      apply bind_ok in D. destruct D as (ks & _ & D). destruct ks as [|k [|? ?]]; try discriminate D.
      destruct k; cbn in D; try discriminate D; injection D as <-; apply describe_default; reflexivity.
    - destruct force.
      + destruct (s_eval S s); [|discriminate H]. eapply IH. exact H.
      + destruct (s_eval S s); injection H as <- _; reflexivity. }
  destruct t; try (eapply X; exact H). destruct (simple_type_to_schema t) as [d0|] eqn:B0; [|eapply X; exact H].
  apply simple_default in B0. destruct (get_auxiliary_format _); injection H as <- _.
  - cbn [upd fold_left fst snd]. unfold upd. cbn [fold_left fst snd]. rewrite set_lookup. cbn. exact B0.
  - rewrite meta_other; [exact B0|]. intros I. cbn in I. intuition discriminate.
Qed.

(** The schema of a property: that of the type and maybe a default. *)
Lemma finish_default : forall E S c x d dx, finish_property E S c x d = Ok dx -> dict_get d (str "default") = None ->
  (match dict_get (s_attrs S c) x with Some v => written_default v | None => False end -> exists v j, dict_get (s_attrs S c) x = Some v /\ object_to_json E v = Ok j /\ dict_get dx (str "default") = Some j) /\
  (~ match dict_get (s_attrs S c) x with Some v => written_default v | None => False end -> dict_get dx (str "default") = None).
Proof.
  intros E S c x d dx H N. unfold finish_property in H. apply bind_ok in H. destruct H as (df & D & H). cbv zeta in H.
  assert (Q : dict_get dx (str "default") = dict_get (upd d df) (str "default")).
  { destruct (text_or_none _); injection H as <-; [|reflexivity]. rewrite set_lookup. cbn. unfold pop.
    apply (filter_get (fun k => negb (pystr_eqb k (str "title")))). reflexivity. }
  rewrite Q. clear Q H. unfold default_schema in D. destruct (dict_get (s_attrs S c) x) as [v|].
  - assert (X : (exists j, object_to_json E v = Ok j /\ df = [(str "default", j)] /\ written_default v) \/ (df = [] /\ ~ written_default v)).
    { destruct v; first [right; split; [injection D as <-; reflexivity | exact (fun f => f)] | left; apply bind_ok in D; destruct D as (j & J & D); injection D as <-; exists j; repeat split; exact J]. }
    destruct X as [(j & J & -> & WD)|[-> NW]].
    + split; [|intros NW; destruct (NW WD)]. intros _. exists v, j. split; [reflexivity|]. split; [exact J|]. unfold upd. cbn [fold_left fst snd]. rewrite set_lookup. reflexivity.
    + split; [intros WD; destruct (NW WD) | intros _; exact N].
  - injection D as <-. split; [intros [] | intros _; exact N].
Qed.

(** ** Types by kind of schema *)

Section Kinds.
  Variables (U : unicode) (F : env) (m : nat).
  Notation sh := (shaped U F m).

  Ltac by_kind H K W :=
    let KT := fresh "KT" in let KR := fresh "KR" in let KO := fresh "KO" in
    destruct K as (KT & KR & KO); inversion H; subst;
    try match goal with
    | R : has _ "$ref" _ |- _ => destruct (KR _ R)
    | R : has _ "oneOf" _ |- _ => destruct (KO _ R)
    | R : of_type _ _ |- _ => pose proof (has_once _ _ _ _ W R KT) as KQ; discriminate KQ
    end.

  Lemma kind_boolean : forall ctx s t, json_wf s -> kind s "boolean" -> sh ctx s t ->
    (lacks s "const" /\ t = TScalar KBool) \/ exists b, has s "const" (JBool b) /\ t = TLiteral [LBool b].
  Proof. intros ctx s t W K H. by_kind H K W; eauto. Qed.

  Lemma kind_integer : forall ctx s t, json_wf s -> kind s "integer" -> sh ctx s t ->
    (exists w, lacks s "const" /\ int_shape s w /\ t = int_typ w) \/ exists j z, has s "const" j /\ whole j z /\ t = TLiteral [LInt z].
  Proof. intros ctx s t W K H. by_kind H K W; [left | right]; eauto 6. Qed.

  Lemma kind_number : forall ctx s t, json_wf s -> kind s "number" -> sh ctx s t ->
    (lacks s "const" /\ unlisted float_formats s /\ lacks s "multipleOf" /\ t = TScalar KFloat) \/
    exists f n, lacks s "const" /\ In (f, n) float_formats /\ has s "format" (JStr (str f)) /\ t = TAnnot (TScalar KFloat) [AStorage n].
  Proof. intros ctx s t W K H. by_kind H K W; [left | right]; eauto 8. Qed.

  Inductive string_shape (ctx : pystr) (s : json) (t : typ) : Prop :=
  | ss_const : forall c, has s "const" (JStr c) -> t = TLiteral [LStr c] -> string_shape ctx s t
  | ss_format : forall f k, lacks s "const" -> In (f, k) text_formats -> has s "format" (JStr (str f)) -> t = TScalar k -> string_shape ctx s t
  | ss_enum : forall vs c ms, lacks s "const" -> unlisted text_formats s -> has s "enum" (JArr (map JStr vs)) ->
      get_class F c = Some (mkClass m ctx (CEnum ms) None None) -> NoDup (map fst ms) ->
      (forall x j, In (x, j) ms <-> exists v, j = JStr v /\ last_labelled (enum_safe_name (u_word U)) vs x v /\ ~ private ctx x) ->
      t = TClass c -> string_shape ctx s t
  | ss_bound : forall j n, lacks s "const" -> unlisted text_formats s -> lacks s "enum" -> has s "maxLength" j -> whole j (Z.of_N n) ->
      t = TAnnot (TScalar KStr) [AMaxLength n] -> string_shape ctx s t
  | ss_plain : lacks s "const" -> unlisted text_formats s -> lacks s "enum" -> lacks s "maxLength" -> t = TScalar KStr -> string_shape ctx s t.

  Lemma kind_string : forall ctx s t, json_wf s -> kind s "string" -> sh ctx s t -> string_shape ctx s t.
  Proof.
    intros ctx s t W K H. by_kind H K W.
    - eapply ss_const; eauto.
    - eapply ss_format; eauto.
    - eapply ss_enum; eauto.
    - eapply ss_bound; eauto.
    - eapply ss_plain; eauto.
  Qed.

  Lemma kind_array : forall ctx s t, json_wf s -> kind s "array" -> sh ctx s t -> exists p u, has s "items" p /\ sh ctx p u /\ t = TList u.
  Proof. intros ctx s t W K H. by_kind H K W; eauto 6. Qed.

  Lemma kind_object : forall ctx s t, json_wf s -> kind s "object" -> sh ctx s t ->
    exists ps c fs, has s "properties" (JObj ps) /\ has s "additionalProperties" (JBool false) /\
      Forall2 (fun xp f => f_name f = fst xp /\ nameable U (fst xp) /\ exists t, sh (ctx ++ str "__" ++ fst xp) (snd xp) t /\
        (demanded s (fst xp) -> f_type f = t) /\ (~ demanded s (fst xp) -> mk_union false [TScalar KNone; t] = Ok (f_type f)) /\
        preset F m (snd xp) t (f_default f)) ps fs /\
      get_class F c = Some (mkClass m ctx (CData false (fields_in_order fs)) None None) /\ t = TClass c.
  Proof. intros ctx s t W K H. by_kind H K W. exists ps, c, fs. auto 6. Qed.

  Lemma kind_none : forall ctx s t ty, json_wf s -> kind s ty -> sh ctx s t -> In (str ty) (map (fun k => str k) ["boolean"; "integer"; "number"; "string"; "array"; "object"]%string).
  Proof.
    intros ctx s t ty W K H. by_kind H K W;
      match goal with R : of_type _ _ |- _ => pose proof (has_once _ _ _ _ W R KT) as KQ; injection KQ as KQ; rewrite <- KQ; cbn; tauto end.
  Qed.

  Lemma kind_ref : forall ctx s t r, json_wf s -> has s "$ref" (JStr (path r)) -> (forall ty, ~ of_type s ty) -> (forall x, ~ has s "oneOf" x) -> sh ctx s t ->
    exists b, lookup F m r = Some (b, t).
  Proof.
    intros ctx s t r W R NT NO H. inversion H; subst; try match goal with
      | Q : has _ "oneOf" _ |- _ => destruct (NO _ Q)
      | Q : of_type _ _ |- _ => destruct (NT _ Q)
      end.
    match goal with Q : has _ "$ref" _ |- _ => pose proof (has_once _ _ _ _ W Q R) as X end. injection X as ->. eauto.
  Qed.

  Lemma kind_union : forall ctx s t ss, json_wf s -> has s "oneOf" (JArr ss) -> (forall ty, ~ of_type s ty) -> (forall x, ~ has s "$ref" x) -> sh ctx s t ->
    exists ts, Forall2 (sh ctx) ss ts /\ mk_union false ts = Ok t.
  Proof.
    intros ctx s t ss W O NT NR H. inversion H; subst; try match goal with
      | Q : has _ "$ref" _ |- _ => destruct (NR _ Q)
      | Q : of_type _ _ |- _ => destruct (NT _ Q)
      end.
    match goal with Q : has _ "oneOf" _ |- _ => pose proof (has_once _ _ _ _ W Q O) as X end. injection X as ->. eauto.
  Qed.

  (** A constant gives a literal type. *)
  Lemma varied_lacks : forall ctx s t, json_wf s -> spoken s -> sh ctx s t -> (forall ls, t <> TLiteral ls) -> lacks s "const".
  Proof.
    intros ctx s t W SP H N.
    assert (TY : forall ty x, of_type s ty -> str ty = str "array" \/ str ty = str "object" -> has s "const" x -> False).
    { intros ty x T Q HC. destruct SP as [(ty' & ks & V & T' & O)|[(r & _ & O)|(ss & _ & O)]].
      - pose proof (has_once _ _ _ _ W T T') as Q'. injection Q' as Q'. rewrite Q' in Q. pose proof (only_key _ _ _ _ O HC) as J. cbn in V.
        repeat (destruct V as [V|V]; [injection V as <- <-; first [destruct Q as [Q|Q]; discriminate Q | cbn in J; repeat (destruct J as [J|J]; [discriminate J|]); exact J]|]). exact V.
      - pose proof (only_key _ _ _ _ O HC) as J. cbn in J. repeat (destruct J as [J|J]; [discriminate J|]). exact J.
      - pose proof (only_key _ _ _ _ O HC) as J. cbn in J. repeat (destruct J as [J|J]; [discriminate J|]). exact J. }
    assert (NT : (forall x, has s "$ref" x -> forall y, ~ has s "const" y) /\ (forall x, has s "oneOf" x -> forall y, ~ has s "const" y)).
    { split; intros x R y HC; (destruct SP as [(ty' & ks & V & T' & O)|[(r & _ & O)|(ss & _ & O)]];
        [pose proof (only_key _ _ _ _ O R) as J; cbn in V;
           repeat (destruct V as [V|V]; [injection V as <- <-; cbn in J; repeat (destruct J as [J|J]; [discriminate J|]); exact J|]); exact V
        | pose proof (only_key _ _ _ _ O HC) as J; cbn in J; repeat (destruct J as [J|J]; [discriminate J|]); exact J
        | pose proof (only_key _ _ _ _ O HC) as J; cbn in J; repeat (destruct J as [J|J]; [discriminate J|]); exact J]). }
    inversion H; subst; try assumption; try (exfalso; eapply N; reflexivity);
      try (apply lacks_none; intros y HC; first [eapply (proj1 NT); eassumption | eapply (proj2 NT); eassumption]).
    - apply lacks_none. intros y HC. eapply TY; [eassumption | left; reflexivity | exact HC].
    - apply lacks_none. intros y HC. eapply TY; [eassumption | right; reflexivity | exact HC].
  Qed.
End Kinds.

(** ** Scalars *)

Lemma aux_in : forall t f, get_auxiliary_format t = Some f -> In (t, f) auxiliary_types.
Proof.
  intros t f. unfold get_auxiliary_format. generalize auxiliary_types as l. induction l as [|[u g] l IH]; intros H; [discriminate H|].
  destruct (typ_eqb u t) eqn:Q; [apply typ_eqb_eq in Q; subst u; injection H as ->; left; reflexivity | right; apply IH; exact H].
Qed.

Lemma fixed_aux : forall t, is_fixed_int t -> get_auxiliary_format t <> None.
Proof. intros t (sg & n & I & ->). cbn in I. destruct sg; repeat (destruct I as [<-|I]; [discriminate|]); destruct I. Qed.

Section Scalars.
  Variables (S : senv) (U : unicode) (F : env) (m : nat).
  Notation sh := (shaped U F m).

  Lemma plain_scalar : forall k d dx ctx t, simple_type_to_schema (TScalar k) = Some d -> core dx = core d -> json_wf (JObj dx) -> spoken (JObj dx) ->
    sh ctx (JObj dx) t -> In k kept_scalars /\ t = TScalar k.
  Proof.
    intros k d dx ctx t B C W SP H.
    assert (G := fun k x Nk => core_has dx d k x W C Nk).
    assert (L := fun k Nk Q => core_lacks dx d k W C Nk Q).
    destruct k; cbn in B; try discriminate B; injection B as <-.
    - pose proof (core_kind dx _ "null" W C eq_refl eq_refl eq_refl) as K. apply kind_none with (ty := "null"%string) in H; [|exact W | exact K]. cbn in H.
      repeat (destruct H as [H|H]; [discriminate H|]). destruct H.
    - pose proof (core_kind dx _ "boolean" W C eq_refl eq_refl eq_refl) as K. destruct (kind_boolean _ _ _ _ _ _ W K H) as [[_ ->]|(b & HC & _)]; [split; [in_list | reflexivity]|].
      destruct (L "const"%string eq_refl eq_refl _ HC).
    - pose proof (core_kind dx _ "integer" W C eq_refl eq_refl eq_refl) as K. destruct (kind_integer _ _ _ _ _ _ W K H) as [(w & _ & IS & ->)|(j & z & HC & _)].
      + destruct IS as [f w I HF|js zs lo hi w _ HE|l h lo hi w _ _ HM|]; [destruct (L "format"%string eq_refl eq_refl _ HF) | destruct (L "enum"%string eq_refl eq_refl _ HE) | destruct (L "minimum"%string eq_refl eq_refl _ HM)|].
        split; [in_list | reflexivity].
      + destruct (L "const"%string eq_refl eq_refl _ HC).
    - pose proof (core_kind dx _ "number" W C eq_refl eq_refl eq_refl) as K. destruct (kind_number _ _ _ _ _ _ W K H) as [(_ & _ & _ & ->)|(f & n & _ & _ & HF & _)]; [split; [in_list | reflexivity]|].
      destruct (L "format"%string eq_refl eq_refl _ HF).
    - pose proof (core_kind dx _ "string" W C eq_refl eq_refl eq_refl) as K.
      destruct (kind_string _ _ _ _ _ _ W K H) as [c HC|f k _ _ HF|vs c ms _ _ HE|j n _ _ _ HM|_ _ _ _ ->];
        [destruct (L "const"%string eq_refl eq_refl _ HC) | destruct (L "format"%string eq_refl eq_refl _ HF) | destruct (L "enum"%string eq_refl eq_refl _ HE) | destruct (L "maxLength"%string eq_refl eq_refl _ HM)|].
      split; [in_list | reflexivity].
    - pose proof (core_kind dx _ "string" W C eq_refl eq_refl eq_refl) as K.
      assert (HX : has (JObj dx) "contentEncoding" (JStr (str "base64"))) by (apply G; reflexivity). unspoken W SP K HX.
    - pose proof (core_kind dx _ "string" W C eq_refl eq_refl eq_refl) as K. assert (HX : has (JObj dx) "format" (JStr (str "date-time"))) by (apply G; reflexivity).
      destruct (kind_string _ _ _ _ _ _ W K H) as [c HC|f k _ I HF ->|vs c ms _ UL|j n _ UL|_ UL];
        [destruct (L "const"%string eq_refl eq_refl _ HC) | | destruct (UL "date-time"%string KDateTime ltac:(in_list) HX) ..].
      pose proof (has_once _ _ _ _ W HX HF) as Q. injection Q as Q. cbn in I. repeat (destruct I as [I|I]; [injection I as <- <-; first [discriminate Q | split; [in_list | reflexivity]]|]). destruct I.
    - pose proof (core_kind dx _ "string" W C eq_refl eq_refl eq_refl) as K. assert (HX : has (JObj dx) "format" (JStr (str "date"))) by (apply G; reflexivity).
      destruct (kind_string _ _ _ _ _ _ W K H) as [c HC|f k _ I HF ->|vs c ms _ UL|j n _ UL|_ UL];
        [destruct (L "const"%string eq_refl eq_refl _ HC) | | destruct (UL "date"%string KDate ltac:(in_list) HX) ..].
      pose proof (has_once _ _ _ _ W HX HF) as Q. injection Q as Q. cbn in I. repeat (destruct I as [I|I]; [injection I as <- <-; first [discriminate Q | split; [in_list | reflexivity]]|]). destruct I.
    - pose proof (core_kind dx _ "string" W C eq_refl eq_refl eq_refl) as K. assert (HX : has (JObj dx) "format" (JStr (str "time"))) by (apply G; reflexivity).
      destruct (kind_string _ _ _ _ _ _ W K H) as [c HC|f k _ I HF ->|vs c ms _ UL|j n _ UL|_ UL];
        [destruct (L "const"%string eq_refl eq_refl _ HC) | | destruct (UL "time"%string KTime ltac:(in_list) HX) ..].
      pose proof (has_once _ _ _ _ W HX HF) as Q. injection Q as Q. cbn in I. repeat (destruct I as [I|I]; [injection I as <- <-; first [discriminate Q | split; [in_list | reflexivity]]|]). destruct I.
    - pose proof (core_kind dx _ "string" W C eq_refl eq_refl eq_refl) as K. assert (HX : has (JObj dx) "format" (JStr (str "duration"))) by (apply G; reflexivity).
      destruct (kind_string _ _ _ _ _ _ W K H) as [c HC|f k _ I HF ->|vs c ms _ UL|j n _ UL|_ UL];
        [destruct (L "const"%string eq_refl eq_refl _ HC) | | destruct (UL "duration"%string KTimeDelta ltac:(in_list) HX) ..].
      pose proof (has_once _ _ _ _ W HX HF) as Q. injection Q as Q. cbn in I. repeat (destruct I as [I|I]; [injection I as <- <-; first [discriminate Q | split; [in_list | reflexivity]]|]). destruct I.
    - pose proof (core_kind dx _ "string" W C eq_refl eq_refl eq_refl) as K. assert (HX : has (JObj dx) "format" (JStr (str "uuid"))) by (apply G; reflexivity).
      destruct (kind_string _ _ _ _ _ _ W K H) as [c HC|f k _ I HF ->|vs c ms _ UL|j n _ UL|_ UL];
        [destruct (L "const"%string eq_refl eq_refl _ HC) | | destruct (UL "uuid"%string KUUID ltac:(in_list) HX) ..].
      pose proof (has_once _ _ _ _ W HX HF) as Q. injection Q as Q. cbn in I. repeat (destruct I as [I|I]; [injection I as <- <-; first [discriminate Q | split; [in_list | reflexivity]]|]). destruct I.
  Qed.

  Lemma whole_int : forall z j, whole (JInt z) j -> j = z.
  Proof. intros z j H. inversion H. reflexivity. Qed.

  Ltac not_meta := intros ?; cbn in *; intuition discriminate.

  (** A scalar with metadata. *)
  Lemma annotated_scalar : forall k md d0 d dx ctx t, simple_type_to_schema (TScalar k) = Some d0 -> remarks S (TAnnot (TScalar k) md) md d0 d -> core dx = core d ->
    json_wf (JObj dx) -> spoken (JObj dx) -> sh ctx (JObj dx) t -> copied_scalar k md t.
  Proof.
    intros k md d0 d dx ctx t B R C W SP H.
    assert (G := fun k x Nk => core_has dx d k x W C Nk).
    assert (L := fun k Nk Q => core_lacks dx d k W C Nk Q).
    destruct R as [f A|A].
    - apply aux_in in A. cbn in A.
      assert (FX : forall sg n, In n byte_counts -> sg = false \/ n = 1%N -> TAnnot (TScalar KInt) md = fixed_int sg n -> k = KInt ->
        d0 = typed (str "integer") -> unlisted int_formats (JObj dx) -> copied_scalar k md t).
      { intros sg n I O Q -> -> UL. pose proof (core_kind dx _ "integer" W C eq_refl eq_refl eq_refl) as K.
        destruct (kind_integer _ _ _ _ _ _ W K H) as [(w & _ & IS & ->)|(j & z & HC & _)]; [|destruct (L "const"%string eq_refl eq_refl _ HC)].
        destruct IS as [g w J HF|js zs lo hi w _ HE|l h lo hi w _ _ HM|]; [destruct (UL _ _ J HF) | destruct (L "enum"%string eq_refl eq_refl _ HE) | destruct (L "minimum"%string eq_refl eq_refl _ HM)|].
        eapply cs_other; eassumption. }
      assert (HF : has (JObj dx) "format" (JStr f)) by (apply G; [reflexivity | unfold upd; cbn [fold_left fst snd]; rewrite set_lookup; reflexivity]).
      assert (UN : (forall g a, In (g, a) int_formats -> f <> str g) -> unlisted int_formats (JObj dx)) by (intros N; eapply unlisted_other; eassumption).
      assert (FI : forall g n w, In n [2; 4; 8]%N -> f = str g -> In (g, w) int_formats -> int_typ w = fixed_int true n -> TAnnot (TScalar KInt) md = fixed_int true n -> k = KInt ->
        d0 = typed (str "integer") -> copied_scalar k md t).
      { intros g n w I -> J Q' Q -> ->. pose proof (core_kind dx _ "integer" W C eq_refl eq_refl eq_refl) as K.
        destruct (kind_integer _ _ _ _ _ _ W K H) as [(w' & _ & IS & ->)|(j & z & HC & _)]; [|destruct (L "const"%string eq_refl eq_refl _ HC)].
        destruct IS as [g' w' J' HF'|js zs lo hi w' UL|l h lo hi w' UL|UL]; [|destruct (UL _ _ J HF) ..].
        assert (w' = w).
        { pose proof (has_once _ _ _ _ W HF HF') as Q2. injection Q2 as Q2. cbn in J, J'.
          repeat (destruct J as [J|J]; [injection J as <- <-; repeat (destruct J' as [J'|J']; [injection J' as <- <-; first [discriminate Q2 | reflexivity]|]); destruct J'|]). destruct J. }
        subst w'. rewrite Q'. apply cs_fixed; assumption. }
      assert (FF : forall g n, n = 4%N \/ n = 8%N -> f = str g -> In (g, n) float_formats -> md = [AStorage n] -> k = KFloat -> d0 = typed (str "number") -> copied_scalar k md t).
      { intros g n I -> J -> -> ->. pose proof (core_kind dx _ "number" W C eq_refl eq_refl eq_refl) as K.
        destruct (kind_number _ _ _ _ _ _ W K H) as [(_ & UL & _)|(g' & n' & _ & J' & HF' & ->)]; [destruct (UL _ _ J HF)|].
        assert (n' = n).
        { pose proof (has_once _ _ _ _ W HF HF') as Q2. injection Q2 as Q2. cbn in J, J'.
          repeat (destruct J as [J|J]; [injection J as <- <-; repeat (destruct J' as [J'|J']; [injection J' as <- <-; first [discriminate Q2 | reflexivity]|]); destruct J'|]). destruct J. }
        subst n'. apply cs_storage. exact I. }
      destruct A as [A|[A|[A|[A|[A|[A|[A|[A|[A|[A|[]]]]]]]]]]]; injection A as <- <- <-; cbn in B; injection B as <-.
      + apply (FX true 1%N); [in_list | auto | reflexivity | reflexivity | reflexivity|]. apply UN. intros g a I; cbn in I; repeat (destruct I as [I|I]; [injection I as <- _; discriminate|]); destruct I.
      + eapply (FI "int16"%string 2%N Int16); [in_list | reflexivity | in_list | reflexivity ..].
      + eapply (FI "int32"%string 4%N Int32); [in_list | reflexivity | in_list | reflexivity ..].
      + eapply (FI "int64"%string 8%N Int64); [in_list | reflexivity | in_list | reflexivity ..].
      + apply (FX false 1%N); [in_list | auto | reflexivity | reflexivity | reflexivity|]. apply UN. intros g a I; cbn in I; repeat (destruct I as [I|I]; [injection I as <- _; discriminate|]); destruct I.
      + apply (FX false 2%N); [in_list | auto | reflexivity | reflexivity | reflexivity|]. apply UN. intros g a I; cbn in I; repeat (destruct I as [I|I]; [injection I as <- _; discriminate|]); destruct I.
      + apply (FX false 4%N); [in_list | auto | reflexivity | reflexivity | reflexivity|]. apply UN. intros g a I; cbn in I; repeat (destruct I as [I|I]; [injection I as <- _; discriminate|]); destruct I.
      + apply (FX false 8%N); [in_list | auto | reflexivity | reflexivity | reflexivity|]. apply UN. intros g a I; cbn in I; repeat (destruct I as [I|I]; [injection I as <- _; discriminate|]); destruct I.
      + apply (FF "float32"%string 4%N); [auto | reflexivity | in_list | reflexivity ..].
      + apply (FF "float64"%string 8%N); [auto | reflexivity | in_list | reflexivity ..].
    - assert (O : forall k x, ~ In (str k) metadata_keys -> dict_get d0 (str k) = x -> dict_get (with_metadata S d0 md) (str k) = x).
      { intros k' x N Q. rewrite meta_other by exact N. exact Q. }
      assert (KD : forall ty, dict_get d0 (str "type") = Some (JStr (str ty)) -> dict_get d0 (str "$ref") = None -> dict_get d0 (str "oneOf") = None -> kind (JObj dx) ty).
      { intros ty Q1 Q2 Q3. eapply core_kind; [exact W | exact C | rewrite O with (x := Some (JStr (str ty))) | apply O | apply O]; auto; not_meta. }
      assert (NX : forall k x, note (str k) = false -> ~ In (str k) metadata_keys -> dict_get d0 (str k) = None -> ~ has (JObj dx) k x).
      { intros k' x N1 N2 Q. apply L; [exact N1 | apply O; assumption]. }
      assert (ST : forall f k', dict_get d0 (str "format") = Some (JStr (str f)) -> dict_get d0 (str "const") = None -> In (f, k') text_formats -> kind (JObj dx) "string" -> t = TScalar k').
      { intros f k' Q1 Q2 I K. assert (HX : has (JObj dx) "format" (JStr (str f))) by (apply G; [reflexivity | apply O; [not_meta | exact Q1]]).
        destruct (kind_string _ _ _ _ _ _ W K H) as [c HC|f' k2 _ I' HF ->|vs c ms _ UL|j n _ UL|_ UL];
          [destruct (NX "const"%string _ eq_refl ltac:(not_meta) Q2 HC) | | destruct (UL _ _ I HX) ..].
        pose proof (has_once _ _ _ _ W HX HF) as Q. injection Q as Q. f_equal. clear - I I' Q. cbn in I, I'.
        repeat (destruct I as [I|I]; [injection I as <- <-; repeat (destruct I' as [I'|I']; [injection I' as <- <-; first [discriminate Q | reflexivity]|]); destruct I'|]). destruct I. }
      destruct k; try discriminate B; injection B as <-.
      + pose proof (KD "null"%string eq_refl eq_refl eq_refl) as K. apply kind_none with (ty := "null"%string) in H; [|exact W | exact K]. cbn in H.
        repeat (destruct H as [H|H]; [discriminate H|]). destruct H.
      + pose proof (KD "boolean"%string eq_refl eq_refl eq_refl) as K. destruct (kind_boolean _ _ _ _ _ _ W K H) as [[_ ->]|(b & HC & _)]; [apply cs_same; in_list|].
        destruct (NX "const"%string _ eq_refl ltac:(not_meta) eq_refl HC).
      + pose proof (KD "integer"%string eq_refl eq_refl eq_refl) as K.
        destruct (kind_integer _ _ _ _ _ _ W K H) as [(w & _ & IS & ->)|(j & z & HC & _)]; [|destruct (NX "const"%string _ eq_refl ltac:(not_meta) eq_refl HC)].
        destruct (meta_range S md (typed (str "integer")) eq_refl eq_refl) as [[NR QN]|(lo0 & hi0 & LR & Q1 & Q2)];
          destruct IS as [f w I HF|js zs lo hi w _ HE|l h lo hi w _ _ HM WM HX WX SM|_ _ LK];
          try (destruct (NX "format"%string _ eq_refl ltac:(not_meta) eq_refl HF)); try (destruct (NX "enum"%string _ eq_refl ltac:(not_meta) eq_refl HE)).
        * apply (proj1 (G "minimum"%string _ eq_refl)) in HM. congruence.
        * apply cs_int. exact NR.
        * apply (proj1 (G "minimum"%string _ eq_refl)) in HM. apply (proj1 (G "maximum"%string _ eq_refl)) in HX. rewrite Q1 in HM. rewrite Q2 in HX.
          injection HM as <-. injection HX as <-. apply whole_int in WM, WX. subst lo hi. eapply cs_range; [|exact LR | exact SM].
          intros FI. exact (fixed_aux _ FI A).
        * exfalso. destruct LK as [LK|LK]; [eapply (lacks_not _ _ _ LK); [apply G; [reflexivity | exact Q1] | discriminate] | eapply (lacks_not _ _ _ LK); [apply G; [reflexivity | exact Q2] | discriminate]].
      + pose proof (KD "number"%string eq_refl eq_refl eq_refl) as K.
        destruct (kind_number _ _ _ _ _ _ W K H) as [(_ & _ & LM & ->)|(f & n & _ & _ & HF & _)]; [|destruct (NX "format"%string _ eq_refl ltac:(not_meta) eq_refl HF)].
        apply cs_float; [intros ->; discriminate A | intros ->; discriminate A|].
        intros sig dec I. destruct (meta_precision S md (typed (str "number")) _ _ I) as (j & Q & N). eapply (lacks_not _ _ j LM); [apply G; [reflexivity | exact Q] | exact N].
      + pose proof (KD "string"%string eq_refl eq_refl eq_refl) as K.
        destruct (kind_string _ _ _ _ _ _ W K H) as [c HC|f k _ _ HF|vs c ms _ _ HE|j n _ _ _ HM WM ->|_ _ _ LM ->];
          [destruct (NX "const"%string _ eq_refl ltac:(not_meta) eq_refl HC) | destruct (NX "format"%string _ eq_refl ltac:(not_meta) eq_refl HF)
          | destruct (NX "enum"%string _ eq_refl ltac:(not_meta) eq_refl HE) | |];
          destruct (meta_bound S md (typed (str "string")) eq_refl) as [[NB QN]|(n0 & LB & Q)].
        * apply (proj1 (G "maxLength"%string _ eq_refl)) in HM. congruence.
        * apply (proj1 (G "maxLength"%string _ eq_refl)) in HM. rewrite Q in HM. injection HM as <-. apply whole_int in WM. assert (n = n0) by lia. subst n0. apply cs_bound. exact LB.
        * apply cs_str. exact NB.
        * exfalso. eapply (lacks_not _ _ _ LM); [apply G; [reflexivity | exact Q] | discriminate].
      + pose proof (KD "string"%string eq_refl eq_refl eq_refl) as K.
        assert (HX : has (JObj dx) "contentEncoding" (JStr (str "base64"))) by (apply G; [reflexivity | apply O; [not_meta | reflexivity]]). unspoken W SP K HX.
      + rewrite (ST "date-time"%string KDateTime eq_refl eq_refl ltac:(in_list) (KD "string"%string eq_refl eq_refl eq_refl)). apply cs_same. in_list.
      + rewrite (ST "date"%string KDate eq_refl eq_refl ltac:(in_list) (KD "string"%string eq_refl eq_refl eq_refl)). apply cs_same. in_list.
      + rewrite (ST "time"%string KTime eq_refl eq_refl ltac:(in_list) (KD "string"%string eq_refl eq_refl eq_refl)). apply cs_same. in_list.
      + rewrite (ST "duration"%string KTimeDelta eq_refl eq_refl ltac:(in_list) (KD "string"%string eq_refl eq_refl eq_refl)). apply cs_same. in_list.
      + rewrite (ST "uuid"%string KUUID eq_refl eq_refl ltac:(in_list) (KD "string"%string eq_refl eq_refl eq_refl)). apply cs_same. in_list.
  Qed.
End Scalars.

(** ** Types *)

Lemma core_see : forall dx d k x, json_wf (JObj dx) -> core dx = core d -> has (JObj dx) k x -> note (str k) = false -> dict_get d (str k) = Some x.
Proof. intros dx d k x W C H N. apply (core_has dx d k x W C N). exact H. Qed.

Ltac see R W C := apply (core_see _ _ _ _ W C) in R; [|reflexivity].

Definition fluent (s : json) : Prop := forall p, inside s p -> spoken p.

Lemma enum_types_one : forall ms k, enum_value_types ms = Ok [k] -> forall mj, In mj ms -> json_scalar (snd mj) = Ok k.
Proof.
  intros ms k H mj I. unfold enum_value_types in H. apply bind_ok in H. destruct H as (ks & M & H). apply mapM_ok in M.
  destruct (Forall2_in_l _ _ _ _ _ _ M I) as (k' & J & Q). injection H as H. rewrite Q. f_equal.
  match type of H with nodup ?dec ks = _ => assert (X : In k' (nodup dec ks)) by (apply nodup_In; exact J) end. rewrite H in X. destruct X as [->|[]]. reflexivity.
Qed.

Lemma enum_type_scalar : forall ms k, enum_value_types ms = Ok [k] -> In k [KNone; KBool; KInt; KFloat; KStr].
Proof.
  intros ms k H. unfold enum_value_types in H. apply bind_ok in H. destruct H as (ks & M & H). apply mapM_ok in M. injection H as H.
  match type of H with nodup ?dec ks = _ => assert (X : In k ks) by (apply (nodup_In dec); rewrite H; left; reflexivity) end.
  destruct (Forall2_in_r _ _ _ _ _ _ M X) as (mj & _ & Q). destruct (snd mj); try discriminate Q; injection Q as <-; in_list.
Qed.

Lemma all_strings : forall (ms : list (pystr * json)), (forall mj, In mj ms -> json_scalar (snd mj) = Ok KStr) -> exists vs, map snd ms = map JStr vs.
Proof.
  intros ms. induction ms as [|[x j] ms IH]; intros H; [exists []; reflexivity|].
  destruct IH as (vs & Q); [intros mj I; apply H; right; exact I|]. specialize (H _ (or_introl eq_refl)). cbn [snd] in H.
  destruct j; try discriminate H. exists (s :: vs). cbn [map snd]. rewrite Q. reflexivity.
Qed.

Lemma all_ints : forall (ms : list (pystr * json)), (forall mj, In mj ms -> json_scalar (snd mj) = Ok KInt) -> exists vs, map snd ms = map JInt vs.
Proof.
  intros ms. induction ms as [|[x j] ms IH]; intros H; [exists []; reflexivity|].
  destruct IH as (vs & Q); [intros mj I; apply H; right; exact I|]. specialize (H _ (or_introl eq_refl)). cbn [snd] in H.
  destruct j; try discriminate H. exists (z :: vs). cbn [map snd]. rewrite Q. reflexivity.
Qed.

Lemma whole_ints : forall zs zs', Forall2 whole (map JInt zs) zs' -> zs' = zs.
Proof.
  intros zs. induction zs as [|z zs IH]; intros zs' H; cbn [map] in H; inversion H; subst; [reflexivity|].
  f_equal; [eapply whole_int; eassumption | apply IH; assumption].
Qed.

Lemma strings_inj : forall vs vs', map JStr vs = map JStr vs' -> vs = vs'.
Proof. intros vs. induction vs as [|v vs IH]; intros [|v' vs'] H; try discriminate H; [reflexivity|]. cbn [map] in H. injection H as -> H. f_equal. apply IH. exact H. Qed.

Section Types.
  Variables (E : env) (S : senv) (U : unicode) (F : env) (m : nat).
  Hypothesis OK : env_ok E.
  Hypothesis CE : canonical_env E.
  Hypothesis PATH : s_path S = str "#/definitions/".
  Hypothesis DN : forall c cl ps, get_class E c = Some cl -> class_properties E cl = Ok ps -> distinct_names ps.
  Notation sh := (shaped U F m).
  Notation copy := (copy E S U F m).

  (** The properties of a class, in order. *)
  Definition property_schema (n : nat) (c : nat) (xt : pystr * typ) (p : pystr * json) : Prop :=
    fst p = out_name (fst xt) (snd xt) /\ exists w d0 dx u u', (if is_type_optional (snd xt) then unwrap_optional (snd xt) = Ok w else w = snd xt) /\
      type_to_schema E S n false w u = Ok (d0, u') /\ finish_property E S c (fst xt) d0 = Ok dx /\ snd p = JObj dx.

  Lemma properties_listed : forall n c ps props required u props' required' u',
    properties_schema (type_to_schema E S n false) E S c ps props required u = Ok (props', required', u') -> NoDup (map (fun f => out_name (fst f) (snd f)) ps) ->
    (forall f, In f ps -> ~ In (out_name (fst f) (snd f)) (map fst props)) -> exists new, props' = props ++ new /\ Forall2 (property_schema n c) ps new.
  Proof.
    intros n c ps. induction ps as [|[x t] ps IH]; intros props required u props' required' u' H N D; cbn [properties_schema] in H.
    - injection H as <- <- <-. exists []. split; [rewrite app_nil_r; reflexivity | constructor].
    - apply bind_ok in H. destruct H as (w & W & H). apply bind_ok in H. destruct H as ([d0 u1] & A & H). apply bind_ok in H. destruct H as (dx & Dx & H).
      cbn [fst snd map] in *. inversion N as [|? ? N1 N2]; subst. fold (out_name x t) in H.
      rewrite dict_set_fresh in H by (apply (D _ (or_introl eq_refl))). apply IH in H; [|exact N2|].
      + destruct H as (new & -> & FA). exists ((out_name x t, JObj dx) :: new). split; [rewrite <- app_assoc; reflexivity|]. constructor; [|exact FA].
        split; [reflexivity|]. exists w, d0, dx, u, u1. cbn [fst snd]. split; [destruct (is_type_optional t); [exact W | injection W as <-; reflexivity]|]. auto.
      + intros f I J. rewrite map_app in J. apply in_app_iff in J. destruct J as [J|[J|[]]]; [exact (D f (or_intror I) J)|].
        apply N1. cbn [fst] in J. rewrite J. apply in_map_iff. exists f. auto.
  Qed.

  Section Step.
    Variable n : nat.
    Hypothesis IH : forall force t u d u', type_to_schema E S n force t u = Ok (d, u') ->
      forall ctx dx t', core dx = core d -> json_wf (JObj dx) -> fluent (JObj dx) -> sh ctx (JObj dx) t' -> copy (negb force) ctx t t'.

    Lemma seq_copies : forall ctx ts u js u', seq_schema (type_to_schema E S n false) ts u = Ok (js, u') ->
      (forall j, In j js -> json_wf j /\ fluent j) -> forall us, Forall2 (sh ctx) js us -> Forall2 (copy true ctx) ts us.
    Proof.
      intros ctx ts. induction ts as [|t ts IHt]; intros u js u' H WF us FA; cbn [seq_schema] in H.
      - injection H as <- _. inversion FA. constructor.
      - apply bind_ok in H. destruct H as ([d u1] & A & H). apply bind_ok in H. destruct H as ([js' u2] & B & H). cbn [fst snd] in *. injection H as <- _.
        inversion FA as [|? v ? us' Sh FA']; subst. destruct (WF _ (or_introl eq_refl)) as [W FL].
        constructor; [apply (IH _ _ _ _ _ A ctx d v eq_refl W FL Sh) | eapply IHt; [exact B | intros j I; apply WF; right; exact I | exact FA']].
    Qed.

    Lemma enum_copy : forall named c cl ms d dx ctx t', get_class E c = Some cl -> c_kind cl = CEnum ms -> enum_to_schema S (TClass c) ms = Ok d ->
      core dx = core d -> json_wf (JObj dx) -> spoken (JObj dx) -> sh ctx (JObj dx) t' -> inlined S named (TClass c) -> copy named ctx (TClass c) t'.
    Proof.
      intros named c cl ms d dx ctx t' GC KC D C W SP H IL. unfold enum_to_schema in D. apply bind_ok in D. destruct D as (ks & EV & D).
      destruct ks as [|k [|? ?]]; try discriminate D. pose proof (enum_types_one _ _ EV) as AL. apply enum_type_scalar in EV.
      assert (DS : exists d0, (match k with
        | KBool => Ok [(str "type", JStr (str "boolean")); (str "enum", JArr (map snd ms))] | KInt => Ok [(str "type", JStr (str "integer")); (str "enum", JArr (map snd ms))]
        | KFloat => Ok [(str "type", JStr (str "number")); (str "enum", JArr (map snd ms))] | KStr => Ok [(str "type", JStr (str "string")); (str "enum", JArr (map snd ms))]
        | _ => match simple_type_to_schema (TScalar k) with Some d => Ok d | None => Err EUnmodelled end end) = Ok d0 /\ core dx = core d0).
      { assert (X : forall d0, core (describe S (TClass c) d0) = core d0) by (intros d0; apply (describe_filter (fun k => negb (note k))); reflexivity).
        destruct EV as [<-|[<-|[<-|[<-|[<-|[]]]]]]; cbn [simple_type_to_schema] in D; injection D as <-; eexists; (split; [reflexivity|]); rewrite C; apply X. }
      clear D C. destruct DS as (d0 & D & C).
      assert (G := fun k x Nk => core_has dx d0 k x W C Nk).
      assert (L := fun k Nk Q => core_lacks dx d0 k W C Nk Q).
      destruct EV as [<-|[<-|[<-|[<-|[<-|[]]]]]]; cbn [simple_type_to_schema] in D; injection D as <-.
      - pose proof (core_kind dx _ "null" W C eq_refl eq_refl eq_refl) as K. apply kind_none with (ty := "null"%string) in H; [|exact W | exact K]. cbn in H.
        repeat (destruct H as [H|H]; [discriminate H|]). destruct H.
      - pose proof (core_kind dx _ "boolean" W C eq_refl eq_refl eq_refl) as K.
        assert (HX : has (JObj dx) "enum" (JArr (map snd ms))) by (apply G; reflexivity). unspoken W SP K HX.
      - pose proof (core_kind dx _ "integer" W C eq_refl eq_refl eq_refl) as K.
        assert (HX : has (JObj dx) "enum" (JArr (map snd ms))) by (apply G; reflexivity).
        destruct (kind_integer _ _ _ _ _ _ W K H) as [(w & _ & IS & ->)|(j & z & HC & _)]; [|destruct (L "const"%string eq_refl eq_refl _ HC)].
        destruct IS as [f w I HF|js zs lo hi w _ HE FW I1 I2 LE SM|l h lo hi w _ LE|_ LE];
          [destruct (L "format"%string eq_refl eq_refl _ HF) | | exfalso; eapply (lacks_not _ _ _ LE HX); discriminate ..].
        pose proof (has_once _ _ _ _ W HX HE) as Q. injection Q as Q. destruct (all_ints _ AL) as (zs' & Q'). rewrite Q' in Q. subst js. apply whole_ints in FW. subst zs'.
        eapply (cp_numbers _ _ _ _ _ named ctx c cl ms zs lo hi w); assumption.
      - pose proof (core_kind dx _ "number" W C eq_refl eq_refl eq_refl) as K.
        assert (HX : has (JObj dx) "enum" (JArr (map snd ms))) by (apply G; reflexivity). unspoken W SP K HX.
      - pose proof (core_kind dx _ "string" W C eq_refl eq_refl eq_refl) as K.
        assert (HX : has (JObj dx) "enum" (JArr (map snd ms))) by (apply G; reflexivity).
        destruct (kind_string _ _ _ _ _ _ W K H) as [c' HC|f k _ _ HF|vs c' ms' _ _ HE GF ND MS ->|j n0 _ _ LE|_ _ LE];
          [destruct (L "const"%string eq_refl eq_refl _ HC) | destruct (L "format"%string eq_refl eq_refl _ HF) | | exfalso; eapply (lacks_not _ _ _ LE HX); discriminate ..].
        pose proof (has_once _ _ _ _ W HX HE) as Q. injection Q as Q. eapply cp_enum; eassumption.
    Qed.

    Lemma inside_property : forall s ps x p, json_wf s -> fluent s -> has s "properties" (JObj ps) -> In (x, p) ps -> json_wf p /\ fluent p.
    Proof.
      intros s ps x p W FL H I. split.
      - destruct H as (kws & -> & J). eapply wf_value; [eapply wf_value; [exact W | exact J] | exact I].
      - intros q Q. apply FL. eapply in_property; eassumption.
    Qed.

    Lemma object_core : forall props required, core (object_schema props required) = object_schema props required.
    Proof. intros props required. unfold object_schema. destruct props, required; reflexivity. Qed.

    Lemma object_required : forall props required l, dict_get (object_schema props required) (str "required") = Some (JArr l) -> l = map JStr required.
    Proof. intros props required l H. unfold object_schema in H. destruct props, required; cbn in H; first [discriminate H | injection H as <-; reflexivity]. Qed.

    Lemma required_given : forall props required x, In x required -> dict_get (object_schema props required) (str "required") = Some (JArr (map JStr required)).
    Proof. intros props required x I. destruct required; [destruct I|]. unfold object_schema. destruct props; reflexivity. Qed.

    Lemma object_copy : forall named c cl ps props required u u1 dx ctx t', get_class E c = Some cl -> not_enum cl -> class_properties E cl = Ok ps ->
      properties_schema (type_to_schema E S n false) E S c ps [] [] u = Ok (props, required, u1) -> core dx = object_schema props required ->
      json_wf (JObj dx) -> fluent (JObj dx) -> sh ctx (JObj dx) t' -> inlined S named (TClass c) -> copy named ctx (TClass c) t'.
    Proof.
      intros named c cl ps props required u u1 dx ctx t' GC NE CP PS C W FL H IL. rewrite <- object_core in C.
      assert (G := fun k x Nk => core_has dx (object_schema props required) k x W C Nk).
      assert (K : kind (JObj dx) "object") by (eapply core_kind; [exact W | exact C | | |]; unfold object_schema; destruct props, required; reflexivity).
      destruct (kind_object _ _ _ _ _ _ W K H) as (ps' & c' & fs & HP & HA & FA & GF & ->).
      assert (Q : ps' = props).
      { apply (proj1 (G "properties"%string _ eq_refl)) in HP. unfold object_schema in HP. destruct props, required; cbn in HP; first [discriminate HP | injection HP as <-; reflexivity]. }
      subst ps'. pose proof (distinct_out _ (field_names _ OK _ _ _ GC CP) (DN _ _ _ GC CP)) as ND.
      destruct (properties_listed _ _ _ _ _ _ _ _ _ PS ND (fun f _ I => I)) as (new & QN & FP). cbn [app] in QN. subst new.
      pose proof (proj2 (proj2 (properties_names _ _ _ _ _ _ _ _ _ _ _ PS))) as RQ.
      assert (DM : forall x t, In (x, t) ps -> (demanded (JObj dx) (out_name x t) <-> is_type_optional t = false)).
      { intros x t I. split.
        - intros (l & HR & J). apply (proj1 (G "required"%string _ eq_refl)) in HR. apply object_required in HR. subst l. apply in_map_iff in J. destruct J as (y & Q & J).
          injection Q as ->. apply RQ in J. destruct J as [[]|(x' & t'' & I' & Q & O)].
          assert (X : (x, t) = (x', t'')) by (apply (DN _ _ _ GC CP x t x' t'' (out_name x t) I I'); apply out_name_spec; congruence). congruence.
        - intros O. assert (J : In (out_name x t) required) by (apply RQ; right; exists x, t; auto). exists (map JStr required). split; [|apply in_map; exact J].
          apply G; [reflexivity|]. eapply required_given. exact J. }
      eapply (cp_class E S U F m named ctx c cl ps c' fs); try eassumption.
      clear GF RQ. 
      assert (X : Forall2 (fun xt f => exists p, In p props /\ In xt ps /\ property_schema n c xt p /\
        f_name f = fst p /\ nameable U (fst p) /\ exists t, sh (ctx ++ str "__" ++ fst p) (snd p) t /\
        (demanded (JObj dx) (fst p) -> f_type f = t) /\ (~ demanded (JObj dx) (fst p) -> mk_union false [TScalar KNone; t] = Ok (f_type f)) /\
        preset F m (snd p) t (f_default f)) ps fs).
      { clear - FP FA. revert FP FA. generalize (fun x : json => x). intros _.
        assert (Y : forall ps0 pr0 fs0, Forall2 (property_schema n c) ps0 pr0 -> Forall2 (fun xp f => f_name f = fst xp /\ nameable U (fst xp) /\ exists t, sh (ctx ++ str "__" ++ fst xp) (snd xp) t /\
          (demanded (JObj dx) (fst xp) -> f_type f = t) /\ (~ demanded (JObj dx) (fst xp) -> mk_union false [TScalar KNone; t] = Ok (f_type f)) /\
          preset F m (snd xp) t (f_default f)) pr0 fs0 -> incl ps0 ps -> incl pr0 props ->
          Forall2 (fun xt f => exists p, In p props /\ In xt ps /\ property_schema n c xt p /\
            f_name f = fst p /\ nameable U (fst p) /\ exists t, sh (ctx ++ str "__" ++ fst p) (snd p) t /\
            (demanded (JObj dx) (fst p) -> f_type f = t) /\ (~ demanded (JObj dx) (fst p) -> mk_union false [TScalar KNone; t] = Ok (f_type f)) /\
            preset F m (snd p) t (f_default f)) ps0 fs0).
        { intros ps0 pr0 fs0 A. revert fs0. induction A as [|a b ps0 pr0 Pab A IHA]; intros fs0 B I1 I2; inversion B; subst; constructor.
          - exists b. split; [apply I2; left; reflexivity|]. split; [apply I1; left; reflexivity|]. split; [exact Pab | assumption].
          - apply IHA; [assumption | intros z Z; apply I1; right; exact Z | intros z Z; apply I2; right; exact Z]. }
        intros FP FA. eapply Y; [exact FP | exact FA | apply incl_refl | apply incl_refl]. }
      eapply Forall2_impl_in; [|exact X]. clear X FA FP. intros [x t] f _ _ (p & Ip & It & (Q1 & w & d0 & dxp & u2 & u3 & RW & TS & FN & Q2) & NM & NB & v & SH & TY & TN & PR).
      cbn [fst snd] in *. destruct p as [px pj]. cbn [fst snd] in *. subst px pj. destruct (inside_property _ _ _ _ W FL HP Ip) as [Wp Fp].
      pose proof (finish_core _ _ _ _ _ _ FN) as CR.
      split; [rewrite NM; apply out_name_spec; reflexivity|]. split; [rewrite NM; exact NB|]. exists w, v.
      split; [apply read_by; [exact (properties_canonical _ _ _ _ _ _ CE GC CP It) | exact RW]|].
      split; [rewrite NM; exact (IH _ _ _ _ _ TS _ _ _ CR Wp Fp SH)|].
      split; [intros NO; apply TY; apply (DM _ _ It); destruct (is_type_optional t) eqn:O; [apply is_type_optional_spec in O; contradiction | reflexivity]|].
      split; [intros O; apply TN; intros D; apply (DM _ _ It) in D; apply is_type_optional_spec in O; congruence|].
      destruct (finish_default _ _ _ _ _ _ FN (no_default _ _ _ _ _ _ _ _ TS)) as [D1 D2]. destruct PR as (P1 & _ & P3). split.
      - intros NW. apply P1. apply lacks_none. intros y HY. apply wf_has in HY; [|exact Wp]. rewrite D2 in HY; [discriminate HY|].
        destruct (dict_get (s_attrs S c) x) as [a|]; [apply NW; reflexivity | exact (fun f => f)].
      - intros a j QA WD OJ NJ NL. rewrite QA in D1. destruct (D1 WD) as (a' & j' & Qa & OJ' & DG). injection Qa as <-. rewrite OJ in OJ'. injection OJ' as <-.
        apply P3; [exact NJ | apply get_has; exact DG|]. eapply varied_lacks; [exact Wp | apply Fp; apply in_self | exact SH | exact NL].
    Qed.

    Lemma dict_copy : forall named c cl ms vs w dw u u1 dx ctx t', get_class E c = Some cl -> c_kind cl = CEnum ms -> mapM (fun m => value_text (snd m)) ms = Ok vs ->
      length vs <= 4 -> type_to_schema E S n false w u = Ok (dw, u1) ->
      core dx = core (typed (str "object") ++ [(str "properties", JObj (dict_of (map (fun s => (s, JObj dw)) vs))); (str "additionalProperties", JBool false)]) ->
      json_wf (JObj dx) -> fluent (JObj dx) -> sh ctx (JObj dx) t' -> inlined S named (TDict (TClass c) w) -> copy named ctx (TDict (TClass c) w) t'.
    Proof.
      intros named c cl ms vs w dw u u1 dx ctx t' GC KC VS LE TS C W FL H IL.
      match type of C with _ = core ?d => assert (G := fun k x Nk => core_has dx d k x W C Nk); assert (K : kind (JObj dx) "object") by (eapply core_kind; [exact W | exact C | reflexivity ..]) end.
      destruct (kind_object _ _ _ _ _ _ W K H) as (ps' & c' & fs & HP & HA & FA & GF & ->).
      assert (Q : ps' = dict_of (map (fun s => (s, JObj dw)) vs)).
      { apply (proj1 (G "properties"%string _ eq_refl)) in HP. cbn [typed app dict_get] in HP. cbn in HP. injection HP as <-. reflexivity. }
      assert (NDP : NoDup (map fst ps')) by (rewrite Q; apply (proj1 (merged_keys _ _ (merged_dict_of _)))).
      assert (NAM : map f_name fs = map fst ps').
      { clear - FA. induction FA as [|p f ps fs (A & _) FA IHF]; [reflexivity|]. cbn [map]. rewrite A, IHF. reflexivity. }
      assert (ND : forall x, ~ demanded (JObj dx) x).
      { intros x (l & HR & _). apply (proj1 (G "required"%string _ eq_refl)) in HR. discriminate HR. }
      assert (FD : forall f, In f fs -> nameable U (f_name f) /\ f_default f = None /\ exists v, copy true (ctx ++ str "__" ++ f_name f) w v /\
        mk_union false [TScalar KNone; v] = Ok (f_type f)).
      { intros f I. destruct (Forall2_in_r _ _ _ _ _ _ FA I) as ([x p] & J & NM & NB & v & SH & _ & TN & (P1 & _)). cbn [fst snd] in *.
        assert (QP : p = JObj dw).
        { rewrite Q in J. pose proof (in_map fst _ _ J) as JK. apply (proj1 (dict_of_keys (fun _ _ _ => true) JNull _ _ _)) in JK. cbn [fst] in JK.
          pose proof (dict_of_same _ (JObj dw) _ JK) as DG. rewrite Q in NDP. rewrite (dict_get_nodup _ _ _ NDP J) in DG. injection DG as ->. reflexivity. }
        subst p. destruct (inside_property _ _ _ _ W FL HP J) as [Wp Fp].
        split; [rewrite NM; exact NB|]. split; [|exists v; split; [rewrite NM; exact (IH _ _ _ _ _ TS _ _ _ eq_refl Wp Fp SH) | apply TN; apply ND]].
        apply P1. apply lacks_none. intros y HY. apply wf_has in HY; [|exact Wp]. rewrite (no_default _ _ _ _ _ _ _ _ TS) in HY. discriminate HY. }
      assert (FO : fields_in_order fs = fs).
      { unfold fields_in_order. rewrite (filter_ext_in _ (fun _ => true)) by (intros f I; destruct (FD f I) as (_ & -> & _); reflexivity).
        rewrite (filter_ext_in (fun f => match f_default f with None => false | Some _ => true end) (fun _ => false)) by (intros f I; destruct (FD f I) as (_ & -> & _); reflexivity).
        clear. assert (X : filter (fun _ : PyTypes.field => false) fs = []) by (induction fs; auto). rewrite X, app_nil_r. clear X. induction fs as [|f fs IHf]; [reflexivity|]. cbn [filter]. rewrite IHf. reflexivity. }
      rewrite FO in GF. apply mapM_ok in VS. eapply (cp_dict E S U F m named ctx c cl ms vs w c' fs); try eassumption.
      - rewrite (Forall2_length_eq _ _ _ _ _ VS). exact LE.
      - eapply Forall2_impl_in; [|exact VS]. intros mj x _ _ V. apply value_spelled. exact V.
      - intros x. rewrite NAM, Q, (dict_of_keys (fun _ _ _ => true) JNull). tauto.
      - rewrite NAM. exact NDP.
    Qed.

    Lemma describe_core : forall t d, core (describe S t d) = core d.
    Proof. intros t d. apply (describe_filter (fun k => negb (note k))); reflexivity. Qed.

    Lemma bare_object : forall dx ctx t, core dx = core (typed (str "object")) -> json_wf (JObj dx) -> sh ctx (JObj dx) t -> False.
    Proof.
      intros dx ctx t C W H. assert (K : kind (JObj dx) "object") by (eapply core_kind; [exact W | exact C | reflexivity ..]).
      destruct (kind_object _ _ _ _ _ _ W K H) as (ps' & _ & _ & HP & _). see HP W C. discriminate HP.
    Qed.

    Lemma ref_copy : forall s dx ctx t, core dx = core (ref_to S s) -> json_wf (JObj dx) -> sh ctx (JObj dx) t -> exists b, lookup F m s = Some (b, t).
    Proof.
      intros s dx ctx t C W H. eapply kind_ref; [exact W | apply (core_has _ _ _ _ W C); [reflexivity|] | | | exact H].
      - unfold ref_to, path. rewrite PATH. reflexivity.
      - intros ty T. see T W C. discriminate T.
      - intros x T. see T W C. discriminate T.
    Qed.

    Lemma expand_copy : forall force named t u d u', expand E S (type_to_schema E S n) force t u = Ok (d, u') ->
      (forall s, t = TRef s -> named = negb force) -> ((forall s, t <> TRef s) -> inlined S named t) ->
      forall ctx dx t', core dx = core d -> json_wf (JObj dx) -> fluent (JObj dx) -> sh ctx (JObj dx) t' -> copy named ctx t t'.
    Proof.
      intros force named t u d u' H NR IL ctx dx t' C W FL SH. pose proof (FL _ (in_self _)) as SP.
      destruct t as [k|b|w|w|k w|ts|op ts|ls|w md|c|s|]; cbn [expand] in H; try discriminate H.
      - injection H as <- _. rewrite describe_core in C. destruct (bare_object _ _ _ C W SH).
      - injection H as <- _. rewrite describe_core in C. destruct (bare_object _ _ _ C W SH).
      - apply bind_ok in H. destruct H as ([dw u1] & A & H). injection H as <- _. cbn [fst] in C.
        match type of C with _ = core ?d => assert (K : kind (JObj dx) "array") by (eapply (core_kind dx d); [exact W | exact C | reflexivity ..]) end.
        destruct (kind_array _ _ _ _ _ _ W K SH) as (p & v & HI & SI & ->). pose proof HI as HI'. see HI' W C. cbn in HI'. injection HI' as <-.
        apply cp_list; [apply IL; intros; discriminate|]. refine (IH _ _ _ _ _ A _ _ _ eq_refl _ _ SI).
        + destruct HI as (kws & Q & J). injection Q as <-. eapply wf_value; eassumption.
        + intros q Iq. apply FL. eapply in_items; eassumption.
      - apply bind_ok in H. destruct H as ([dw u1] & A & H). injection H as <- _. cbn [fst] in C.
        match type of C with _ = core ?d => assert (K : kind (JObj dx) "array") by (eapply (core_kind dx d); [exact W | exact C | reflexivity ..]) end.
        assert (HX : has (JObj dx) "uniqueItems" (JBool true)) by (apply (core_has _ _ _ _ W C); reflexivity). unspoken W SP K HX.
      - apply bind_ok in H. destruct H as ([] & _ & H). apply bind_ok in H. destruct H as ([dw u1] & A & H). apply bind_ok in H. destruct H as (dk & D & H).
        injection H as <- _. cbn [fst] in D. unfold dict_to_schema in D.
        assert (NP : dict_get dk (str "properties") = None -> False).
        { intros Q. assert (KX : kind (JObj dx) "object" -> False).
          { intros K. destruct (kind_object _ _ _ _ _ _ W K SH) as (ps' & _ & _ & HP & _). see HP W C. change (dict_get dk (str "properties") = Some (JObj ps')) in HP. congruence. }
          inversion SH; subst; try match goal with
            | R : of_type _ _ |- _ => see R W C; discriminate R
            | R : has _ "properties" _ |- _ => see R W C; change (dict_get dk (str "properties") = Some (JObj ps)) in R; congruence
            end.
          - match goal with R : has _ "$ref" _ |- _ => see R W C; change (dict_get dk (str "$ref") = Some (JStr (path x))) in R; clear - D R; rename R into RR end.
            destruct k as [[]| | | | | | | |k' md'|c| |]; try discriminate D; try (injection D as <-; discriminate RR).
            + destruct k'; discriminate D.
            + destruct (get_class E c) as [cl|]; [|discriminate D]. destruct (c_kind cl); try discriminate D. apply bind_ok in D. destruct D as (vs & _ & D).
              destruct (4 <? length vs); injection D as <-; discriminate RR.
          - match goal with R : has _ "oneOf" _ |- _ => see R W C; change (dict_get dk (str "oneOf") = Some (JArr ss)) in R; clear - D R; rename R into RR end.
            destruct k as [[]| | | | | | | |k' md'|c| |]; try discriminate D; try (injection D as <-; discriminate RR).
            + destruct k'; discriminate D.
            + destruct (get_class E c) as [cl|]; [|discriminate D]. destruct (c_kind cl); try discriminate D. apply bind_ok in D. destruct D as (vs & _ & D).
              destruct (4 <? length vs); injection D as <-; discriminate RR. }
        destruct k as [[]| | | | | | | |k' md'|c| |]; try discriminate D; try (injection D as <-; destruct (NP eq_refl)).
        + destruct k'; discriminate D.
        + destruct (get_class E c) as [cl|] eqn:GC; [|discriminate D]. destruct (c_kind cl) as [ms| | | |] eqn:KC; try discriminate D.
          apply bind_ok in D. destruct D as (vs & VS & D). destruct (4 <? length vs) eqn:LN; injection D as <-; [destruct (NP eq_refl)|].
          apply Nat.ltb_ge in LN. eapply dict_copy; try eassumption. apply IL. intros; discriminate.
      - apply bind_ok in H. destruct H as ([js u1] & A & H). injection H as <- _. cbn [fst] in C.
        match type of C with _ = core ?d => assert (K : kind (JObj dx) "array") by (eapply (core_kind dx d); [exact W | exact C | reflexivity ..]) end.
        assert (HX : has (JObj dx) "prefixItems" (JArr js)) by (apply (core_has _ _ _ _ W C); reflexivity). unspoken W SP K HX.
      - destruct (is_type_union (TUnion op ts)); [|discriminate H]. apply bind_ok in H. destruct H as ([js u1] & A & H). injection H as <- _. cbn [fst] in C.
        assert (HO : has (JObj dx) "oneOf" (JArr js)) by (apply (core_has _ _ _ _ W C); reflexivity).
        assert (N1 : forall ty, ~ of_type (JObj dx) ty) by (intros ty T; see T W C; discriminate T).
        assert (N2 : forall x, ~ has (JObj dx) "$ref" x) by (intros x T; see T W C; discriminate T).
        destruct (kind_union _ _ _ _ _ _ _ W HO N1 N2 SH) as (us & FU & MU). eapply cp_union; [apply IL; intros; discriminate | | exact MU]. eapply seq_copies; [exact A | | exact FU]. intros j I. split.
        + destruct HO as (kws & Q & J). injection Q as <-. eapply wf_element; [eapply wf_value; eassumption | exact I].
        + intros q Iq. apply FL. eapply in_member; eassumption.
      - destruct ls as [|l [|? ?]]; try discriminate H. apply bind_ok in H. destruct H as (j & LC & H). apply bind_ok in H. destruct H as ([dw u1] & A & H). injection H as <- _. cbn [fst] in C.
        assert (SD : simple_type_to_schema (lit_type l) = Some dw).
        { destruct n as [|n0]; [discriminate A|]. destruct l; try discriminate LC; cbn in A; injection A as <- _; reflexivity. }
        assert (HC : has (JObj dx) "const" j) by (apply (core_has _ _ _ _ W C); [reflexivity | rewrite set_lookup; reflexivity]).
        assert (ILL := IL ltac:(intros; discriminate)). clear NR IL A.
        destruct l; try discriminate LC; injection LC as <-; cbn in SD; injection SD as <-.
        + assert (K : kind (JObj dx) "null") by (eapply core_kind; [exact W | exact C | reflexivity ..]). apply kind_none with (ty := "null"%string) in SH; [|exact W | exact K]. cbn in SH.
          repeat (destruct SH as [SH|SH]; [discriminate SH|]). destruct SH.
        + assert (K : kind (JObj dx) "boolean") by (eapply core_kind; [exact W | exact C | reflexivity ..]).
          destruct (kind_boolean _ _ _ _ _ _ W K SH) as [[LK _]|(b' & HC' & ->)]; [exfalso; eapply (lacks_not _ _ _ LK HC); discriminate|].
          pose proof (has_once _ _ _ _ W HC HC') as Q. injection Q as <-. apply cp_literal; [exact ILL | eauto].
        + assert (K : kind (JObj dx) "integer") by (eapply core_kind; [exact W | exact C | reflexivity ..]).
          destruct (kind_integer _ _ _ _ _ _ W K SH) as [(w & LK & _)|(j & z' & HC' & WH & ->)]; [exfalso; eapply (lacks_not _ _ _ LK HC); discriminate|].
          pose proof (has_once _ _ _ _ W HC HC') as Q. subst j. apply whole_int in WH. subst z'. apply cp_literal; [exact ILL | eauto].
        + assert (K : kind (JObj dx) "string") by (eapply core_kind; [exact W | exact C | reflexivity ..]).
          destruct (kind_string _ _ _ _ _ _ W K SH) as [c HC' ->|f k LK|vs c ms LK|j n0 LK|LK]; [|exfalso; eapply (lacks_not _ _ _ LK HC); discriminate ..].
          pose proof (has_once _ _ _ _ W HC HC') as Q. injection Q as <-. apply cp_literal; [exact ILL | eauto].
      - destruct (get_class E c) as [cl|] eqn:GC; [|discriminate H]. assert (ILL := IL ltac:(intros; discriminate)).
        assert (OB : not_enum cl -> (do ps <- class_properties E cl; do x <- properties_schema (type_to_schema E S n false) E S c ps [] [] u;
          Ok (describe S (TClass c) (object_schema (fst (fst x)) (snd (fst x))), snd x)) = Ok (d, u') -> copy named ctx (TClass c) t').
        { intros NE H'. apply bind_ok in H'. destruct H' as (ps & CP & H'). apply bind_ok in H'. destruct H' as ([[props required] u1] & PS & H').
          cbn [fst snd] in H'. injection H' as <- _. rewrite describe_core in C. eapply object_copy; try eassumption.
          rewrite <- object_core. rewrite <- object_core in C. 
          assert (X : core (core dx) = core dx).
          { clear. unfold core. induction dx as [|[k x] dx IHd]; [reflexivity|]. cbn [filter fst]. destruct (negb (note k)) eqn:Q; [cbn [filter fst]; rewrite Q, IHd; reflexivity | exact IHd]. }
          rewrite C. rewrite !object_core. reflexivity. }
        destruct (c_kind cl) as [ms|fs|ts|fr fs|fs] eqn:KC.
        + apply bind_ok in H. destruct H as (d' & D & H). injection H as <- _. eapply enum_copy; eassumption.
        + apply OB; [intros ? Q; congruence | exact H].
        + apply OB; [intros ? Q; congruence | exact H].
        + apply OB; [intros ? Q; congruence | exact H].
        + apply OB; [intros ? Q; congruence | exact H].
      - rewrite (NR _ eq_refl). destruct force.
        + destruct (s_eval S s) as [w|] eqn:V; [|discriminate H]. eapply cp_evaluated; [exact V|]. exact (IH _ _ _ _ _ H _ _ _ C W FL SH).
        + assert (Q : d = ref_to S s) by (destruct (s_eval S s); injection H as <- _; reflexivity). subst d.
          destruct (ref_copy _ _ _ _ C W SH) as (b & LK). eapply cp_text. exact LK.
    Qed.
  End Step.

  Lemma uncatalogued : forall t, (forall s, t <> TRef s) -> in_catalog S t = false -> forall e, get (s_catalog S) t <> Ok e.
  Proof.
    intros t NR H e G. destruct t; try (unfold in_catalog, contains in H; unfold get in G; destruct (type_get _ _); congruence). destruct (NR s eq_refl).
  Qed.

  Lemma schema_copy : forall n force t u d u', type_to_schema E S n force t u = Ok (d, u') ->
    forall ctx dx t', core dx = core d -> json_wf (JObj dx) -> fluent (JObj dx) -> sh ctx (JObj dx) t' -> copy (negb force) ctx t t'.
  Proof.
    induction n as [|n IH]; intros force t u d u' H ctx dx t' C W FL SH; [discriminate H|]. cbn [type_to_schema] in H. pose proof (FL _ (in_self _)) as SP.
    destruct (simple_type_to_schema t) as [d0|] eqn:B.
    { injection H as <- _. destruct t; try discriminate B. destruct (plain_scalar _ _ _ _ _ _ _ _ B C W SP SH) as [I ->]. apply cp_scalar. exact I. }
    destruct (negb force && in_catalog S t) eqn:IC.
    { apply bind_ok in H. destruct H as (e & GE & H). cbv zeta in H. injection H as <- _. apply andb_true_iff in IC. destruct IC as [IC _]. rewrite IC.
      destruct (ref_copy _ _ _ _ C W SH) as (b & LK). eapply cp_registered; [|exact GE | exact LK].
      intros k -> I. cbn in I. repeat (destruct I as [<-|I]; [discriminate B|]). destruct I. }
    assert (IL : (forall s, t <> TRef s) -> inlined S (negb force) t).
    { intros NR Q. rewrite Q in IC. cbn [andb] in IC. apply uncatalogued; assumption. }
    destruct t as [k|b|w|w|k w|ts|op ts|ls|w md|c|s|]; try (eapply expand_copy; [exact IH | exact H | intros; first [reflexivity | discriminate] | exact IL | exact C | exact W | exact FL | exact SH]).
    assert (ILA := IL ltac:(intros; discriminate)).
    destruct (simple_type_to_schema w) as [d0|] eqn:B0.
    - destruct w as [k| | | | | | | | | | |]; try discriminate B0. apply cp_annotated; [exact ILA|]. eapply annotated_scalar; [exact B0 | | exact C | exact W | exact SP | exact SH].
      destruct (get_auxiliary_format (TAnnot (TScalar k) md)) as [f|] eqn:AX; injection H as <- _; [apply rk_format; exact AX | apply rk_metadata; exact AX].
    - destruct w as [k|b|w|w|k w|ts|op ts|ls|w md'|c|s|];
        try (apply cp_annot; [exact ILA | intros; discriminate |];
          eapply expand_copy; [exact IH | exact H | intros; first [reflexivity | discriminate] | intros _ Q; discriminate Q | exact C | exact W | exact FL | exact SH]).
      + exfalso. cbn [expand] in H. injection H as <- _. rewrite describe_core in C. exact (bare_object _ _ _ C W SH).
      + apply cp_annot; [exact ILA | intros; discriminate|].
        eapply expand_copy; [exact IH | exact H | intros; reflexivity | intros NR; destruct (NR s eq_refl) | exact C | exact W | exact FL | exact SH].
  Qed.
End Types.

(** ** Documents *)

Theorem document_copy : forall U E S E0 m n k t name doc E' t', env_ok E -> canonical_env E -> coherent E S -> s_path S = str "#/definitions/" ->
  (forall c cl ps, get_class E c = Some cl -> class_properties E cl = Ok ps -> distinct_names ps) ->
  classdef_to_schema E S n k t = Ok doc -> schema_to_type U E0 m name doc = Ok (E', t') ->
  guarded_env E0 -> calm E0 -> plain_module E0 m -> json_wf doc -> regular doc ->
  copy E S U E' m true name t t' /\
  forall x d, definition doc x d -> exists w u, stands_for S x w /\ lookup E' m x = Some (true, u) /\ copy E S U E' m false x w u.
Proof.
  intros U E S E0 m n k t name doc E' t' OK CE CO P DN H H0 G C PM W R.
  destruct (schema_shape U E0 m name doc E' t' H0 (Build_sound _ _ G C PM) W R) as (SH & SD).
  pose proof (parts_spoken _ _ _ _ _ _ _ H0 W) as SP.
  apply document_shape in H. destruct H as (d & u & defs & A & B & T & Qd). split.
  - rewrite Qd in SH, W. refine (schema_copy E S U E' m OK CE P DN n false t _ _ _ A name _ t' _ W _ SH).
    + unfold core, definitions_of. destruct (sort_attrs defs); reflexivity.
    + intros p I. apply SP. rewrite Qd. left. exact I.
  - intros x j D. destruct (SD x j D) as (v & LK & SV).
    assert (X : explained E S x j).
    { destruct D as (defs' & (o & Qo & I) & J). rewrite Qd in Qo. injection Qo as <-. destruct I as [I|I]; [discriminate I|]. apply in_app_iff in I. destruct I as [I|I].
      + eapply (define_loop_explained E S CO n k [] u defs); [intros s' j' []| eapply schema_records; [exact A | intros s' w' []] | exact B|].
        unfold definitions_of in I. destruct (sort_attrs defs) as [|p l] eqn:Sd; [destruct I|]. destruct I as [I|[]]. injection I as <-.
        eapply Permutation_in; [apply Permutation_sym, sort_perm | rewrite Sd; exact J].
      + exfalso. apply (in_map fst) in I. apply T in I. apply mem_str_in in I. discriminate I. }
    destruct X as (w & dw & d' & Rw & Sw & Cw & _ & ->). destruct (recorded_stands _ _ CO _ _ _ Rw Sw) as (w' & St & n' & u1 & u2 & Sw').
    exists w', v. split; [exact St|]. split; [exact LK|].
    refine (schema_copy E S U E' m OK CE P DN n' true w' _ _ _ Sw' x d' v Cw _ _ SV).
    + clear - W D. destruct D as (ds & (o & -> & I) & J). inversion W as [| | | | | |o' _ Fo]; subst. rewrite Forall_forall in Fo.
      pose proof (Fo _ I) as Wd. cbn [snd] in Wd. inversion Wd as [| | | | | |o' _ Fd]; subst. rewrite Forall_forall in Fd. exact (Fd _ J).
    + intros p I. apply SP. right. exists x, (JObj d'). split; assumption.
Qed.
