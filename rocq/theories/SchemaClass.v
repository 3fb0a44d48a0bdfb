(** Proofs about the schemas of classes. *)
From Coq Require Import String List NArith ZArith Bool Lia Permutation.
From Verif Require Import Base Json PyTypes TypeAlgebra TypeAlgebraProofs Lists Deser Ser SerFacts TypingFacts Catalog Schema
  SpecTypes SpecFields SpecSchema SchemaSem SpecGenerate SchemaProofs.
Import ListNotations.
Open Scope list_scope.
Open Scope nat_scope.

Definition out_name (x : pystr) (t : typ) : pystr := match get_alias t with Some a => a | None => x end.

Lemma out_name_spec : forall x t p, schema_name x t p <-> p = out_name x t.
Proof.
  intros x t p. unfold out_name. destruct (get_alias t) as [a|] eqn:G.
  - pose proof (proj1 (get_alias_spec t a) G) as H. split.
    + intros [b B|N]; [|destruct (N a H)]. apply (proj2 (get_alias_spec t b)) in B. congruence.
    + intros ->. apply sn_alias, H.
  - pose proof (proj1 (get_alias_none t) G) as H. split.
    + intros [b B|N]; [destruct (H b B) | reflexivity].
    + intros ->. apply sn_same, H.
Qed.

(** The outcome of [properties_schema], field by field. *)
Lemma properties_names : forall f E S c ps props required u props' required' u',
  properties_schema f E S c ps props required u = Ok (props', required', u') ->
  (forall p, In p (map fst props') <-> In p (map fst props) \/ exists x t, In (x, t) ps /\ p = out_name x t) /\
  (NoDup (map fst props) -> NoDup (map fst props')) /\
  (forall p, In p required' <-> In p required \/ exists x t, In (x, t) ps /\ p = out_name x t /\ is_type_optional t = false).
Proof.
  intros f E S c ps. induction ps as [|[x t] ps IH]; intros props required u props' required' u' H; cbn [properties_schema] in H.
  - injection H as <- <- <-. split; [|split; [auto|]]; intros p; (split; [auto | intros [I|(x & t & [] & _)]; exact I]).
  - apply bind_ok in H. destruct H as (w & _ & H). apply bind_ok in H. destruct H as (y & _ & H). apply bind_ok in H. destruct H as (d & _ & H).
    fold (out_name x t) in H. apply IH in H. destruct H as (A & B & C). split; [|split].
    + intros p. rewrite A, dict_set_keys. split.
      * intros [[->|I]|(x' & t' & I & Q)]; [right; exists x, t; split; [left; reflexivity | reflexivity] | left; exact I
          | right; exists x', t'; split; [right; exact I | exact Q]].
      * intros [I|(x' & t' & [Q'|I] & Q)]; [left; right; exact I | injection Q' as <- <-; left; left; exact Q | right; eauto].
    + intros N. apply B, dict_set_nodup, N.
    + intros p. rewrite C. destruct (is_type_optional t) eqn:O.
      * split; [intros [I|(x' & t' & I & Q)]; [left; exact I | right; exists x', t'; split; [right; exact I | exact Q]]|].
        intros [I|(x' & t' & [Q'|I] & Q & O')]; [left; exact I | injection Q' as <- <-; congruence | right; eauto].
      * rewrite in_app_iff. cbn [In]. split.
        -- intros [[I|[<-|[]]]|(x' & t' & I & Q)]; [left; exact I | right; exists x, t; split; [left; reflexivity | auto]
             | right; exists x', t'; split; [right; exact I | exact Q]].
        -- intros [I|(x' & t' & [Q'|I] & Q & O')]; [left; left; exact I | injection Q' as <- <-; left; right; left; symmetry; exact Q | right; eauto].
Qed.

(** Lookups are those of the members that are not notes. *)
Lemma describe_get : forall S t d k, note k = false -> dict_get (describe S t d) k = dict_get d k.
Proof.
  intros S t d k N. rewrite <- (core_get _ _ N), <- (core_get d _ N). f_equal. unfold core.
  apply (describe_filter (fun k => negb (note k))); reflexivity.
Qed.

Lemma object_class_schema : forall ps props required S t,
  (forall p, In p (map fst props) <-> exists x t, In (x, t) ps /\ p = out_name x t) -> NoDup (map fst props) ->
  (forall p, In p required <-> exists x t, In (x, t) ps /\ p = out_name x t /\ is_type_optional t = false) ->
  class_schema ps (describe S t (object_schema props required)).
Proof.
  intros ps props required S t A N B.
  assert (P : ps <> [] -> props <> []).
  { intros Np ->. destruct ps as [|[x u] ps]; [apply Np; reflexivity|].
    destruct (proj2 (A (out_name x u))); [exists x, u; split; [left; reflexivity | reflexivity]]. }
  constructor.
  - rewrite describe_get by reflexivity. reflexivity.
  - intros Np. apply P in Np. rewrite describe_get by reflexivity. unfold object_schema. destruct props; [contradiction | reflexivity].
  - intros Np. apply P in Np. exists props. split; [|split; [exact N|]].
    + rewrite describe_get by reflexivity. unfold object_schema. destruct props; [contradiction | reflexivity].
    + intros p. rewrite A. split; intros (x & u & I & Q); exists x, u; (split; [exact I | apply out_name_spec; exact Q]).
  - intros p.
    assert (X : (exists x u, In (x, u) ps /\ schema_name x u p /\ ~ optional u) <-> In p required).
    { rewrite B. split; intros (x & u & I & Q & O); exists x, u; (split; [exact I|split; [apply out_name_spec; exact Q|]]).
      - apply not_true_is_false. intros O'. apply O. apply is_type_optional_spec. exact O'.
      - intros O'. apply is_type_optional_spec in O'. congruence. }
    rewrite X. rewrite describe_get by reflexivity. unfold object_schema. split.
    + intros (req & G & I).
      assert (G' : JArr (map JStr req) = JArr (map JStr required)).
      { destruct props, required; try discriminate G; injection G as G; f_equal; symmetry; exact G. }
      apply (f_equal (fun j => match j with JArr l => strings l | _ => None end)) in G'. rewrite !strings_map in G'. injection G' as <-. exact I.
    + intros I. exists required. split; [|exact I]. destruct required; [destruct I|]. destruct props; reflexivity.
Qed.

Theorem class_shape : forall E S n force c cl ps u d u', get_class E c = Some cl -> not_enum cl -> class_properties E cl = Ok ps ->
  force = true \/ in_catalog S (TClass c) = false ->
  type_to_schema E S n force (TClass c) u = Ok (d, u') -> class_schema ps d.
Proof.
  intros E S n force c cl ps u d u' G NE C F H. destruct n as [|n]; [discriminate H|]. cbn [type_to_schema simple_type_to_schema] in H.
  assert (Q : negb force && in_catalog S (TClass c) = false) by (destruct F as [-> | ->]; [reflexivity | apply andb_false_r]).
  rewrite Q in H. cbn [expand] in H. rewrite G in H.
  assert (H' : (do ps <- class_properties E cl;
     do x <- properties_schema (type_to_schema E S n false) E S c ps [] [] u;
     Ok (describe S (TClass c) (object_schema (fst (fst x)) (snd (fst x))), snd x)) = Ok (d, u')).
  { destruct (c_kind cl) eqn:K; [destruct (NE _ K) | exact H ..]. }
  rewrite C in H'. cbn [bind] in H'. apply bind_ok in H'. destruct H' as ([[props required] u1] & P & H'). cbn [fst snd] in H'.
  injection H' as <- <-. apply properties_names in P. destruct P as (P1 & P2 & P3). apply object_class_schema.
  - intros p. rewrite P1. cbn [map In]. tauto.
  - apply P2. constructor.
  - intros p. rewrite P3. cbn [In]. tauto.
Qed.

(** Notes do not matter. *)
Lemma class_schema_core : forall ps d d', core d = core d' -> class_schema ps d -> class_schema ps d'.
Proof.
  intros ps d d' Q [A B C D].
  assert (X : forall k, note k = false -> dict_get d' k = dict_get d k) by (intros k N; rewrite <- (core_get d' k N), <- Q; apply core_get; exact N).
  constructor.
  - rewrite X by reflexivity. exact A.
  - rewrite X by reflexivity. exact B.
  - rewrite X by reflexivity. exact C.
  - rewrite X by reflexivity. exact D.
Qed.

Theorem class_shape_lookup : forall E S n c cl ps e u d u', get_class E c = Some cl -> not_enum cl -> class_properties E cl = Ok ps ->
  get (s_catalog S) (TClass c) = Ok e -> en_schema e = None ->
  type_to_schema_with_lookup E S n (TClass c) u = Ok (d, u') -> class_schema ps d.
Proof.
  intros E S n c cl ps e u d u' G NE C Ge Es H. unfold type_to_schema_with_lookup in H. rewrite Ge in H. cbn [bind] in H. rewrite Es in H.
  apply bind_ok in H. destruct H as ([x u1] & A & H). cbn [fst snd] in H. cbv zeta in H. injection H as <- <-.
  eapply class_schema_core; [|eapply class_shape; [exact G | exact NE | exact C | left; reflexivity | exact A]].
  symmetry. unfold core.
  destruct (en_examples e) as [j|]; [destruct (s_exemplify S && truthy j); [rewrite (dict_set_filter (fun k => negb (note k))) by reflexivity|]|];
    (destruct (s_describe S && true); [apply (upd_filter (fun k => negb (note k))), (docs_keys (fun k => negb (note k))); reflexivity | reflexivity]).
Qed.

Theorem class_document : forall E S n k c cl ps doc, get_class E c = Some cl -> not_enum cl -> class_properties E cl = Ok ps ->
  in_catalog S (TClass c) = false -> classdef_to_schema E S n k (TClass c) = Ok doc -> exists d, doc = JObj d /\ class_schema ps d.
Proof.
  intros E S n k c cl ps doc G NE C F H. apply document_shape in H. destruct H as (d & u & defs & A & _ & _ & ->).
  eexists. split; [reflexivity|]. eapply class_schema_core; [|eapply class_shape; [exact G | exact NE | exact C | right; exact F | exact A]].
  unfold core, definitions_of. destruct (sort_attrs defs); reflexivity.
Qed.

(** What the schema of a class means. *)
Section Meaning.
  Variables (asserts : pystr -> pystr -> json -> bool) (root : json).

  Theorem class_accepts : forall ps d j, class_schema ps d -> accepts asserts root (JObj d) j ->
    exists o, j = JObj o /\
      (ps <> [] -> forall p, In p (map fst o) -> exists x t, In (x, t) ps /\ schema_name x t p) /\
      (forall x t p, In (x, t) ps -> schema_name x t p -> ~ optional t -> In p (map fst o)).
  Proof.
    intros ps d j [A B C D] H.
    assert (T : is_type (str "object") j = Some true).
    { eapply type_holds. eapply accepts_elim; [exact H | apply dict_get_in; exact A]. }
    destruct j as [| | | | | |o]; try discriminate T. exists o. split; [reflexivity|]. split.
    - intros Np p I. destruct (C Np) as (props & G & _ & P). apply P. specialize (B Np).
      destruct (in_dec (list_eq_dec N.eq_dec) p (map fst props)) as [Y|Nn]; [exact Y|]. exfalso.
      apply in_map_iff in I. destruct I as ([p' x] & Q & I). cbn [fst] in Q. subst p'.
      assert (X : accepts asserts root (JBool false) x).
      { eapply additional_holds; [eapply accepts_elim; [exact H | apply dict_get_in; exact B] | exact I|].
        unfold known_properties. rewrite G. exact Nn. }
      exact (accepts_rejects _ _ _ _ X (rejects_false _ _ _)).
    - intros x t p I Q O. destruct (proj2 (D p)) as (req & G & J); [exists x, t; auto|].
      eapply required_holds; [eapply accepts_elim; [exact H | apply dict_get_in; exact G] | exact J].
  Qed.

  Lemma fails_additional : forall kws o s k x, In (k, x) o -> ~ In k (known_properties kws) -> rejects asserts root s x ->
    fails asserts root kws (JObj o) (str "additionalProperties") s.
  Proof.
    intros kws o s k x I Nk (n & R). exists n. unfold fails, keyword. cbn [mem_str existsb map]. 
    transitivity (all_of (map (fun kv => if mem_str (fst kv) (known_properties kws) then Some true else check asserts root n s (snd kv)) o)); [reflexivity|].
    apply all_of_false. apply in_map_iff. exists (k, x). cbn [fst snd]. split; [|exact I].
    destruct (mem_str k (known_properties kws)) eqn:M; [apply mem_str_in in M; contradiction | exact R].
  Qed.

  Theorem class_rejects_extra : forall ps d o p, class_schema ps d -> ps <> [] -> In p (map fst o) ->
    (forall x t, In (x, t) ps -> ~ schema_name x t p) -> rejects asserts root (JObj d) (JObj o).
  Proof.
    intros ps d o p [A B C D] Np I X. destruct (C Np) as (props & G & _ & P). specialize (B Np).
    apply in_map_iff in I. destruct I as ([p' x] & Q & I). cbn [fst] in Q. subst p'.
    eapply rejects_intro; [apply dict_get_in; exact B|]. eapply fails_additional; [exact I | | apply rejects_false].
    unfold known_properties. rewrite G. intros J. apply P in J. destruct J as (y & t & J & Q). exact (X y t J Q).
  Qed.

  Theorem class_rejects_missing : forall ps d o x t p, class_schema ps d -> In (x, t) ps -> schema_name x t p -> ~ optional t ->
    ~ In p (map fst o) -> rejects asserts root (JObj d) (JObj o).
  Proof.
    intros ps d o x t p [A B C D] I Q O X. destruct (proj2 (D p)) as (req & G & J); [exists x, t; auto|].
    eapply rejects_intro; [apply dict_get_in; exact G|]. exists 0. unfold fails, keyword.
    transitivity (match strings (map JStr req) with Some ks => Some (forallb (fun k => mem_str k (map fst o)) ks) | None => None end); [reflexivity|].
    rewrite strings_map. f_equal. apply not_true_is_false. intros F. rewrite forallb_forall in F. apply X. apply mem_str_in. exact (F p J).
  Qed.

  Theorem class_rejects_others : forall ps d j, class_schema ps d -> (forall o, j <> JObj o) -> rejects asserts root (JObj d) j.
  Proof.
    intros ps d j [A B C D] X. eapply rejects_intro; [apply dict_get_in; exact A|]. apply fails_type.
    destruct j as [| | | | | |o]; try reflexivity. destruct (X o eq_refl).
  Qed.
End Meaning.

(** Names in schemas and in documents. *)
Theorem plain_names : forall cl x t p, plain_field cl x t -> (schema_name x t p <-> json_name cl x t p).
Proof.
  intros cl x t p (K & T). unfold json_name. destruct (c_kind cl) eqn:Q.
  2: { split; [intros [a A|N]; [destruct (T a A) | reflexivity] | intros ->; apply sn_same; exact T]. }
  all: split; [intros [a A|N]; [apply pn_alias; exact A | apply pn_same; assumption]
              | intros [a A|k N I ->|N _]; [apply sn_alias; exact A | destruct (K k I eq_refl) | apply sn_same; exact N]].
Qed.
