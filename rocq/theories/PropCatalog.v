(** C31: the type catalog. *)
From Coq Require Import String List NArith ZArith Bool Lia.
From Verif Require Import Base Json PyTypes Catalog SpecCatalog CatalogProofs.
Import ListNotations.
Open Scope list_scope.

(** C31.  When types and identifiers are pairwise distinct, a lookup by type and a
    lookup by identifier return what was registered. *)
Theorem C31_lookup : forall rs t e, NoDup (map fst rs) -> NoDup (map (fun r => en_identifier (snd r)) rs) ->
  (forall u, In u (map fst rs) -> ~ is_ref u) -> In (t, e) rs ->
  get (register_all rs) t = Ok e /\ get (register_all rs) (TRef (en_identifier e)) = Ok e.
Proof. exact catalog_distinct. Qed.
Print Assumptions C31_lookup.

(** C31.  After any sequence of registrations, some of which may have raised, a
    type has the entry of its first registration, and is absent if there was none. *)
Theorem C31_by_type : forall rs t, ~ is_ref t ->
  (forall e, get (register_all rs) t = Ok e <-> registered rs t e) /\
  (contains (register_all rs) t = true <-> In t (map fst rs)) /\
  (~ In t (map fst rs) -> get (register_all rs) t = Err EKey).
Proof. exact catalog_by_type. Qed.
Print Assumptions C31_by_type.

(** ... and an identifier has the entry of the last registration that took effect. *)
Theorem C31_by_name : forall rs s,
  (forall e, get (register_all rs) (TRef s) = Ok e <-> named rs s e) /\
  (contains (register_all rs) (TRef s) = true <-> exists e, named rs s e) /\
  ((forall t e, In (t, e) rs -> en_identifier e <> s) -> get (register_all rs) (TRef s) = Err EKey).
Proof. exact catalog_by_name. Qed.
Print Assumptions C31_by_name.

(** C31.  Which registrations raise. *)
Theorem C31_rejected : forall rs t schema identifier examples,
  (is_ref t -> add (register_all rs) t schema identifier examples = Err EType) /\
  (~ is_ref t -> In t (map fst rs) -> add (register_all rs) t schema identifier examples = Err EValue) /\
  (~ is_ref t -> ~ In t (map fst rs) -> exists c, add (register_all rs) t schema identifier examples = Ok c).
Proof.
  intros rs t schema identifier examples. split; [intros (s & ->); reflexivity|].
  assert (H : ~ is_ref t -> add (register_all rs) t schema identifier examples =
    if contains (register_all rs) t then Err EValue else
    let e := {| en_schema := schema; en_identifier := identifier; en_examples := examples |} in
    Ok {| by_type := type_set (by_type (register_all rs)) t e; by_name := dict_set (by_name (register_all rs)) identifier e |}).
  { intros N. destruct t; try (cbn [add contains]; destruct (type_get _ _); reflexivity). exfalso. apply N. eexists. reflexivity. }
  split; intros N I; rewrite (H N); destruct (catalog_by_type rs t N) as (_ & C & _).
  - rewrite (proj2 C I). reflexivity.
  - destruct (contains (register_all rs) t) eqn:X; [exfalso; apply I, C; reflexivity|]. eexists. reflexivity.
Qed.
Print Assumptions C31_rejected.

(** C31.  The identifier reported for a type is that of its first registration;
    for other types none is reported, and nothing is raised. *)
Theorem C31_identifier : forall rs t, ~ is_ref t ->
  (forall e, registered rs t e -> get_schema_identifier (register_all rs) t = Ok (Some (en_identifier e))) /\
  (~ In t (map fst rs) -> get_schema_identifier (register_all rs) t = Ok None).
Proof.
  intros rs t N. destruct (catalog_by_type rs t N) as (G & C & _). unfold get_schema_identifier. split.
  - intros e R. assert (I : In t (map fst rs)).
    { destruct R as (_ & later & before & -> & _). rewrite map_app. apply in_or_app. right. left. reflexivity. }
    rewrite (proj2 C I), (proj2 (G e) R). reflexivity.
  - intros I. destruct (contains (register_all rs) t) eqn:X; [exfalso; apply I, C; reflexivity | reflexivity].
Qed.
Print Assumptions C31_identifier.

Definition plain_entry (s : pystr) : entry := {| en_schema := None; en_identifier := s; en_examples := None |}.

Example C31_witness :
  let rs := [(TClass 1, plain_entry (str "Point")); (TScalar KStr, plain_entry (str "Text")); (TList (TClass 1), plain_entry (str "Points"))] in
  get (register_all rs) (TList (TClass 1)) = Ok (plain_entry (str "Points")) /\
  get (register_all rs) (TRef (str "Points")) = Ok (plain_entry (str "Points")) /\
  get (register_all rs) (TClass 2) = Err EKey.
Proof.
  cbv zeta. split; [|split; [|reflexivity]].
  all: apply (C31_lookup _ (TList (TClass 1)) (plain_entry (str "Points"))).
  all: try (right; right; left; reflexivity).
  all: try (repeat constructor; cbn; intros X; repeat destruct X as [X|X]; try discriminate X; contradiction).
  all: intros u X (s & ->); repeat destruct X as [X|X]; try discriminate X; contradiction.
Qed.

Example C31_witness_identifier :
  let rs := [(TClass 1, plain_entry (str "Point")); (TClass 1, plain_entry (str "Again")); (TList (TClass 1), plain_entry (str "Points"))] in
  get_schema_identifier (register_all rs) (TClass 1) = Ok (Some (str "Point")) /\
  get_schema_identifier (register_all rs) (TClass 2) = Ok None.
Proof. split; reflexivity. Qed.

(** Without distinct identifiers it fails: nothing prevents two types from
    sharing one, and the reference then leads to the later type. *)
Theorem C31_same_identifier_refuted : exists t u e e', t <> u /\ en_identifier e = en_identifier e' /\ e <> e' /\
  get (register_all [(t, e); (u, e')]) t = Ok e /\ get (register_all [(t, e); (u, e')]) (TRef (en_identifier e)) = Ok e'.
Proof.
  exists (TClass 1), (TClass 2), (plain_entry (str "Point")), {| en_schema := Some JNull; en_identifier := str "Point"; en_examples := None |}.
  repeat split; discriminate.
Qed.
Print Assumptions C31_same_identifier_refuted.
