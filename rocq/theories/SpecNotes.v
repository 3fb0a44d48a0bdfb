(** What schemas say beside validation: titles, descriptions, defaults and
    examples. *)
From Coq Require Import String List NArith ZArith Bool.
From Verif Require Import Base Json PyTypes TypeAlgebra Deser Ser Catalog Schema SpecTypes SpecFields SpecGenerate SpecValid SpecMirror.
Import ListNotations.
Open Scope list_scope.
Open Scope nat_scope.

Record notes := Notes { n_title : option json; n_description : option json; n_default : option json; n_examples : option json }.

Definition no_notes : notes := Notes None None None None.

(** A schema carries these notes, and no others. *)
Definition carries (o : list (pystr * json)) (ns : notes) : Prop :=
  dict_get o (str "title") = n_title ns /\ dict_get o (str "description") = n_description ns /\
  dict_get o (str "default") = n_default ns /\ dict_get o (str "examples") = n_examples ns.

(** Empty texts are left out. *)
Definition said (s : option pystr) : option json := match s with None | Some [] => None | Some s => Some (JStr s) end.

Definition first_of {A} (a b : option A) : option A := match a with Some x => Some x | None => b end.

Section Notes.
  Variables (E : env) (S : senv).

  (** The docstring of a class. *)
  Definition documented (t : typ) : notes := if s_describe S then Notes (said (s_short S t)) (said (s_long S t)) None None else no_notes.

  (** The JSON type of [t] says everything. *)
  Definition is_simple (t : typ) : Prop := exists k, t = TScalar k /\ In k (KNone :: KBytes :: kept_scalars).

  (** [own named t ns]: the notes that belong to the type itself. *)
  Inductive own : bool -> typ -> notes -> Prop :=
  | ow_simple : forall named t, is_simple t -> own named t no_notes
  | ow_registered : forall t e, ~ is_simple t -> get (s_catalog S) t = Ok e -> own true t no_notes
  | ow_text : forall s, own true (TRef s) no_notes
  | ow_evaluated : forall s w ns, s_eval S s = Some w -> own false w ns -> own false (TRef s) ns
  | ow_class : forall named t, inlined S named t -> (exists c, t = TClass c) \/ (exists k, t = TScalar k /\ ~ is_simple t) \/ (exists b, t = TBare b) ->
      own named t (documented t)
  | ow_annot : forall named t md ns, inlined S named (TAnnot t md) -> own (match t with TRef _ => named | _ => false end) t ns -> own named (TAnnot t md) ns
  | ow_compound : forall named t, inlined S named t ->
      match t with TList _ | TSet _ | TDict _ _ | TTuple _ | TUnion _ _ | TLiteral _ => True | _ => False end -> own named t no_notes.

  (** What is said of the field [x] of class [c] instead of the notes of its type. *)
  Definition field_notes (c : nat) (x : pystr) (ns ns' : notes) : Prop :=
    (forall v, dict_get (s_attrs S c) x = Some v -> written_default v -> exists j, object_to_json E v = Ok j /\ n_default ns' = Some j) /\
    ((forall v, dict_get (s_attrs S c) x = Some v -> ~ written_default v) -> n_default ns' = None) /\
    n_examples ns' = n_examples ns /\
    match said (dict_get (s_props S c) x) with
    | Some s => n_title ns' = None /\ n_description ns' = Some s
    | None => n_title ns' = n_title ns /\ n_description ns' = n_description ns
    end.

  (** [noted named t ns s]: the schema [s] of [t] carries [ns], and its parts carry
      the notes of their types and fields. *)
  Inductive noted : bool -> typ -> notes -> json -> Prop :=
  | nt_simple : forall named t ns o, is_simple t -> carries o ns -> noted named t ns (JObj o)
  | nt_registered : forall t e ns o, ~ is_simple t -> get (s_catalog S) t = Ok e -> carries o ns -> noted true t ns (JObj o)
  | nt_text : forall s ns o, carries o ns -> noted true (TRef s) ns (JObj o)
  | nt_evaluated : forall s w ns j, s_eval S s = Some w -> noted false w ns j -> noted false (TRef s) ns j
  | nt_annot : forall named t md ns j, inlined S named (TAnnot t md) -> noted (match t with TRef _ => named | _ => false end) t ns j ->
      noted named (TAnnot t md) ns j
  | nt_literal : forall named l ns o, inlined S named (TLiteral [l]) -> carries o ns -> noted named (TLiteral [l]) ns (JObj o)
  | nt_builtin : forall named t ns o, inlined S named t -> (exists k, t = TScalar k /\ ~ is_simple t) \/ (exists b, t = TBare b) -> carries o ns ->
      noted named t ns (JObj o)
  | nt_enum : forall named c cl ms ns o, inlined S named (TClass c) -> get_class E c = Some cl -> c_kind cl = CEnum ms -> carries o ns ->
      noted named (TClass c) ns (JObj o)
  | nt_items : forall named t w ns o q ns', inlined S named t -> t = TList w \/ t = TSet w -> carries o ns ->
      dict_get o (str "items") = Some q -> own true w ns' -> noted true w ns' q -> noted named t ns (JObj o)
  | nt_members : forall named t ts k ns o qs, inlined S named t -> (t = TTuple ts /\ k = "prefixItems"%string) \/ (exists op, t = TUnion op ts /\ k = "oneOf"%string) ->
      carries o ns -> dict_get o (str k) = Some (JArr qs) -> Forall2 (fun w q => exists ns', own true w ns' /\ noted true w ns' q) ts qs ->
      noted named t ns (JObj o)
  | nt_values : forall named k w ns o q ns', inlined S named (TDict k w) -> carries o ns -> own true w ns' -> noted true w ns' q ->
      dict_get o (str "additionalProperties") = Some q \/ (exists qs, dict_get o (str "properties") = Some (JObj qs) /\ forall x q', In (x, q') qs -> q' = q) ->
      noted named (TDict k w) ns (JObj o)
  | nt_class : forall named c cl ps ns o, inlined S named (TClass c) -> get_class E c = Some cl -> (forall ms, c_kind cl <> CEnum ms) ->
      class_properties E cl = Ok ps -> carries o ns ->
      (distinct_names ps -> ps <> [] -> exists qs, dict_get o (str "properties") = Some (JObj qs) /\
        Forall2 (fun xt yq => schema_name (fst xt) (snd xt) (fst yq) /\ exists w ns1 ns2, read_type (snd xt) w /\ own true w ns1 /\
          field_notes c (fst xt) ns1 ns2 /\ noted true w ns2 (snd yq)) ps qs) ->
      noted named (TClass c) ns (JObj o).

  (** The notes of the definition of a name: those of the registered schema, or of
      the type; of the class; and the examples registered. *)
  Definition names (x : pystr) (w : typ) : Prop := (exists e, get (s_catalog S) w = Ok e /\ en_identifier e = x) \/ s_eval S x = Some w.

  Definition shown (e : entry) : option json :=
    match en_examples e with
    | Some j => if s_exemplify S && truthy j then Some j else None
    | None => None
    end.

  Definition definition_notes (e : entry) (w : typ) (ns ns' : notes) : Prop :=
    n_default ns' = n_default ns /\ n_examples ns' = first_of (shown e) (n_examples ns) /\
    match w with
    | TScalar _ | TBare _ | TClass _ =>
        n_title ns' = first_of (n_title (documented w)) (n_title ns) /\ n_description ns' = first_of (n_description (documented w)) (n_description ns)
    | _ => n_title ns' = n_title ns /\ n_description ns' = n_description ns
    end.
End Notes.
