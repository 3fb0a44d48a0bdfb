(** Types whose schemas can be made into types again. *)
From Coq Require Import String List NArith ZArith Bool.
From Verif Require Import Base Json PyTypes Deser Ser Mapping ClassDef TypeDef Catalog Schema SpecTyping SpecTypes SpecFields SpecRoundTrip SpecClassDef SpecGenerate SpecValid SpecTypeDef SpecMake.
Import ListNotations.
Open Scope list_scope.
Open Scope nat_scope.

(** Scalars that are described by their JSON type and format. *)
Definition sent_scalars : list scalar := [KBool; KInt; KFloat; KStr; KDateTime; KDate; KTime; KTimeDelta; KUUID].

(** Annotations that schemas of [k] can express: ranges of integers, lengths of
    texts, and those that do not show. *)
Definition expressible (k : scalar) (a : annot) : Prop :=
  match a with
  | AIntegerRange _ _ => k = KInt
  | AMinLength _ | AMaxLength _ => k = KStr
  | APrecision _ _ => False
  | _ => True
  end.

(** Values of class attributes that are written as defaults. *)
Definition given_default (v : value) : Prop :=
  match v with
  | VBool _ | VInt _ | VFloat _ | VStr _ | VEnum _ _ | VDateTime _ | VDate _ | VTime _ | VTimeDelta _ => True
  | _ => False
  end.

(** No examples are registered. *)
Definition unexemplified (S : senv) : Prop := forall t e, get (s_catalog S) t = Ok e -> en_examples e = None.

(** The definitions of a document, in order. *)
Definition defines (doc : json) (ds : list (pystr * json)) : Prop := has doc "definitions" (JObj ds) \/ ds = [] /\ lacks doc "definitions".

(** What reading with the new types asks of a document besides (C51): names of
    properties are not those of keywords with an underscore, members of enumerations have
    no private names, and alternatives are told apart. *)
Record told_apart (U : unicode) (doc : json) : Prop := {
  ta_names : forall s ps x p k, part doc s -> has s "properties" (JObj ps) -> In (x, p) ps -> In k python_keywords -> x <> k ++ str "_";
  ta_members : forall s vs a cls, part doc s -> of_type s "string" -> has s "enum" (JArr vs) -> In (JStr a) vs -> ~ private cls (enum_safe_name (u_word U) a);
  ta_unions : forall s ss, part doc s -> has s "oneOf" (JArr ss) -> length ss = 1 \/ by_trial doc ss \/ by_mark doc ss
}.

Section Sends.
  Variables (E : env) (S : senv) (U : unicode).

  Definition unregistered (t : typ) : Prop := forall e, get (s_catalog S) t <> Ok e.

  (** Names that can be referred to. *)
  Definition referable (D : list pystr) (x : pystr) : Prop := In x D /\ x <> [] /\ forall c, In c x -> word_char (u_word U) c = true.

  (** Scalars [k], maybe annotated, and literals of these. *)
  Definition based (w : typ) (k : scalar) : Prop :=
    w = TScalar k \/ (exists md, w = TAnnot (TScalar k) md /\ unregistered w) \/
    (exists l, w = TLiteral [l] /\ lit_type l = TScalar k /\ unregistered w).

  (** Defaults of the type of the property: of the same scalar type, where what is written
      for times and durations is exact (C01), or members of an enumeration. *)
  Inductive default_for (w : typ) : value -> Prop :=
  | df_bool : forall b, based w KBool -> default_for w (VBool b)
  | df_int : forall z, based w KInt -> default_for w (VInt z)
  | df_float : forall f, based w KFloat -> default_for w (VFloat f)
  | df_text : forall s, based w KStr -> default_for w (VStr s)
  | df_time : forall k v, In k [KDateTime; KDate; KTime; KTimeDelta] -> based w k -> scalar_type k v -> exact_text v -> default_for w v
  | df_member : forall c cl ms x j, w = TClass c -> unregistered w -> get_class E c = Some cl -> c_kind cl = CEnum ms -> c_to_json cl = None ->
      NoDup (map fst ms) -> In (x, j) ms -> default_for w (VEnum c x).

  (** [sends D context t names]: the schema of [t], as part of another one, can be made
      into a type at [context], where [D] are the names that can be referred to;
      [names] are those of the new classes.  [states]: the schema of [t] where it is
      written out; [states_class]: and it is that of a class; [sends_object]: of one with
      fields. *)
  Inductive sends (D : list pystr) : pystr -> typ -> list pystr -> Prop :=
  | sd_registered : forall context c e, get (s_catalog S) (TClass c) = Ok e -> referable D (en_identifier e) -> sends D context (TClass c) []
  | sd_text : forall context s, referable D s -> sends D context (TRef s) []
  | sd_stated : forall context t names, unregistered t -> states D context t names -> sends D context t names
  with states (D : list pystr) : pystr -> typ -> list pystr -> Prop :=
  | st_scalar : forall context k, In k sent_scalars -> states D context (TScalar k) []
  | st_annotated : forall context k md, In k sent_scalars -> (forall a, In a md -> expressible k a) -> states D context (TAnnot (TScalar k) md) []
  | st_annot : forall context t md names, (forall k, t <> TScalar k) -> (forall s, t <> TRef s) -> states D context t names ->
      states D context (TAnnot t md) names
  | st_list : forall context t names, sends D context t names -> states D context (TList t) names
  | st_literal : forall context l, (exists b, l = LBool b) \/ (exists z, l = LInt z) \/ (exists s, l = LStr s) -> states D context (TLiteral [l]) []
  | st_union : forall context op ts names, ts <> [] -> sends_all D context ts names -> states D context (TUnion op ts) names
  | st_numbers : forall context c cl ms zs, get_class E c = Some cl -> c_kind cl = CEnum ms -> map snd ms = map JInt zs -> states D context (TClass c) []
  | st_class : forall context t names, states_class D context t names -> states D context t names
  with sends_all (D : list pystr) : pystr -> list typ -> list pystr -> Prop :=
  | sa_nil : forall context, sends_all D context [] []
  | sa_cons : forall context t ts n1 n2, sends D context t n1 -> sends_all D context ts n2 -> sends_all D context (t :: ts) (n1 ++ n2)
  with states_class (D : list pystr) : pystr -> typ -> list pystr -> Prop :=
  | sc_enum : forall context c cl ms vs, get_class E c = Some cl -> c_kind cl = CEnum ms -> map snd ms = map JStr vs -> members_for U context vs ->
      states_class D context (TClass c) [context]
  | sc_object : forall context c names, sends_object D context c names -> states_class D context (TClass c) (names ++ [context])
  with sends_object (D : list pystr) : pystr -> nat -> list pystr -> Prop :=
  | so_fields : forall context c cl ps xs names, get_class E c = Some cl -> (forall ms, c_kind cl <> CEnum ms) -> class_properties E cl = Ok ps -> ps <> [] ->
      NoDup xs -> sends_properties D context c ps xs names -> sends_object D context c names
  with sends_properties (D : list pystr) : pystr -> nat -> list (pystr * typ) -> list pystr -> list pystr -> Prop :=
  | sp_nil : forall context c, sends_properties D context c [] [] []
  | sp_cons : forall context c x t p w ps xs n1 n2, schema_name x t p -> field_name U p -> read_type t w -> sends D (below context p) w n1 ->
      (forall v, dict_get (s_attrs S c) x = Some v -> given_default v -> default_for w v) ->
      sends_properties D context c ps xs n2 -> sends_properties D context c ((x, t) :: ps) (p :: xs) (n1 ++ n2).

  (** Definitions, in the order of their names: each is a class, and refers to earlier
      ones. *)
  Inductive sends_definitions : list pystr -> list pystr -> list pystr -> Prop :=
  | sf_nil : forall D, sends_definitions D [] []
  | sf_cons : forall D x xs n1 n2, (forall w, stands_for S x w -> states_class D x w n1) -> sends_definitions (x :: D) xs n2 ->
      sends_definitions D (x :: xs) (n1 ++ n2).
End Sends.
