(** Types that come out of the schema of a type. *)
From Coq Require Import String List NArith ZArith Bool Permutation.
From Verif Require Import Base Json PyTypes TypeAlgebra Deser Ser ClassDef TypeDef Catalog Schema SpecTyping SpecTypes SpecFields SpecClassDef SpecSchema
  SpecGenerate SpecTypeDef SpecTypeShape SpecMeta.
Import ListNotations.
Open Scope list_scope.
Open Scope nat_scope.

(** ** Keywords that are understood *)

Definition only (s : json) (ks : list string) : Prop := exists kws, s = JObj kws /\ forall k x, In (k, x) kws -> In k (map (fun k => str k) ks).

(** The keywords of schemas for values, by the type of these. *)
Definition vocabulary : list (string * list string) :=
  [("boolean", ["title"; "description"; "type"; "format"; "const"; "default"; "examples"]);
   ("integer", ["title"; "description"; "type"; "format"; "const"; "default"; "examples"; "enum"; "minimum"; "maximum"]);
   ("number", ["title"; "description"; "type"; "format"; "const"; "default"; "examples"; "minimum"; "maximum"; "exclusiveMinimum"; "exclusiveMaximum"; "multipleOf"]);
   ("string", ["title"; "description"; "type"; "format"; "const"; "default"; "examples"; "enum"; "minLength"; "maxLength"]);
   ("array", ["title"; "description"; "type"; "format"; "items"]);
   ("object", ["title"; "description"; "type"; "format"; "properties"; "additionalProperties"; "required"; "$schema"; "definitions"])]%string.

(** The schema is of a known type, a reference or a union, and has only the
    keywords that go with it. *)
Definition spoken (s : json) : Prop :=
  (exists ty ks, In (ty, ks) vocabulary /\ of_type s ty /\ only s ks) \/
  (exists r, has s "$ref" r /\ only s ["title"; "description"; "$ref"]%string) \/
  (exists ss, has s "oneOf" ss /\ only s ["title"; "description"; "oneOf"]%string).

(** ** Copies of types *)

(** Scalars that are described by their JSON type and format. *)
Definition kept_scalars : list scalar := [KBool; KInt; KFloat; KStr; KDateTime; KDate; KTime; KTimeDelta; KUUID].

(** [int8] to [int64] and [uint8] to [uint64] of auxiliary.py, by the number of
    bytes. *)
Definition fixed_int (sg : bool) (n : N) : typ :=
  let b := (8 * Z.of_N n)%Z in
  TAnnot (TScalar KInt) [ASigned sg; AStorage n;
    AIntegerRange (if sg then - 2 ^ (b - 1) else 0) (if sg then 2 ^ (b - 1) - 1 else 2 ^ b - 1)].

Definition byte_counts : list N := [1; 2; 4; 8]%N.

Definition is_fixed_int (t : typ) : Prop := exists sg n, In n byte_counts /\ t = fixed_int sg n.

(** The last range, and the last maximum length, in metadata. *)
Definition last_range (md : list annot) (lo hi : Z) : Prop :=
  exists a b, md = a ++ AIntegerRange lo hi :: b /\ forall lo' hi', ~ In (AIntegerRange lo' hi') b.
Definition last_bound (md : list annot) (n : N) : Prop :=
  exists a b, md = a ++ AMaxLength n :: b /\ forall n', ~ In (AMaxLength n') b.

(** Annotated scalars. *)
Inductive copied_scalar : scalar -> list annot -> typ -> Prop :=
| cs_fixed : forall n, In n [2; 4; 8]%N -> forall md, TAnnot (TScalar KInt) md = fixed_int true n -> copied_scalar KInt md (fixed_int true n)
| cs_other : forall sg n md, In n byte_counts -> sg = false \/ n = 1%N -> TAnnot (TScalar KInt) md = fixed_int sg n -> copied_scalar KInt md (TScalar KInt)
| cs_range : forall md lo hi w, ~ is_fixed_int (TAnnot (TScalar KInt) md) -> last_range md lo hi -> smallest lo hi w -> copied_scalar KInt md (int_typ w)
| cs_int : forall md, (forall lo hi, ~ In (AIntegerRange lo hi) md) -> copied_scalar KInt md (TScalar KInt)
| cs_storage : forall n, n = 4%N \/ n = 8%N -> copied_scalar KFloat [AStorage n] (TAnnot (TScalar KFloat) [AStorage n])
| cs_float : forall md, md <> [AStorage 4] -> md <> [AStorage 8] -> (forall sig dec, ~ In (APrecision sig dec) md) -> copied_scalar KFloat md (TScalar KFloat)
| cs_bound : forall md n, last_bound md n -> copied_scalar KStr md (TAnnot (TScalar KStr) [AMaxLength n])
| cs_str : forall md, (forall n, ~ In (AMaxLength n) md) -> copied_scalar KStr md (TScalar KStr)
| cs_same : forall k md, In k [KBool; KDateTime; KDate; KTime; KTimeDelta; KUUID] -> copied_scalar k md (TScalar k).

(** Values of class attributes that are written as defaults. *)
Definition written_default (v : value) : Prop :=
  match v with
  | VBool _ | VInt _ | VFloat _ | VStr _ | VEnum _ _ | VDateTime _ | VDate _ | VTime _ | VTimeDelta _ => True
  | _ => False
  end.

(** Program [E] with registrations [S], whose types are copied to the module [m] of
    the program [F]. *)
Section Copies.
  Variables (E : env) (S : senv) (U : unicode) (F : env) (m : nat).

  (** The default of the field [x] of class [c], for the type [u] of the copy. *)
  Definition copied_default (c : nat) (x : pystr) (u : typ) (d : option (res value)) : Prop :=
    ((forall v, dict_get (s_attrs S c) x = Some v -> ~ written_default v) -> d = None) /\
    (forall v j, dict_get (s_attrs S c) x = Some v -> written_default v -> object_to_json E v = Ok j -> j <> JNull ->
      (forall ls, u <> TLiteral ls) -> exists v', d = Some (Ok v') /\ json_to_object F false m u j = Ok v').

  Definition fields_in_order (fs : list PyTypes.field) : list PyTypes.field :=
    filter (fun f => match f_default f with None => true | Some _ => false end) fs ++
    filter (fun f => match f_default f with None => false | Some _ => true end) fs.

  (** The type is described where it stands: it is not registered, or is not to be
      referred to by its name. *)
  Definition inlined (named : bool) (t : typ) : Prop := named = true -> forall e, get (s_catalog S) t <> Ok e.

  (** [copy named ctx t u]: [u] is the copy of [t].  Registered types and texts are
      copied to the type of that name, if [named]; classes made are named after
      [ctx]. *)
  Inductive copy : bool -> pystr -> typ -> typ -> Prop :=
  | cp_registered : forall ctx t e b u, (forall k, t = TScalar k -> ~ In k kept_scalars) -> get (s_catalog S) t = Ok e ->
      lookup F m (en_identifier e) = Some (b, u) -> copy true ctx t u
  | cp_text : forall ctx s b u, lookup F m s = Some (b, u) -> copy true ctx (TRef s) u
  | cp_evaluated : forall ctx s w u, s_eval S s = Some w -> copy false ctx w u -> copy false ctx (TRef s) u
  | cp_scalar : forall named ctx k, In k kept_scalars -> copy named ctx (TScalar k) (TScalar k)
  | cp_annotated : forall named ctx k md u, inlined named (TAnnot (TScalar k) md) -> copied_scalar k md u -> copy named ctx (TAnnot (TScalar k) md) u
  | cp_annot : forall named ctx t md u, inlined named (TAnnot t md) -> (forall k, t <> TScalar k) ->
      copy (match t with TRef _ => named | _ => false end) ctx t u -> copy named ctx (TAnnot t md) u
  | cp_list : forall named ctx t u, inlined named (TList t) -> copy true ctx t u -> copy named ctx (TList t) (TList u)
  | cp_literal : forall named ctx l, inlined named (TLiteral [l]) -> (exists b, l = LBool b) \/ (exists z, l = LInt z) \/ (exists s, l = LStr s) ->
      copy named ctx (TLiteral [l]) (TLiteral [l])
  | cp_union : forall named ctx op ts us u, inlined named (TUnion op ts) -> Forall2 (copy true ctx) ts us -> mk_union false us = Ok u ->
      copy named ctx (TUnion op ts) u
  | cp_enum : forall named ctx c cl ms vs c' ms', inlined named (TClass c) -> get_class E c = Some cl -> c_kind cl = CEnum ms -> map snd ms = map JStr vs ->
      get_class F c' = Some (mkClass m ctx (CEnum ms') None None) -> NoDup (map fst ms') ->
      (forall x j, In (x, j) ms' <-> exists v, j = JStr v /\ last_labelled (enum_safe_name (u_word U)) vs x v /\ ~ private ctx x) ->
      copy named ctx (TClass c) (TClass c')
  | cp_numbers : forall named ctx c cl ms zs lo hi w, inlined named (TClass c) -> get_class E c = Some cl -> c_kind cl = CEnum ms -> map snd ms = map JInt zs ->
      In lo zs -> In hi zs -> (forall z, In z zs -> (lo <= z <= hi)%Z) -> smallest lo hi w -> copy named ctx (TClass c) (int_typ w)
  | cp_class : forall named ctx c cl ps c' fs, inlined named (TClass c) -> get_class E c = Some cl -> (forall ms, c_kind cl <> CEnum ms) ->
      class_properties E cl = Ok ps ->
      Forall2 (fun xt f => schema_name (fst xt) (snd xt) (f_name f) /\ nameable U (f_name f) /\ exists w u, read_type (snd xt) w /\
        copy true (ctx ++ str "__" ++ f_name f) w u /\
        (~ optional (snd xt) -> f_type f = u) /\ (optional (snd xt) -> mk_union false [TScalar KNone; u] = Ok (f_type f)) /\
        copied_default c (fst xt) u (f_default f)) ps fs ->
      get_class F c' = Some (mkClass m ctx (CData false (fields_in_order fs)) None None) -> copy named ctx (TClass c) (TClass c')
  | cp_dict : forall named ctx k cl ms xs t c' fs, inlined named (TDict (TClass k) t) -> get_class E k = Some cl -> c_kind cl = CEnum ms -> length ms <= 4 ->
      Forall2 (fun m x => spelled (snd m) x) ms xs ->
      (forall x, In x xs <-> In x (map f_name fs)) -> NoDup (map f_name fs) ->
      (forall f, In f fs -> nameable U (f_name f) /\ f_default f = None /\ exists u, copy true (ctx ++ str "__" ++ f_name f) t u /\
        mk_union false [TScalar KNone; u] = Ok (f_type f)) ->
      get_class F c' = Some (mkClass m ctx (CData false fs) None None) -> copy named ctx (TDict (TClass k) t) (TClass c').
End Copies.
