(** The types for which a schema can be generated, and the names that their
    schemas refer to. *)
From Coq Require Import String List NArith ZArith Bool.
From Verif Require Import Base Json PyTypes Deser Ser Catalog Schema SpecTypes SpecTagged SpecFields SpecGenerate SpecValid.
Import ListNotations.
Open Scope list_scope.
Open Scope nat_scope.

(** A type found in the catalog; of the texts, only a [ForwardRef] is looked up. *)
Definition registered (S : senv) (t : typ) (e : entry) : Prop :=
  get (s_catalog S) t = Ok e /\ forall s, t = TRef s -> s_forward S s = true.

(** The type is spelled out in place: this is asked for, or it is not registered. *)
Definition in_place (S : senv) (force : bool) (t : typ) : Prop := force = true \/ forall e, ~ registered S t e.

(** The scalar types that have a schema of their own (IP addresses have not). *)
Definition plain (t : typ) : Prop := exists k, t = TScalar k /\ addressed k = false.

(** A union in the sense of the library: [Optional[T]] is none. *)
Definition proper_union (ts : list typ) : Prop := 2 < length ts \/ ~ In none_type ts.

(** Values of enumeration members: JSON scalars, all of one type. *)
Inductive one_type : list json -> Prop :=
| ot_null : forall js, js <> [] -> (forall j, In j js -> j = JNull) -> one_type js
| ot_bool : forall js, js <> [] -> (forall j, In j js -> exists b, j = JBool b) -> one_type js
| ot_int : forall js, js <> [] -> (forall j, In j js -> exists z, j = JInt z) -> one_type js
| ot_float : forall js, js <> [] -> (forall j, In j js -> exists x, j = JFloat x) -> one_type js
| ot_str : forall js, js <> [] -> (forall j, In j js -> exists s, j = JStr s) -> one_type js.

(** Key types of dictionaries; the text of a floating-point number is not modelled. *)
Definition drawn_key (E : env) (k : typ) : Prop :=
  k = TScalar KStr \/ k = TScalar KInt \/
  exists c cl ms, k = TClass c /\ get_class E c = Some cl /\ c_kind cl = CEnum ms /\
    forall x j, In (x, j) ms -> match j with JFloat _ | JArr _ | JObj _ => False | _ => True end.

(** Default values that are written to the schema, if they can be serialized. *)
Definition exhibited (v : value) : Prop :=
  match v with
  | VBool _ | VInt _ | VFloat _ | VStr _ | VEnum _ _ | VDateTime _ | VDate _ | VTime _ | VTimeDelta _ => True
  | _ => False
  end.
Definition default_written (E : env) (S : senv) (c : nat) (x : pystr) : Prop :=
  forall v, dict_get (s_attrs S c) x = Some v -> exhibited v -> exists j, object_to_json E v = Ok j.

(** The type whose schema is written for a field: less None, if it is optional. *)
Definition shown (t r : typ) : Prop := (optional t /\ unwrap_optional t = Ok r) \/ (~ optional t /\ r = t).

(** [draw E S force t R]: the schema of [t] can be drawn up; [R] are the types
    that are referred to by name.  [spell] is about the schema in place. *)
Inductive draw (E : env) (S : senv) : bool -> typ -> list (pystr * typ) -> Prop :=
| dr_plain : forall f t, plain t -> draw E S f t []
| dr_registered : forall t e, ~ plain t -> registered S t e -> draw E S false t [(en_identifier e, t)]
| dr_annot_plain : forall f t md, plain t -> in_place S f (TAnnot t md) -> draw E S f (TAnnot t md) []
| dr_annot : forall f t md R, ~ plain t -> in_place S f (TAnnot t md) -> spell E S f t R -> draw E S f (TAnnot t md) R
| dr_in_place : forall f t R, ~ plain t -> ~ is_annotated t -> in_place S f t -> spell E S f t R -> draw E S f t R
with spell (E : env) (S : senv) : bool -> typ -> list (pystr * typ) -> Prop :=
| sl_address : forall f k, addressed k = true -> spell E S f (TScalar k) []
| sl_bare : forall f b, spell E S f (TBare b) []
| sl_text_forced : forall s t R, s_eval S s = Some t -> draw E S true t R -> spell E S true (TRef s) R
| sl_text_known : forall s t, s_eval S s = Some t -> spell E S false (TRef s) [(s, t)]
| sl_text_unknown : forall s, s_eval S s = None -> spell E S false (TRef s) []
| sl_union : forall f op ts R, proper_union ts -> draw_all E S ts R -> spell E S f (TUnion op ts) R
| sl_tuple : forall f ts R, draw_all E S ts R -> spell E S f (TTuple ts) R
| sl_list : forall f t R, draw E S false t R -> spell E S f (TList t) R
| sl_set : forall f t R, draw E S false t R -> spell E S f (TSet t) R
| sl_dict : forall f k t R, drawn_key E k -> draw E S false t R -> spell E S f (TDict k t) R
| sl_literal : forall f l j, lit_json l = Some j -> spell E S f (TLiteral [l]) []
| sl_enum : forall f c cl ms, get_class E c = Some cl -> c_kind cl = CEnum ms -> one_type (map snd ms) -> spell E S f (TClass c) []
| sl_class : forall f c cl ps R, get_class E c = Some cl -> not_enum cl -> class_properties E cl = Ok ps ->
    draw_fields E S c ps R -> spell E S f (TClass c) R
with draw_all (E : env) (S : senv) : list typ -> list (pystr * typ) -> Prop :=
| da_nil : draw_all E S [] []
| da_cons : forall t ts R R', draw E S false t R -> draw_all E S ts R' -> draw_all E S (t :: ts) (R ++ R')
with draw_fields (E : env) (S : senv) : nat -> list (pystr * typ) -> list (pystr * typ) -> Prop :=
| df_nil : forall c, draw_fields E S c [] []
| df_cons : forall c x t r ps R R', shown t r -> draw E S false r R -> default_written E S c x -> draw_fields E S c ps R' ->
    draw_fields E S c ((x, t) :: ps) (R ++ R').

(** [define E S t R]: the definition of the registered type [t] can be written:
    its schema is given with the registration, or drawn up in place. *)
Inductive define (E : env) (S : senv) (t : typ) : list (pystr * typ) -> Prop :=
| de_given : forall e d, registered S t e -> en_schema e = Some (JObj d) -> define E S t []
| de_drawn : forall e R, registered S t e -> en_schema e = None -> draw E S true t R -> define E S t R.

(** Whatever is referred to can be defined. *)
Definition definable (E : env) (S : senv) (G : list (pystr * typ)) : Prop :=
  forall s t, In (s, t) G -> exists R, define E S t R /\ incl R G.
