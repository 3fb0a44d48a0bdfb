(** Specification of the deserialization of classes field by field. *)
From Coq Require Import String List NArith ZArith Bool.
From Verif Require Import Base Json PyTypes Mapping Deser SpecTypes SpecDeser.
Import ListNotations.
Open Scope list_scope.

(** Annotations are as Python builds them. *)
Record canonical_env (E : env) : Prop := {
  ce_refs : forall m s a t, lookup E m s = Some (a, t) -> canonical t;
  ce_fields : forall c cl x t, get_class E c = Some cl -> In (x, t) (raw_fields (c_kind cl)) -> canonical t
}.

(** The keywords of Python 3.11, in the order of the table in section 2.3.1 of the
    language reference. *)
Definition python_keywords : list pystr :=
  map (fun s => str s)
   ["False"; "await"; "else"; "import"; "pass";
    "None"; "break"; "except"; "in"; "raise";
    "True"; "class"; "finally"; "is"; "return";
    "and"; "continue"; "for"; "lambda"; "try";
    "as"; "def"; "from"; "nonlocal"; "while";
    "assert"; "del"; "global"; "not"; "with";
    "async"; "elif"; "if"; "or"; "yield"]%string.

(** [prop_name x t p]: the JSON property of field [x] with annotation [t] is [p]. *)
Inductive prop_name (x : pystr) (t : typ) : pystr -> Prop :=
| pn_alias : forall a, has_alias t a -> prop_name x t a
| pn_keyword : forall k, no_alias t -> In k python_keywords -> x = k ++ str "_" -> prop_name x t k
| pn_same : no_alias t -> (forall k, In k python_keywords -> x <> k ++ str "_") -> prop_name x t x.

(** Named tuples use the field name itself. *)
Definition json_name (cl : class) (x : pystr) (t : typ) (p : pystr) : Prop :=
  match c_kind cl with CTuple _ => p = x | _ => prop_name x t p end.

(** The type a present value is read at: an optional type loses None. *)
Definition read_type (t u : typ) : Prop := (optional t /\ drops_none t u) \/ (~ optional t /\ u = t).

Definition reads (cl : class) (t u : typ) : Prop :=
  match c_kind cl with CTuple _ => u = t | _ => read_type t u end.

(** Fields of a class: name, evaluated annotation, and default. *)
Definition defaults (k : ckind) : list (option (res value)) :=
  match k with
  | CData _ fs => map f_default fs
  | _ => map (fun _ => None) (raw_fields k)
  end.

Definition layout (E : env) (cl : class) (L : list (pystr * typ * option (res value))) : Prop :=
  hints E cl = Ok (map fst L) /\ map snd L = defaults (c_kind cl).

Definition absent (o : list (pystr * json)) (p : pystr) : Prop := ~ In p (map fst o).

(** What a field of a data class or plain class receives from the object [o]. *)
Inductive received (E : env) (skip : bool) (m : nat) (o : list (pystr * json))
  : pystr * typ * option (res value) -> res value -> Prop :=
| rc_present : forall x t d p u j, prop_name x t p -> In (p, j) o -> j <> JNull -> read_type t u ->
    received E skip m o (x, t, d) (json_to_object E skip m u j)
| rc_default : forall x t r p, prop_name x t p -> absent o p \/ In (p, JNull) o ->
    received E skip m o (x, t, Some r) r
| rc_none : forall x t p, prop_name x t p -> absent o p \/ In (p, JNull) o -> optional t ->
    received E skip m o (x, t, None) (Ok VNone)
| rc_missing : forall x t p, prop_name x t p -> absent o p -> ~ optional t ->
    received E skip m o (x, t, None) (Err EJsonKey)
| rc_null : forall x t p, prop_name x t p -> In (p, JNull) o -> ~ optional t ->
    received E skip m o (x, t, None) (Err EJsonValue).

(** Data classes and plain classes without [from_json]. *)
Definition ordinary (cl : class) : Prop :=
  match c_kind cl with CData _ _ | CPlain _ => c_from_json cl = None | _ => False end.

(** Classes that are read field by field. *)
Definition fieldwise (cl : class) : Prop :=
  match c_kind cl with
  | CData _ _ | CPlain _ => c_from_json cl = None
  | CTuple _ | CRawTuple _ => True
  | CEnum _ => False
  end.

(** The property [p] belongs to the class. *)
Definition known (E : env) (cl : class) (p : pystr) : Prop :=
  exists hs x t, hints E cl = Ok hs /\ In (x, t) hs /\ json_name cl x t p.

(** [alike E m t j j']: the documents differ, if at all, in properties that do
    not belong to the classes that [t] reads there (nor are tags). *)
Inductive alike (E : env) : nat -> typ -> json -> json -> Prop :=
| al_same : forall m t j, alike E m t j j
| al_list : forall m t js js', length js = length js' ->
    (forall i a b, nth_error js i = Some a -> nth_error js' i = Some b -> alike E m t a b) ->
    alike E m (TList t) (JArr js) (JArr js')
| al_set : forall m t js js', length js = length js' ->
    (forall i a b, nth_error js i = Some a -> nth_error js' i = Some b -> alike E m t a b) ->
    alike E m (TSet t) (JArr js) (JArr js')
| al_tuple : forall m ts js js', length js = length js' ->
    (forall i t a b, nth_error ts i = Some t -> nth_error js i = Some a -> nth_error js' i = Some b ->
       alike E m t a b) ->
    alike E m (TTuple ts) (JArr js) (JArr js')
| al_dict : forall m k t o o', map fst o = map fst o' ->
    (forall i a b, nth_error (map snd o) i = Some a -> nth_error (map snd o') i = Some b -> alike E m t a b) ->
    alike E m (TDict k t) (JObj o) (JObj o')
| al_union : forall m op ts j j', ts <> [] -> (forall t, In t ts -> alike E m t j j') ->
    (forall p o o', tag E ts p -> j = JObj o -> j' = JObj o' -> dict_get o p = dict_get o' p) ->
    alike E m (TUnion op ts) j j'
| al_annot : forall m t md j j', alike E m t j j' -> alike E m (TAnnot t md) j j'
| al_ref : forall m s a t j j', lookup E m s = Some (a, t) -> alike E m (unwrap_annotated t) j j' ->
    alike E m (TRef s) j j'
| al_class : forall m c cl o o', get_class E c = Some cl -> fieldwise cl ->
    (forall p, known E cl p -> (absent o p <-> absent o' p)) ->
    (forall hs x t u p a b, hints E cl = Ok hs -> In (x, t) hs -> json_name cl x t p -> reads cl t u ->
       In (p, a) o -> In (p, b) o' -> alike E (c_module cl) u a b) ->
    alike E m (TClass c) (JObj o) (JObj o').
