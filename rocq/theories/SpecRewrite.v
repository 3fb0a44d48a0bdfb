(** What becomes of a document that is read and written again. *)
From Coq Require Import String List NArith ZArith QArith Bool.
From Verif Require Import Base Json PyTypes Mapping Deser SpecTyping SpecTypes SpecFields SpecNumbers SpecDeser SpecSer SpecTagged SpecRoundTrip SpecGenerate.
Import ListNotations.
Open Scope list_scope.
Open Scope nat_scope.

(** Built-in types that are written as texts other than [str]. *)
Definition textual (k : scalar) : Prop :=
  match k with KNone | KBool | KInt | KFloat | KStr => False | _ => True end.

(** Numbers and texts stay as they are; truth values turn into numbers, and integers
    into floats, where numbers and floats are called for; other texts are replaced by
    the text that is written for the value they are read as. *)
Inductive scalar_rewritten : scalar -> json -> json -> Prop :=
| sr_none : scalar_rewritten KNone JNull JNull
| sr_bool : forall b, scalar_rewritten KBool (JBool b) (JBool b)
| sr_int : forall z, scalar_rewritten KInt (JInt z) (JInt z)
| sr_truth : forall b : bool, scalar_rewritten KInt (JBool b) (JInt (if b then 1 else 0)%Z)
| sr_float : forall f, scalar_rewritten KFloat (JFloat f) (JFloat f)
| sr_integer : forall z f q, flt_q f = Some q -> nearest_double z q -> scalar_rewritten KFloat (JInt z) (JFloat f)
| sr_number : forall (b : bool) f q, flt_q f = Some q -> nearest_double (if b then 1 else 0)%Z q -> scalar_rewritten KFloat (JBool b) (JFloat f)
| sr_str : forall s, scalar_rewritten KStr (JStr s) (JStr s)
| sr_text : forall k s v s', textual k -> parse_scalar k (JStr s) = Ok v -> scalar_image v (JStr s') -> scalar_rewritten k (JStr s) (JStr s').

Section Fields.
  Variables (E : env) (cl : class) (ps : list (pystr * typ)) (o : list (pystr * json)).
  Variable R : typ -> json -> json -> Prop.

  (** Field after field.  A property that is there and not null is rewritten, under the
      name that is written for the field.  A property that is not there, or null, becomes
      the default of the field; it is left out if this is None, or if there is no default. *)
  Inductive fields_rewritten : list (pystr * typ * option (res value)) -> list (pystr * json) -> Prop :=
  | fr_nil : fields_rewritten [] []
  | fr_value : forall x t u d p q j j' L qs, In (x, t) ps -> json_name cl x u p -> prop_name x t q -> In (p, j) o -> j <> JNull -> R u j j' ->
      fields_rewritten L qs -> fields_rewritten ((x, u, d) :: L) ((q, j') :: qs)
  | fr_default : forall x t u p q v j' L qs, In (x, t) ps -> json_name cl x u p -> prop_name x t q -> absent o p \/ In (p, JNull) o ->
      v <> VNone -> image E v j' -> fields_rewritten L qs -> fields_rewritten ((x, u, Some (Ok v)) :: L) ((q, j') :: qs)
  | fr_omitted : forall x u d p L qs, json_name cl x u p -> absent o p \/ In (p, JNull) o -> d = Some (Ok VNone) \/ (d = None /\ optional u) ->
      fields_rewritten L qs -> fields_rewritten ((x, u, d) :: L) qs.
End Fields.

(** [rewritten E m t j j']: the document [j], taken for a [t], may be written again as
    [j'].  Nothing is added but defaults, and nothing is lost but what is null, repeated
    in a set, or belongs to no field.  Enumeration members are written as they are
    defined. *)
Inductive rewritten (E : env) : nat -> typ -> json -> json -> Prop :=
| rw_scalar : forall m k j j', scalar_rewritten k j j' -> rewritten E m (TScalar k) j j'
| rw_list : forall m t js js', Forall2 (rewritten E m t) js js' -> rewritten E m (TList t) (JArr js) (JArr js')
| rw_set : forall m t js js', (forall j', In j' js' -> exists j, In j js /\ rewritten E m t j j') -> length js' <= length js ->
    (js <> [] -> js' <> []) -> rewritten E m (TSet t) (JArr js) (JArr js')
| rw_dict : forall m k t o o', map fst o' = map fst o -> Forall2 (fun a b => rewritten E m t (snd a) (snd b)) o o' ->
    rewritten E m (TDict k t) (JObj o) (JObj o')
| rw_tuple : forall m ts js js', length js = length ts -> length js' = length ts ->
    (forall i t j j', nth_error ts i = Some t -> nth_error js i = Some j -> nth_error js' i = Some j' -> rewritten E m t j j') ->
    rewritten E m (TTuple ts) (JArr js) (JArr js')
| rw_union : forall m op ts t j j', In t ts -> rewritten E m t j j' -> rewritten E m (TUnion op ts) j j'
| rw_literal : forall m ls l j j', In l ls -> (forall c, lit_json l = Some c -> json_equal c j) -> rewritten E m (lit_type l) j j' ->
    rewritten E m (TLiteral ls) j j'
| rw_annot : forall m t md j j', rewritten E m t j j' -> rewritten E m (TAnnot t md) j j'
| rw_ref : forall m s a t j j', lookup E m s = Some (a, t) -> rewritten E m t j j' -> rewritten E m (TRef s) j j'
| rw_enum : forall m c cl ms x w j, get_class E c = Some cl -> c_kind cl = CEnum ms -> c_to_json cl = None -> In (x, w) ms -> json_equal w j ->
    rewritten E m (TClass c) j w
| rw_from_json : forall m c cl h j v j', get_class E c = Some cl -> not_enum cl -> c_from_json cl = Some h -> h j = Ok v -> image E v j' ->
    rewritten E m (TClass c) j j'
| rw_to_json : forall m c cl h v j j', get_class E c = Some cl -> c_to_json cl = Some h -> object_class v = Some c -> h v = Ok j' ->
    rewritten E m (TClass c) j j'
| rw_class : forall m c cl ps L o qs o', get_class E c = Some cl -> fieldwise cl -> c_to_json cl = None -> class_properties E cl = Ok ps -> layout E cl L ->
    fields_rewritten E cl ps o (rewritten E (c_module cl)) L qs -> merged qs o' -> rewritten E m (TClass c) (JObj o) (JObj o').

(** Documents made by [to_json] have no property twice. *)
Definition tidy (E : env) : Prop := forall c cl h v j, get_class E c = Some cl -> c_to_json cl = Some h -> h v = Ok j -> json_wf j.
