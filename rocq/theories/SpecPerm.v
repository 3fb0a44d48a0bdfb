(** Documents and values that differ in the order of entries only. *)
From Coq Require Import String List NArith ZArith Bool Permutation.
From Verif Require Import Base Json PyTypes Deser SpecDeser SpecTagged SpecRoundTrip.
Import ListNotations.
Open Scope list_scope.

(** [jperm j j']: [j'] is [j] with the properties of objects permuted, at any
    depth. *)
Inductive jperm : json -> json -> Prop :=
| jp_same : forall j, jperm j j
| jp_arr : forall js js', Forall2 jperm js js' -> jperm (JArr js) (JArr js')
| jp_obj : forall o o1 o', Forall2 (fun a b => fst a = fst b /\ jperm (snd a) (snd b)) o o1 ->
    Permutation o1 o' -> jperm (JObj o) (JObj o').

(** [vperm v v']: [v'] is [v] with the entries of dictionaries permuted, at any
    depth. *)
Inductive vperm : value -> value -> Prop :=
| vp_same : forall v, vperm v v
| vp_list : forall vs vs', Forall2 vperm vs vs' -> vperm (VList vs) (VList vs')
| vp_tuple : forall vs vs', Forall2 vperm vs vs' -> vperm (VTuple vs) (VTuple vs')
| vp_set : forall vs vs', Forall2 vperm vs vs' -> vperm (VSet vs) (VSet vs')
| vp_dict : forall d d1 d', Forall2 (fun a b => fst a = fst b /\ vperm (snd a) (snd b)) d d1 ->
    Permutation d1 d' -> vperm (VDict d) (VDict d')
| vp_obj : forall c ps ps', Forall2 (fun a b => fst a = fst b /\ vperm (snd a) (snd b)) ps ps' ->
    vperm (VObj c ps) (VObj c ps').

(** A class read by a function of its own ([from_json]). *)
Definition hooked (cl : class) (h : json -> res value) : Prop :=
  (match c_kind cl with CData _ _ | CPlain _ => True | _ => False end) /\ c_from_json cl = Some h.

(** Alternatives are settled: whether an alternative is passed over, in favour
    of one further down, does not depend on the order of properties. *)
Definition settled (E : env) (skip : bool) (m : nat) (ts : list typ) : Prop :=
  forall ts1 w ts2 u j j' v e, ts = ts1 ++ w :: ts2 -> In u ts2 -> json_wf j -> jperm j j' ->
  json_to_object E skip m u j = Ok v -> json_to_object E skip m w j = Err e -> soft e ->
  exists e', json_to_object E skip m w j' = Err e' /\ soft e'.

(** What is needed of the unions and [from_json] functions met while reading
    [t]. *)
Record order_free (E : env) (skip : bool) (m : nat) (t : typ) : Prop := {
  of_union : forall m' op ts, reach E m t m' (TUnion op ts) -> untagged E ts -> settled E skip m' ts;
  of_hook : forall m' c cl h j j' v, reach E m t m' (TClass c) -> get_class E c = Some cl -> hooked cl h ->
    jperm j j' -> h j = Ok v -> exists v', h j' = Ok v' /\ vperm v v'
}.

(** Reading [t] involves no dictionary. *)
Record dict_free (E : env) (m : nat) (t : typ) : Prop := {
  df_dict : forall m' k u, ~ reach E m t m' (TDict k u);
  df_hook : forall m' c cl h j j', reach E m t m' (TClass c) -> get_class E c = Some cl -> hooked cl h ->
    jperm j j' -> h j = h j'
}.

(** [w] rejects data with JsonKeyError or JsonTypeError only. *)
Definition gentle (E : env) (skip : bool) (m : nat) (w : typ) : Prop :=
  forall j e, json_to_object E skip m w j = Err e -> soft e.

(** [w] and [u] are read from different kinds of data. *)
Definition kinds_apart (E : env) (m : nat) (w u : typ) : Prop :=
  forall jk, admits E m u jk -> refuses E m w jk.
