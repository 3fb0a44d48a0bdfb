(** What a new version of a program may change in its classes, and how the values of
    the two versions correspond. *)
From Coq Require Import String List NArith ZArith Bool.
From Verif Require Import Base Json PyTypes Mapping Deser SpecTypes SpecDeser SpecFields SpecTagged.
Import ListNotations.
Open Scope list_scope.
Open Scope nat_scope.

(** The second list has further items, somewhere, all of which satisfy [P]. *)
Inductive inserted {A : Type} (P : A -> Prop) : list A -> list A -> Prop :=
| in_nil : inserted P [] []
| in_keep : forall x l l', inserted P l l' -> inserted P (x :: l) (x :: l')
| in_new : forall x l l', P x -> inserted P l l' -> inserted P l (x :: l').

(** Fields that need not be given. *)
Definition spare (f : pystr * typ * option (res value)) : Prop :=
  let '(_, t, d) := f in (exists v, d = Some (Ok v)) \/ (d = None /\ optional t).

(** No two fields have the same JSON property. *)
Definition told_by_name (cl : class) (L : list (pystr * typ * option (res value))) : Prop :=
  ForallOrdPairs (fun f g => forall p, json_name cl (fst (fst f)) (snd (fst f)) p -> ~ json_name cl (fst (fst g)) (snd (fst g)) p) L.

(** [cl'] is what became of [cl]: data classes and plain classes may have further fields,
    which need not be given and are not of literal type. *)
Record renewed (E E' : env) (cl cl' : class) : Prop := {
  rn_module : c_module cl' = c_module cl;
  rn_hook : c_from_json cl' = c_from_json cl;
  rn_kind : match c_kind cl, c_kind cl' with
            | CData _ _, CData _ _ | CPlain _, CPlain _ => True
            | CEnum _, CEnum _ | CTuple _, CTuple _ | CRawTuple _, CRawTuple _ => c_kind cl' = c_kind cl /\ hints E' cl' = hints E cl
            | _, _ => False
            end;
  rn_fields : forall L L', layout E cl L -> layout E' cl' L' -> inserted spare L L';
  rn_names : forall L', layout E' cl' L' -> told_by_name cl' L';
  rn_literals : forall ps ps', class_properties E cl = Ok ps -> class_properties E' cl' = Ok ps' ->
    inserted (fun f => literal_values (snd f) = None) ps ps'
}.

(** [E'] is a later version of [E].  It may have further classes and names. *)
Record evolved (E E' : env) : Prop := {
  ev_order : e_order E' = e_order E;
  ev_names : forall m s r, lookup E m s = Some r -> lookup E' m s = Some r;
  ev_class : forall c cl, get_class E c = Some cl -> exists cl', get_class E' c = Some cl' /\ renewed E E' cl cl'
}.

(** Types none of whose values is an object of a class with fields. *)
Inductive rigid (E : env) (m : nat) : typ -> Prop :=
| rg_scalar : forall k, rigid E m (TScalar k)
| rg_enum : forall c cl ms, get_class E c = Some cl -> c_kind cl = CEnum ms -> rigid E m (TClass c)
| rg_literal : forall ls, (forall l, In l ls -> rigid E m (lit_type l)) -> rigid E m (TLiteral ls)
| rg_tuple : forall ts, (forall t, In t ts -> rigid E m t) -> rigid E m (TTuple ts)
| rg_annot : forall t md, rigid E m t -> rigid E m (TAnnot t md)
| rg_ref : forall s a t, lookup E m s = Some (a, t) -> rigid E m (unwrap_annotated t) -> rigid E m (TRef s).

(** Of the alternatives of an untagged union, [a] does not take documents of [b]: it has
    no classes, or takes other kinds of documents. *)
Definition keeps_off (E : env) (m : nat) (a b : typ) : Prop :=
  rigid E m a \/ forall jk, admits E m b jk -> ~ admits E m a jk.

(** What a type must meet for its documents to survive the change: the items of sets, and
    literals, are not affected; no alternative of a union takes what belonged to a later one. *)
Record durable (E : env) (m : nat) (t : typ) : Prop := {
  du_set : forall m' u, reach E m t m' (TSet u) -> rigid E m' u;
  du_literal : forall m' ls, reach E m t m' (TLiteral ls) -> rigid E m' (TLiteral ls);
  du_union : forall m' op ts ts1 a ts2 b, reach E m t m' (TUnion op ts) -> untagged E ts -> ts = ts1 ++ a :: ts2 -> In b ts2 ->
    keeps_off E m' a b
}.

(** The second value is the first one up to attributes that were added, of which [N]
    holds. *)
Inductive grown (N : nat -> pystr -> value -> Prop) : value -> value -> Prop :=
| gr_same : forall v, grown N v v
| gr_list : forall vs vs', Forall2 (grown N) vs vs' -> grown N (VList vs) (VList vs')
| gr_tuple : forall vs vs', Forall2 (grown N) vs vs' -> grown N (VTuple vs) (VTuple vs')
| gr_dict : forall kvs kvs', Forall2 (fun a b => fst a = fst b) kvs kvs' -> Forall2 (fun a b => grown N (snd a) (snd b)) kvs kvs' ->
    grown N (VDict kvs) (VDict kvs')
| gr_object : forall c attrs attrs', grown_attrs N c attrs attrs' -> grown N (VObj c attrs) (VObj c attrs')
with grown_attrs (N : nat -> pystr -> value -> Prop) : nat -> list (pystr * value) -> list (pystr * value) -> Prop :=
| ga_nil : forall c, grown_attrs N c [] []
| ga_keep : forall c x v v' l l', grown N v v' -> grown_attrs N c l l' -> grown_attrs N c ((x, v) :: l) ((x, v') :: l')
| ga_new : forall c x v l l', N c x v -> grown_attrs N c l l' -> grown_attrs N c l ((x, v) :: l').

(** The attribute has the default of its field, or None. *)
Definition defaulted (E : env) (c : nat) (x : pystr) (v : value) : Prop :=
  exists cl L t d, get_class E c = Some cl /\ layout E cl L /\ In (x, t, d) L /\ (d = Some (Ok v) \/ (d = None /\ v = VNone)).
