(** All outcomes of [check_recursive], exceptions included. *)
From Coq Require Import String List NArith ZArith Bool.
From Verif Require Import Base Json PyTypes SpecInspect SpecOutcome.
Import ListNotations.
Open Scope list_scope.

(** Conditions tried in turn up to the first that does not hold. *)
Inductive turns {A} (P : A -> res bool -> Prop) : list A -> res bool -> Prop :=
| tu_done : turns P [] (Ok true)
| tu_next : forall x l o, P x (Ok true) -> turns P l o -> turns P (x :: l) o
| tu_stop : forall x l o, P x o -> o <> Ok true -> turns P (x :: l) o.

(** Classes without properties that are not tested by the predicate. *)
Definition opaque (t : typ) : Prop := t = TScalar KIPv4 \/ t = TScalar KIPv6 \/ exists b, t = TBare b.

(** [v] passes for an object of class [cl], which is number [c]: any tuple does for a
    named tuple. *)
Definition admitted (E : env) (c : nat) (cl : class) (v : value) : Prop :=
  match c_kind cl with
  | CTuple _ | CRawTuple _ => exists vs, items E v vs
  | _ => instance E v (TClass c)
  end.

Definition attribute (v : value) (x : pystr) (w : value) : Prop := exists c attrs, v = VObj c attrs /\ dict_get attrs x = Some w.

(** The properties of a class, with the types they are checked for. *)
Definition properties (E : env) (cl : class) (fs : list (pystr * typ)) : Prop :=
  exists hs, hints E cl = Ok hs /\ Forall2 (fun h f => fst f = fst h /\ field_as cl (snd h) (snd f)) hs fs.

Inductive checks (E : env) (p : typ -> value -> bool) : typ -> value -> res bool -> Prop :=
| cs_scalar : forall k v, k <> KIPv4 -> k <> KIPv6 -> checks E p (TScalar k) v (Ok (p (TScalar k) v))
| cs_union : forall ts v, checks E p (TUnion false ts) v (Ok (p (TUnion false ts) v))
| cs_enum : forall c cl ms d x, get_class E c = Some cl -> c_kind cl = CEnum ms -> checks E p (TClass c) (VEnum d x) (Ok (p (TClass c) (VEnum d x)))
| cs_no_enum : forall c cl ms v, get_class E c = Some cl -> c_kind cl = CEnum ms -> (forall d x, v <> VEnum d x) -> checks E p (TClass c) v (Err EType)
| cs_opaque : forall t v, opaque t -> instance E v t -> checks E p t v (Ok true)
| cs_no_opaque : forall t v, opaque t -> ~ instance E v t -> checks E p t v (Err EType)
| cs_list : forall t vs o, turns (fun x => checks E p t x) vs o -> checks E p (TList t) (VList vs) o
| cs_no_list : forall t v, (forall vs, v <> VList vs) -> checks E p (TList t) v (Err EType)
| cs_set : forall t vs o, turns (fun x => checks E p t x) vs o -> checks E p (TSet t) (VSet vs) o
| cs_no_set : forall t v, (forall vs, v <> VSet vs) -> checks E p (TSet t) v (Err EType)
| cs_dict : forall k t kvs o, turns (fun kv => checks E p t (snd kv)) kvs o -> checks E p (TDict k t) (VDict kvs) o
| cs_no_dict : forall k t v, (forall kvs, v <> VDict kvs) -> checks E p (TDict k t) v (Err EType)
| cs_tuple : forall ts v vs o, items E v vs -> turns (fun tx => checks E p (fst tx) (snd tx)) (combine ts vs) o -> checks E p (TTuple ts) v o
| cs_no_tuple : forall ts v, (forall vs, ~ items E v vs) -> checks E p (TTuple ts) v (Err EType)
| cs_object : forall c cl fs v o, get_class E c = Some cl -> (forall ms, c_kind cl <> CEnum ms) -> admitted E c cl v -> properties E cl fs ->
    turns (fun f o' => (exists w, attribute v (fst f) w /\ checks E p (snd f) w o') \/ ((forall w, ~ attribute v (fst f) w) /\ o' = Err EAttribute)) fs o ->
    checks E p (TClass c) v o
| cs_no_object : forall c cl v, get_class E c = Some cl -> (forall ms, c_kind cl <> CEnum ms) -> ~ admitted E c cl v -> checks E p (TClass c) v (Err EType)
| cs_unsupported : forall t v, unsupported t \/ (exists s, t = TRef s) -> checks E p t v (Err EType).

(** The annotations of all classes can be evaluated. *)
Definition annotated (E : env) : Prop := forall c cl, get_class E c = Some cl -> exists fs, properties E cl fs.
