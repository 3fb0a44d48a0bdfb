(** Specification for C44: types that are written alike. *)
From Coq Require Import String List NArith ZArith Bool.
From Verif Require Import Base Json PyTypes SpecTypes.
Import ListNotations.
Open Scope list_scope.

(** Names: none of the characters [ ] , space . : ( ) < > ' dquote | (which Python
    identifiers do not have). *)
Definition name_like (s : pystr) : Prop := s <> [] /\ forall c, In c s -> ~ In c [91; 93; 44; 32; 46; 58; 40; 41; 60; 62; 39; 34; 124]%N.

(** Names of the types that are built in, and of those of auxiliary.py. *)
Definition builtin_names : list pystr :=
  map str ["None"; "NoneType"; "bool"; "int"; "float"; "str"; "bytes"; "datetime"; "date"; "time"; "timedelta"; "UUID"; "IPv4Address"; "IPv6Address";
           "list"; "dict"; "set"; "tuple";
           "int8"; "int16"; "int32"; "int64"; "uint8"; "uint16"; "uint32"; "uint64"; "float32"; "float64"]%string.

(** No class is called like another one or like a built-in type. *)
Record well_named (E : env) : Prop := {
  wn_class : forall c cl, get_class E c = Some cl -> name_like (c_name cl) /\ ~ In (c_name cl) builtin_names;
  wn_distinct : forall c d cl dl, get_class E c = Some cl -> get_class E d = Some dl -> c_name cl = c_name dl -> c = d;
  wn_member : forall c cl ms x j, get_class E c = Some cl -> c_kind cl = CEnum ms -> In (x, j) ms -> name_like x
}.

(** Literals: characters are code points, bytes are below 256, members exist. *)
Definition legible_lit (E : env) (l : lit) : Prop :=
  match l with
  | LStr s => Forall (fun c => c < 1114112)%N s
  | LBytes bs => Forall (fun c => c < 256)%N bs
  | LEnum c x => exists cl ms j, get_class E c = Some cl /\ c_kind cl = CEnum ms /\ dict_get ms x = Some j
  | _ => True
  end.

(** The annotations of auxiliary.py. *)
Definition legible_annot (a : annot) : Prop :=
  match a with AAlias x => Forall (fun c => c < 1114112)%N x | AOther _ => False | _ => True end.

(** Classes exist, texts are names ([ident]: [str.isidentifier]). *)
Inductive legible (E : env) (ident : pystr -> bool) : typ -> Prop :=
| lg_scalar : forall k, legible E ident (TScalar k)
| lg_bare : forall b, legible E ident (TBare b)
| lg_list : forall t, legible E ident t -> legible E ident (TList t)
| lg_set : forall t, legible E ident t -> legible E ident (TSet t)
| lg_dict : forall k t, legible E ident k -> legible E ident t -> legible E ident (TDict k t)
| lg_tuple : forall ts, Forall (legible E ident) ts -> legible E ident (TTuple ts)
| lg_union : forall op ts, Forall (legible E ident) ts -> legible E ident (TUnion op ts)
| lg_literal : forall ls, Forall (legible_lit E) ls -> legible E ident (TLiteral ls)
| lg_annot : forall t md, legible E ident t -> Forall legible_annot md -> legible E ident (TAnnot t md)
| lg_class : forall c cl, get_class E c = Some cl -> legible E ident (TClass c)
| lg_ref : forall s, ident s = true -> name_like s -> ~ In s builtin_names -> legible E ident (TRef s).

(** The types of auxiliary.py, by name, in the order in which they are tried. *)
Definition numbers : list (pystr * (scalar * list annot)) :=
  [(str "float32", (KFloat, [AStorage 4]));
   (str "float64", (KFloat, [AStorage 8]));
   (str "int16", (KInt, [ASigned true; AStorage 2; AIntegerRange (-32768) 32767]));
   (str "int32", (KInt, [ASigned true; AStorage 4; AIntegerRange (-2147483648) 2147483647]));
   (str "int64", (KInt, [ASigned true; AStorage 8; AIntegerRange (-9223372036854775808) 9223372036854775807]));
   (str "int8", (KInt, [ASigned true; AStorage 1; AIntegerRange (-128) 127]));
   (str "uint16", (KInt, [ASigned false; AStorage 2; AIntegerRange 0 65535]));
   (str "uint32", (KInt, [ASigned false; AStorage 4; AIntegerRange 0 4294967295]));
   (str "uint64", (KInt, [ASigned false; AStorage 8; AIntegerRange 0 18446744073709551615]));
   (str "uint8", (KInt, [ASigned false; AStorage 1; AIntegerRange 0 255]))].

(** [rest] is [md] without what is in [amd]. *)
Inductive leaves_out (amd : list annot) : list annot -> list annot -> Prop :=
| lo_nil : leaves_out amd [] []
| lo_drop : forall a md rest, In a amd -> leaves_out amd md rest -> leaves_out amd (a :: md) rest
| lo_keep : forall a md rest, ~ In a amd -> leaves_out amd md rest -> leaves_out amd (a :: md) (a :: rest).

(** [refines k md x rest]: among the annotations [md] of [k] are those of the
    auxiliary type [x], and [rest]; [x] is the first such type. *)
Definition refines (k : scalar) (md : list annot) (x : pystr) (rest : list annot) : Prop :=
  exists l1 amd l2, numbers = l1 ++ (x, (k, amd)) :: l2 /\ incl amd md /\ leaves_out amd md rest /\
    forall y bmd, In (y, (k, bmd)) l1 -> ~ incl bmd md.

(** [exactly t x]: [t] is the auxiliary type [x]. *)
Definition exactly (t : typ) (x : pystr) : Prop := exists k amd, In (x, (k, amd)) numbers /\ t = TAnnot (TScalar k) amd.

(** [alike E op t u]: [t] and [u] are the same type up to
    - [Union[A, B]] and [A | B],
    - the position of None in [Optional[T]], unless the operator is used,
    - a class and a text that is its name,
    - the order in which the annotations of an auxiliary type occur, and their
      position among further annotations. *)
Inductive alike (E : env) (op : bool) : typ -> typ -> Prop :=
| al_scalar : forall k, alike E op (TScalar k) (TScalar k)
| al_bare : forall b, alike E op (TBare b) (TBare b)
| al_class : forall c, alike E op (TClass c) (TClass c)
| al_ref : forall s, alike E op (TRef s) (TRef s)
| al_class_ref : forall c cl, get_class E c = Some cl -> alike E op (TClass c) (TRef (c_name cl))
| al_ref_class : forall c cl, get_class E c = Some cl -> alike E op (TRef (c_name cl)) (TClass c)
| al_list : forall t u, alike E op t u -> alike E op (TList t) (TList u)
| al_set : forall t u, alike E op t u -> alike E op (TSet t) (TSet u)
| al_dict : forall j t k u, alike E op j k -> alike E op t u -> alike E op (TDict j t) (TDict k u)
| al_tuple : forall ts us, Forall2 (alike E op) ts us -> alike E op (TTuple ts) (TTuple us)
| al_union : forall o o' ts us, Forall2 (alike E op) ts us -> alike E op (TUnion o ts) (TUnion o' us)
| al_optional : forall o o' ts us t u, op = false -> (ts = [t; none_type] \/ ts = [none_type; t]) -> (us = [u; none_type] \/ us = [none_type; u]) ->
    alike E op t u -> alike E op (TUnion o ts) (TUnion o' us)
| al_literal : forall ls, alike E op (TLiteral ls) (TLiteral ls)
| al_annot : forall t u md, alike E op t u -> alike E op (TAnnot t md) (TAnnot u md)
| al_auxiliary : forall k md md' x rest, refines k md x rest -> refines k md' x rest ->
    (forall y, ~ exactly (TAnnot (TScalar k) md) y) -> (forall y, ~ exactly (TAnnot (TScalar k) md') y) -> alike E op (TAnnot (TScalar k) md) (TAnnot (TScalar k) md').

(** ** Short names *)

(** [basic t n]: apart from annotations that do not make it an auxiliary type, [t]
    is [n], which is built in, auxiliary or a class; the empty tuple type counts as
    [tuple]. *)
Inductive basic (E : env) : typ -> typ -> Prop :=
| ba_auxiliary : forall t x, exactly t x -> basic E t t
| ba_annot : forall t md n, (forall x, ~ exactly (TAnnot t md) x) -> basic E t n -> basic E (TAnnot t md) n
| ba_scalar : forall k, basic E (TScalar k) (TScalar k)
| ba_bare : forall b, basic E (TBare b) (TBare b)
| ba_unit : basic E (TTuple []) (TBare BTuple)
| ba_class : forall c cl, get_class E c = Some cl -> basic E (TClass c) (TClass c).

Inductive label := OfBasic (n : typ) | OfDict (k v : typ) | OfList (n : typ) | OfSet (n : typ) | OfTuple (ns : list typ) | OfOptional (n : typ) | OfUnion (ns : list typ).

(** Generic types, one level deep. *)
Definition generic (t : typ) : Prop := match t with TDict _ _ | TList _ | TSet _ | TTuple _ | TUnion _ _ => True | _ => False end.

Inductive called (E : env) (force : bool) : typ -> label -> Prop :=
| cd_basic : forall t n, basic E t n -> (force = true -> ~ generic t) -> called E force t (OfBasic n)
| cd_dict : forall k v a b, force = true -> basic E k a -> basic E v b -> called E force (TDict k v) (OfDict a b)
| cd_list : forall t n, force = true -> basic E t n -> called E force (TList t) (OfList n)
| cd_set : forall t n, force = true -> basic E t n -> called E force (TSet t) (OfSet n)
| cd_tuple : forall ts ns, force = true -> Forall2 (basic E) ts ns -> called E force (TTuple ts) (OfTuple ns)
| cd_optional : forall o ts t n, force = true -> ts = [t; none_type] \/ ts = [none_type; t] -> basic E t n -> called E force (TUnion o ts) (OfOptional n)
| cd_union : forall o ts ns, force = true -> (length ts = 2%nat -> ~ In none_type ts) -> Forall2 (basic E) ts ns -> called E force (TUnion o ts) (OfUnion ns).

(** No class name has two underscores in a row or one at the end. *)
Definition separable_name (x : pystr) : Prop := (forall a b, x <> a ++ [95; 95]%N ++ b) /\ (forall a, x <> a ++ [95]%N).
Definition separable_names (E : env) : Prop := forall c cl, get_class E c = Some cl -> separable_name (c_name cl).
