(** Python expressions for types, independent of how they are written. *)
From Coq Require Import String List NArith ZArith Bool.
From Verif Require Import Base Json PyTypes SpecTypes SpecText SpecNames.
From Verif Require SpecAddresses.
Import ListNotations.
Open Scope list_scope.
Open Scope N_scope.

(** [listing R sep s l]: [s] is the items of [l] with [sep] between them; not empty. *)
Inductive listing {A} (R : pystr -> A -> Prop) (sep : pystr) : pystr -> list A -> Prop :=
| li_one : forall s x, R s x -> listing R sep s [x]
| li_more : forall s x r l, R s x -> listing R sep r l -> listing R sep (s ++ sep ++ r) (x :: l).

(** Python language reference, 2.4.1: what is between the quotes [q] of a literal for a
    string, or for bytes. *)
Definition simple_escapes : list (N * N) := [(92, 92); (39, 39); (34, 34); (110, 10); (114, 13); (116, 9)].
Definition numeric_escapes : list (N * nat) := [(120, 2%nat); (117, 4%nat); (85, 8%nat)].

Inductive quoted (bytes : bool) (q : N) : pystr -> pystr -> Prop :=
| qu_end : quoted bytes q [] []
| qu_plain : forall c s t, c <> q -> c <> 92 -> c <> 10 -> c <> 13 -> (bytes = true -> c < 128) -> quoted bytes q s t -> quoted bytes q (c :: s) (c :: t)
| qu_simple : forall e c s t, In (e, c) simple_escapes -> quoted bytes q s t -> quoted bytes q (c :: s) (92 :: e :: t)
| qu_numeric : forall l w n x s t, In (l, w) numeric_escapes -> (bytes = true -> l = 120) -> SpecAddresses.hex_numeral w n x -> quoted bytes q s t ->
    quoted bytes q (n :: s) (92 :: l :: x ++ t).

Definition string_text (s : pystr) (v : pystr) : Prop := exists q t, In q [39; 34] /\ quoted false q v t /\ s = [q] ++ t ++ [q].
Definition bytes_text (s : pystr) (v : list N) : Prop := exists q t, In q [39; 34] /\ quoted true q v t /\ s = str "b" ++ [q] ++ t ++ [q].

Inductive boolean_text : pystr -> bool -> Prop :=
| bo_true : boolean_text (str "True") true
| bo_false : boolean_text (str "False") false.

Inductive literal_text : pystr -> lit -> Prop :=
| lt_none : literal_text (str "None") LNone
| lt_bool : forall s b, boolean_text s b -> literal_text s (LBool b)
| lt_int : forall s z, integer_text s z -> literal_text s (LInt z)
| lt_str : forall s v, string_text s v -> literal_text s (LStr v)
| lt_bytes : forall s v, bytes_text s v -> literal_text s (LBytes v).

(** The constructors of auxiliary.py, with arguments by position. *)
Inductive annotation_text : pystr -> annot -> Prop :=
| at_alias : forall s x, string_text s x -> annotation_text (str "Alias(" ++ s ++ str ")") (AAlias x)
| at_range : forall s r lo hi, integer_text s lo -> integer_text r hi -> annotation_text (str "IntegerRange(" ++ s ++ str ", " ++ r ++ str ")") (AIntegerRange lo hi)
| at_precision : forall s r n d, integer_text s (Z.of_N n) -> integer_text r (Z.of_N d) -> annotation_text (str "Precision(" ++ s ++ str ", " ++ r ++ str ")") (APrecision n d)
| at_min : forall s n, integer_text s (Z.of_N n) -> annotation_text (str "MinLength(" ++ s ++ str ")") (AMinLength n)
| at_max : forall s n, integer_text s (Z.of_N n) -> annotation_text (str "MaxLength(" ++ s ++ str ")") (AMaxLength n)
| at_storage : forall s n, integer_text s (Z.of_N n) -> annotation_text (str "Storage(" ++ s ++ str ")") (AStorage n)
| at_signed : forall s b, boolean_text s b -> annotation_text (str "Signed(" ++ s ++ str ")") (ASigned b).

Definition scalar_names : list (pystr * scalar) :=
  [(str "None", KNone); (str "NoneType", KNone); (str "bool", KBool); (str "int", KInt); (str "float", KFloat); (str "str", KStr); (str "bytes", KBytes);
   (str "datetime", KDateTime); (str "date", KDate); (str "time", KTime); (str "timedelta", KTimeDelta); (str "UUID", KUUID);
   (str "IPv4Address", KIPv4); (str "IPv6Address", KIPv6)].

(** [expression E s t]: the expression [s] evaluates to a type that equals [t]. *)
Inductive expression (E : env) : pystr -> typ -> Prop :=
| ex_scalar : forall s k, In (s, k) scalar_names -> expression E s (TScalar k)
| ex_bare_list : expression E (str "list") (TBare BList)
| ex_bare_dict : expression E (str "dict") (TBare BDict)
| ex_bare_set : expression E (str "set") (TBare BSet)
| ex_bare_tuple : expression E (str "tuple") (TBare BTuple)
| ex_class : forall c cl, get_class E c = Some cl -> expression E (c_name cl) (TClass c)
| ex_ref : forall s, name_like s -> expression E s (TRef s)
| ex_list : forall s t, expression E s t -> expression E (str "list[" ++ s ++ str "]") (TList t)
| ex_set : forall s t, expression E s t -> expression E (str "set[" ++ s ++ str "]") (TSet t)
| ex_dict : forall s t r u, expression E s t -> expression E r u -> expression E (str "dict[" ++ s ++ str ", " ++ r ++ str "]") (TDict t u)
| ex_tuple : forall s ts, listing (expression E) (str ", ") s ts -> expression E (str "tuple[" ++ s ++ str "]") (TTuple ts)
| ex_union : forall s o ts, listing (expression E) (str ", ") s ts -> expression E (str "Union[" ++ s ++ str "]") (TUnion o ts)
| ex_operator : forall s o ts, listing (expression E) (str " | ") s ts -> expression E s (TUnion o ts)
| ex_optional : forall s o t ts, expression E s t -> ts = [t; none_type] \/ ts = [none_type; t] -> expression E (str "Optional[" ++ s ++ str "]") (TUnion o ts)
| ex_literal : forall s ls, listing literal_text (str ", ") s ls -> expression E (str "Literal[" ++ s ++ str "]") (TLiteral ls)
| ex_auxiliary : forall x k amd, In (x, (k, amd)) numbers -> expression E x (TAnnot (TScalar k) amd)
| ex_annotated : forall s t r md, expression E s t -> listing annotation_text (str ", ") r md -> expression E (str "Annotated[" ++ s ++ str ", " ++ r ++ str "]") (TAnnot t md)
| ex_further : forall x k amd r rest md, In (x, (k, amd)) numbers -> listing annotation_text (str ", ") r rest -> (forall a, In a md <-> In a amd \/ In a rest) ->
    expression E (str "Annotated[" ++ x ++ str ", " ++ r ++ str "]") (TAnnot (TScalar k) md).

(** Types for which there is an expression: no members of enumerations among literals, no
    empty lists of arguments; not the annotations of an auxiliary type in another order. *)
Inductive expressible : typ -> Prop :=
| xp_scalar : forall k, expressible (TScalar k)
| xp_bare : forall b, expressible (TBare b)
| xp_class : forall c, expressible (TClass c)
| xp_ref : forall s, expressible (TRef s)
| xp_list : forall t, expressible t -> expressible (TList t)
| xp_set : forall t, expressible t -> expressible (TSet t)
| xp_dict : forall t u, expressible t -> expressible u -> expressible (TDict t u)
| xp_tuple : forall ts, ts <> [] -> (forall t, In t ts -> expressible t) -> expressible (TTuple ts)
| xp_union : forall o ts, (forall t, In t ts -> expressible t) -> expressible (TUnion o ts)
| xp_literal : forall ls, ls <> [] -> (forall c x, ~ In (LEnum c x) ls) -> expressible (TLiteral ls)
| xp_annot : forall t md, expressible t -> (exists x, exactly (TAnnot t md) x) \/ (md <> [] /\ forall k x, t = TScalar k -> ~ refines k md x []) ->
    expressible (TAnnot t md).
