(** Specification for C36: the leaves of a schema for objects. *)
From Coq Require Import String List NArith ZArith Bool.
From Verif Require Import Base Json PyTypes SpecTyping.
Import ListNotations.
Open Scope list_scope.
Open Scope nat_scope.

(** Instances of the classes numbered [c] with [node_class c] are schemas for
    objects (6: JsonSchemaObject, 8: JsonSchemaTopLevelObject). *)
Definition node_class (c : nat) : Prop := c = 6 \/ c = 8.
Definition for_objects (v : value) : Prop := exists c attrs, v = VObj c attrs /\ node_class c.

(** [describes v ps rs]: [v] is a schema for objects, with the properties [ps],
    of which the ones listed in [rs] are required.  Neither needs to be given. *)
Inductive describes : value -> list (pystr * value) -> list pystr -> Prop :=
| ds_node : forall c attrs p r ps rs, node_class c ->
    In (str "properties", p) attrs -> In (str "required", r) attrs ->
    (p = VNone /\ ps = [] \/ p = VDict (map (fun q => (VStr (fst q), snd q)) ps)) ->
    (r = VNone /\ rs = [] \/ r = VList (map VStr rs)) ->
    describes (VObj c attrs) ps rs.

(** [leaf deep v path p]: going along the names in [path], from [v] through
    schemas for objects, there is the schema [p].  If [deep], [p] is no schema for
    objects; otherwise at most two steps are made. *)
Inductive leaf (deep : bool) : value -> list pystr -> value -> Prop :=
| lf_here : forall v ps rs x p, describes v ps rs -> In (x, p) ps -> ~ for_objects p -> leaf deep v [x] p
| lf_in : forall v ps rs x o path p, deep = true -> describes v ps rs -> In (x, o) ps -> for_objects o -> leaf deep o path p ->
    leaf deep v (x :: path) p
| lf_step : forall v ps rs x o qs ss y p, deep = false -> describes v ps rs -> In (x, o) ps -> describes o qs ss -> In (y, p) qs ->
    leaf deep v [x; y] p.

(** [asked deep v path]: the last name in [path] is required where it occurs.
    (Whether those before it are required does not matter.) *)
Inductive asked (deep : bool) : value -> list pystr -> Prop :=
| ak_here : forall v ps rs x p, describes v ps rs -> In (x, p) ps -> ~ for_objects p -> In x rs -> asked deep v [x]
| ak_in : forall v ps rs x o path, deep = true -> describes v ps rs -> In (x, o) ps -> for_objects o -> asked deep o path ->
    asked deep v (x :: path)
| ak_step : forall v ps rs x o qs ss y, deep = false -> describes v ps rs -> In (x, o) ps -> describes o qs ss -> In y ss ->
    asked deep v [x; y].

(** The name for a path: ["a.b.c"], or ["c"]. *)
Fixpoint flat_name (qualified : bool) (path : list pystr) : pystr :=
  match path with
  | [] => []
  | [x] => x
  | x :: rest => if qualified then x ++ str "." ++ flat_name qualified rest else flat_name qualified rest
  end.

(** No two leaves get the same name. *)
Definition no_clash (qualified deep : bool) (v : value) : Prop :=
  forall path path' p p', leaf deep v path p -> leaf deep v path' p' -> flat_name qualified path = flat_name qualified path' -> path = path'.

(** No property has a dot in its name. *)
Definition undotted (deep : bool) (v : value) : Prop :=
  forall path p x, leaf deep v path p -> In x path -> ~ In 46%N x.
