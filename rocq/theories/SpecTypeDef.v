(** When the type made from a schema reads the documents that satisfy the
    schema. *)
From Coq Require Import String List NArith ZArith Bool.
From Verif Require Import Base Json PyTypes Deser ClassDef TypeDef SpecRecursion SpecFields SpecClassDef SpecSchema.
Import ListNotations.
Open Scope list_scope.
Open Scope nat_scope.

(** ** Parts of a schema *)

(** [has s k x]: the schema [s] has the keyword [k] with value [x]. *)
Definition has (s : json) (k : string) (x : json) : Prop := exists kws, s = JObj kws /\ In (str k, x) kws.
Arguments has s k%string x.
Definition of_type (s : json) (ty : string) : Prop := has s "type" (JStr (str ty)).
Arguments of_type s ty%string.

(** [inside s p]: the schema [p] is [s], or a part of it. *)
Inductive inside : json -> json -> Prop :=
| in_self : forall s, inside s s
| in_property : forall s ps x q p, has s "properties" (JObj ps) -> In (x, q) ps -> inside q p -> inside s p
| in_items : forall s q p, has s "items" q -> inside q p -> inside s p
| in_member : forall s ss q p, has s "oneOf" (JArr ss) -> In q ss -> inside q p -> inside s p.

Definition definition (doc : json) (x : pystr) (s : json) : Prop := exists ds, has doc "definitions" (JObj ds) /\ In (x, s) ds.

Definition part (doc p : json) : Prop := inside doc p \/ exists x s, definition doc x s /\ inside s p.

Definition path (x : pystr) : pystr := str "#/definitions/" ++ x.

(** What a schema refers to in the end. *)
Inductive leads_to (doc : json) : json -> json -> Prop :=
| ld_here : forall s, (forall r, ~ has s "$ref" r) -> leads_to doc s s
| ld_ref : forall s r s' s'', has s "$ref" (JStr r) -> points_to doc r = Some s' -> leads_to doc s' s'' -> leads_to doc s s''.

(** The text formats, and the types they stand for. *)
Definition text_formats : list (string * scalar) :=
  [("date-time", KDateTime); ("date", KDate); ("time", KTime); ("duration", KTimeDelta);
   ("uuid", KUUID); ("ipv4", KIPv4); ("ipv6", KIPv6)]%string.

(** The validator checks these formats at least as strictly as the library. *)
Definition strict_formats (asserts : pystr -> pystr -> json -> bool) : Prop :=
  forall f k s, In (f, k) text_formats -> asserts (str "format") (str f) (JStr s) = true -> exists v, parse_scalar k (JStr s) = Ok v.

(** ** Unions *)

(** Schemas whose types reject data (without null) with JsonKeyError or
    JsonTypeError only: no formats and enumerations, which raise ValueError, no
    floats, which overflow, and no unions. *)
Inductive steady (doc : json) : json -> Prop :=
| sd_boolean : forall s, of_type s "boolean" -> steady doc s
| sd_integer : forall s, of_type s "integer" -> steady doc s
| sd_string : forall s, of_type s "string" -> (forall x, ~ has s "format" x) -> (forall x, ~ has s "enum" x) -> steady doc s
| sd_array : forall s p, of_type s "array" -> has s "items" p -> steady doc p -> steady doc s
| sd_object : forall s ps, of_type s "object" -> has s "properties" (JObj ps) -> (forall x p, In (x, p) ps -> steady doc p) -> steady doc s
| sd_ref : forall s r p, has s "$ref" (JStr r) -> points_to doc r = Some p -> steady doc p -> steady doc s.

(** A property of an object that must be there. *)
Definition demanded (s : json) (x : pystr) : Prop := exists l, has s "required" (JArr l) /\ In (JStr x) l.

(** The schema does not fix the value. *)
Inductive varied (doc : json) : json -> Prop :=
| vr_type : forall s s' ty, leads_to doc s s' -> has s' "type" ty -> (forall x, ~ has s' "const" x) -> varied doc s
| vr_member : forall s s' ss q, leads_to doc s s' -> has s' "oneOf" (JArr ss) -> In q ss -> varied doc q -> varied doc s.

(** The schema fixes the value to the text [c]. *)
Definition fixed (doc s : json) (c : pystr) : Prop := exists s', leads_to doc s s' /\ of_type s' "string" /\ has s' "const" (JStr c).

(** A member that is no object. *)
Definition simple (doc s : json) : Prop := exists s' ty, leads_to doc s s' /\ has s' "type" (JStr ty) /\ ty <> str "object".

(** An object none of whose properties, of those that must be there, has a fixed
    value. *)
Definition unmarked (doc s : json) : Prop := exists s' ps, leads_to doc s s' /\ of_type s' "object" /\ has s' "properties" (JObj ps) /\
  forall x p, In (x, p) ps -> demanded s' x -> varied doc p.

(** An object with one such property, [x], fixed to [c]. *)
Definition marked (doc s : json) (x c : pystr) : Prop := exists s' ps p, leads_to doc s s' /\ of_type s' "object" /\ has s' "properties" (JObj ps) /\
  In (x, p) ps /\ demanded s' x /\ fixed doc p c /\ forall y q, In (y, q) ps -> y <> x -> demanded s' y -> varied doc q.

(** Members of a union: of a type, not unions in turn. *)
Definition direct (doc s : json) : Prop := exists s' ty, leads_to doc s s' /\ has s' "type" ty.

(** Members that are not told apart by marks: all but the last are steady. *)
Definition by_trial (doc : json) (ss : list json) : Prop :=
  (forall s, In s ss -> direct doc s) /\
  (forall ss1 s s' ss2, ss = ss1 ++ s :: s' :: ss2 -> steady doc s) /\
  exists s, In s ss /\ (simple doc s \/ unmarked doc s).

(** Objects told apart by the value of one property. *)
Definition by_mark (doc : json) (ss : list json) : Prop :=
  exists x cs, Forall2 (fun s c => marked doc s x c) ss cs /\ NoDup cs.

(** ** Schemas *)

(** - Objects list their properties.  (Without, the type is [JsonType], whose
      parts are not found in the module.)
    - No property is named like "class_", which is read from "class".
    - Texts of enumerations have distinct labels that are no private names.
    - Unions are decided by trial, or by the value of a property.
    - References lead to definitions, from outside of these. *)
Record importable (U : unicode) (doc : json) : Prop := {
  im_listed : forall s, part doc s -> of_type s "object" -> exists ps, has s "properties" (JObj ps);
  im_named : forall s ps x p k, part doc s -> has s "properties" (JObj ps) -> In (x, p) ps -> In k python_keywords -> x <> k ++ str "_";
  im_labels : forall s vs a b, part doc s -> of_type s "string" -> has s "enum" (JArr vs) -> In (JStr a) vs -> In (JStr b) vs ->
    enum_safe_name (u_word U) a = enum_safe_name (u_word U) b -> a = b;
  im_private : forall s vs a cls, part doc s -> of_type s "string" -> has s "enum" (JArr vs) -> In (JStr a) vs ->
    ~ private cls (enum_safe_name (u_word U) a);
  im_union : forall s ss, part doc s -> has s "oneOf" (JArr ss) -> length ss = 1 \/ by_trial doc ss \/ by_mark doc ss;
  im_refs : forall s r, part doc s -> has s "$ref" (JStr r) -> exists x d, r = path x /\ definition doc x d /\ ~ In 10%N x;
  im_self : forall x d s, definition doc x d -> inside d s -> ~ has s "$ref" (JStr (path x))
}.

(** ** Programs *)

(** The classes and names of the module mention no names in texts. *)
Record plain_module (E : env) (m : nat) : Prop := {
  pm_fields : forall c cl x t, get_class E c = Some cl -> c_module cl = m -> In (x, t) (raw_fields (c_kind cl)) ->
    every_part (fun u => ~ is_ref u) t;
  pm_refs : forall x a t, lookup E m x = Some (a, t) -> every_part (fun u => ~ is_ref u) t
}.
