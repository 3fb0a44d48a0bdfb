(** What documentation is found for a type. *)
From Coq Require Import String List NArith Bool.
From Verif Require Import Base PyTypes Docstring DocType.
Import ListNotations.
Open Scope list_scope.

(** The text that @dataclass makes up, as far as it can be told: the name of the
    class and something in parentheses, on one line. *)
Inductive made_up (name : pystr) : pystr -> Prop :=
| mu_line : forall body, ~ In NL body -> made_up name (name ++ str "(" ++ body ++ str ")")
| mu_newline : forall body, ~ In NL body -> made_up name (name ++ str "(" ++ body ++ str ")" ++ [NL]).

(** [written x doc]: [doc] is the documentation of [x], and not made up. *)
Inductive written (x : entity) (doc : pystr) : Prop :=
| wr_doc : d_doc x = Some doc ->
    (forall ps, d_kind x = DData ps -> ~ made_up (d_name x) doc) ->
    (d_kind x = DEnum -> doc <> str "An enumeration.") -> written x doc.

(** The class has the annotated property. *)
Definition annotated (x : entity) (n : pystr) (t : typ) : Prop :=
  exists ps, In (n, t) ps /\ (d_kind x = DData ps \/ d_kind x = DOther ps).

(** The names that may be documented as parameters: the properties of a data class
    that no base has, the parameters of a function, anything for other classes. *)
Definition may_document (x : entity) (bases : list entity) (n : pystr) : Prop :=
  match d_kind x with
  | DData ps => (exists t, In (n, t) ps) /\ forall b t, In b bases -> ~ annotated b n t
  | DFunction sg _ => exists p, In (n, p) sg
  | _ => True
  end.

(** Return values are documented of functions with an annotation only. *)
Definition may_return (x : entity) : Prop :=
  match d_kind x with DFunction _ ret => ret <> None | _ => True end.

(** The exception class that a name stands for: that of the module comes first. *)
Definition exception_named (builtins : list (pystr * nat)) (x : entity) (n : pystr) (c : nat) : Prop :=
  exists names, d_module x = Some names /\
  (In (n, c) names \/ ((forall c', ~ In (n, c') names) /\ In (n, c) builtins)).

(** The documentation [d] agrees with what it documents. *)
Record agrees (builtins : list (pystr * nat)) (x : entity) (bases : list entity) (d : docstring) : Prop := {
  ag_params : forall n, In n (map fst (params d)) -> may_document x bases n;
  ag_returns : returns d <> None -> may_return x;
  ag_raises : d_module x <> None -> forall n, In n (map fst (raises d)) -> exists c, exception_named builtins x n c
}.

(** Names stand for one thing. *)
Definition names_once (builtins : list (pystr * nat)) (x : entity) : Prop :=
  NoDup (map fst builtins) /\ (forall names, d_module x = Some names -> NoDup (map fst names)) /\
  match d_kind x with
  | DData ps | DOther ps => NoDup (map fst ps)
  | DFunction sg _ => NoDup (map fst sg)
  | DEnum => True
  end.

(** [describes x n text]: the documentation of [x] describes the parameter [n] by
    [text]. *)
Definition describes (x : entity) (n text : pystr) : Prop :=
  exists doc d, written x doc /\ parse_text doc = Ok d /\ In (n, (n, text)) (params d).

(** The text as changed by the function of the user, if any. *)
Definition transformed (transform : option (pystr -> pystr -> pystr)) (n text : pystr) : pystr :=
  match transform with Some f => f n text | None => text end.
