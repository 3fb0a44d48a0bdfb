(** Specification vocabulary for documentation strings (C34, C35, C49). *)
From Coq Require Import String List NArith Bool.
From Verif Require Import Base PyStr Docstring.
Import ListNotations.
Open Scope list_scope.
Open Scope nat_scope.

(** ** Texts *)

Definition blanks (s : pystr) : Prop := Forall (fun c => space c = true) s.
Definition word (w : pystr) : Prop := w <> [] /\ Forall (fun c => space c = false) w.

(** [s] consists of the words [ws], in order, with white space between them and
    possibly around them *)
Inductive spelled : list pystr -> pystr -> Prop :=
| spelled_nil : forall s, blanks s -> spelled [] s
| spelled_cons : forall pre w ws rest, blanks pre -> word w ->
    (rest = [] \/ exists c r, rest = c :: r /\ space c = true) ->
    spelled ws rest -> spelled (w :: ws) (pre ++ w ++ rest).

Definition spelled_opt (ws : list pystr) (s : option pystr) : Prop :=
  match s with Some t => spelled ws t | None => ws = [] end.

(** the words [ws] with one blank between each two *)
Definition spaced (ws : list pystr) : pystr := join [32%N] ws.
Definition single_spaced (s : pystr) : Prop := exists ws, Forall word ws /\ s = spaced ws.

(** neither end is white space *)
Definition trimmed (s : pystr) : Prop :=
  (exists c r, s = c :: r /\ space c = false) /\ (exists r c, s = r ++ [c] /\ space c = false).

(** no colon at the beginning of a line *)
Definition no_inner_marker (s : pystr) : Prop := forall a b, s <> a ++ NL :: COLON :: b.
Definition no_marker (s : pystr) : Prop := (forall r, s <> COLON :: r) /\ no_inner_marker s.

Definition no_tab (s : pystr) : Prop := ~ In 9%N s.

(** ** Documentation strings that can be written down *)

Definition entry_ok (e : pystr * (pystr * pystr)) : Prop :=
  fst e = fst (snd e) /\ word (fst e) /\ ~ In COLON (fst e) /\ single_spaced (snd (snd e)).

Definition opt_ok (P : pystr -> Prop) (s : option pystr) : Prop :=
  match s with Some t => P t | None => True end.

Record doc_ok (d : docstring) : Prop := {
  ok_short : opt_ok (fun s => trimmed s /\ no_tab s /\ ~ In NL s /\ no_marker s) (short_description d);
  ok_long : opt_ok (fun s => trimmed s /\ no_tab s /\ no_marker s) (long_description d);
  ok_only : long_description d <> None -> short_description d <> None;
  ok_params : NoDup (map fst (params d)) /\ Forall entry_ok (params d);
  ok_returns : opt_ok single_spaced (returns d);
  ok_raises : NoDup (map fst (raises d)) /\ Forall entry_ok (raises d);
  ok_see : Forall single_spaced (see_also d)
}.

(** ** The structure of a text *)

Definition ends_line (s : pystr) : Prop := exists r, s = r ++ [NL].

(** [text] is a description followed by fields; a field extends from a colon at
    the beginning of a line to the next such colon *)
Record layout (text desc : pystr) (fields : list pystr) : Prop := {
  lay_text : text = desc ++ concat fields;
  lay_desc : no_marker desc;
  lay_fields : Forall (fun f => exists r, f = COLON :: r /\ no_inner_marker f) fields;
  lay_first : fields <> [] -> desc = [] \/ ends_line desc;
  lay_next : forall pre f f' post, fields = pre ++ f :: f' :: post -> ends_line f
}.

(** a field [:arg1 arg2 ...: body]; several colons may introduce it *)
Definition field (f : pystr) (args : list pystr) (body : pystr) : Prop :=
  exists k a, f = repeat COLON (S k) ++ a ++ COLON :: body /\ a <> [] /\ ~ In COLON a /\ spelled args a.

(** [f] is the last of [fields] with a property *)
Definition last_with (P : pystr -> Prop) (f : pystr) (fields : list pystr) : Prop :=
  exists pre post, fields = pre ++ f :: post /\ P f /\ forall f', In f' post -> ~ P f'.

(** [f] is a field with arguments [args] and a body of words [ws] *)
Definition says (f : pystr) (args : list pystr) (ws : list pystr) : Prop :=
  exists body, field f args body /\ spelled ws body.

(** the texts of the fields selected by [P], in order *)
Inductive collected (P : pystr -> list pystr -> Prop) : list pystr -> list pystr -> Prop :=
| collected_nil : collected P [] []
| collected_take : forall f ws fs out, P f ws -> collected P fs out -> collected P (f :: fs) (spaced ws :: out)
| collected_skip : forall f fs out, (forall ws, ~ P f ws) -> collected P fs out -> collected P (f :: fs) out.

Definition param_field (n : pystr) (f : pystr) (ws : list pystr) : Prop := says f [str "param"; n] ws.
Definition raises_field (n : pystr) (f : pystr) (ws : list pystr) : Prop :=
  says f [str "raise"; n] ws \/ says f [str "raises"; n] ws.
Definition returns_field (f : pystr) (ws : list pystr) : Prop :=
  says f [str "return"] ws \/ says f [str "returns"] ws.
Definition see_field (f : pystr) (ws : list pystr) : Prop :=
  says f [str "see"] ws \/ says f [str "seealso"] ws.

(** [ws] are the words of the last field selected by [P] *)
Definition last_words (P : pystr -> list pystr -> Prop) (fields : list pystr) (ws : list pystr) : Prop :=
  exists f, last_with (fun f => exists ws, P f ws) f fields /\ P f ws.

(** ** Consistency with a signature *)

(** the parameters that must be documented: all but a positional [self] *)
Definition must_document (signature : list (pystr * bool)) (n : pystr) : Prop :=
  exists p, In (n, p) signature /\ ~ (n = str "self" /\ p = true).
