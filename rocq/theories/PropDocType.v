(** C54: the documentation found for types and their properties. *)
From Coq Require Import String List NArith Bool.
From Verif Require Import Base PyTypes Docstring DocstringProofs DocType SpecDocType DocTypeProofs.
Import ListNotations.
Open Scope list_scope.
Open Scope nat_scope.

(** ** Samples: a data class [Base3] with a property [id], a data class [Derived]
    that adds [name], a function, and two exceptions of the module. *)

Definition exceptions : list (pystr * nat) := [(str "ValueError", 0); (str "KeyError", 1)].
Definition members : list (pystr * nat) := [(str "AppError", 10); (str "KeyError", 11)].
Definition lines (l : list pystr) : pystr := concat (map (fun s => s ++ [NL]) l).

Definition an_object : entity := Entity (str "object") (Some (str "The base class of the class hierarchy.")) (DOther []) (Some exceptions).
Definition base3 : entity := Entity (str "Base3") (Some (lines [str "The base."; []; str ":param id: A number."]))
  (DData [(str "id", TScalar KInt)]) (Some members).
Definition derived : entity := Entity (str "Derived") (Some (lines [str "The rest."; []; str "In detail."; []; str ":param name: A text."; str ":raises KeyError: Never."]))
  (DData [(str "id", TScalar KInt); (str "name", TScalar KStr)]) (Some members).
Definition silent : entity := Entity (str "Silent") (Some (str "Silent(id: int, name: str, x: int = 0)"))
  (DData [(str "id", TScalar KInt); (str "name", TScalar KStr); (str "x", TScalar KInt)]) (Some members).
Definition overriding : entity := Entity (str "Derived") (Some (lines [str "The rest."; []; str ":param id: The number of the rest."]))
  (DData [(str "id", TScalar KInt)]) (Some members).
Definition adder : entity := Entity (str "add") (Some (lines [str "Adds."; []; str ":param a: A summand."; str ":returns: The sum."; str ":raises ValueError: Never."]))
  (DFunction [(str "a", (true, TScalar KInt)); (str "b", (true, TScalar KFloat))] (Some (TScalar KFloat))) (Some members).
Definition in_the_plane : entity := Entity (str "Point") (Some (str "Point(x, y) in the plane (the Cartesian one)"))
  (DData [(str "x", TScalar KInt); (str "y", TScalar KInt)]) (Some members).

Ltac strings := repeat constructor; cbn; intuition discriminate.

Lemma samples_once : forall x, In x [an_object; base3; derived; silent; overriding; adder; in_the_plane] -> names_once exceptions x.
Proof.
  intros x I. cbn [In] in I.
  repeat match goal with H : _ \/ _ |- _ => destruct H as [H|H] end; try destruct I;
    (split; [strings | split; [intros names Q; injection Q as <-; strings | cbn; first [exact Logic.I | strings]]]).
Qed.

Ltac is_written := apply get_docstring_spec; reflexivity.

(** ** Which text is documentation *)

(** C54: the texts taken for made up by Python are these. *)
Theorem C54_default : forall x, has_default_docstring x = true <->
  exists doc, d_doc x = Some doc /\
    ((exists ps, d_kind x = DData ps) /\ made_up (d_name x) doc \/ d_kind x = DEnum /\ doc = str "An enumeration.").
Proof. exact default_spec. Qed.
Print Assumptions C54_default.

(** C54: all other text is the documentation. *)
Theorem C54_docstring : forall x, (forall doc, get_docstring x = Some doc <-> written x doc) /\
  (has_docstring x = true <-> exists doc, written x doc /\ doc <> []).
Proof.
  intros x. split; [exact (get_docstring_spec x)|]. unfold has_docstring. split.
  - intros H. destruct (has_default_docstring x) eqn:D; [discriminate H|]. destruct (d_doc x) as [doc|] eqn:Q; [|discriminate H].
    exists doc. split; [|intros ->; discriminate H]. apply get_docstring_spec. unfold get_docstring. rewrite Q, D. reflexivity.
  - intros (doc & W & N). apply get_docstring_spec in W. unfold get_docstring in W.
    destruct (d_doc x) as [doc'|]; [|discriminate W]. destruct (has_default_docstring x); [discriminate W|]. injection W as ->.
    destruct doc; [destruct (N eq_refl) | reflexivity].
Qed.
Print Assumptions C54_docstring.

(** C54, what a user might expect instead: text that the user wrote is the
    documentation.  It is not if it looks like the name of the class and
    parentheses. *)
Theorem C54_dropped_refuted : exists x doc, d_doc x = Some doc /\
  (forall ps body, d_kind x = DData ps -> doc = d_name x ++ str "(" ++ body ++ str ")" -> In 41%N body) /\
  get_docstring x = None /\ get_class_docstrings exceptions x [] = Ok (None, None).
Proof.
  exists in_the_plane, (str "Point(x, y) in the plane (the Cartesian one)"). split; [reflexivity|]. split; [|split; reflexivity].
  intros ps body _ Q. cbn in Q. injection Q as Q. change [41%N] with (rev [41%N]) in Q.
  apply (f_equal (@rev _)) in Q. rewrite rev_app_distr in Q. cbn in Q. injection Q as Q. apply (f_equal (@rev _)) in Q. rewrite rev_involutive in Q. subst body. cbn. tauto.
Qed.
Print Assumptions C54_dropped_refuted.

Example C54_witness_docstring : written derived (lines [str "The rest."; []; str "In detail."; []; str ":param name: A text."; str ":raises KeyError: Never."]) /\
  (forall doc, ~ written silent doc) /\ made_up (str "Silent") (str "Silent(id: int, name: str, x: int = 0)").
Proof.
  split; [is_written|]. split.
  - intros doc W. apply get_docstring_spec in W. discriminate W.
  - apply (mu_line (str "Silent") (str "id: int, name: str, x: int = 0")). cbn. intuition discriminate.
Qed.

(** ** Parsing *)

(** C54: the documentation of a type or function is parsed if it agrees with what
    it documents, else there is a TypeError. *)
Theorem C54_parse : forall builtins x bases doc d, names_once builtins x -> written x doc -> parse_text doc = Ok d ->
  ((exists t, parse_type builtins x bases = Ok t) <-> agrees builtins x bases d) /\
  (forall t, parse_type builtins x bases = Ok t -> t_doc t = d) /\
  (forall e, parse_type builtins x bases = Err e -> e = EType).
Proof. exact parse_type_spec. Qed.
Print Assumptions C54_parse.

(** C54: without documentation the result is empty, text that cannot be parsed
    raises what the parser raises. *)
Theorem C54_otherwise : forall builtins x bases,
  ((forall doc, ~ written x doc) -> parse_type builtins x bases = Ok (untyped empty_docstring)) /\
  (forall doc e, written x doc -> parse_text doc = Err e -> parse_type builtins x bases = Err e).
Proof. intros builtins x bases. split; [exact (parse_type_unwritten builtins x bases) | exact (parse_type_text_error builtins x bases)]. Qed.
Print Assumptions C54_otherwise.

(** C54: each parameter gets the type of the property or of the annotation, the
    result that of the signature, each exception the class of that name, that of
    the module first. *)
Theorem C54_types : forall builtins x bases t, names_once builtins x -> parse_type builtins x bases = Ok t ->
  (forall n ty, In (n, ty) (t_params t) <-> In n (map fst (params (t_doc t))) /\
     match d_kind x with DData ps => In (n, ty) ps | DFunction sg _ => exists b, In (n, (b, ty)) sg | _ => False end) /\
  (t_returns t = match d_kind x with DFunction _ ret => if returns (t_doc t) then ret else None | _ => None end) /\
  (forall n c, In (n, c) (t_raises t) <-> In n (map fst (raises (t_doc t))) /\ exception_named builtins x n c).
Proof. exact parse_type_types. Qed.
Print Assumptions C54_types.

Example C54_witness_parse :
  (exists t, parse_type exceptions derived [base3; an_object] = Ok t /\
    t_params t = [(str "name", TScalar KStr)] /\ t_raises t = [(str "KeyError", 11)] /\ long_description (t_doc t) = Some (str "In detail.")) /\
  (exists t, parse_type exceptions adder [] = Ok t /\
    t_params t = [(str "a", TScalar KInt)] /\ t_returns t = Some (TScalar KFloat) /\ t_raises t = [(str "ValueError", 0)]) /\
  exception_named exceptions derived (str "KeyError") 11 /\ ~ exception_named exceptions derived (str "KeyError") 1 /\
  names_once exceptions derived /\ names_once exceptions adder.
Proof.
  repeat apply conj.
  - eexists. split; [reflexivity|]. repeat apply conj; reflexivity.
  - eexists. split; [reflexivity|]. repeat apply conj; reflexivity.
  - exists members. split; [reflexivity|]. left. cbn. auto.
  - intros (names & Q & H). injection Q as <-. destruct H as [H|(H & _)]; [cbn in H; intuition discriminate|]. apply (H 11). cbn. auto.
  - strings.
  - intros names Q. injection Q as <-. strings.
  - cbn. strings.
  - strings.
  - intros names Q. injection Q as <-. strings.
  - cbn. strings.
Qed.

(** ** Descriptions in schemas *)

(** C54: title and description of a class. *)
Theorem C54_class : forall builtins x bases, names_once builtins x ->
  (forall doc d, written x doc -> parse_text doc = Ok d -> agrees builtins x bases d ->
     get_class_docstrings builtins x bases = Ok (short_description d, long_description d)) /\
  ((forall doc, ~ written x doc) -> get_class_docstrings builtins x bases = Ok (None, None)) /\
  (forall doc d, written x doc -> parse_text doc = Ok d -> ~ agrees builtins x bases d -> get_class_docstrings builtins x bases = Err EType).
Proof. exact class_docstrings_spec. Qed.
Print Assumptions C54_class.

(** C54: a property is described by the first class, in the order of method
    resolution, that describes it; nothing else is described. *)
Theorem C54_properties : forall builtins transform mro r, (forall x bs, In (x, bs) mro -> names_once builtins x) ->
  get_class_property_docstrings builtins transform mro = Ok r ->
  NoDup (map fst r) /\
  (forall n text, In (n, text) r <->
     exists before x bs after raw, mro = before ++ (x, bs) :: after /\ describes x n raw /\
       (forall y cs raw', In (y, cs) before -> ~ describes y n raw') /\ text = transformed transform n raw).
Proof.
  intros builtins transform mro r NO H. destruct (properties_spec builtins transform mro [] r NO (NoDup_nil _) H) as (A & B). split; [exact A|].
  intros n text. rewrite B. cbn. split; [intros [[]|(_ & X)]; exact X | intros X; right; split; [intros [] | exact X]].
Qed.
Print Assumptions C54_properties.

(** C54: there are descriptions exactly if the documentation of each class agrees
    with it. *)
Theorem C54_described : forall builtins transform mro, (forall x bs, In (x, bs) mro -> names_once builtins x) ->
  ((exists r, get_class_property_docstrings builtins transform mro = Ok r) <->
   forall x bs doc, In (x, bs) mro -> written x doc -> exists d, parse_text doc = Ok d /\ agrees builtins x bs d).
Proof. intros builtins transform mro NO. exact (properties_total builtins transform mro [] NO). Qed.
Print Assumptions C54_described.

Definition hierarchy : list (entity * list entity) := [(derived, [base3; an_object]); (base3, [an_object]); (an_object, [])].

Example C54_witness_properties :
  get_class_property_docstrings exceptions None hierarchy = Ok [(str "name", str "A text."); (str "id", str "A number.")] /\
  get_class_property_docstrings exceptions (Some (fun n s => n ++ str " - " ++ s)) [(silent, [derived; base3; an_object]); (derived, [base3; an_object])] =
    Ok [(str "name", str "name - A text.")] /\
  (forall x bs, In (x, bs) hierarchy -> names_once exceptions x) /\
  describes base3 (str "id") (str "A number.").
Proof.
  repeat apply conj; try reflexivity.
  - intros x bs I. apply samples_once. cbn [In hierarchy] in I. destruct I as [I|[I|[I|[]]]]; injection I as <- _; cbn; tauto.
  - eexists. eexists. split; [is_written|]. split; [reflexivity|]. cbn. auto.
Qed.

(** C54: a data class that describes a property which a base has as well gets no
    descriptions at all, so the description of a base cannot be replaced. *)
Theorem C54_inherited : forall builtins transform mro x bs b ps n raw ty, (forall y cs, In (y, cs) mro -> names_once builtins y) ->
  In (x, bs) mro -> d_kind x = DData ps -> describes x n raw -> In b bs -> annotated b n ty ->
  forall r, get_class_property_docstrings builtins transform mro <> Ok r.
Proof.
  intros builtins transform mro x bs b ps n raw ty NO I K (doc & d & W & P & J) IB It r H.
  destruct (proj1 (C54_described builtins transform mro NO) (ex_intro _ r H) x bs doc I W) as (d' & P' & A).
  rewrite P in P'. injection P' as <-. pose proof (ag_params _ _ _ _ A n (in_map fst _ _ J)) as M. cbn [fst] in M. unfold may_document in M. rewrite K in M.
  destruct M as (_ & M). exact (M b ty IB It).
Qed.
Print Assumptions C54_inherited.

(** C54, what a user might expect instead: a class may describe every property
    that it has.  It may not if a base has the property. *)
Theorem C54_override_refuted : exists x bases n raw ps ty, d_kind x = DData ps /\ In (n, ty) ps /\ describes x n raw /\
  names_once exceptions x /\ get_class_property_docstrings exceptions None [(x, bases)] = Err EType.
Proof.
  exists overriding, [base3; an_object], (str "id"), (str "The number of the rest."), [(str "id", TScalar KInt)], (TScalar KInt).
  split; [reflexivity|]. split; [left; reflexivity|]. split; [|split; [apply samples_once; cbn; tauto | reflexivity]].
  eexists. eexists. split; [is_written|]. split; [reflexivity|]. cbn. auto.
Qed.
Print Assumptions C54_override_refuted.

Example C54_witness_inherited : describes overriding (str "id") (str "The number of the rest.") /\
  In base3 [base3; an_object] /\ annotated base3 (str "id") (TScalar KInt).
Proof.
  split; [|split; [cbn; auto | eexists; split; [|left; reflexivity]; left; reflexivity]].
  eexists. eexists. split; [is_written|]. split; [reflexivity|]. cbn. auto.
Qed.
