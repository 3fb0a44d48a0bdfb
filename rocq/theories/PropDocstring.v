(** C34, C35, C49: documentation strings. *)
From Coq Require Import String List NArith Bool Lia.
From Verif Require Import Base Lists PyStr Docstring SpecDocstring DocstringProofs DocstringRoundTrip.
Import ListNotations.
Open Scope list_scope.
Open Scope nat_scope.

(** ** Samples *)

Definition sample_doc : docstring :=
  Docstring (Some (str "Adds numbers.")) (Some (str "In detail:" ++ [NL] ++ str "  a + b" ++ [NL; NL] ++ str "Done."))
    [(str "a", (str "a", str "The first: a number.")); (str "b", (str "b", []))]
    (Some (str "The sum."))
    [(str "ValueError", (str "ValueError", str "Never."))]
    [str "the manual"; str "https://example.com/"].


Lemma trimmed_check : forall s, match s with c :: _ => negb (space c) | [] => false end = true ->
  match rev s with c :: _ => negb (space c) | [] => false end = true -> trimmed s.
Proof.
  intros s H1 H2. split.
  - destruct s as [|c r]; [discriminate|]. exists c, r. split; [reflexivity|]. now apply negb_true_iff.
  - destruct (rev s) as [|c r] eqn:E; [discriminate|]. exists (rev r), c. split; [|now apply negb_true_iff].
    rewrite <- (rev_involutive s), E. reflexivity.
Qed.

Lemma not_in_check : forall c s, mem_char c s = false -> ~ In c s.
Proof. intros c s H. now apply PyStrProofs.mem_char_not_in. Qed.

Lemma no_marker_check : forall s, snd (pieces true s) = [] -> no_marker s.
Proof.
  intros s H. pose proof (pieces_layout s) as L. rewrite H in L. destruct L as [E D _ _ _].
  cbn [concat] in E. rewrite app_nil_r in E. rewrite <- E in D. exact D.
Qed.

Lemma single_spaced_check : forall s, spaced (words s) = s -> single_spaced s.
Proof. intros s H. exists (words s). split; [apply words_word|now symmetry]. Qed.

Lemma word_check : forall w, words w = [w] -> word w.
Proof. intros w H. pose proof (words_word w) as W. rewrite H in W. now inversion W. Qed.

Ltac checked := first [apply trimmed_check; reflexivity|apply not_in_check; reflexivity|apply no_marker_check; reflexivity
  |apply single_spaced_check; reflexivity].

Example sample_doc_ok : doc_ok sample_doc.
Proof.
  constructor; cbn [short_description long_description params returns raises see_also sample_doc opt_ok].
  - split; [|split; [|split]]; checked.
  - split; [|split]; checked.
  - discriminate.
  - split.
    + repeat constructor; cbn; intuition discriminate.
    + repeat (constructor; [split; [reflexivity|split; [apply word_check; reflexivity|split; checked]]|]). constructor.
  - checked.
  - split.
    + repeat constructor; cbn; intuition discriminate.
    + repeat (constructor; [split; [reflexivity|split; [apply word_check; reflexivity|split; checked]]|]). constructor.
  - repeat (constructor; [checked|]). constructor.
Qed.

(** ** C34: what str() writes, parse_text reads *)

(** Every documentation string whose texts are normalised is read back exactly,
    all parts and the order of the entries included. *)
Theorem C34_round_trip : forall d, doc_ok d -> parse_text (docstring_str d) = Ok d.
Proof. exact docstring_round_trip. Qed.
Print Assumptions C34_round_trip.

Example C34_witness : doc_ok sample_doc /\ parse_text (docstring_str sample_doc) = Ok sample_doc.
Proof. split; [exact sample_doc_ok|vm_compute; reflexivity]. Qed.

(** Whatever parse_text returns for any text is such a documentation string, so
    writing and reading it again changes nothing, unless a description begins
    with a colon or there is a long description but no short one. *)
Theorem C34_reparse : forall t d, parse_text t = Ok d ->
  (long_description d <> None -> short_description d <> None) ->
  opt_ok (fun s => forall r, s <> COLON :: r) (short_description d) ->
  opt_ok (fun s => forall r, s <> COLON :: r) (long_description d) ->
  doc_ok d /\ parse_text (docstring_str d) = Ok d.
Proof.
  intros t d H O S L. pose proof (parse_doc_ok t d H O S L) as D. split; [exact D|].
  exact (docstring_round_trip d D).
Qed.
Print Assumptions C34_reparse.

(** an indented text with a repeated parameter and folded lines *)
Definition messy : pystr :=
  str "  Adds" ++ [NL] ++ str "    numbers. " ++ [NL; NL] ++ str "    More." ++ [NL; NL]
  ++ str "    :param a:  one" ++ [NL] ++ str "       two" ++ [NL]
  ++ str "    :raises  E : boom" ++ [NL] ++ str "    :param a: three" ++ [NL]
  ++ str "    :returns: nothing  " ++ [NL] ++ str "    ".

Definition messy_doc : docstring :=
  Docstring (Some (str "Adds numbers.")) (Some (str "More.")) [(str "a", (str "a", str "three"))]
    (Some (str "nothing")) [(str "E", (str "E", str "boom"))] [].

Example C34_reparse_witness : parse_text messy = Ok messy_doc.
Proof. vm_compute. reflexivity. Qed.

(** The exceptions are real.  A long description without a short one, which
    parse_text returns for some texts, is lost when written. *)
Theorem C34_long_refuted : exists t d d', parse_text t = Ok d /\ parse_text (docstring_str d) = Ok d' /\
  long_description d = Some (str "text") /\ short_description d' = None /\ long_description d' = None.
Proof.
  exists ([NL] ++ str "    " ++ [NL; NL] ++ str "  text").
  exists (Docstring None (Some (str "text")) [] None [] []), empty_docstring.
  repeat apply conj; vm_compute; reflexivity.
Qed.
Print Assumptions C34_long_refuted.

(** An indented colon in the first line of the description becomes a field. *)
Theorem C34_colon_refuted : exists t d d', parse_text t = Ok d /\ parse_text (docstring_str d) = Ok d' /\
  short_description d = Some (str ":a: b c") /\ short_description d' = None.
Proof.
  exists ([NL] ++ str "  :a: b" ++ [NL] ++ str "c").
  exists (Docstring (Some (str ":a: b c")) None [] None [] []), empty_docstring.
  repeat apply conj; vm_compute; reflexivity.
Qed.
Print Assumptions C34_colon_refuted.

(** White space in the description of a parameter is not preserved. *)
Theorem C34_spacing_refuted : exists d d', parse_text (docstring_str d) = Ok d' /\
  params d = [(str "a", (str "a", str "x  y"))] /\ params d' = [(str "a", (str "a", str "x y"))].
Proof.
  exists (Docstring None None [(str "a", (str "a", str "x  y"))] None [] []).
  exists (Docstring None None [(str "a", (str "a", str "x y"))] None [] []).
  repeat apply conj; vm_compute; reflexivity.
Qed.
Print Assumptions C34_spacing_refuted.

(** The full description: none without a short one; otherwise it is read back as
    the short and the long description. *)
Theorem C34_full : forall d,
  (short_description d = None \/ short_description d = Some [] -> full_description d = None) /\
  (doc_ok d -> short_description d <> None -> exists s, full_description d = Some s /\
     parse_text s = Ok (Docstring (short_description d) (long_description d) [] None [] [])).
Proof.
  intros [sh lo ps re ra se]. cbn [short_description long_description]. split.
  - unfold full_description. cbn [short_description long_description]. intros [-> | ->]; reflexivity.
  - intros K N. assert (X : doc_ok (Docstring sh lo [] None [] [])) by (destruct K; constructor; cbn in *; try assumption; try exact Logic.I; repeat constructor).
    apply docstring_round_trip in X. rewrite <- X. exists (docstring_str (Docstring sh lo [] None [] [])). split; [|reflexivity].
    destruct sh as [[|c s]|]; [|destruct lo as [[|]|]|destruct (N eq_refl)]; unfold full_description, docstring_str, truthy, text_of, block_lines; cbn [short_description long_description params returns raises see_also map app concat andb orb].
    all: rewrite ?app_nil_r; try reflexivity.
    exfalso. destruct K as [K _ _ _ _ _ _]. cbn in K. destruct K as [[(c & r & Q & _) _] _]. discriminate Q.
Qed.
Print Assumptions C34_full.

Example C34_full_witness : doc_ok sample_doc /\ full_description sample_doc =
  Some (str "Adds numbers." ++ [NL; NL] ++ str "In detail:" ++ [NL] ++ str "  a + b" ++ [NL; NL] ++ str "Done.").
Proof. split; [exact sample_doc_ok | vm_compute; reflexivity]. Qed.

(** ** C35: the structure of a text decides the result *)

(** Every text has exactly one structure. *)
Theorem C35_layout : forall text, exists desc fields, layout text desc fields /\
  forall desc' fields', layout text desc' fields' -> desc' = desc /\ fields' = fields.
Proof.
  intros text. exists (fst (pieces true text)), (snd (pieces true text)). split; [apply pieces_layout|].
  intros desc' fields' L. apply layout_pieces in L. rewrite L. split; reflexivity.
Qed.
Print Assumptions C35_layout.

(** One entry per parameter name, made of the words of the last field for it. *)
Theorem C35_params : forall t desc fields d, layout (cleandoc t) desc fields -> parse_text t = Ok d ->
  NoDup (map fst (params d)) /\
  forall n v, dict_get (params d) n = Some v <->
    exists ws, last_words (param_field n) fields ws /\ v = (n, spaced ws).
Proof.
  intros t desc fields d L H. split.
  - destruct (parse_text_layout _ _ _ _ L H) as [s [l [_ P]]]. apply chunks_ok in P; [apply P|].
    unfold fields_ok. cbn. repeat apply conj; constructor.
  - intros n v. exact (params_char t desc fields d n v L H).
Qed.
Print Assumptions C35_params.

(** the two fields for [a] in the text above: the last one counts *)
Example C35_params_witness : exists desc fields, layout (cleandoc messy) desc fields /\ length fields = 4 /\
  last_words (param_field (str "a")) fields [str "three"].
Proof.
  exists (fst (pieces true (cleandoc messy))), (snd (pieces true (cleandoc messy))).
  split; [apply pieces_layout|]. split; [vm_compute; reflexivity|].
  pose proof (params_char messy _ _ messy_doc (str "a") (str "a", str "three") (pieces_layout _) C34_reparse_witness) as [P _].
  destruct (P eq_refl) as [ws [W E]]. replace ws with [str "three"] in W; [exact W|].
  destruct W as [f [_ [body [_ B]]]]. apply spelled_iff in B. subst ws.
  apply pair_equal_spec in E. destruct E as [_ E]. rewrite <- (words_spaced (words body)) by apply words_word.
  rewrite <- E. reflexivity.
Qed.

Theorem C35_raises : forall t desc fields d, layout (cleandoc t) desc fields -> parse_text t = Ok d ->
  NoDup (map fst (raises d)) /\
  forall n v, dict_get (raises d) n = Some v <->
    exists ws, last_words (raises_field n) fields ws /\ v = (n, spaced ws).
Proof.
  intros t desc fields d L H. split.
  - destruct (parse_text_layout _ _ _ _ L H) as [s [l [_ P]]]. apply chunks_ok in P; [apply P|].
    unfold fields_ok. cbn. repeat apply conj; constructor.
  - intros n v. exact (raises_char t desc fields d n v L H).
Qed.
Print Assumptions C35_raises.

Theorem C35_returns : forall t desc fields d v, layout (cleandoc t) desc fields -> parse_text t = Ok d ->
  (returns d = Some v <-> exists ws, last_words returns_field fields ws /\ v = spaced ws).
Proof. exact returns_char. Qed.
Print Assumptions C35_returns.

Theorem C35_see : forall t desc fields d, layout (cleandoc t) desc fields -> parse_text t = Ok d ->
  collected see_field fields (see_also d).
Proof. exact see_char. Qed.
Print Assumptions C35_see.

(** No word of the description is lost or moved; the long description is
    everything after the first empty line, verbatim but for its ends. *)
Theorem C35_description : forall t desc fields d ws, layout (cleandoc t) desc fields -> parse_text t = Ok d ->
  spelled ws desc -> exists ws1 ws2, ws = ws1 ++ ws2 /\
    spelled_opt ws1 (short_description d) /\ spelled_opt ws2 (long_description d).
Proof. exact description_char. Qed.
Print Assumptions C35_description.

Theorem C35_long : forall t desc fields d l, layout (cleandoc t) desc fields -> parse_text t = Ok d ->
  long_description d = Some l -> exists a b, desc = a ++ NL :: NL :: b /\
    (forall a1 a2, a <> a1 ++ NL :: NL :: a2) /\ exists p q, b = p ++ l ++ q /\ blanks p /\ blanks q /\ trimmed l.
Proof. exact long_verbatim. Qed.
Print Assumptions C35_long.

(** Cleaning the indentation does not change the words of the text. *)
Theorem C35_cleaned : forall t ws, spelled ws t <-> spelled ws (cleandoc t).
Proof. intros. rewrite !spelled_iff, cleandoc_words. reflexivity. Qed.
Print Assumptions C35_cleaned.

(** parse_text raises ValueError, and nothing else, if and only if a line begins
    with a colon and the text up to the next such line has no other colon. *)
Theorem C35_error : forall t desc fields e, layout (cleandoc t) desc fields ->
  (parse_text t = Err e <-> e = EValue /\ exists f, In f fields /\ forall args body, ~ field f args body).
Proof. exact error_char. Qed.
Print Assumptions C35_error.

Theorem C35_total_refuted : exists t, parse_text t = Err EValue.
Proof. exists (str "Text" ++ [NL] ++ str ":smile for the camera"). vm_compute. reflexivity. Qed.
Print Assumptions C35_total_refuted.

(** ** C49: documentation checked against the signature *)

Theorem C49_dataclass : forall props base d strict,
  (check_dataclass_docstring props base d strict = Ok tt <->
   (forall n, In n (map fst (params d)) -> In n props /\ ~ In n base) /\
   (strict = true -> forall n, In n props -> ~ In n base -> In n (map fst (params d)))) /\
  (check_dataclass_docstring props base d strict = Ok tt \/
   check_dataclass_docstring props base d strict = Err EType).
Proof. exact check_dataclass_char. Qed.
Print Assumptions C49_dataclass.

Theorem C49_function : forall sg ret d strict,
  (check_function_docstring sg ret d strict = Ok tt <->
   (forall n, In n (map fst (params d)) -> In n (map fst sg)) /\
   (returns d <> None -> ret = true) /\
   (strict = true -> (forall n, must_document sg n -> In n (map fst (params d))) /\ (ret = true -> returns d <> None))) /\
  (check_function_docstring sg ret d strict = Ok tt \/ check_function_docstring sg ret d strict = Err EType).
Proof. exact check_function_char. Qed.
Print Assumptions C49_function.

Example C49_witness :
  check_dataclass_docstring [str "a"; str "b"; str "base"] [str "base"] sample_doc true = Ok tt /\
  check_dataclass_docstring [str "a"; str "b"; str "c"] [] sample_doc true = Err EType /\
  check_function_docstring [(str "self", true); (str "a", true); (str "b", false)] true sample_doc true = Ok tt /\
  check_function_docstring [(str "self", false); (str "a", true); (str "b", false)] true sample_doc true = Err EType.
Proof. repeat apply conj; reflexivity. Qed.

(** A data class cannot document a member that it inherits. *)
Theorem C49_inherited_refuted : exists props base d n, In n props /\ In n (map fst (params d)) /\
  check_dataclass_docstring props base d false = Err EType.
Proof.
  exists [str "a"; str "b"], [str "a"], sample_doc, (str "a"). repeat apply conj; [now left|now left|reflexivity].
Qed.
Print Assumptions C49_inherited_refuted.
