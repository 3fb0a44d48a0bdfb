(** C52: JSON text. *)
From Coq Require Import String List NArith ZArith Bool Lia.
From Verif Require Import Base Json Digits DigitsProofs TimeDelta IsoTime PyTypes TypeAlgebra Mapping Deser Ser Lists SpecIsoTime
  SpecTyping TypingFacts SpecRecursion DeserUnfold SpecDeser SpecTypes TypeAlgebraProofs SpecFields FieldProofs SpecTagged TaggedProofs
  DeserFacts SpecNumbers SpecSer SerFacts SpecRoundTrip RoundTrip Samples PropDeser PropFields PropRoundTrip
  Text SpecText TextProofs TextRead TextWrite TextTyped.
Import ListNotations.
Open Scope list_scope.
Open Scope nat_scope.

(** C52.  The reader accepts exactly the documents of the grammar of JSON, with the
    three numbers that Python adds and without integers of more than 4300 digits,
    and yields the value they denote. *)
Theorem C52_reader : forall F s j, json_loads F s = Ok j <-> padded (f_read F) True False j s.
Proof. exact loads_exact. Qed.
Print Assumptions C52_reader.

(** C52.  A document without NaN and infinities is written as JSON that denotes it. *)
Theorem C52_text : forall F j s, json_wf j -> exact_floats (f_repr F) (f_read F) j -> finite_floats j ->
  json_dump_string F j = Ok s -> json_document (f_read F) j s.
Proof.
  intros F j s W X FF Q. apply (proj1 (proj2 (grammar_mono (f_read F) False False False True (fun x => x) (fun x => match x with end)))).
  apply pad0. apply dump_text; try assumption. right. exact FF.
Qed.
Print Assumptions C52_text.

(** C52.  A document has a text exactly if its integers have at most 4300 digits;
    otherwise ValueError is raised. *)
Theorem C52_defined : forall F j,
  ((exists s, json_dump_string F j = Ok s) <-> short_numbers j) /\
  (forall e, json_dump_string F j = Err e -> e = EValue).
Proof. intros F j. split; [apply dump_some|intros e; apply dump_error]. Qed.
Print Assumptions C52_defined.

(** C52.  What is written is read back, from the string and from the file. *)
Theorem C52_roundtrip : forall F j s, json_wf j -> exact_floats (f_repr F) (f_read F) j ->
  json_dump_string F j = Ok s ->
  json_loads F s = Ok j /\ json_dump F j = Ok (s ++ [10%N]) /\ json_loads F (s ++ [10%N]) = Ok j.
Proof.
  intros F j s W X Q. assert (T : text (f_read F) True False j s) by (apply dump_text; try assumption; left; exact Logic.I).
  split; [apply loads_exact; apply pad0; exact T|]. split; [unfold json_dump; rewrite Q; reflexivity|].
  apply loads_exact. apply (pd _ _ _ j [] s [10%N]); [constructor|exact T|]. constructor; [cbn; tauto|constructor].
Qed.
Print Assumptions C52_roundtrip.

(** C52.  Different documents have different texts. *)
Theorem C52_injective : forall F j k s, json_wf j -> json_wf k ->
  exact_floats (f_repr F) (f_read F) j -> exact_floats (f_repr F) (f_read F) k ->
  json_dump_string F j = Ok s -> json_dump_string F k = Ok s -> j = k.
Proof.
  intros F j k s Wj Wk Xj Xk Qj Qk. pose proof (proj1 (C52_roundtrip F j s Wj Xj Qj)). pose proof (proj1 (C52_roundtrip F k s Wk Xk Qk)). congruence.
Qed.
Print Assumptions C52_injective.

(** C52.  The text is a single line: it has no control characters. *)
Theorem C52_line : forall F j s, exact_floats (f_repr F) (f_read F) j -> json_dump_string F j = Ok s ->
  Forall (fun c => (32 <= c)%N) s.
Proof. exact dump_printable. Qed.
Print Assumptions C52_line.

(** C52.  A value goes through text and comes back. *)
Theorem C52_object : forall F E skip m t v j s,
  env_ok E -> canonical_env E -> guarded_env E -> calm E -> shuffles (e_order E) ->
  ready E m t -> faithful E skip m t -> has_type E m t v -> regular v -> tidy_classes E ->
  object_to_json E v = Ok j -> exact_floats (f_repr F) (f_read F) j -> json_dump_string F j = Ok s ->
  exists doc, json_loads F s = Ok doc /\ json_to_object E skip m t doc = Ok v.
Proof.
  intros F E skip m t v j s OK CE GE C ORD R FA HT RG TC O X Q. exists j. split.
  - apply C52_roundtrip; try assumption. apply (image_wf E TC v). apply object_to_json_image; [exact OK| |exact O].
    eapply typed_conforms; eassumption.
  - eapply C01_roundtrip; eassumption.
Qed.
Print Assumptions C52_object.

(** * Exceptions *)

(** NaN is written, but what is written is no JSON. *)
Lemma nan_no_json : forall read j, ~ json_document read j (str "NaN").
Proof.
  intros read j H. unfold json_document in H. remember (str "NaN") as s eqn:Es. destruct H as [j a t b Ba Ht Bb].
  destruct a as [|c a].
  - cbn [app] in Es.
    assert (K : forall r, t <> 78%N :: r).
    { intros r ->. remember (78%N :: r) as u eqn:Eu.
      destruct Ht as [ | | |z s H _|s H|[]|[]|[]|s t _|w _|l t _|w _|ps o t _ _]; try discriminate.
      - destruct (number_head s (or_introl (ex_intro _ z H))) as (c & x & -> & D). injection Eu as -> _.
        destruct D as [D|[D _]]; discriminate.
      - destruct (number_head s (or_intror H)) as (c & x & -> & D). injection Eu as -> _.
        destruct D as [D|[D _]]; discriminate. }
    destruct (text_begins _ _ _ _ _ Ht) as (c & x & -> & _). cbn [app] in Es. injection Es as -> _. exact (K x eq_refl).
  - inversion Ba as [|? ? D _]; subst. cbn [app] in Es. injection Es as -> _. cbn [In] in D. intuition discriminate.
Qed.

Theorem C52_nan_refuted : exists j s, json_wf j /\ forall F,
  json_dump_string F j = Ok s /\ json_loads F s = Ok j /\ forall k, ~ json_document (f_read F) k s.
Proof.
  exists (JFloat FNan), (str "NaN"). split; [constructor|]. intros F. repeat split. intros k. apply nan_no_json.
Qed.
Print Assumptions C52_nan_refuted.

(** An integer of 4301 digits has no text, though it has one in JSON. *)
Lemma numeral_bound : forall s n, numeral s n -> (n < 10 ^ N.of_nat (length s))%N.
Proof.
  intros s n H. induction H as [d L|s n d _ IH L].
  - exact L.
  - rewrite app_length. cbn [length]. rewrite Nat2N.inj_add. cbn [N.of_nat Pos.of_succ_nat].
    rewrite N.pow_add_r, N.pow_1_r. lia.
Qed.

Lemma long_number : forall k, (4300 <= k)%N -> ~ short (Z.of_N (10 ^ k)).
Proof.
  intros k K (ds & H & _ & L). replace (Z.to_N (Z.abs (Z.of_N (10 ^ k)))) with (10 ^ k)%N in H.
  - apply numeral_bound in H. apply (proj1 (N.lt_nge _ _) H). apply N.pow_le_mono_r; [discriminate|].
    eapply N.le_trans; eassumption.
  - rewrite Z.abs_eq by apply N2Z.is_nonneg. symmetry. apply N2Z.id.
Qed.

Theorem C52_digits_refuted : exists z, forall F,
  json_dump_string F (JInt z) = Err EValue /\ exists s, json_document (f_read F) (JInt z) s.
Proof.
  assert (K : exists k, (4300 <= k)%N) by (exists 4300%N; apply N.le_refl). destruct K as (k & K).
  exists (Z.of_N (10 ^ k)). intros F. split.
  - destruct (json_dump_string F (JInt (Z.of_N (10 ^ k)))) as [s|e] eqn:Q.
    + exfalso. apply (long_number k K). apply (proj1 (dump_some F (JInt (Z.of_N (10 ^ k)))) (ex_intro _ s Q)). constructor.
    + rewrite (dump_error F _ _ Q). reflexivity.
  - exists (int_str (Z.of_N (10 ^ k))). apply pad0. apply tx_int; [apply int_str_text|]. left. exact Logic.I.
Qed.
Print Assumptions C52_digits_refuted.

(** Text that is read need not be the text that is written. *)
Theorem C52_spelling_refuted : exists s t, s <> t /\ forall F, exists j,
  json_loads F s = Ok j /\ json_loads F t = Ok j /\ json_dump_string F j = Ok t.
Proof.
  exists (str "{""a"" : 1, ""b"":2,""a"":[ ""\u00e9\ud834\udd1e\/"" ] }"), (str "{""a"":[""" ++ [233; 119070]%N ++ str "/""],""b"":2}").
  split; [discriminate|]. intros F. exists (JObj [(str "a", JArr [JStr [233; 119070; 47]%N]); (str "b", JInt 2)]).
  repeat split.
Qed.
Print Assumptions C52_spelling_refuted.

(** * Witnesses *)

(** one half *)
Definition half : flt := FFin false 1 (-1).
Definition halves : floats := {| f_repr := fun _ => str "0.5"; f_read := fun _ => half |}.

Definition doc52 : json :=
  JObj [(str "a", JArr [JNull; JBool true; JInt (-120); JFloat half]);
        (str "b""\", JStr [10; 1; 233; 55348; 56606; 47]%N); (str "", JObj []); (str "c", JArr [])].

Definition text52 : pystr :=
  str "{""a"":[null,true,-120,0.5],""b\""\\"":""\n\u0001" ++ [233; 55348; 56606]%N ++ str "/"","""":{},""c"":[]}".

Lemma real_half : real_text (str "0.5").
Proof.
  exists (str "0"), 0%Z, (str ".5"), []. split; [reflexivity|]. split.
  - exists (str "0"), 0%N. split; [apply (nm_digit 0); reflexivity|]. split; [intros r E; injection E as <-; reflexivity|].
    left. split; reflexivity.
  - split; [right; exists (str "5"), 5%N; split; [reflexivity|apply (nm_digit 5); reflexivity]|].
    split; [left; reflexivity|left; discriminate].
Qed.

Ltac json_parts H :=
  inversion H; subst; clear H; try discriminate;
  try match goal with I : In _ _ |- _ => cbn [In] in I; cases_in I end;
  try match goal with
  | I : (_, _) = (_, _) |- _ => injection I as <- <-
  | I : _ = _ |- _ => subst
  end;
  try match goal with I : json_part _ _ |- _ => json_parts I end.

Lemma doc52_floats : forall f, json_part (JFloat f) doc52 -> f = half.
Proof. intros f H. unfold doc52 in H. json_parts H; reflexivity. Qed.

Example C52_witness : json_wf doc52 /\ exact_floats (f_repr halves) (f_read halves) doc52 /\ finite_floats doc52 /\
  json_dump_string halves doc52 = Ok text52 /\ json_loads halves text52 = Ok doc52.
Proof.
  split; [unfold doc52; repeat (constructor; cbn [map fst snd]); nodup|]. split; [|split; [|split; vm_compute; reflexivity]].
  - intros f H. rewrite (doc52_floats f H). intros s m e _. split; [exact real_half|reflexivity].
  - intros f H. rewrite (doc52_floats f H). exists false, 1%N, (-1)%Z. reflexivity.
Qed.

Example C52_witness_object : tidy_classes Zoo /\ object_to_json Zoo v0 = Ok j0 /\
  exact_floats (f_repr halves) (f_read halves) j0 /\
  (exists s, json_dump_string halves j0 = Ok s /\ json_loads halves s = Ok j0).
Proof.
  split; [|split; [vm_compute; reflexivity|split]].
  - intros c cl G. zoo_class c G; split; try discriminate; intros.
    + match goal with K : c_kind _ = CEnum _ |- _ => injection K as <- end.
      match goal with J : In _ _ |- _ => cbn [In] in J; decompose [or] J; clear J end;
      repeat match goal with X : (_, _) = (_, _) |- _ => injection X as _ <-; constructor | X : False |- _ => destruct X end.
    + match goal with T : c_to_json _ = Some _ |- _ => injection T as <- end.
      match goal with Q : _ = Ok _ |- _ => cbn in Q;
        repeat match type of Q with context [match ?y with _ => _ end] => destruct y; try discriminate end;
        injection Q as <-; constructor end.
  - intros f H. unfold j0, jstr in H. json_parts H.
  - destruct (json_dump_string halves j0) as [s|] eqn:Q; [|vm_compute in Q; discriminate]. exists s. split; [reflexivity|].
    vm_compute in Q. injection Q as <-. vm_compute. reflexivity.
Qed.
