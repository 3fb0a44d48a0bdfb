(** Proofs about the texts that [python_type_to_str] writes. *)
From Coq Require Import String List NArith ZArith Bool Lia.
From Verif Require Import Base Json Digits DigitsProofs PyStr PyTypes TypeAlgebra TypeAlgebraProofs Schema SpecTypes SpecText Lists PyStrProofs TypingFacts TextProofs Names SpecNames NamesProofs SpecNotation.
From Verif Require SpecAddresses AddressesProofs.
Import ListNotations.
Open Scope list_scope.
Open Scope N_scope.

Lemma join_listing : forall {A} (R : pystr -> A -> Prop) sep f l, l <> [] -> (forall x, In x l -> R (f x) x) -> listing R sep (Schema.join sep (map f l)) l.
Proof.
  intros A R sep f l. induction l as [|x l IH]; intros Z H; [destruct (Z eq_refl)|].
  destruct l as [|y l]; [apply li_one, H; left; reflexivity|]. change (Schema.join sep (map f (x :: y :: l))) with (f x ++ sep ++ Schema.join sep (map f (y :: l))).
  apply li_more; [apply H; left; reflexivity|]. apply IH; [discriminate | intros z I; apply H; right; exact I].
Qed.

Lemma hex_text : forall w n, n < 16 ^ N.of_nat w -> (1 <= w)%nat -> SpecAddresses.hex_numeral w n (hex_pad w n).
Proof.
  intros w n B W. pose proof (AddressesProofs.hex_numeral_of (hex_pad w n) (hex_pad_chars w n)) as H. rewrite hex_pad_value, hex_pad_length in H by assumption. exact H.
Qed.

Lemma escape_quoted : forall (P : Names.python) (bytes : bool) (q c : N) s t, q = 39 \/ q = 34 -> (if bytes then c < 256 /\ py_printable P c = false else c < 1114112) -> quoted bytes q s t ->
  quoted bytes q (c :: s) (escape P q c ++ t).
Proof.
  intros P bytes q c s t Q B H. unfold escape.
  assert (HX : quoted bytes q (c :: s) (escape_hex c ++ t)).
  { unfold escape_hex. destruct (N.leb_spec c 255).
    - apply (qu_numeric bytes q 120 2 c (hex_pad 2 c)); [left; reflexivity | reflexivity | apply hex_text; [change (16 ^ N.of_nat 2) with 256; lia | lia] | exact H].
    - destruct bytes; [lia|]. destruct (N.leb_spec c 65535).
      + apply (qu_numeric false q 117 4 c (hex_pad 4 c)); [right; left; reflexivity | discriminate | apply hex_text; [change (16 ^ N.of_nat 4) with 65536; lia | lia] | exact H].
      + apply (qu_numeric false q 85 8 c (hex_pad 8 c)); [right; right; left; reflexivity | discriminate | apply hex_text; [change (16 ^ N.of_nat 8) with 4294967296; lia | lia] | exact H]. }
  assert (SM : forall e d, In (e, d) simple_escapes -> c = d -> quoted bytes q (c :: s) (92 :: e :: t)) by (intros e d I ->; apply (qu_simple bytes q e d); assumption).
  destruct (N.eqb_spec c q) as [->|N1]; cbn [orb]; [destruct Q as [-> | ->]; eapply SM; try reflexivity; cbn; tauto|].
  destruct (N.eqb_spec c 92) as [->|N2]; cbn [orb]; [eapply SM; [left; reflexivity | reflexivity]|].
  destruct (N.eqb_spec c 9) as [->|N3]; [eapply SM; [|reflexivity]; cbn; tauto|].
  destruct (N.eqb_spec c 10) as [->|N4]; [eapply SM; [|reflexivity]; cbn; tauto|].
  destruct (N.eqb_spec c 13) as [->|N5]; [eapply SM; [|reflexivity]; cbn; tauto|].
  destruct ((c <? 32) || (c =? 127)); [exact HX|].
  destruct (N.ltb_spec c 127); [apply qu_plain; try assumption; intros _; lia|].
  destruct (py_printable P c) eqn:PR; [|exact HX]. destruct bytes; [destruct B as [_ B]; discriminate B|]. apply qu_plain; try assumption. discriminate.
Qed.

Lemma quote_in : forall s, In (quote_for s) [39; 34].
Proof. intros s. destruct (quote_for_cases s) as [-> | ->]; cbn; tauto. Qed.

Lemma str_quoted : forall (P : Names.python) (bytes : bool) (q : N) s, q = 39 \/ q = 34 -> Forall (fun c => if bytes then c < 256 /\ py_printable P c = false else c < 1114112) s ->
  quoted bytes q s (flat_map (escape P q) s).
Proof. intros P bytes q s Q F. induction F as [|c s C F IH]; [constructor | cbn [flat_map]; apply escape_quoted; assumption]. Qed.

Lemma repr_string : forall P s, Forall (fun c => c < 1114112) s -> string_text (repr_str P s) s.
Proof.
  intros P s F. exists (quote_for s), (flat_map (escape P (quote_for s)) s). split; [apply quote_in|]. split; [apply (str_quoted P false); [apply quote_for_cases | exact F] | reflexivity].
Qed.

Lemma repr_bytes_text : forall P s, Forall (fun c => c < 256) s -> bytes_text (repr_bytes P s) s.
Proof.
  intros P s F. unfold repr_bytes, repr_str. set (Q := mkPython _ _ _ _). exists (quote_for s), (flat_map (escape Q (quote_for s)) s). split; [apply quote_in|].
  split; [|reflexivity]. apply (str_quoted Q true); [apply quote_for_cases|]. apply Forall_impl with (2 := F). intros c C. split; [exact C | reflexivity].
Qed.

Lemma repr_boolean : forall b, boolean_text (repr_bool b) b.
Proof. intros [|]; constructor. Qed.

Lemma dec_text : forall n, integer_text (dec_str n) (Z.of_N n).
Proof. intros n. pose proof (int_str_text (Z.of_N n)) as H. rewrite int_str_nonneg, N2Z.id in H by lia. exact H. Qed.

Lemma lit_written : forall P E l, legible_lit E l -> (forall c x, l <> LEnum c x) -> literal_text (lit_text P E l) l.
Proof.
  intros P E l L N. unfold lit_text. destruct l as [|b|z|s|bs|c x]; cbn [repr_lit].
  - apply lt_none.
  - apply lt_bool, repr_boolean.
  - apply lt_int, int_str_text.
  - apply lt_str, repr_string, L.
  - apply lt_bytes, repr_bytes_text, L.
  - destruct (N c x eq_refl).
Qed.

Lemma call_one : forall f s, call f [s] = (f ++ str "(") ++ s ++ str ")".
Proof. intros f s. unfold call. cbn [Schema.join]. rewrite <- app_assoc. reflexivity. Qed.
Lemma call_two : forall f s r, call f [s; r] = (f ++ str "(") ++ s ++ str ", " ++ r ++ str ")".
Proof. intros f s r. unfold call. change (Schema.join (str ", ") [s; r]) with (s ++ str ", " ++ r). rewrite <- !app_assoc. reflexivity. Qed.

Lemma annot_written : forall P a, legible_annot a -> annotation_text (repr_annot P a) a.
Proof.
  intros P a L. destruct a; cbn [repr_annot]; cbn [legible_annot] in L; try match type of L with False => destruct L end; rewrite ?call_one, ?call_two.
  all: first [ apply at_alias, repr_string, L | apply at_range; apply int_str_text | apply at_precision; apply dec_text | apply at_min, dec_text
             | apply at_max, dec_text | apply at_storage, dec_text | apply at_signed, repr_boolean ].
Qed.

Lemma annots_written : forall P md, md <> [] -> Forall legible_annot md -> listing annotation_text (str ", ") (Schema.join (str ", ") (map (repr_annot P) md)) md.
Proof. intros P md Z F. apply join_listing; [exact Z|]. intros a I. apply annot_written. rewrite Forall_forall in F. apply F, I. Qed.

Lemma bracket_one : forall f s, bracket f [s] = (f ++ str "[") ++ s ++ str "]".
Proof. intros f s. unfold bracket. cbn [Schema.join]. rewrite <- app_assoc. reflexivity. Qed.
Lemma bracket_two : forall f s r, bracket f [s; r] = (f ++ str "[") ++ s ++ str ", " ++ r ++ str "]".
Proof. intros f s r. unfold bracket. change (Schema.join (str ", ") [s; r]) with (s ++ str ", " ++ r). rewrite <- !app_assoc. reflexivity. Qed.
Lemma bracket_join : forall f ss, bracket f ss = (f ++ str "[") ++ Schema.join (str ", ") ss ++ str "]".
Proof. intros f ss. unfold bracket. rewrite <- app_assoc. reflexivity. Qed.

Lemma leaves_out_in : forall amd md rest, leaves_out amd md rest -> incl amd md -> forall a, In a md <-> In a amd \/ In a rest.
Proof.
  intros amd md rest L I a. assert (X : (In a md -> In a amd \/ In a rest) /\ (In a rest -> In a md)).
  { clear I. induction L as [|b md rest B L (IH1 & IH2)|b md rest B L (IH1 & IH2)]; cbn [In].
    - tauto.
    - split; [intros [<-|J]; [left; exact B | apply IH1; exact J] | intros J; right; apply IH2; exact J].
    - split; [intros [J|J]; [right; left; exact J | destruct (IH1 J); tauto] | intros [J|J]; [left; exact J | right; apply IH2; exact J]]. }
  split; [apply X | intros [J|J]; [apply I; exact J | apply X; exact J]].
Qed.

Section Written.
  Variables (P : python) (E : env) (op : bool).

  Lemma optional_shape : forall ts, canonical (TUnion false ts) -> (Nat.eqb (length ts) 2 && existsb (typ_eqb (TScalar KNone)) ts)%bool = true ->
    exists t, (ts = [t; none_type] \/ ts = [none_type; t]) /\ In t ts /\
      flat_map (fun u => if typ_eqb u (TScalar KNone) then [] else [show P E op false u]) ts = [show P E op false t].
  Proof.
    intros ts C B. apply andb_true_iff in B. destruct B as [L X]. apply Nat.eqb_eq in L.
    destruct ts as [|a [|b [|c ts]]]; try discriminate L. inversion C as [| | | | | |? ? ? ND F| | | | |]; subst. cbn [existsb] in X. rewrite orb_false_r in X.
    assert (NE : a <> b) by (inversion ND as [|? ? N _]; subst; intros ->; apply N; left; reflexivity).
    assert (T : forall u, typ_eqb u (TScalar KNone) = true <-> u = none_type) by (intros u; split; [apply typ_eqb_eq | intros ->; reflexivity]).
    assert (T' : forall u, u <> none_type -> typ_eqb u (TScalar KNone) = false) by (intros u N; destruct (typ_eqb u (TScalar KNone)) eqn:Q; [destruct (N (proj1 (T u) Q)) | reflexivity]).
    apply orb_true_iff in X. destruct X as [X|X]; apply typ_eqb_eq in X; subst.
    - exists b. split; [right; reflexivity|]. split; [right; left; reflexivity|]. cbn [flat_map]. change (typ_eqb (TScalar KNone) (TScalar KNone)) with true; rewrite T' by (intros ->; apply NE; reflexivity). reflexivity.
    - exists a. split; [left; reflexivity|]. split; [left; reflexivity|]. cbn [flat_map]. change (typ_eqb (TScalar KNone) (TScalar KNone)) with true; rewrite T' by exact NE. reflexivity.
  Qed.

  Lemma show_expression : forall t plain, canonical t -> legible E (py_identifier P) t -> expressible t -> expression E (show P E op plain t) t.
  Proof.
    induction t as [k|b|u IH|u IH|k u IHk IHu|ts IH|o ts IH|ls|u md IH|c|s|] using typ_induct; intros plain C L X; inversion C; subst; inversion L; subst; inversion X; subst.
    - cbn [show]. destruct k, plain; apply ex_scalar; cbn; tauto.
    - cbn [show]. destruct b; constructor.
    - cbn [show]. rewrite bracket_one. apply ex_list, IH; assumption.
    - cbn [show]. rewrite bracket_one. apply ex_set, IH; assumption.
    - cbn [show]. rewrite bracket_two. apply ex_dict; [apply IHk | apply IHu]; assumption.
    - cbn [show]. rewrite bracket_join. apply ex_tuple, join_listing; [assumption|]. rewrite Forall_forall in *. auto.
    - assert (ALL : forall t, In t ts -> expression E (show P E op false t) t).
      { rewrite Forall_forall in *. intros t I. match goal with F : forall x, In x ts -> canonical x /\ _ |- _ => pose proof (proj1 (F t I)) end. apply IH; auto. }
      assert (NZ : ts <> []) by (intros ->; match goal with Z : (2 <= length [])%nat |- _ => inversion Z end).
      destruct op eqn:O.
      + rewrite show_joined by reflexivity. apply ex_operator, join_listing; assumption.
      + rewrite show_union by reflexivity. destruct (Nat.eqb (length ts) 2 && existsb (typ_eqb (TScalar KNone)) ts)%bool eqn:B.
        * assert (C' : canonical (TUnion false ts)) by (apply cn_union; assumption). destruct (optional_shape ts C' B) as (t & SH & I & Q). rewrite O in Q. rewrite Q, bracket_one.
          apply (ex_optional E _ o t ts); [apply ALL; exact I | exact SH].
        * rewrite bracket_join. apply ex_union, join_listing; assumption.
    - cbn [show]. rewrite bracket_join. apply ex_literal, join_listing; [assumption|]. intros l I. apply lit_written.
      + match goal with F : Forall _ ls |- _ => rewrite Forall_forall in F; apply F, I end.
      + intros c x ->. match goal with N : forall c x, ~ _ |- _ => exact (N c x I) end.
    - cbn [show]. destruct (get_auxiliary_format (TAnnot u md)) as [x|] eqn:G.
      + apply get_aux_numbers in G. destruct G as (k & amd & I & Q). injection Q as -> ->. apply ex_auxiliary. exact I.
      + assert (Y : md <> [] /\ forall k x, u = TScalar k -> ~ refines k md x []).
        { match goal with D : _ \/ _ |- _ => destruct D as [(x & Z)|Z]; [|exact Z] end. exfalso. exact (exactly_get_aux _ _ Z G). }
        destruct Y as (NZ & NR). destruct (find_auxiliary sorted_auxiliary u md) as [(x & rest)|] eqn:F.
        * apply find_aux_refines in F. destruct F as (k & -> & R). rewrite bracket_two. pose proof R as (l1 & amd & l2 & Q & I & LO & _).
          apply (ex_further E x k amd _ rest).
          -- rewrite Q. apply in_or_app. right. left. reflexivity.
          -- apply annots_written; [intros ->; exact (NR k x eq_refl R) | apply (refines_legible _ _ _ _ R); assumption].
          -- apply leaves_out_in; assumption.
        * rewrite bracket_two. apply ex_annotated; [apply IH; assumption | apply annots_written; assumption].
    - cbn [show]. match goal with G : get_class E c = Some _ |- _ => rewrite G; apply ex_class; exact G end.
    - cbn [show]. apply ex_ref. assumption.
  Qed.
End Written.
