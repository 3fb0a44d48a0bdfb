(** The reader of JSON text accepts exactly the documents of the grammar. *)
From Coq Require Import String List NArith ZArith Bool Lia.
From Verif Require Import Base Json Digits DigitsProofs Ser Lists SpecSer SerFacts Text SpecText.
Import ListNotations.
Open Scope list_scope.
Open Scope nat_scope.

(** * Characters *)

Lemma is_ws_spec : forall c, is_ws c = true <-> In c [32; 9; 10; 13]%N.
Proof.
  intros c. unfold is_ws. cbn [In]. rewrite !orb_true_iff, !N.eqb_eq. intuition congruence.
Qed.

Lemma skip_ws_app : forall a s, blank a -> skip_ws (a ++ s) = skip_ws s.
Proof.
  induction a as [|c a IH]; intros s B; [reflexivity|]. inversion B; subst. cbn [app skip_ws].
  rewrite (proj2 (is_ws_spec c)) by assumption. apply IH. assumption.
Qed.

Lemma skip_ws_split : forall s, exists a, blank a /\ s = a ++ skip_ws s.
Proof.
  induction s as [|c s (a & B & Q)]; [exists []; split; [constructor|reflexivity]|].
  cbn [skip_ws]. destruct (is_ws c) eqn:W.
  - exists (c :: a). split; [constructor; [apply is_ws_spec; exact W | exact B]|]. cbn [app]. f_equal. exact Q.
  - exists []. split; [constructor|reflexivity].
Qed.

Lemma skip_ws_stop : forall c s, is_ws c = false -> skip_ws (c :: s) = c :: s.
Proof. intros c s W. cbn [skip_ws]. rewrite W. reflexivity. Qed.

Lemma skip_ws_blank : forall a, blank a -> skip_ws a = [].
Proof. intros a B. rewrite <- (app_nil_r a), skip_ws_app by exact B. reflexivity. Qed.

(** * Numerals *)

Lemma numeral_digits : forall s n, numeral s n -> all_digits s /\ s <> [] /\ dec_val s = n.
Proof.
  intros s n H. induction H as [d L|s n d _ (A & NE & V) L].
  - repeat split; [constructor; [apply is_digit_spec; lia|constructor]|discriminate|].
    unfold dec_val, undigits. cbn [map fold_left]. lia.
  - repeat split.
    + apply all_digits_app; [exact A|]. constructor; [apply is_digit_spec; lia|constructor].
    + destruct s; discriminate.
    + unfold dec_val in *. rewrite map_app. unfold undigits in *. rewrite fold_left_app, V.
      cbn [map fold_left]. lia.
Qed.

Lemma digits_numeral : forall s, all_digits s -> s <> [] -> numeral s (dec_val s).
Proof.
  induction s as [|c s IH] using rev_ind; intros A NE; [contradiction|].
  assert (A1 : all_digits s) by (unfold all_digits in *; apply Forall_app in A; tauto).
  assert (D : (48 <= c <= 57)%N).
  { unfold all_digits in A. apply Forall_app in A. destruct A as [_ A]. inversion A; subst. apply is_digit_spec. assumption. }
  replace c with (48 + (c - 48))%N at 1 by lia.
  destruct s as [|x s].
  - cbn [app]. replace (dec_val [c]) with (c - 48)%N by (unfold dec_val, undigits; cbn [map fold_left]; lia).
    apply nm_digit. lia.
  - replace (dec_val ((x :: s) ++ [c])) with (10 * dec_val (x :: s) + (c - 48))%N.
    + apply nm_more; [apply IH; [exact A1|discriminate]|lia].
    + unfold dec_val. rewrite map_app. unfold undigits. rewrite fold_left_app. cbn [map fold_left]. lia.
Qed.

Definition stops (rest : pystr) : Prop := forall c r, rest = c :: r -> In c [32; 9; 10; 13; 44; 93; 125]%N.

Lemma stops_not : forall c r, stops (c :: r) ->
  is_digit c = false /\ (c =? 46)%N = false /\ ((c =? 101) || (c =? 69))%N = false.
Proof.
  intros c r S. specialize (S c r eq_refl). cbn [In] in S.
  repeat match type of S with _ \/ _ => destruct S as [<-|S] end; try contradiction; repeat split; reflexivity.
Qed.

Lemma no_zero_dec_str : forall n, no_leading_zero (dec_str n).
Proof.
  intros n r Q. destruct (N.eq_dec n 0) as [->|NZ]; [cbv in Q; congruence|].
  destruct (digits_head 10 n) as (d & l & E & P); [lia..|]. pose proof (digits_lt 10 n) as L.
  unfold dec_str in Q. rewrite E in *. cbn [map] in Q. injection Q as Q _.
  specialize (L ltac:(lia)). inversion L; subst. rewrite digit_char_dec in Q by assumption. lia.
Qed.

Lemma undigits10 : forall l a, fold_left (fun a d => a * 10 + d)%N l a = (a * 10 ^ N.of_nat (length l) + undigits 10 l)%N.
Proof. intros. apply undigits_aux. Qed.

(** two numerals of a number without leading zeros are the same *)
Lemma numeral_unique : forall s t n, numeral s n -> no_leading_zero s -> numeral t n -> no_leading_zero t -> s = t.
Proof.
  assert (K : forall s n, numeral s n -> no_leading_zero s -> forall t, numeral t n -> no_leading_zero t -> s = t).
  { intros s n H. induction H as [d L|s n d H IH L]; intros Z t Ht Zt.
    - inversion Ht as [d' L' E1 E2|s' n' d' H' L' E1 E2]; subst; [reflexivity|]. exfalso.
      assert (n' = 0%N) by lia. subst n'.
      destruct (numeral_digits _ _ H') as (A & NE & V). destruct s' as [|c s']; [contradiction|].
      assert (c = 48%N); [|subst c; specialize (Zt _ eq_refl); destruct s'; discriminate].
      inversion A as [|? ? D _]; subst. apply is_digit_spec in D.
      unfold dec_val in V. cbn [map] in V. rewrite undigits_cons in V.
      assert (P : (10 ^ N.of_nat (length (map (fun c => (c - 48)%N) s')) <> 0)%N) by (apply N.pow_nonzero; lia). nia.
    - inversion Ht as [d' L' E1 E2|s' n' d' H' L' E1 E2]; subst.
      + exfalso. assert (n = 0%N) by lia. subst n.
        destruct (numeral_digits _ _ H) as (A & NE & V). destruct s as [|c s]; [contradiction|].
        assert (c = 48%N); [|subst c; specialize (Z _ eq_refl); destruct s; discriminate].
        inversion A as [|? ? D _]; subst. apply is_digit_spec in D.
        unfold dec_val in V. cbn [map] in V. rewrite undigits_cons in V.
        assert (P : (10 ^ N.of_nat (length (map (fun c => (c - 48)%N) s)) <> 0)%N) by (apply N.pow_nonzero; lia). nia.
      + change ((10 * n' + d')%N = (10 * n + d)%N) in E2. assert (n' = n) by lia. assert (d' = d) by lia. subst n' d'. f_equal.
        assert (K : forall u x, no_leading_zero (u ++ [x]) -> u <> [] -> no_leading_zero u).
        { intros u x Q _ r ->. specialize (Q (r ++ [x]) eq_refl). destruct r; discriminate. }
        apply IH; [|exact H'|].
        * eapply K; [exact Z|]. apply (numeral_digits _ _ H).
        * eapply K; [exact Zt|]. apply (numeral_digits _ _ H'). }
  intros. eapply K; eassumption.
Qed.

Lemma short_dec : forall z, short z <-> (N.of_nat (length (dec_str (Z.to_N (Z.abs z)))) <= 4300)%N.
Proof.
  intros z. pose proof (digits_numeral _ (dec_str_digits (Z.to_N (Z.abs z))) (dec_str_nonnil _)) as H.
  rewrite dec_val_dec_str in H. split.
  - intros (ds & Hd & Z & L). rewrite (numeral_unique _ _ _ H (no_zero_dec_str _) Hd Z). exact L.
  - intros L. exists (dec_str (Z.to_N (Z.abs z))). split; [exact H|]. split; [apply no_zero_dec_str|exact L].
Qed.

Lemma int_repr_ok : forall z s, int_repr z = Ok s <-> short z /\ s = int_str z.
Proof.
  intros z s. rewrite short_dec. unfold int_repr.
  destruct (4300 <? _)%N eqn:Q; [apply N.ltb_lt in Q|apply N.ltb_ge in Q]; split.
  - discriminate.
  - intros [L _]. exfalso. exact (proj1 (N.lt_nge _ _) Q L).
  - intros H. injection H as <-. split; [exact Q|reflexivity].
  - intros [_ ->]. reflexivity.
Qed.

Lemma int_str_text : forall z, integer_text (int_str z) z.
Proof.
  assert (K : forall n, numeral (dec_str n) n).
  { intros n. pose proof (digits_numeral _ (dec_str_digits n) (dec_str_nonnil n)) as H. rewrite dec_val_dec_str in H. exact H. }
  intros [|p|p].
  - exists (dec_str 0), 0%N. split; [apply K|]. split; [apply no_zero_dec_str|]. left. split; reflexivity.
  - exists (dec_str (Npos p)), (Npos p). split; [apply K|]. split; [apply no_zero_dec_str|]. left. split; reflexivity.
  - exists (dec_str (Npos p)), (Npos p). split; [apply K|]. split; [apply no_zero_dec_str|]. right. split; reflexivity.
Qed.

(** * Strings *)

Lemma hex_digit_char : forall c d, hex_digit c d <-> char_digit c = Some d.
Proof.
  intros c d. unfold hex_digit, char_digit.
  destruct (N.leb_spec 48 c), (N.leb_spec c 57), (N.leb_spec 97 c), (N.leb_spec c 102), (N.leb_spec 65 c), (N.leb_spec c 70);
    cbn [andb]; try lia; split; intros Q;
    try (injection Q as <-); try discriminate; try lia; f_equal; lia.
Qed.

Lemma unit_hex4 : forall s u, unit_text s u <-> exists a b c d, s = [92; 117; a; b; c; d]%N /\ hex4 a b c d = Some u.
Proof.
  intros s u. unfold unit_text, hex4. split.
  - intros (a & b & c & d & x & y & z & w & -> & A & B & C & D & ->).
    apply hex_digit_char in A, B, C, D. exists a, b, c, d. split; [reflexivity|]. rewrite A, B, C, D.
    f_equal. unfold undigits. cbn [fold_left]. lia.
  - intros (a & b & c & d & -> & Q).
    destruct (char_digit a) as [x|] eqn:A; [|discriminate]. destruct (char_digit b) as [y|] eqn:B; [|discriminate].
    destruct (char_digit c) as [z|] eqn:C; [|discriminate]. destruct (char_digit d) as [w|] eqn:D; [|discriminate].
    injection Q as <-. exists a, b, c, d, x, y, z, w. apply hex_digit_char in A, B, C, D.
    repeat split; try assumption. unfold undigits. cbn [fold_left]. lia.
Qed.

Lemma unescape_spec : forall e c, unescape e = Some c <-> In (e, c) short_escapes.
Proof.
  intros e c. unfold unescape, short_escapes. split.
  - intros Q. repeat match type of Q with
      | (if (e =? ?x)%N then _ else _) = _ => destruct (N.eqb_spec e x) as [->|]; [injection Q as <-; cbn [In]; tauto|]
      end. discriminate.
  - cbn [In]. intros H. repeat match type of H with _ \/ _ => destruct H as [H|H] end; try contradiction; injection H as <- <-; reflexivity.
Qed.

Lemma high_spec : forall u, high_surrogate u = true <-> leading u.
Proof. intros u. unfold high_surrogate, leading. rewrite andb_true_iff, !N.leb_le. lia. Qed.
Lemma low_spec : forall u, low_surrogate u = true <-> trailing u.
Proof. intros u. unfold low_surrogate, trailing. rewrite andb_true_iff, !N.leb_le. lia. Qed.

Lemma scan_unit : forall h1 h2 h3 h4 r2 u, hex4 h1 h2 h3 h4 = Some u ->
  scan_string (92 :: 117 :: h1 :: h2 :: h3 :: h4 :: r2)%N =
  match r2 with
  | b :: e2 :: l1 :: l2 :: l3 :: l4 :: r3 =>
      if high_surrogate u && (b =? 92)%N && (e2 =? 117)%N then
        match hex4 l1 l2 l3 l4 with
        | None => Err EValue
        | Some u2 => if low_surrogate u2 then prepend (join_surrogates u u2) (scan_string r3) else prepend u (scan_string r2)
        end
      else prepend u (scan_string r2)
  | _ => prepend u (scan_string r2)
  end.
Proof.
  intros h1 h2 h3 h4 r2 u Q.
  change (scan_string (92 :: 117 :: h1 :: h2 :: h3 :: h4 :: r2)%N) with
    (match hex4 h1 h2 h3 h4 with None => Err EValue | Some u =>
       match r2 with
       | b :: e2 :: l1 :: l2 :: l3 :: l4 :: r3 =>
           if high_surrogate u && (b =? 92)%N && (e2 =? 117)%N then
             match hex4 l1 l2 l3 l4 with
             | None => Err EValue
             | Some u2 => if low_surrogate u2 then prepend (join_surrogates u u2) (scan_string r3) else prepend u (scan_string r2)
             end
           else prepend u (scan_string r2)
       | _ => prepend u (scan_string r2)
       end end).
  rewrite Q. reflexivity.
Qed.

Lemma scan_chars : forall s t rest, chars s t -> scan_string (t ++ 34%N :: rest) = Ok (s, rest).
Proof.
  intros s t rest H. induction H as [|c s t L N1 N2 H IH|e c s t E H IH|x u s t U H IH NP|x u y v s t U V LU TV H IH].
  - reflexivity.
  - cbn [app scan_string]. apply N.eqb_neq in N1, N2. rewrite N1, N2. rewrite (proj2 (N.ltb_ge c 32) L).
    rewrite IH. reflexivity.
  - cbn [app scan_string]. assert (E' := E). apply unescape_spec in E. cbn [N.eqb Pos.eqb].
    assert (e =? 117 = false)%N as ->.
    { unfold short_escapes in E'. cbn [In] in E'.
      repeat match type of E' with _ \/ _ => destruct E' as [E'|E'] end; try contradiction; injection E' as <- <-; reflexivity. }
    rewrite E, IH. reflexivity.
  - apply unit_hex4 in U. destruct U as (h1 & h2 & h3 & h4 & -> & U). cbn [app].
    rewrite (scan_unit _ _ _ _ _ _ U).
    assert (K : prepend u (scan_string (t ++ 34%N :: rest)) = Ok (u :: s, rest)) by (rewrite IH; reflexivity).
    destruct (t ++ 34%N :: rest) as [|b [|e2 [|l1 [|l2 [|l3 [|l4 r3]]]]]] eqn:Q; try exact K.
    destruct (high_surrogate u && (b =? 92)%N && (e2 =? 117)%N) eqn:Y; [|exact K].
    apply andb_true_iff in Y. destruct Y as [Y Ye]. apply andb_true_iff in Y. destruct Y as [Yu Yb].
    apply high_spec in Yu. apply N.eqb_eq in Yb, Ye. subst b e2.
    assert (V : exists y v r, unit_text y v /\ t = y ++ r).
    { inversion H as [E1 E2|c s' t' L N1 N2 H' E1 E2|e c s' t' E H' E1 E2|y v s' t' V H' NP' E1 E2|y v y' v' s' t' V V' LU TV H' E1 E2];
        subst; cbn [app] in Q.
      - discriminate.
      - injection Q as -> _. contradiction.
      - injection Q as -> _. exfalso. unfold short_escapes in E. cbn [In] in E.
        repeat match type of E with _ \/ _ => destruct E as [E|E] end; try contradiction; discriminate.
      - exists y, v, t'. split; [exact V|reflexivity].
      - exists y, v, (y' ++ t'). split; [exact V|reflexivity]. }
    destruct V as (y & v & r & V & ->). assert (V0 := V).
    apply unit_hex4 in V. destruct V as (a & b & c & d & -> & V). cbn [app] in Q. injection Q as <- <- <- <- _.
    rewrite V. destruct (low_surrogate v) eqn:LV; [|exact K].
    exfalso. apply NP. split; [exact Yu|]. exists [92; 117; a; b; c; d]%N, v, r.
    split; [exact V0|]. split; [apply low_spec; exact LV | reflexivity].
  - apply unit_hex4 in U. destruct U as (h1 & h2 & h3 & h4 & -> & U).
    apply unit_hex4 in V. destruct V as (a & b & c & d & -> & V). cbn [app].
    rewrite (scan_unit _ _ _ _ _ _ U). rewrite (proj2 (high_spec u) LU). cbn [andb N.eqb Pos.eqb].
    rewrite V, (proj2 (low_spec v) TV), IH. unfold prepend, join_surrogates. cbn [bind fst snd].
    do 3 f_equal. lia.
Qed.

Lemma prepend_ok : forall c q s rest, prepend c q = Ok (s, rest) -> exists s', q = Ok (s', rest) /\ s = c :: s'.
Proof.
  intros c [[s' r]|e] s rest Q; [|discriminate]. cbn in Q. injection Q as <- <-. exists s'. split; reflexivity.
Qed.

Lemma chars_scan_n : forall n i s rest, length i < n -> scan_string i = Ok (s, rest) ->
  exists t, i = t ++ 34%N :: rest /\ chars s t.
Proof.
  induction n as [|n IH]; intros i s rest L Q; [lia|].
  destruct i as [|c i]; [discriminate|]. cbn [length] in L.
  destruct (N.eqb_spec c 34) as [->|N1].
  { cbn in Q. injection Q as <- <-. exists []. split; [reflexivity|constructor]. }
  destruct (N.eqb_spec c 92) as [->|N2].
  2:{ cbn [scan_string] in Q. apply N.eqb_neq in N1, N2. rewrite N1, N2 in Q.
      destruct (N.ltb_spec c 32) as [|G]; [discriminate|]. apply N.eqb_neq in N1, N2.
      apply prepend_ok in Q. destruct Q as (s' & Q & ->). apply IH in Q; [|lia]. destruct Q as (t & -> & H).
      exists (c :: t). split; [reflexivity|]. apply ch_plain; assumption. }
  destruct i as [|e r1]; [discriminate|]. cbn [length] in L.
  destruct (N.eqb_spec e 117) as [->|NE].
  2:{ cbn [scan_string N.eqb Pos.eqb] in Q. apply N.eqb_neq in NE. rewrite NE in Q.
      destruct (unescape e) as [d|] eqn:E; [|discriminate]. apply unescape_spec in E.
      apply prepend_ok in Q. destruct Q as (s' & Q & ->). apply IH in Q; [|lia]. destruct Q as (t & -> & H).
      exists (92%N :: e :: t). split; [reflexivity|]. apply ch_short; assumption. }
  destruct r1 as [|h1 [|h2 [|h3 [|h4 r2]]]]; try discriminate. cbn [length] in L.
  destruct (hex4 h1 h2 h3 h4) as [u|] eqn:U.
  2:{ cbn [scan_string N.eqb Pos.eqb] in Q. rewrite U in Q. discriminate. }
  rewrite (scan_unit _ _ _ _ _ _ U) in Q.
  assert (UT : unit_text [92; 117; h1; h2; h3; h4]%N u) by (apply unit_hex4; exists h1, h2, h3, h4; split; [reflexivity|exact U]).
  assert (K : prepend u (scan_string r2) = Ok (s, rest) ->
    ~ (leading u /\ exists y v r, unit_text y v /\ trailing v /\ r2 = y ++ r) ->
    exists t, (92 :: 117 :: h1 :: h2 :: h3 :: h4 :: r2)%N = t ++ 34%N :: rest /\ chars s t).
  { intros Q' NP. apply prepend_ok in Q'. destruct Q' as (s' & Q' & ->). apply IH in Q'; [|lia].
    destruct Q' as (t & -> & H). exists ([92; 117; h1; h2; h3; h4]%N ++ t). split; [reflexivity|].
    apply ch_unit; [exact UT|exact H|]. intros (LU & y & v & r & V & TV & ->). apply NP.
    split; [exact LU|]. exists y, v, (r ++ 34%N :: rest). rewrite <- app_assoc. repeat split; try assumption; apply TV. }
  assert (SH : length r2 < 6 -> ~ (leading u /\ exists y v r, unit_text y v /\ trailing v /\ r2 = y ++ r)).
  { intros SL (_ & y & v & r & V & _ & ->). apply unit_hex4 in V. destruct V as (a & b & c & d & -> & _). cbn [app length] in SL. lia. }
  destruct r2 as [|b [|e2 [|l1 [|l2 [|l3 [|l4 r3]]]]]]; try (apply K; [exact Q|apply SH; cbn [length]; lia]).
  clear SH.
  destruct (high_surrogate u && (b =? 92)%N && (e2 =? 117)%N) eqn:Y.
  - apply andb_true_iff in Y. destruct Y as [Y Ye]. apply andb_true_iff in Y. destruct Y as [Yu Yb].
    apply high_spec in Yu. apply N.eqb_eq in Yb, Ye. subst b e2.
    destruct (hex4 l1 l2 l3 l4) as [v|] eqn:V; [|discriminate].
    destruct (low_surrogate v) eqn:LV.
    + apply prepend_ok in Q. destruct Q as (s' & Q & ->). cbn [length] in L. apply IH in Q; [|lia]. destruct Q as (t & -> & H).
      exists ([92; 117; h1; h2; h3; h4]%N ++ [92; 117; l1; l2; l3; l4]%N ++ t). split; [reflexivity|].
      replace (join_surrogates u v) with (65536 + 1024 * (u - 55296) + (v - 56320))%N by (unfold join_surrogates; lia).
      apply ch_pair; [exact UT| |exact Yu|apply low_spec; exact LV|exact H].
      apply unit_hex4. exists l1, l2, l3, l4. split; [reflexivity|exact V].
    + apply K; [exact Q|]. intros (_ & y & v' & r & V' & TV & E). apply unit_hex4 in V'.
      destruct V' as (a' & b' & c' & d' & -> & V'). cbn [app] in E. injection E as <- <- <- <- _.
      rewrite V in V'. injection V' as <-. apply low_spec in TV. congruence.
  - apply K; [exact Q|]. intros (LU & y & v' & r & V' & TV & E). apply unit_hex4 in V'.
    destruct V' as (a' & b' & c' & d' & -> & V'). cbn [app] in E. injection E as -> -> _ _ _ _ _.
    apply high_spec in LU. rewrite LU in Y. discriminate.
Qed.

Lemma chars_scan : forall i s rest, scan_string i = Ok (s, rest) -> exists t, i = t ++ 34%N :: rest /\ chars s t.
Proof. intros i s rest. apply (chars_scan_n (Datatypes.S (length i))). lia. Qed.
