(** Lemmas about positional numerals. *)
From Coq Require Import List NArith ZArith Bool Lia.
From Verif Require Import Base Digits.
Import ListNotations.
Open Scope N_scope.

Lemma undigits_aux : forall b l a,
  fold_left (fun a d => a * b + d) l a = a * b ^ N.of_nat (length l) + undigits b l.
Proof.
  unfold undigits. induction l as [|d l IH]; intros a.
  - simpl. lia.
  - simpl length. simpl fold_left. rewrite IH, (IH d).
    rewrite Nat2N.inj_succ, N.pow_succ_r'. simpl. lia.
Qed.

Lemma undigits_cons : forall b d l,
  undigits b (d :: l) = d * b ^ N.of_nat (length l) + undigits b l.
Proof. intros. unfold undigits at 1. simpl. rewrite undigits_aux. reflexivity. Qed.

Lemma undigits_app : forall b l1 l2,
  undigits b (l1 ++ l2) = undigits b l1 * b ^ N.of_nat (length l2) + undigits b l2.
Proof.
  intros. unfold undigits at 1. rewrite fold_left_app.
  rewrite undigits_aux. reflexivity.
Qed.

Lemma undigits_zeros : forall b k l, undigits b (repeat 0 k ++ l) = undigits b l.
Proof.
  induction k; intros; simpl; [reflexivity|].
  rewrite undigits_cons, IHk. lia.
Qed.

Lemma undigits_zeros' : forall b k, undigits b (repeat 0 k) = 0.
Proof. intros. rewrite <- (app_nil_r (repeat 0 k)). rewrite undigits_zeros. reflexivity. Qed.

Lemma undigits_lt : forall b l, 0 < b -> Forall (fun d => d < b) l ->
  undigits b l < b ^ N.of_nat (length l).
Proof.
  induction l as [|d l IH]; intros Hb H.
  - simpl. unfold undigits. simpl. lia.
  - inversion H; subst. rewrite undigits_cons. simpl length.
    rewrite Nat2N.inj_succ, N.pow_succ_r'. specialize (IH Hb H3). nia.
Qed.

Lemma digits_aux_spec : forall b fuel n acc, 2 <= b -> n < b ^ N.of_nat fuel ->
  undigits b (digits_aux b fuel n acc) = n * b ^ N.of_nat (length acc) + undigits b acc.
Proof.
  induction fuel as [|fuel IH]; intros n acc Hb Hn.
  - simpl in *. assert (n = 0) by lia. subst. lia.
  - rewrite Nat2N.inj_succ, N.pow_succ_r' in Hn. simpl.
    destruct (N.ltb_spec n b).
    + rewrite undigits_cons. reflexivity.
    + rewrite IH by (try assumption; apply N.div_lt_upper_bound; lia).
      simpl length. rewrite undigits_cons.
      rewrite Nat2N.inj_succ, N.pow_succ_r'.
      pose proof (N.div_mod n b ltac:(lia)). set (q := n / b) in *. set (r := n mod b) in *.
      rewrite H0. ring.
Qed.

Lemma size_bound : forall n, n < 2 ^ N.of_nat (N.size_nat n).
Proof.
  intros [|p]; simpl; [lia|].
  rewrite <- Pos2Nat.id at 1. 
  assert (H : forall p, Npos p < 2 ^ N.of_nat (Pos.size_nat p)).
  { induction p0; simpl Pos.size_nat; rewrite ?Nat2N.inj_succ, ?N.pow_succ_r'; try lia. }
  rewrite Pos2Nat.id. apply H.
Qed.

Lemma fuel_bound : forall b n, 2 <= b -> n < b ^ N.of_nat (S (N.size_nat n)).
Proof.
  intros b n Hb. pose proof (size_bound n) as H.
  rewrite Nat2N.inj_succ, N.pow_succ_r'.
  assert (2 ^ N.of_nat (N.size_nat n) <= b ^ N.of_nat (N.size_nat n))
    by (apply N.pow_le_mono_l; assumption).
  nia.
Qed.

Lemma undigits_digits : forall b n, 2 <= b -> undigits b (digits b n) = n.
Proof.
  intros. unfold digits. rewrite digits_aux_spec; auto using fuel_bound.
  simpl. unfold undigits. simpl. lia.
Qed.

Lemma digits_aux_lt : forall b fuel n acc, 2 <= b ->
  Forall (fun d => d < b) acc -> Forall (fun d => d < b) (digits_aux b fuel n acc).
Proof.
  induction fuel; simpl; intros n acc Hb H; [assumption|].
  destruct (N.ltb_spec n b); [constructor; assumption|].
  apply IHfuel; [assumption|]. constructor; [|assumption]. apply N.mod_lt. lia.
Qed.

Lemma digits_lt : forall b n, 2 <= b -> Forall (fun d => d < b) (digits b n).
Proof. intros. apply digits_aux_lt; auto. Qed.

Lemma digits_aux_length : forall b w fuel n acc, 2 <= b ->
  n < b ^ N.of_nat w -> (1 <= w)%nat ->
  (length (digits_aux b fuel n acc) <= w + length acc)%nat.
Proof.
  intros b w fuel. revert w. induction fuel; intros w n acc Hb Hn Hw; simpl; [lia|].
  destruct (N.ltb_spec n b); [simpl; lia|].
  destruct w as [|[|w]].
  - lia.
  - exfalso. change (N.of_nat 1) with 1 in Hn. rewrite N.pow_1_r in Hn. lia.
  - specialize (IHfuel (S w) (n / b) (n mod b :: acc) Hb).
    rewrite Nat2N.inj_succ, N.pow_succ_r' in Hn.
    assert (n / b < b ^ N.of_nat (S w)) by (apply N.div_lt_upper_bound; lia).
    specialize (IHfuel H0 ltac:(lia)). simpl in IHfuel. lia.
Qed.

Lemma digits_length : forall b n w, 2 <= b -> n < b ^ N.of_nat w -> (1 <= w)%nat ->
  (length (digits b n) <= w)%nat.
Proof.
  intros. unfold digits.
  pose proof (digits_aux_length b w (S (N.size_nat n)) n [] H H0 H1) as G.
  change (length (@nil N)) with 0%nat in G. lia.
Qed.

Lemma digits_aux_nonnil : forall b fuel n acc, digits_aux b (S fuel) n acc <> [].
Proof.
  intros b fuel. induction fuel; intros; simpl.
  - destruct (n <? b); discriminate.
  - destruct (n <? b); [discriminate|]. apply IHfuel.
Qed.

Lemma digits_nonnil : forall b n, digits b n <> [].
Proof. intros. apply digits_aux_nonnil. Qed.

(** The most significant digit is not zero, except for zero itself. *)
Lemma digits_aux_head : forall b fuel n acc, 2 <= b -> n < b ^ N.of_nat fuel -> 0 < n ->
  exists d l, digits_aux b fuel n acc = d :: l /\ 0 < d.
Proof.
  induction fuel; intros n acc Hb Hn Hp.
  - simpl in Hn. lia.
  - simpl. destruct (N.ltb_spec n b).
    + exists n, acc. auto.
    + rewrite Nat2N.inj_succ, N.pow_succ_r' in Hn.
      apply IHfuel; auto.
      * apply N.div_lt_upper_bound; lia.
      * apply N.div_str_pos. lia.
Qed.

Lemma digits_head : forall b n, 2 <= b -> 0 < n -> exists d l, digits b n = d :: l /\ 0 < d.
Proof. intros. apply digits_aux_head; auto using fuel_bound. Qed.

Lemma digits_zero : forall b, 2 <= b -> digits b 0 = [0].
Proof. intros. unfold digits. simpl. destruct (N.ltb_spec 0 b); [reflexivity|lia]. Qed.

(** Digit sequences of equal length denote different numbers unless equal. *)
Lemma undigits_inj : forall b l1 l2, 0 < b ->
  Forall (fun d => d < b) l1 -> Forall (fun d => d < b) l2 ->
  length l1 = length l2 -> undigits b l1 = undigits b l2 -> l1 = l2.
Proof.
  induction l1 as [|d l1 IH]; intros [|d' l2] Hb H1 H2 Hl E; try discriminate; [reflexivity|].
  inversion H1; inversion H2; subst. simpl in Hl. injection Hl as Hl.
  rewrite !undigits_cons, Hl in E.
  pose proof (undigits_lt b l1 Hb H4) as B1. pose proof (undigits_lt b l2 Hb H8) as B2.
  rewrite Hl in B1.
  assert (d = d') by nia. subst. f_equal. apply IH; auto. lia.
Qed.

(** Characters. *)
Lemma char_digit_digit_char : forall d, d < 16 -> char_digit (digit_char d) = Some d.
Proof.
  intros d H. unfold digit_char, char_digit.
  destruct (N.ltb_spec d 10).
  - replace ((48 <=? 48 + d) && (48 + d <=? 57)) with true.
    + f_equal. lia.
    + symmetry. apply andb_true_iff. split; apply N.leb_le; lia.
  - replace ((48 <=? 87 + d) && (87 + d <=? 57)) with false.
    + replace ((97 <=? 87 + d) && (87 + d <=? 102)) with true.
      * f_equal. lia.
      * symmetry. apply andb_true_iff. split; apply N.leb_le; lia.
    + symmetry. apply andb_false_iff. right. apply N.leb_gt. lia.
Qed.

Lemma is_digit_spec : forall c, is_digit c = true <-> 48 <= c <= 57.
Proof. intros. unfold is_digit. rewrite andb_true_iff, !N.leb_le. reflexivity. Qed.

Lemma digit_char_dec : forall d, d < 10 -> digit_char d = 48 + d.
Proof. intros. unfold digit_char. destruct (N.ltb_spec d 10); [reflexivity|lia]. Qed.

Lemma map_dec_digits : forall l, Forall (fun d => d < 10) l ->
  map (fun c => c - 48) (map digit_char l) = l.
Proof.
  induction l as [|d l IH]; intros H; [reflexivity|].
  inversion H; subst. simpl. rewrite IH by assumption.
  rewrite digit_char_dec by assumption. f_equal. lia.
Qed.

Definition all_digits (s : pystr) : Prop := Forall (fun c => is_digit c = true) s.

Lemma all_digits_map : forall l, Forall (fun d => d < 10) l -> all_digits (map digit_char l).
Proof.
  induction l as [|d l IH]; intros H; [constructor|].
  inversion H; subst. constructor; [|apply IH; assumption].
  rewrite digit_char_dec by assumption. apply is_digit_spec. lia.
Qed.

Lemma dec_str_digits : forall n, all_digits (dec_str n).
Proof. intros. apply all_digits_map. apply (digits_lt 10). lia. Qed.

Lemma dec_str_nonnil : forall n, dec_str n <> [].
Proof. intros n H. unfold dec_str in H. apply map_eq_nil in H. exact (digits_nonnil _ _ H). Qed.

Lemma dec_val_dec_str : forall n, dec_val (dec_str n) = n.
Proof.
  intros. unfold dec_val, dec_str. rewrite map_dec_digits by (apply (digits_lt 10); lia).
  apply undigits_digits. lia.
Qed.

Lemma dec_val_app : forall s t,
  dec_val (s ++ t) = dec_val s * 10 ^ N.of_nat (length t) + dec_val t.
Proof. intros. unfold dec_val. rewrite map_app, undigits_app, map_length. reflexivity. Qed.

Lemma dec_val_zeros : forall k, dec_val (repeat 48 k) = 0.
Proof.
  intros. unfold dec_val.
  replace (map (fun c => c - 48) (repeat 48 k)) with (repeat 0 k).
  - apply undigits_zeros'.
  - induction k; simpl; congruence.
Qed.

Lemma dec_val_pad_left : forall w s, dec_val (pad_left w s) = dec_val s.
Proof. intros. unfold pad_left. rewrite dec_val_app, dec_val_zeros. lia. Qed.

Lemma dec_val_pad_right : forall w s,
  dec_val (pad_right w s) = dec_val s * 10 ^ N.of_nat (w - length s).
Proof. intros. unfold pad_right. rewrite dec_val_app, dec_val_zeros, repeat_length. lia. Qed.

Lemma dec_val_dec_pad : forall w n, dec_val (dec_pad w n) = n.
Proof. intros. unfold dec_pad. rewrite dec_val_pad_left. apply dec_val_dec_str. Qed.

Lemma all_digits_zeros : forall k, all_digits (repeat 48 k).
Proof. induction k; constructor; auto. Qed.

Lemma all_digits_app : forall a b, all_digits a -> all_digits b -> all_digits (a ++ b).
Proof. intros. apply Forall_app. auto. Qed.

Lemma dec_pad_digits : forall w n, all_digits (dec_pad w n).
Proof. intros. apply all_digits_app; auto using all_digits_zeros, dec_str_digits. Qed.

Lemma dec_str_length : forall n w, n < 10 ^ N.of_nat w -> (1 <= w)%nat -> (length (dec_str n) <= w)%nat.
Proof. intros. unfold dec_str. rewrite map_length. apply digits_length; auto. lia. Qed.

Lemma dec_pad_length : forall n w, n < 10 ^ N.of_nat w -> (1 <= w)%nat -> length (dec_pad w n) = w.
Proof.
  intros. unfold dec_pad, pad_left. rewrite app_length, repeat_length.
  pose proof (dec_str_length n w H H0). lia.
Qed.

Lemma span_digits_app : forall ds r, all_digits ds ->
  (forall c r', r = c :: r' -> is_digit c = false) ->
  span_digits (ds ++ r) = (ds, r).
Proof.
  induction ds as [|d ds IH]; intros r H Hr; simpl.
  - destruct r as [|c r']; [reflexivity|]. simpl. rewrite (Hr c r' eq_refl). reflexivity.
  - inversion H; subst. rewrite H2. rewrite IH by assumption. reflexivity.
Qed.

Lemma span_digits_spec : forall s a b, span_digits s = (a, b) ->
  s = a ++ b /\ all_digits a /\ (forall c r, b = c :: r -> is_digit c = false).
Proof.
  induction s as [|c s IH]; intros a b H; simpl in H.
  - injection H as <- <-. repeat split; [constructor|discriminate].
  - destruct (is_digit c) eqn:E.
    + destruct (span_digits s) as [a' b'] eqn:E'. injection H as <- <-.
      destruct (IH a' b' eq_refl) as (-> & Ha & Hb). repeat split; auto.
      constructor; assumption.
    + injection H as <- <-. repeat split; [constructor|]. intros c' r' Heq. congruence.
Qed.

Lemma int_str_nonneg : forall z, (0 <= z)%Z -> int_str z = dec_str (Z.to_N z).
Proof. intros [|p|p] H; try reflexivity. lia. Qed.

(** Hexadecimal strings. *)
Lemma hex_str_chars : forall n, Forall (fun c => exists d, d < 16 /\ c = digit_char d) (hex_str n).
Proof.
  intros. unfold hex_str. apply Forall_forall. intros c Hc. apply in_map_iff in Hc.
  destruct Hc as [d [<- Hd]]. exists d. split; [|reflexivity].
  pose proof (digits_lt 16 n ltac:(lia)) as H. rewrite Forall_forall in H. auto.
Qed.

Lemma hex_str_length : forall n w, n < 16 ^ N.of_nat w -> (1 <= w)%nat -> (length (hex_str n) <= w)%nat.
Proof. intros. unfold hex_str. rewrite map_length. apply digits_length; auto. lia. Qed.

Lemma hex_pad_length : forall n w, n < 16 ^ N.of_nat w -> (1 <= w)%nat -> length (hex_pad w n) = w.
Proof.
  intros. unfold hex_pad, pad_left. rewrite app_length, repeat_length.
  pose proof (hex_str_length n w H H0). lia.
Qed.
