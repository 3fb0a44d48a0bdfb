From Coq Require Import String List NArith ZArith Bool Lia ZifyBool ZifyN ZifyNat.
From Verif Require Import Base Digits DigitsProofs PyStr.
Import ListNotations.
Open Scope list_scope.
Open Scope N_scope.
Ltac Zify.zify_post_hook ::= Z.div_mod_to_equations.

Lemma starts_with_in : forall p s c, starts_with p s = true -> In c p -> In c s.
Proof.
  induction p as [|x p IH]; intros s c H I; [destruct I|]. destruct s as [|y s]; [discriminate|].
  cbn [starts_with] in H. apply andb_true_iff in H. destruct H as [E H]. apply N.eqb_eq in E. subst.
  destruct I as [->|I]; [left; reflexivity|right; eauto].
Qed.

Lemma remove_pat_id : forall pat c s, In c pat -> ~ In c s -> remove_pat pat s 0 = s.
Proof.
  induction s as [|x s IH]; intros I N; [reflexivity|]. cbn [remove_pat].
  destruct (starts_with pat (x :: s)) eqn:E.
  - exfalso. apply N. eapply starts_with_in; eauto.
  - f_equal. apply IH; [assumption|]. intros G. apply N. right. assumption.
Qed.

Lemma lstrip_id : forall f s, Forall (fun c => f c = false) s -> lstrip f s = s.
Proof. intros f s H. destruct H; [reflexivity|]. cbn [lstrip]. rewrite H. reflexivity. Qed.

Lemma strip_id : forall f s, Forall (fun c => f c = false) s -> strip f s = s.
Proof.
  intros f s H. unfold strip, rstrip. rewrite (lstrip_id f s H).
  rewrite lstrip_id by (apply Forall_rev; assumption). apply rev_involutive.
Qed.

Lemma split_on_nonnil : forall c s, split_on c s <> [].
Proof.
  induction s as [|d s IH]; cbn [split_on]; [discriminate|].
  destruct (d =? c); [discriminate|]. destruct (split_on c s); discriminate.
Qed.

Lemma split_on_app : forall c p r, ~ In c p ->
  split_on c (p ++ c :: r) = p :: split_on c r.
Proof.
  induction p as [|x p IH]; intros r H; cbn [app split_on].
  - rewrite N.eqb_refl. reflexivity.
  - destruct (N.eqb_spec x c); [subst; exfalso; apply H; left; reflexivity|].
    rewrite IH; [reflexivity|]. intros G. apply H. right. assumption.
Qed.

Lemma split_on_none : forall c p, ~ In c p -> split_on c p = [p].
Proof.
  induction p as [|x p IH]; intros H; cbn [split_on]; [reflexivity|].
  destruct (N.eqb_spec x c); [subst; exfalso; apply H; left; reflexivity|].
  rewrite IH; [reflexivity|]. intros G. apply H. right. assumption.
Qed.

Lemma split_on_join : forall c parts, parts <> [] -> Forall (fun p => ~ In c p) parts ->
  split_on c (join [c] parts) = parts.
Proof.
  induction parts as [|p ps IH]; intros N H; [congruence|]. inversion H; subst.
  destruct ps as [|q ps].
  - cbn [join]. apply split_on_none. assumption.
  - change (join [c] (p :: q :: ps)) with (p ++ c :: join [c] (q :: ps)).
    rewrite split_on_app by assumption. rewrite IH; [reflexivity|discriminate|assumption].
Qed.

Lemma join_split : forall c s, join [c] (split_on c s) = s.
Proof.
  induction s as [|d s IH]; [reflexivity|]. cbn [split_on].
  pose proof (split_on_nonnil c s) as N.
  destruct (N.eqb_spec d c).
  - subst. destruct (split_on c s) as [|p ps] eqn:E; [congruence|].
    change (join [c] ([] :: p :: ps)) with (c :: join [c] (p :: ps)). rewrite IH. reflexivity.
  - destruct (split_on c s) as [|p ps] eqn:E; [congruence|].
    destruct ps as [|q ps]; cbn [join] in *; [congruence|]. rewrite <- app_comm_cons. congruence.
Qed.

Lemma split_on_no_sep : forall c s, Forall (fun p => ~ In c p) (split_on c s).
Proof.
  induction s as [|d s IH]; cbn [split_on]; [repeat constructor; auto|].
  destruct (N.eqb_spec d c); [constructor; auto|].
  destruct (split_on c s) as [|p ps]; [repeat constructor; intros [|[]]; auto|].
  inversion IH; subst. constructor; [|assumption]. intros [G|G]; auto.
Qed.

Lemma mem_char_in : forall c s, mem_char c s = true <-> In c s.
Proof.
  intros. unfold mem_char. rewrite existsb_exists. split.
  - intros [x [H E]]. apply N.eqb_eq in E. subst. assumption.
  - intros H. exists c. split; [assumption|apply N.eqb_refl].
Qed.

Lemma mem_char_not_in : forall c s, mem_char c s = false <-> ~ In c s.
Proof.
  intros. rewrite <- mem_char_in. destruct (mem_char c s); split; congruence.
Qed.

Lemma partition_none : forall c s, ~ In c s -> partition c s = (s, None).
Proof.
  induction s as [|d s IH]; intros H; [reflexivity|]. cbn [partition].
  destruct (N.eqb_spec d c); [subst; exfalso; apply H; left; reflexivity|].
  rewrite IH; [reflexivity|]. intros G. apply H. right. assumption.
Qed.

Lemma partition_some : forall c a r, ~ In c a -> partition c (a ++ c :: r) = (a, Some r).
Proof.
  induction a as [|d a IH]; intros r H; cbn [app partition].
  - rewrite N.eqb_refl. reflexivity.
  - destruct (N.eqb_spec d c); [subst; exfalso; apply H; left; reflexivity|].
    rewrite IH; [reflexivity|]. intros G. apply H. right. assumption.
Qed.

(** ** Hexadecimal numerals *)
Definition hex_char (c : N) : Prop := exists d, d < 16 /\ c = digit_char d.
Definition hex_value (c : N) : N := match char_digit c with Some d => d | None => 0 end.

Lemma hex_char_facts : forall c, hex_char c ->
  (exists d, char_digit c = Some d /\ d < 16) /\ to_ascii_char c = c /\ is_space_ascii c = false /\
  48 <= c <= 102 /\ (c <= 57 \/ 97 <= c).
Proof.
  intros c [d [Hd ->]].
  assert (B : 48 <= digit_char d <= 102 /\ (digit_char d <= 57 \/ 97 <= digit_char d)).
  { unfold digit_char. destruct (N.ltb_spec d 10); lia. }
  repeat split; try lia.
  - exists d. rewrite char_digit_digit_char by assumption. auto.
  - unfold to_ascii_char. destruct (N.ltb_spec (digit_char d) 127); [reflexivity|lia].
  - unfold is_space_ascii. lia.
Qed.

Lemma hex_pad_chars : forall w n, Forall hex_char (hex_pad w n).
Proof.
  intros. unfold hex_pad, pad_left. apply Forall_app. split.
  - apply Forall_forall. intros c Hc. apply repeat_spec in Hc. subst. exists 0. split; [lia|reflexivity].
  - apply hex_str_chars.
Qed.

Lemma hex_values_map : forall l, Forall (fun d => d < 16) l -> map hex_value (map digit_char l) = l.
Proof.
  induction l as [|d l IH]; intros H; [reflexivity|]. inversion H; subst. cbn [map].
  rewrite IH by assumption. unfold hex_value. rewrite char_digit_digit_char by assumption. reflexivity.
Qed.

Lemma hex_str_value : forall n, undigits 16 (map hex_value (hex_str n)) = n.
Proof.
  intros. unfold hex_str. rewrite hex_values_map by (apply digits_lt; lia). apply undigits_digits. lia.
Qed.

Lemma hex_pad_value : forall w n, undigits 16 (map hex_value (hex_pad w n)) = n.
Proof.
  intros. unfold hex_pad, pad_left. rewrite map_app, undigits_app, hex_str_value.
  replace (map hex_value (repeat 48 (w - length (hex_str n)))) with (repeat 0 (w - length (hex_str n))).
  - rewrite undigits_zeros'. lia.
  - induction (w - length (hex_str n))%nat; [reflexivity|]. cbn [repeat map]. rewrite IHn0. reflexivity.
Qed.

Lemma scan_hex_chars : forall s u acc, Forall hex_char s ->
  s <> [] -> scan_hex s u acc = Some (acc * 16 ^ N.of_nat (length s) + undigits 16 (map hex_value s), []).
Proof.
  induction s as [|c s IH]; intros u acc H N; [congruence|]. inversion H; subst.
  destruct (hex_char_facts c H2) as ((d & Ed & Hd) & _ & _ & B & B2).
  cbn [scan_hex]. destruct (N.eqb_spec c 95); [lia|]. rewrite Ed.
  assert (Ev : hex_value c = d) by (unfold hex_value; rewrite Ed; reflexivity).
  cbn [map length]. rewrite undigits_cons, map_length, Ev, Nat2N.inj_succ, N.pow_succ_r'.
  destruct s as [|c' s].
  - cbn [scan_hex map length]. do 2 f_equal. change (undigits 16 []) with 0. change (16 ^ N.of_nat 0) with 1. lia.
  - rewrite IH by (assumption || discriminate). do 2 f_equal. ring.
Qed.

Lemma int_base16_hex : forall s, Forall hex_char s -> s <> [] ->
  int_base16 s = Ok (Z.of_N (undigits 16 (map hex_value s))).
Proof.
  intros s H N. unfold int_base16.
  assert (E : map to_ascii_char s = s).
  { clear N. induction H; [reflexivity|]. cbn [map]. rewrite IHForall. 
    destruct (hex_char_facts x H) as (_ & -> & _). reflexivity. }
  rewrite E, lstrip_id.
  2:{ eapply Forall_impl; [|exact H]. intros c Hc. apply hex_char_facts in Hc. apply Hc. }
  destruct s as [|c s]; [congruence|].
  assert (Hc : hex_char c) by (inversion H; assumption). destruct (hex_char_facts c Hc) as ((d & Ed & Hd) & _ & _ & B & _).
  destruct (N.eqb_spec c 43); [lia|]. destruct (N.eqb_spec c 45); [lia|].
  assert (P : drop_0x (c :: s) = c :: s).
  { unfold drop_0x. destruct s as [|x s]; [reflexivity|]. inversion H; subst. inversion H3; subst.
    destruct (hex_char_facts x H4) as (_ & _ & _ & B' & B'').
    replace ((x =? 120) || (x =? 88)) with false by lia. rewrite andb_false_r. reflexivity. }
  rewrite P. rewrite Ed. rewrite scan_hex_chars by (assumption || discriminate). cbn [forallb].
  do 2 f_equal.
Qed.
