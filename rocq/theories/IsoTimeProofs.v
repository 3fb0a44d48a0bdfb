From Coq Require Import String List NArith ZArith Bool Lia ZifyBool ZifyN ZifyNat.
From Verif Require Import Base Digits DigitsProofs IsoTime SpecIsoTime.
Import ListNotations.
Open Scope list_scope.
Open Scope N_scope.
Ltac Zify.zify_post_hook ::= Z.div_mod_to_equations.

(** ** Reading digits *)
Lemma parse_digits_app : forall ds acc r, all_digits ds ->
  parse_digits (length ds) acc (ds ++ r) = Ok (acc * 10 ^ N.of_nat (length ds) + dec_val ds, r).
Proof.
  induction ds as [|c ds IH]; intros acc r H; cbn [length app parse_digits].
  - change (dec_val []) with 0. change (10 ^ N.of_nat 0) with 1. do 2 f_equal. lia.
  - inversion H; subst. rewrite H2, IH by assumption. do 2 f_equal.
    change (c :: ds) with ([c] ++ ds). rewrite dec_val_app, Nat2N.inj_succ, N.pow_succ_r'.
    change (dec_val [c]) with (0 * 10 + (c - 48)). lia.
Qed.

Lemma parse_digits_pad : forall n v r, (1 <= n)%nat -> v < 10 ^ N.of_nat n ->
  parse_digits n 0 (dec_pad n v ++ r) = Ok (v, r).
Proof.
  intros n v r Hn Hv. rewrite <- (dec_pad_length v n Hv Hn) at 1.
  rewrite parse_digits_app by apply dec_pad_digits. rewrite dec_val_dec_pad. reflexivity.
Qed.

Lemma parse_digits_2 : forall v r, v < 100 -> parse_digits 2 0 (dec_pad 2 v ++ r) = Ok (v, r).
Proof. intros. apply parse_digits_pad; [lia|]. assumption. Qed.
Lemma parse_digits_6 : forall v r, v < 1000000 -> parse_digits 6 0 (dec_pad 6 v ++ r) = Ok (v, r).
Proof. intros. apply parse_digits_pad; [lia|]. assumption. Qed.
Lemma parse_digits_4 : forall v r, v < 10000 -> parse_digits 4 0 (dec_pad 4 v ++ r) = Ok (v, r).
Proof. intros. apply parse_digits_pad; [lia|]. assumption. Qed.

Lemma dec_pad_2_length : forall v, v < 100 -> length (dec_pad 2 v) = 2%nat.
Proof. intros. apply dec_pad_length; [assumption|lia]. Qed.
Lemma dec_pad_6_length : forall v, v < 1000000 -> length (dec_pad 6 v) = 6%nat.
Proof. intros. apply dec_pad_length; [assumption|lia]. Qed.
Lemma dec_pad_4_length : forall v, v < 10000 -> length (dec_pad 4 v) = 4%nat.
Proof. intros. apply dec_pad_length; [assumption|lia]. Qed.

(** ** ASCII texts *)
Definition ascii (s : pystr) : Prop := Forall (fun c => c < 128) s.

Lemma utf8_ascii : forall s, ascii s -> utf8 s = Ok s.
Proof.
  intros s H. unfold utf8. 
  assert (E : existsb is_surrogate s = false).
  { induction H; [reflexivity|]. cbn [existsb]. rewrite IHForall. unfold is_surrogate. lia. }
  rewrite E. f_equal. clear E. induction H; [reflexivity|].
  cbn [flat_map]. rewrite IHForall. unfold utf8_char. destruct (N.ltb_spec x 128); [reflexivity|lia].
Qed.

Lemma digits_ascii : forall s, all_digits s -> ascii s.
Proof.
  intros s H. eapply Forall_impl; [|exact H]. cbv beta. intros c Hc. apply is_digit_spec in Hc. lia.
Qed.
Lemma dec_pad_ascii : forall w n, ascii (dec_pad w n).
Proof. intros. apply digits_ascii, dec_pad_digits. Qed.
Lemma ascii_app : forall a b, ascii a -> ascii b -> ascii (a ++ b).
Proof. intros. apply Forall_app. auto. Qed.
Lemma ascii_str1 : forall s, forallb (fun c => c <? 128) (str s) = true -> ascii (str s).
Proof.
  intros. apply Forall_forall. intros c Hc. rewrite forallb_forall in H. specialize (H c Hc). lia.
Qed.

Ltac asc := repeat first [apply dec_pad_ascii | apply ascii_str1; reflexivity | apply ascii_app].

Lemma ascii_offset : forall o, ascii (offset_isoformat o).
Proof.
  intros [z|]; cbn [offset_isoformat]; [|constructor]. cbv zeta.
  asc.
  - destruct (z <? 0)%Z; apply ascii_str1; reflexivity.
  - destruct (_ && _); [constructor|]. 
    asc.
    destruct (_ =? 0); [constructor|].
    asc.
Qed.

Lemma ascii_time : forall t, ascii (time_isoformat t).
Proof.
  intros. unfold time_isoformat.
  asc;
    try apply ascii_offset.
  destruct (_ =? 0); [constructor|].
  asc.
Qed.

Lemma ascii_date : forall d, ascii (date_isoformat d).
Proof.
  intros. unfold date_isoformat.
  asc.
Qed.

(** ** Calendar *)
Lemma leap_spec : forall y, is_leap y = true <-> leap y.
Proof.
  intros y. unfold is_leap, leap.
  assert (D : forall k, k <> 0 -> (y mod k =? 0) = true <-> N.divide k y).
  { intros k Hk. rewrite N.eqb_eq. apply N.mod_divide. assumption. }
  rewrite andb_true_iff, orb_true_iff, negb_true_iff, (D 4), (D 400) by lia.
  rewrite <- (D 100) by lia. rewrite not_true_iff_false. reflexivity.
Qed.

Lemma days_in_month_spec : forall y m, 1 <= m <= 12 -> month_length y m (days_in_month y m).
Proof.
  intros y m H. unfold month_length, days_in_month.
  destruct (m =? 2) eqn:E2.
  - right; right. destruct (is_leap y) eqn:L; [left|right]; (split; [lia|split; [|lia]]).
    + apply leap_spec. assumption.
    + intros G. apply leap_spec in G. congruence.
  - destruct (_ || _) eqn:E; [right; left|left]; split; try reflexivity; cbn [In]; lia.
Qed.

Lemma month_length_fun : forall y m n, month_length y m n -> 1 <= m <= 12 /\ days_in_month y m = n.
Proof.
  intros y m n H. unfold month_length, days_in_month in *. cbn [In] in H.
  destruct H as [[H ->]|[[H ->]|[[-> [L ->]]|[-> [L ->]]]]].
  - split; [lia|]. destruct (m =? 2) eqn:E; [lia|]. destruct (_ || _) eqn:E'; lia.
  - split; [lia|]. destruct (m =? 2) eqn:E; [lia|]. destruct (_ || _) eqn:E'; lia.
  - split; [lia|]. apply leap_spec in L. rewrite L. reflexivity.
  - split; [lia|]. destruct (is_leap y) eqn:E; [|reflexivity]. apply leap_spec in E. contradiction.
Qed.

Lemma date_new_wf : forall d, date_wf d -> date_new (d_year d) (d_month d) (d_day d) = Ok d.
Proof.
  intros [y m d] [H [n [M D]]]. cbn [d_year d_month d_day] in *. apply month_length_fun in M.
  destruct M as [M E]. unfold date_new. rewrite E.
  replace ((1 <=? y) && (y <=? 9999) && (1 <=? m) && (m <=? 12) && (1 <=? d) && (d <=? n)) with true by lia.
  reflexivity.
Qed.

Lemma date_new_ok : forall y m d x, date_new y m d = Ok x -> date_wf x /\ x = mkDate y m d.
Proof.
  intros y m d x H. unfold date_new in H.
  destruct ((1 <=? y) && (y <=? 9999) && (1 <=? m) && (m <=? 12) && (1 <=? d) && (d <=? days_in_month y m)) eqn:E;
    [|discriminate]. injection H as <-. split; [|reflexivity]. 
  unfold date_wf. cbn [d_year d_month d_day].
  split; [lia|]. exists (days_in_month y m). split; [apply days_in_month_spec; lia|lia].
Qed.

Lemma days_in_month_le : forall y m, days_in_month y m <= 31.
Proof.
  intros. unfold days_in_month. destruct (m =? 2); [destruct (is_leap y); lia|].
  destruct (_ || _); lia.
Qed.

Lemma date_wf_bounds : forall d, date_wf d -> d_year d < 10000 /\ d_month d < 100 /\ d_day d < 100.
Proof.
  intros [y m d] [H [n [M D]]]. cbn [d_year d_month d_day] in *. apply month_length_fun in M.
  destruct M as [M E]. pose proof (days_in_month_le y m). repeat split; lia.
Qed.

(** ** Dates *)
Lemma parse_date_iso : forall y m d r len, y < 10000 -> m < 100 -> d < 100 ->
  parse_date_part (date_isoformat (mkDate y m d) ++ r) len = Ok (y, m, d).
Proof.
  intros y m d r len Hy Hm Hd. unfold parse_date_part, date_isoformat. cbn [d_year d_month d_day].
  rewrite <- !app_assoc. rewrite parse_digits_4 by assumption. cbn [bind].
  change (str "-") with [45]. cbn [app peek hd tl]. change (45 =? 45) with true. cbv iota.
  assert (P : exists c l, dec_pad 2 m ++ 45 :: dec_pad 2 d ++ r = c :: l /\ c <> 87).
  { pose proof (dec_pad_2_length m Hm). pose proof (dec_pad_digits 2 m) as D.
    destruct (dec_pad 2 m) as [|c l]; [discriminate|]. inversion D; subst. 
    eexists _, _. split; [reflexivity|]. apply is_digit_spec in H2. lia. }
  destruct P as (c & l & E & Ec). unfold peek at 1. rewrite E. cbn [hd].
  rewrite <- E. destruct (N.eqb_spec c 87); [contradiction|].
  rewrite parse_digits_2 by assumption. cbn [bind peek hd tl app]. change (45 =? 45) with true. cbv iota.
  cbn [bind]. rewrite parse_digits_2 by assumption. reflexivity.
Qed.

Lemma date_isoformat_length : forall d, date_wf d -> length (date_isoformat d) = 10%nat.
Proof.
  intros d H. apply date_wf_bounds in H. unfold date_isoformat. rewrite !app_length.
  rewrite dec_pad_4_length, !dec_pad_2_length by lia. reflexivity.
Qed.

Lemma date_roundtrip : forall d, date_wf d -> date_parse (date_generate d) = Ok d.
Proof.
  intros d H. unfold date_parse, date_fromisoformat, date_generate.
  rewrite utf8_ascii by apply ascii_date. cbn [bind].
  rewrite (date_isoformat_length d H). cbn -[date_isoformat parse_date_part date_new].
  pose proof (date_wf_bounds d H) as (? & ? & ?).
  replace (date_isoformat d) with (date_isoformat (mkDate (d_year d) (d_month d) (d_day d)) ++ [])
    by (rewrite app_nil_r; destruct d; reflexivity).
  rewrite parse_date_iso by assumption. cbn [bind]. apply date_new_wf. assumption.
Qed.

(** ** Times *)
Lemma hms_step : forall n first sep vals v r k, v < 100 ->
  hms_loop (S n) first sep vals (dec_pad 2 v ++ r) k =
  let c := peek r in
  let sep := if first then c =? 58 else sep in
  if (k - 3 <=? 0)%Z then Ok (HmsDone (vals ++ [v]) (negb (c =? 0)))
  else if sep && (c =? 58) then hms_loop n false sep (vals ++ [v]) (tl r) (k - 3)
  else if (c =? 46) || (c =? 44) then Ok (HmsFrac (vals ++ [v]) (tl r) (k - 3))
  else if negb sep then hms_loop n false sep (vals ++ [v]) r (k - 2)
  else Err EValue.
Proof. intros. cbn [hms_loop]. rewrite parse_digits_2 by assumption. reflexivity. Qed.

Definition frac (us : N) : pystr := if us =? 0 then [] else str "." ++ dec_pad 6 us.

Lemma hms_full : forall h m s us r, h < 100 -> m < 100 -> s < 100 -> us < 1000000 ->
  (forall c l, r = c :: l -> is_digit c = false) ->
  parse_hms (dec_pad 2 h ++ str ":" ++ dec_pad 2 m ++ str ":" ++ dec_pad 2 s ++ frac us ++ r)
    (Z.of_nat (length (dec_pad 2 h ++ str ":" ++ dec_pad 2 m ++ str ":" ++ dec_pad 2 s ++ frac us)))
  = Ok (h, m, s, us, negb (peek r =? 0)).
Proof.
  intros h m s us r Hh Hm Hs Hus Hr. unfold parse_hms.
  rewrite !app_length, !dec_pad_2_length by assumption. change (length (str ":")) with 1%nat.
  change (str ":") with [58]. cbn [app].
  rewrite hms_step by assumption. cbv zeta. cbn [peek hd tl]. change (58 =? 58) with true. cbn [andb].
  destruct (Z.leb_spec (Z.of_nat (2 + (1 + (2 + (1 + (2 + length (frac us)))))) - 3) 0); [lia|].
  rewrite hms_step by assumption. cbv zeta. cbn [peek hd tl]. change (58 =? 58) with true. cbn [andb].
  destruct (Z.leb_spec (Z.of_nat (2 + (1 + (2 + (1 + (2 + length (frac us)))))) - 3 - 3) 0); [lia|].
  rewrite hms_step by assumption. cbv zeta. unfold frac. destruct (N.eqb_spec us 0) as [->|Hu].
  - cbn [app length]. change (Z.of_nat (2 + (1 + (2 + (1 + (2 + 0))))) - 3 - 3 - 3 <=? 0)%Z with true.
    cbn [bind]. reflexivity.
  - change (str ".") with [46]. cbn [app length]. rewrite dec_pad_6_length by assumption.
    cbn [peek hd tl]. 
    change (Z.of_nat (2 + (1 + (2 + (1 + (2 + 7))))) - 3 - 3 - 3 <=? 0)%Z with false. 
    change (46 =? 58) with false. change (46 =? 46) with true. cbn [andb orb bind].
    change (Z.to_nat (Z.min (Z.of_nat (2 + (1 + (2 + (1 + (2 + 7))))) - 3 - 3 - 3) 6)) with 6%nat.
    rewrite parse_digits_6 by assumption. cbn [bind].
    change (10 ^ N.of_nat (6 - 6)) with 1. rewrite N.mul_1_r.
    replace (skip_digits r) with r; [reflexivity|].
    destruct r as [|c l]; [reflexivity|]. cbn [skip_digits]. rewrite (Hr _ _ eq_refl). reflexivity.
Qed.

Lemma hms_minutes : forall h m, h < 100 -> m < 100 ->
  parse_hms (dec_pad 2 h ++ str ":" ++ dec_pad 2 m)
    (Z.of_nat (length (dec_pad 2 h ++ str ":" ++ dec_pad 2 m))) = Ok (h, m, 0, 0, false).
Proof.
  intros h m Hh Hm. unfold parse_hms.
  rewrite !app_length, !dec_pad_2_length by assumption. 
  change (str ":") with [58]. cbn [app length].
  rewrite hms_step by assumption. cbv zeta. cbn [peek hd tl]. change (58 =? 58) with true. cbn [andb].
  change (Z.of_nat (2 + (1 + 2)) - 3 <=? 0)%Z with false.
  rewrite <- (app_nil_r (dec_pad 2 m)).
  rewrite hms_step by assumption. cbv zeta. cbn [peek hd tl].
  change (Z.of_nat (2 + (1 + 2)) - 3 - 3 <=? 0)%Z with true. cbn [bind]. reflexivity.
Qed.

Definition no_tz (c : N) : bool := negb ((c =? 43) || (c =? 45) || (c =? 90)).

Lemma split_tz_app : forall a r, Forall (fun c => no_tz c = true) a ->
  (forall c l, r = c :: l -> no_tz c = false) -> split_tz (a ++ r) = (a, r).
Proof.
  induction a as [|c a IH]; intros r H Hr.
  - cbn [app]. destruct r as [|c l]; [reflexivity|]. cbn [split_tz]. specialize (Hr _ _ eq_refl).
    unfold no_tz in Hr. apply negb_false_iff in Hr. rewrite Hr. reflexivity.
  - inversion H; subst. cbn [app split_tz]. rewrite IH by assumption.
    unfold no_tz in H2. apply negb_true_iff in H2. rewrite H2. reflexivity.
Qed.

Lemma digits_no_tz : forall s, all_digits s -> Forall (fun c => no_tz c = true) s.
Proof.
  intros s H. eapply Forall_impl; [|exact H]. cbv beta. intros c Hc. apply is_digit_spec in Hc.
  unfold no_tz. lia.
Qed.

Lemma hms_no_tz : forall h m s us, Forall (fun c => no_tz c = true)
  (dec_pad 2 h ++ str ":" ++ dec_pad 2 m ++ str ":" ++ dec_pad 2 s ++ frac us).
Proof.
  intros. repeat first [apply digits_no_tz, dec_pad_digits | apply Forall_app; split];
    try (repeat constructor; fail).
  unfold frac. destruct (us =? 0); [constructor|].
  apply Forall_app; split; [repeat constructor|apply digits_no_tz, dec_pad_digits].
Qed.

(** What parsing does to an offset. *)
Definition offset_seen (o : option Z) : option Z :=
  match o with
  | Some z => if (Z.abs z <? 1000000)%Z then Some 0%Z else Some z
  | None => None
  end.

Lemma offset_head : forall z, exists c r, offset_isoformat (Some z) = c :: r /\ no_tz c = false /\
  is_digit c = false /\ (c =? 90) = false /\ (c =? 45) = (z <? 0)%Z /\ c <> 0 /\
  parse_hms r (Z.of_nat (length r)) = parse_hms r (Z.of_nat (length r)).
Proof.
  intros z. cbn [offset_isoformat]. cbv zeta. destruct (z <? 0)%Z; cbn [app str];
    eexists _, _; (split; [reflexivity|]); repeat split; try reflexivity; discriminate.
Qed.

Lemma offset_parse : forall z, (Z.abs z < 24 * 3600 * 1000000)%Z ->
  exists c r, offset_isoformat (Some z) = c :: r /\ no_tz c = false /\
  is_digit c = false /\ (c =? 90) = false /\ (c =? 45) = (z <? 0)%Z /\ c <> 0 /\
  let a := Z.to_N (Z.abs z) in
  parse_hms r (Z.of_nat (length r)) =
    Ok (a / 1000000 / 3600, a / 1000000 / 60 mod 60, a / 1000000 mod 60, a mod 1000000, false).
Proof.
  intros z Hz. cbn [offset_isoformat]. cbv zeta. set (a := Z.to_N (Z.abs z)).
  assert (Ha : a < 86400000000) by lia.
  set (t := dec_pad 2 (a / 1000000 / 3600) ++ str ":" ++ dec_pad 2 (a / 1000000 / 60 mod 60) ++
     (if (a / 1000000 mod 60 =? 0) && (a mod 1000000 =? 0) then []
      else str ":" ++ dec_pad 2 (a / 1000000 mod 60) ++
           (if a mod 1000000 =? 0 then [] else str "." ++ dec_pad 6 (a mod 1000000)))).
  assert (P : parse_hms t (Z.of_nat (length t)) =
    Ok (a / 1000000 / 3600, a / 1000000 / 60 mod 60, a / 1000000 mod 60, a mod 1000000, false)).
  { unfold t. destruct ((a / 1000000 mod 60 =? 0) && (a mod 1000000 =? 0)) eqn:E.
    - apply andb_true_iff in E. destruct E as [E1 E2]. apply N.eqb_eq in E1, E2. rewrite E1, E2.
      rewrite !app_nil_r. apply hms_minutes; lia.
    - pose proof (hms_full (a / 1000000 / 3600) (a / 1000000 / 60 mod 60) (a / 1000000 mod 60) (a mod 1000000) []) as G.
      rewrite !app_nil_r in G. unfold frac in G. apply G; try lia; discriminate. }
  destruct (z <? 0)%Z; cbn [app str map list_ascii_of_string]; eexists _, t;
    (split; [reflexivity|]); repeat split; try reflexivity; try discriminate; exact P.
Qed.

Lemma time_part_iso : forall t, time_wf t ->
  parse_time_part (time_isoformat t) =
    Ok (t_hour t, t_min t, t_sec t, t_us t, offset_seen (t_off t)).
Proof.
  intros [h m s us o] (Hh & Hm & Hs & Hus & Ho). cbn [t_hour t_min t_sec t_us t_off] in *.
  unfold parse_time_part.
  set (pre := dec_pad 2 h ++ str ":" ++ dec_pad 2 m ++ str ":" ++ dec_pad 2 s ++ frac us).
  assert (Eq : dec_pad 2 h ++ str ":" ++ dec_pad 2 m ++ str ":" ++ dec_pad 2 s ++ frac us ++ offset_isoformat o
               = pre ++ offset_isoformat o) by (unfold pre; rewrite <- !app_assoc; reflexivity).
  change (time_isoformat (mkTime h m s us o)) with
    (dec_pad 2 h ++ str ":" ++ dec_pad 2 m ++ str ":" ++ dec_pad 2 s ++ frac us ++ offset_isoformat o).
  rewrite Eq.
  assert (T : forall c l, offset_isoformat o = c :: l -> no_tz c = false /\ is_digit c = false /\ c <> 0).
  { intros c l E. destruct o as [z|]; [|discriminate].
    destruct (offset_parse z Ho) as (c' & r' & E' & ? & ? & ? & ? & ? & _). rewrite E in E'.
    injection E' as -> ->. auto. }
  rewrite split_tz_app; [|apply hms_no_tz|intros c l E; apply (T c l E)].
  assert (Eh := hms_full h m s us (offset_isoformat o) ltac:(lia) ltac:(lia) ltac:(lia) Hus
                  (fun c l E => proj1 (proj2 (T c l E)))).
  rewrite Eq in Eh. fold pre in Eh. rewrite Eh. cbn [bind].
  destruct o as [z|]; [|reflexivity].
  destruct (offset_parse z Ho) as (c & r & E & _ & _ & E90 & E45 & _ & P). cbv zeta in P.
  rewrite E, E90, P. cbn [bind offset_seen]. rewrite E45. cbn [offset_wf] in Ho.
  set (a := Z.to_N (Z.abs z)) in *.
  replace (a / 1000000 / 3600 * 3600 + a / 1000000 / 60 mod 60 * 60 + a / 1000000 mod 60) with (a / 1000000) by lia.
  destruct (Z.ltb_spec (Z.abs z) 1000000).
  - destruct (N.eqb_spec (a / 1000000) 0); [reflexivity|lia].
  - destruct (N.eqb_spec (a / 1000000) 0); [lia|].
    destruct (N.leb_spec 86400 (a / 1000000)); [lia|].
    do 3 f_equal. destruct (Z.ltb_spec z 0); lia.
Qed.

Lemma time_new_wf : forall t o, time_wf t -> time_new (t_hour t) (t_min t) (t_sec t) (t_us t) o =
  Ok (mkTime (t_hour t) (t_min t) (t_sec t) (t_us t) o).
Proof.
  intros t o (Hh & Hm & Hs & Hus & _). unfold time_new.
  replace ((t_hour t <? 24) && (t_min t <? 60) && (t_sec t <? 60) && (t_us t <? 1000000)) with true by lia.
  reflexivity.
Qed.

Definition time_seen (t : time) : time :=
  mkTime (t_hour t) (t_min t) (t_sec t) (t_us t) (offset_seen (t_off t)).

Lemma time_head : forall t, time_wf t -> exists c l, time_isoformat t = c :: l /\ is_digit c = true.
Proof.
  intros [h m s us o] (Hh & _). cbn [t_hour] in Hh. unfold time_isoformat. cbn [t_hour].
  pose proof (dec_pad_2_length h ltac:(lia)). pose proof (dec_pad_digits 2 h) as D.
  destruct (dec_pad 2 h) as [|c l]; [discriminate|]. inversion D; subst. eexists _, _. split; [reflexivity|assumption].
Qed.

Lemma time_general : forall t, time_wf t -> time_parse (time_generate t) = Ok (time_seen t).
Proof.
  intros t H. unfold time_parse, time_generate, time_fromisoformat.
  rewrite utf8_ascii by apply ascii_time. cbn [bind].
  destruct (time_head t H) as (c & l & E & D).
  replace (peek (time_isoformat t) =? 84) with false.
  2:{ rewrite E. cbn [peek hd]. apply is_digit_spec in D. lia. }
  rewrite time_part_iso by assumption. cbn [bind]. apply time_new_wf. assumption.
Qed.

Lemma offset_seen_id : forall o, ~ subsecond o -> offset_seen o = o.
Proof.
  intros [z|] H; [|reflexivity]. cbn [offset_seen subsecond] in *.
  destruct (Z.ltb_spec (Z.abs z) 1000000); [|reflexivity]. f_equal. lia.
Qed.

Lemma time_roundtrip : forall t, time_wf t -> ~ subsecond (t_off t) ->
  time_parse (time_generate t) = Ok t.
Proof.
  intros t H N. rewrite time_general by assumption. unfold time_seen. rewrite offset_seen_id by assumption.
  destruct t; reflexivity.
Qed.

Lemma time_subsecond : forall t, time_wf t -> subsecond (t_off t) ->
  time_parse (time_generate t) = Ok (mkTime (t_hour t) (t_min t) (t_sec t) (t_us t) (Some 0%Z)).
Proof.
  intros t H N. rewrite time_general by assumption. unfold time_seen, offset_seen.
  destruct (t_off t) as [z|]; [|contradiction]. cbn [subsecond] in N.
  destruct (Z.ltb_spec (Z.abs z) 1000000); [reflexivity|lia].
Qed.

(** ** Date-times *)
Lemma drop_suffix_app : forall a b, drop_suffix b (a ++ b) = Some a.
Proof.
  intros. unfold drop_suffix. rewrite app_length. replace (length a + length b - length b)%nat with (length a) by lia.
  rewrite skipn_app, skipn_all, Nat.sub_diag. cbn [skipn app]. rewrite pystr_eqb_refl.
  rewrite firstn_app, firstn_all, Nat.sub_diag. cbn [firstn]. rewrite app_nil_r. reflexivity.
Qed.

Lemma drop_suffix_some : forall b s a, drop_suffix b s = Some a -> s = a ++ b.
Proof.
  intros b s a H. unfold drop_suffix in H. destruct (pystr_eqb _ _) eqn:E; [|discriminate].
  apply pystr_eqb_eq in E. injection H as <-. rewrite <- E at 2. symmetry. apply firstn_skipn.
Qed.

Lemma fromiso_general : forall d, datetime_wf d ->
  datetime_fromisoformat (datetime_isoformat d) = Ok (mkDT (dt_date d) (time_seen (dt_time d))).
Proof.
  intros [d t] [Hd Ht]. cbn [dt_date dt_time] in *.
  unfold datetime_fromisoformat, datetime_isoformat. cbn [dt_date dt_time].
  pose proof (date_isoformat_length d Hd) as L.
  set (s := date_isoformat d ++ str "T" ++ time_isoformat t).
  assert (Ls : length s = (11 + length (time_isoformat t))%nat).
  { unfold s. rewrite !app_length, L. reflexivity. }
  assert (As : ascii s).
  { apply ascii_app; [apply ascii_date|]. apply ascii_app; [apply ascii_str1; reflexivity|apply ascii_time]. }
  destruct (N.ltb_spec (N.of_nat (length s)) 7); [lia|].
  assert (San : forall ks, sanitize ks s = s).
  { induction ks as [|k ks IH]; [reflexivity|]. cbn [sanitize].
    destruct (nth_error s k) as [c|] eqn:E; [|reflexivity].
    assert (c < 128) by (unfold ascii in As; rewrite Forall_forall in As; apply As; eapply nth_error_In; eauto).
    replace (is_surrogate c) with false; [assumption|]. unfold is_surrogate. lia. }
  rewrite San, utf8_ascii by assumption. cbn [bind].
  pose proof (date_wf_bounds d Hd) as (By & Bm & Bd).
  assert (Hat : nth 4 s 0 = 45 /\ nth 5 s 0 <> 87).
  { unfold s, date_isoformat. rewrite <- !app_assoc.
    pose proof (dec_pad_4_length _ By) as L4. pose proof (dec_pad_2_length _ Bm) as L2.
    pose proof (dec_pad_digits 2 (d_month d)) as D.
    destruct (dec_pad 4 (d_year d)) as [|c1 [|c2 [|c3 [|c4 [|c5 l]]]]]; try discriminate.
    destruct (dec_pad 2 (d_month d)) as [|m1 l]; try discriminate.
    inversion D; subst. cbn. split; [reflexivity|]. apply is_digit_spec in H2. lia. }
  assert (Sep : find_separator s = Ok 10).
  { unfold find_separator. destruct Hat as [H4 H5]. cbv zeta. rewrite H4.
    destruct (N.eqb_spec (nth 5 s 0) 87); [contradiction|].
    replace (N.of_nat (length s) =? 7) with false by lia. reflexivity. }
  rewrite Sep. cbn [bind].
  replace (parse_date_part s 10) with (Ok (d_year d, d_month d, d_day d) : res (N * N * N)).
  2:{ unfold s. destruct d as [y m dd]. symmetry. apply parse_date_iso; assumption. }
  cbn [bind]. change (N.to_nat 10) with 10%nat.
  assert (S10 : skipn 10 s = 84 :: time_isoformat t).
  { unfold s. rewrite <- L. rewrite skipn_app, skipn_all, Nat.sub_diag. reflexivity. }
  rewrite S10. change (utf8_width 84) with 1%nat. change (10 + 1)%nat with 11%nat.
  replace (skipn 11 s) with (time_isoformat t).
  2:{ unfold s. rewrite app_assoc. rewrite skipn_app, skipn_all2, app_length, L; [reflexivity|].
      rewrite app_length, L. cbn. lia. }
  rewrite time_part_iso by assumption. cbn [bind].
  rewrite date_new_wf by assumption. cbn [bind]. rewrite time_new_wf by assumption. reflexivity.
Qed.

Definition last_char (s : pystr) : N := last s 0.

Lemma last_app_nonnil : forall (a b : pystr) d, b <> [] -> last (a ++ b) d = last b d.
Proof.
  induction a as [|x a IH]; intros b d H; [reflexivity|]. cbn [app].
  specialize (IH b d H). rewrite <- IH. cbn [last]. destruct (a ++ b) eqn:E; [|reflexivity].
  apply app_eq_nil in E. destruct E. contradiction.
Qed.

Lemma last_digits : forall s, all_digits s -> s <> [] -> is_digit (last s 0) = true.
Proof.
  intros s H N. induction H as [|c s Hc H IH]; [congruence|]. destruct s as [|c' s]; [assumption|].
  change (last (c :: c' :: s) 0) with (last (c' :: s) 0). apply IH. discriminate.
Qed.

Lemma dec_pad_nonnil : forall w n, dec_pad w n <> [].
Proof. intros w n H. unfold dec_pad, pad_left in H. apply app_eq_nil in H. exact (dec_str_nonnil _ (proj2 H)). Qed.

Lemma dec_pad_last : forall a w n, is_digit (last (a ++ dec_pad w n) 0) = true.
Proof.
  intros. rewrite last_app_nonnil by apply dec_pad_nonnil.
  apply last_digits; [apply dec_pad_digits|apply dec_pad_nonnil].
Qed.

Lemma offset_last : forall z, is_digit (last (offset_isoformat (Some z)) 0) = true.
Proof.
  intros z. cbn [offset_isoformat]. cbv zeta.
  destruct (_ && _).
  - rewrite app_nil_r. rewrite !app_assoc. apply dec_pad_last.
  - destruct (_ mod 1000000 =? 0).
    + rewrite app_nil_r. rewrite !app_assoc. apply dec_pad_last.
    + rewrite !app_assoc. apply dec_pad_last.
Qed.

Lemma iso_last : forall d z, t_off (dt_time d) = Some z -> is_digit (last (datetime_isoformat d) 0) = true.
Proof.
  intros d z H. unfold datetime_isoformat, time_isoformat. rewrite H.
  rewrite !app_assoc. rewrite last_app_nonnil; [apply offset_last|].
  destruct (offset_head z) as (c & r & E & _). rewrite E. discriminate.
Qed.

Lemma drop_Z_digit : forall s, is_digit (last s 0) = true -> drop_suffix (str "Z") s = None.
Proof.
  intros s H. destruct (drop_suffix (str "Z") s) as [a|] eqn:E; [|reflexivity].
  apply drop_suffix_some in E. subst. rewrite last_app_nonnil in H by discriminate. discriminate.
Qed.

Lemma generate_parse_iso : forall d s, datetime_wf d -> datetime_generate d = Ok s ->
  datetime_parse s = (do x <- datetime_fromisoformat (datetime_isoformat d);
                      match t_off (dt_time x) with None => Err EJsonValue | Some _ => Ok x end).
Proof.
  intros d s W H. unfold datetime_generate in H. destruct (t_off (dt_time d)) as [z|] eqn:Ez; [|discriminate].
  unfold datetime_parse.
  destruct (drop_suffix (str "+00:00") (datetime_isoformat d)) as [f|] eqn:E.
  - injection H as <-. rewrite drop_suffix_app. apply drop_suffix_some in E. rewrite E. reflexivity.
  - injection H as <-. rewrite drop_Z_digit by (eapply iso_last; eauto). reflexivity.
Qed.

Lemma datetime_general : forall d s, datetime_wf d -> datetime_generate d = Ok s ->
  datetime_parse s = Ok (mkDT (dt_date d) (time_seen (dt_time d))).
Proof.
  intros d s W H. rewrite (generate_parse_iso d s W H). rewrite fromiso_general by assumption.
  cbn [bind dt_time time_seen t_off].
  unfold datetime_generate in H. destruct (t_off (dt_time d)) as [z|]; [|discriminate].
  cbn [offset_seen]. destruct (_ <? _)%Z; reflexivity.
Qed.

Lemma datetime_roundtrip : forall d s, datetime_wf d -> ~ subsecond (t_off (dt_time d)) ->
  datetime_generate d = Ok s -> datetime_parse s = Ok d.
Proof.
  intros d s W N H. rewrite (datetime_general d s W H). unfold time_seen. rewrite offset_seen_id by assumption.
  destruct d as [dd [h m sec us o]]. reflexivity.
Qed.

Lemma datetime_subsecond : forall d s, datetime_wf d -> subsecond (t_off (dt_time d)) ->
  datetime_generate d = Ok s ->
  exists d', datetime_parse s = Ok d' /\ d' <> d /\ t_off (dt_time d') = Some 0%Z.
Proof.
  intros d s W N H. rewrite (datetime_general d s W H). eexists. split; [reflexivity|].
  unfold subsecond in N. destruct (t_off (dt_time d)) as [z|] eqn:E; [|contradiction].
  cbn [dt_time time_seen t_off]. rewrite E. cbn [offset_seen].
  destruct (Z.ltb_spec (Z.abs z) 1000000); [|lia]. split; [|reflexivity].
  intros G. rewrite <- G in E. cbn [dt_time time_seen t_off] in E. 
  assert (O : t_off (dt_time d) = Some z) by (rewrite <- G; cbn [dt_time time_seen t_off]; exact E).
  rewrite O in E. cbn [offset_seen] in E. destruct (Z.ltb_spec (Z.abs z) 1000000); [|lia].
  injection E as E. lia.
Qed.

Lemma generate_total : forall d, (exists s, datetime_generate d = Ok s) <-> t_off (dt_time d) <> None.
Proof.
  intros d. unfold datetime_generate. destruct (t_off (dt_time d)).
  - split; [discriminate|]. intros _. destruct (drop_suffix _ _); eauto.
  - split; [intros [s H]; discriminate|congruence].
Qed.

Lemma generate_naive : forall d, t_off (dt_time d) = None -> datetime_generate d = Err EJsonValue.
Proof. intros d H. unfold datetime_generate. rewrite H. reflexivity. Qed.

(** ** The generated texts are ISO 8601 texts *)
Lemma pad2_chars : forall v, v < 100 -> dec_pad 2 v = [48 + v / 10; 48 + v mod 10].
Proof.
  assert (H : forallb (fun k => pystr_eqb (dec_pad 2 (N.of_nat k)) [48 + N.of_nat k / 10; 48 + N.of_nat k mod 10])
                (seq 0 100) = true) by (vm_compute; reflexivity).
  intros v Hv. rewrite forallb_forall in H. specialize (H (N.to_nat v)). rewrite in_seq in H.
  specialize (H ltac:(lia)). apply pystr_eqb_eq in H. rewrite N2Nat.id in H. exact H.
Qed.

Lemma two_pad : forall v, v < 100 -> two v (dec_pad 2 v).
Proof.
  intros v H. rewrite pad2_chars by assumption.
  replace v with (10 * (v / 10) + v mod 10) at 1 by lia. apply two_intro; lia.
Qed.

Lemma digit_string_inj : forall a b, all_digits a -> all_digits b -> length a = length b ->
  dec_val a = dec_val b -> a = b.
Proof.
  intros a b Ha Hb L E. unfold dec_val in E.
  assert (G : map (fun c => c - 48) a = map (fun c => c - 48) b).
  { apply (undigits_inj 10); try lia; try (rewrite !map_length; assumption).
    - apply Forall_map. eapply Forall_impl; [|exact Ha]. cbv beta. intros c Hc. apply is_digit_spec in Hc. lia.
    - apply Forall_map. eapply Forall_impl; [|exact Hb]. cbv beta. intros c Hc. apply is_digit_spec in Hc. lia. }
  clear E L. revert b Hb G. induction Ha as [|x a Hx Ha IH]; intros [|y b] Hb G; try discriminate; [reflexivity|].
  inversion Hb; subst. cbn [map] in G. injection G as G1 G2. f_equal; [|auto].
  apply is_digit_spec in Hx, H1. lia.
Qed.

Lemma pad4_split : forall v, v < 10000 -> dec_pad 4 v = dec_pad 2 (v / 100) ++ dec_pad 2 (v mod 100).
Proof.
  intros v H. apply digit_string_inj; auto using dec_pad_digits, all_digits_app.
  - rewrite app_length, dec_pad_4_length, !dec_pad_2_length by lia. reflexivity.
  - rewrite dec_val_app, !dec_val_dec_pad, dec_pad_2_length by lia. change (10 ^ N.of_nat 2) with 100. lia.
Qed.

Lemma pad6_split : forall v, v < 1000000 ->
  dec_pad 6 v = dec_pad 2 (v / 10000) ++ dec_pad 2 (v / 100 mod 100) ++ dec_pad 2 (v mod 100).
Proof.
  intros v H. apply digit_string_inj; auto using dec_pad_digits, all_digits_app.
  - rewrite !app_length, dec_pad_6_length, !dec_pad_2_length by lia. reflexivity.
  - rewrite !dec_val_app, !dec_val_dec_pad, app_length, !dec_pad_2_length by lia.
    change (10 ^ N.of_nat 2) with 100. change (10 ^ N.of_nat (2 + 2)) with 10000. lia.
Qed.

Lemma date_text : forall d, date_wf d -> iso_date d (date_generate d).
Proof.
  intros d H. pose proof (date_wf_bounds d H) as (By & Bm & Bd). unfold date_generate, date_isoformat.
  rewrite pad4_split, <- app_assoc by assumption. destruct d as [y m dd]. cbn [d_year d_month d_day] in *.
  replace (mkDate y m dd) with (mkDate (100 * (y / 100) + y mod 100) m dd) by (f_equal; lia).
  constructor; apply two_pad; lia.
Qed.

Lemma micros_text : forall us, us < 1000000 -> iso_micros us (frac us).
Proof.
  intros us H. unfold frac. destruct (N.eqb_spec us 0) as [->|Hn]; [constructor|].
  rewrite pad6_split by assumption.
  replace us with (10000 * (us / 10000) + 100 * (us / 100 mod 100) + us mod 100) at 1 by lia.
  constructor; try (apply two_pad); lia.
Qed.

Lemma offset_text : forall o, offset_wf o -> iso_offset o (offset_isoformat o).
Proof.
  intros [z|] H; [|constructor]. cbn [offset_wf] in H. cbn [offset_isoformat]. cbv zeta.
  set (a := Z.to_N (Z.abs z)) in *. assert (Ha : a < 86400000000) by lia.
  assert (B1 : a / 1000000 / 3600 < 100) by lia. assert (B2 : a / 1000000 / 60 mod 60 < 100) by lia.
  assert (B3 : a / 1000000 mod 60 < 100) by lia. assert (B4 : a mod 1000000 < 1000000) by lia.
  destruct ((a / 1000000 mod 60 =? 0) && (a mod 1000000 =? 0)) eqn:E.
  - rewrite app_nil_r. pose proof (iso_offset_minutes (z <? 0)%Z (a / 1000000 / 3600) (a / 1000000 / 60 mod 60)
      _ _ (two_pad _ B1) (two_pad _ B2) ltac:(lia) ltac:(lia)) as G.
    match type of G with iso_offset (Some ?x) _ => replace x with z in G end.
    + destruct (z <? 0)%Z; exact G.
    + apply andb_true_iff in E. destruct E as [E1 E2]. apply N.eqb_eq in E1, E2.
      destruct (Z.ltb_spec z 0); lia.
  - pose proof (iso_offset_seconds (z <? 0)%Z (a / 1000000 / 3600) (a / 1000000 / 60 mod 60)
      (a / 1000000 mod 60) (a mod 1000000)
      _ _ _ _ (two_pad _ B1) (two_pad _ B2) (two_pad _ B3)
      (micros_text _ B4) ltac:(lia) ltac:(lia) ltac:(lia)) as G.
    match type of G with iso_offset (Some ?x) _ => replace x with z in G end.
    + unfold frac in G. destruct (z <? 0)%Z; exact G.
    + destruct (Z.ltb_spec z 0); lia.
Qed.

Lemma time_text : forall t, time_wf t -> iso_time t (time_generate t).
Proof.
  intros [h m s us o] (Hh & Hm & Hs & Hus & Ho). cbn [t_hour t_min t_sec t_us t_off] in *.
  change (time_generate (mkTime h m s us o)) with
    (dec_pad 2 h ++ str ":" ++ dec_pad 2 m ++ str ":" ++ dec_pad 2 s ++ frac us ++ offset_isoformat o).
  constructor; try (apply two_pad; lia); auto using micros_text, offset_text.
Qed.

Lemma offset_utc_suffix : forall z, (Z.abs z < 24 * 3600 * 1000000)%Z ->
  forall x f, x ++ offset_isoformat (Some z) = f ++ str "+00:00" -> z = 0%Z.
Proof.
  intros z Hz x f E.
  assert (G : exists g, offset_isoformat (Some z) = g ++ str "+00:00").
  { apply app_eq_app in E. destruct E as [l [[E1 E2]|[E1 E2]]]; [|eauto].
    exists []. assert (length (str "+00:00") = length l + length (offset_isoformat (Some z)))%nat
      by (rewrite E2; apply app_length).
    assert (6 <= length (offset_isoformat (Some z)))%nat.
    { cbn [offset_isoformat]. cbv zeta. rewrite !app_length, !dec_pad_2_length by lia.
      change (length (str ":")) with 1%nat. change (length (str "-")) with 1%nat.
      destruct (z <? 0)%Z; change (length (str "-")) with 1%nat; change (length (str "+")) with 1%nat; lia. }
    change (length (str "+00:00")) with 6%nat in H. destruct l; [|cbn [length] in H; lia].
    cbn [app] in *. symmetry. exact E2. }
  destruct G as [g G]. revert G. cbn [offset_isoformat]. cbv zeta.
  set (a := Z.to_N (Z.abs z)) in *. assert (Ha : a < 86400000000) by lia.
  rewrite !pad2_chars by lia.
  destruct ((a / 1000000 mod 60 =? 0) && (a mod 1000000 =? 0)) eqn:E0.
  - intros G.
    assert (Lg : length g = 0%nat).
    { apply (f_equal (@length N)) in G. rewrite !app_length in G. cbn [length app] in G.
      change (length (str "+00:00")) with 6%nat in G. destruct (z <? 0)%Z; cbn in G; lia. }
    destruct g; [|discriminate]. destruct (Z.ltb_spec z 0); [discriminate|].
    change (str "+") with [43] in G. change (str ":") with [58] in G.
    change (str "+00:00") with [43; 48; 48; 58; 48; 48] in G. cbn [app] in G.
    pose proof (f_equal (fun l => nth 1 l 0) G) as G1. pose proof (f_equal (fun l => nth 2 l 0) G) as G2.
    pose proof (f_equal (fun l => nth 4 l 0) G) as G4. pose proof (f_equal (fun l => nth 5 l 0) G) as G5.
    cbn [nth] in G1, G2, G4, G5. apply andb_true_iff in E0. lia.
  - intros G. exfalso. destruct (a mod 1000000 =? 0) eqn:E1.
    + assert (Lg : length g = 3%nat).
      { apply (f_equal (@length N)) in G. rewrite !app_length in G. cbn [length app] in G.
        change (length (str "+00:00")) with 6%nat in G. destruct (z <? 0)%Z; cbn in G; lia. }
      destruct g as [|g1 [|g2 [|g3 [|]]]]; try discriminate.
      destruct (z <? 0)%Z; cbn [app str] in G; discriminate.
    + rewrite pad6_split, !pad2_chars in G by lia.
      assert (Lg : length g = 10%nat).
      { apply (f_equal (@length N)) in G. rewrite !app_length in G. cbn [length app] in G.
        change (length (str "+00:00")) with 6%nat in G. destruct (z <? 0)%Z; cbn in G; lia. }
      destruct g as [|g1 [|g2 [|g3 [|g4 [|g5 [|g6 [|g7 [|g8 [|g9 [|g10 [|]]]]]]]]]]]; try discriminate.
      pose proof (f_equal (fun l => nth 10 l 0) G) as G1.
      change (str "+00:00") with [43; 48; 48; 58; 48; 48] in G1.
      change (str ":") with [58] in G1. change (str ".") with [46] in G1.
      change (str "-") with [45] in G1. change (str "+") with [43] in G1.
      destruct (z <? 0)%Z; cbn [app nth] in G1; lia.
Qed.

Lemma datetime_text : forall d s, datetime_wf d -> datetime_generate d = Ok s -> iso_datetime d s.
Proof.
  intros [d [h m sec us o]] s [Hd Ht] H. cbn [dt_date dt_time] in *.
  unfold datetime_generate in H. cbn [dt_time t_off] in H. destruct o as [z|]; [|discriminate].
  assert (Hz := proj2 (proj2 (proj2 (proj2 Ht)))). cbn [offset_wf t_off] in Hz.
  destruct (Z.eq_dec z 0) as [->|Nz].
  - assert (E : datetime_isoformat (mkDT d (mkTime h m sec us (Some 0%Z))) =
                (date_isoformat d ++ str "T" ++ time_isoformat (mkTime h m sec us None)) ++ str "+00:00").
    { unfold datetime_isoformat, time_isoformat. cbn [dt_date dt_time t_hour t_min t_sec t_us t_off].
      change (offset_isoformat (Some 0%Z)) with (str "+00:00"). change (offset_isoformat None) with (@nil N).
      rewrite app_nil_r, <- !app_assoc. reflexivity. }
    rewrite E, drop_suffix_app in H. injection H as <-. rewrite <- !app_assoc.
    constructor; [apply date_text; assumption|]. apply time_text.
    destruct Ht as (?&?&?&?&_). repeat split; assumption.
  - destruct (drop_suffix _ _) as [f|] eqn:E.
    + exfalso. apply drop_suffix_some in E. unfold datetime_isoformat, time_isoformat in E.
      cbn [dt_date dt_time t_hour t_min t_sec t_us t_off] in E. rewrite !app_assoc in E.
      apply Nz. eapply offset_utc_suffix; [exact Hz|exact E].
    + injection H as <-. constructor; [assumption|apply date_text; assumption|apply time_text; assumption].
Qed.

(** ** Whatever is accepted is a proper object *)
Lemma parse_time_part_offset : forall s h m sec us o,
  parse_time_part s = Ok (h, m, sec, us, o) -> offset_wf o.
Proof.
  intros s h m sec us o H. unfold parse_time_part in H. destruct (split_tz s) as [pre rest].
  destruct (parse_hms s _) as [[[[[h' m'] s'] us'] extra]|]; [|discriminate]. cbn [bind] in H.
  destruct rest as [|c r].
  - destruct extra; [discriminate|]. injection H as <- <- <- <- <-. exact I.
  - destruct (c =? 90).
    + destruct (peek r =? 0); [|discriminate]. injection H as <- <- <- <- <-. cbn. lia.
    + destruct (parse_hms r _) as [[[[[oh om] os] ous] extra2]|] eqn:P; [|discriminate]. cbn [bind] in H.
      destruct extra2; [discriminate|].
      destruct (oh * 3600 + om * 60 + os =? 0); [injection H as <- <- <- <- <-; cbn; lia|].
      destruct (N.leb_spec 86400 (oh * 3600 + om * 60 + os)); [discriminate|].
      injection H as <- <- <- <- <-.
      assert (U : ous < 1000000).
      { clear -P. unfold parse_hms in P.
        destruct (hms_loop 3 true true [] r _) as [[vals ex|vals rest k]|]; [| |discriminate]; cbn [bind] in P.
        - injection P as _ _ _ <- _. lia.
        - set (n := Z.to_nat (Z.min k 6)) in *. assert (Hn : (n <= 6)%nat) by lia. clearbody n.
          destruct (parse_digits n 0 rest) as [[f q]|] eqn:E; [|discriminate]. cbn [bind] in P.
          injection P as _ _ _ <- _.
          assert (B : forall n acc s f q, parse_digits n acc s = Ok (f, q) -> f < (acc + 1) * 10 ^ N.of_nat n).
          { clear. induction n as [|n IH]; intros acc s f q H; cbn [parse_digits] in H.
            - injection H as <- _. change (10 ^ N.of_nat 0) with 1. lia.
            - destruct s as [|c s]; [discriminate|]. destruct (is_digit c) eqn:D; [|discriminate].
              apply IH in H. apply is_digit_spec in D. rewrite Nat2N.inj_succ, N.pow_succ_r'.
              nia. }
          apply B in E.
          assert (X : 10 ^ N.of_nat n * 10 ^ N.of_nat (6 - n) = 1000000).
          { rewrite <- N.pow_add_r. replace (N.of_nat n + N.of_nat (6 - n)) with 6 by lia. reflexivity. }
          assert (0 < 10 ^ N.of_nat (6 - n)) by (apply N.neq_0_lt_0, N.pow_nonzero; lia).
          rewrite <- X. apply N.mul_lt_mono_pos_r; [assumption|]. rewrite N.mul_1_l in E. exact E. }
      cbn [offset_wf]. destruct (c =? 45); lia.
Qed.

Lemma time_new_ok : forall h m s us o t, time_new h m s us o = Ok t -> offset_wf o ->
  time_wf t /\ t_off t = o.
Proof.
  intros h m s us o t H W. unfold time_new in H.
  destruct ((h <? 24) && (m <? 60) && (s <? 60) && (us <? 1000000)) eqn:E; [|discriminate].
  injection H as <-. split; [|reflexivity]. repeat split; cbn [t_hour t_min t_sec t_us t_off]; try lia. exact W.
Qed.

Lemma date_parse_wf : forall s d, date_parse s = Ok d -> date_wf d.
Proof.
  intros s d H. unfold date_parse, date_fromisoformat in H. destruct (utf8 s); [|discriminate].
  cbn [bind] in H. destruct (_ || _); [|discriminate].
  destruct (parse_date_part _ _) as [[[y m] dd]|]; [|discriminate]. cbn [bind] in H.
  apply date_new_ok in H. apply H.
Qed.

Lemma time_parse_wf : forall s t, time_parse s = Ok t -> time_wf t.
Proof.
  intros s d H. unfold time_parse, time_fromisoformat in H. destruct (utf8 s); [|discriminate].
  cbn [bind] in H. cbv zeta in H.
  destruct (parse_time_part _) as [[[[[h m] sec] us] o]|] eqn:P; [|discriminate]. cbn [bind] in H.
  apply parse_time_part_offset in P. eapply time_new_ok in H; [|eassumption]. apply H.
Qed.

Lemma datetime_fromiso_wf : forall s d, datetime_fromisoformat s = Ok d -> datetime_wf d.
Proof.
  intros s d H. unfold datetime_fromisoformat in H. destruct (_ <? 7); [discriminate|].
  destruct (utf8 _) as [b|]; [|discriminate]. cbn [bind] in H.
  destruct (find_separator b) as [sep|]; [|discriminate]. cbn [bind] in H.
  destruct (parse_date_part _ _) as [[[y m] dd]|]; [|discriminate]. cbn [bind] in H.
  match type of H with bind ?x _ = _ => destruct x as [[[[[h mi] sec] us] o]|] eqn:P; [|discriminate] end.
  cbn [bind] in H.
  assert (W : offset_wf o).
  { destruct (skipn _ b); [injection P as <- <- <- <- <-; exact I|]. eapply parse_time_part_offset; eauto. }
  destruct (date_new y m dd) eqn:D; [|discriminate]. cbn [bind] in H.
  destruct (time_new h mi sec us o) eqn:T; [|discriminate]. cbn [bind] in H. injection H as <-.
  split; [eapply date_new_ok; eauto|eapply time_new_ok; eauto].
Qed.

Lemma datetime_parse_aware : forall s d, datetime_parse s = Ok d ->
  datetime_wf d /\ t_off (dt_time d) <> None.
Proof.
  intros s d H. unfold datetime_parse in H. cbv zeta in H.
  destruct (datetime_fromisoformat _) as [x|] eqn:E; [|discriminate]. cbn [bind] in H.
  destruct (t_off (dt_time x)) eqn:O; [|discriminate]. injection H as <-. rewrite O.
  split; [eapply datetime_fromiso_wf; eauto|discriminate].
Qed.

(** ** Errors *)
Definition value_error {A} (r : res A) : Prop := forall e, r = Err e -> e = EValue.

Lemma ve_bind : forall A B (x : res A) (f : A -> res B), value_error x -> (forall a, value_error (f a)) ->
  value_error (bind x f).
Proof. intros A B [a|e] f H G e' E; cbn [bind] in E; [eapply G; eauto|injection E as <-; auto]. Qed.
Lemma ve_ok : forall A (a : A), value_error (Ok a).
Proof. intros A a e H. discriminate. Qed.
Lemma ve_err : forall A, value_error (Err EValue : res A).
Proof. intros A e H. congruence. Qed.
Lemma ve_if : forall A (b : bool) (x y : res A), value_error x -> value_error y -> value_error (if b then x else y).
Proof. intros A [] x y Hx Hy; assumption. Qed.

Lemma ve_digits : forall n acc s, value_error (parse_digits n acc s).
Proof.
  induction n; intros; cbn [parse_digits]; [apply ve_ok|]. destruct s; [apply ve_err|].
  apply ve_if; [apply IHn|apply ve_err].
Qed.

Ltac ve := repeat (cbv zeta; match goal with
    | |- value_error (Ok _) => apply ve_ok
    | |- value_error (Err EValue) => apply ve_err
    | |- value_error (parse_digits _ _ _) => apply ve_digits
    | |- value_error (bind _ _) => apply ve_bind; [|intros ?]
    | |- value_error (if _ then _ else _) => apply ve_if
    | |- value_error (match ?x with pair _ _ => _ end) => destruct x
    | |- value_error (match ?x with [] => _ | _ :: _ => _ end) => destruct x
    end).

Lemma ve_iso : forall y w d, value_error (iso_to_ymd y w d).
Proof. intros. unfold iso_to_ymd. ve. Qed.
Lemma ve_date_part : forall s n, value_error (parse_date_part s n).
Proof. intros. unfold parse_date_part. ve; apply ve_iso. Qed.
Lemma ve_hms_loop : forall n f p v s k, value_error (hms_loop n f p v s k).
Proof. induction n; intros; cbn [hms_loop]; ve; apply IHn. Qed.
Lemma ve_hms : forall s k, value_error (parse_hms s k).
Proof. intros. unfold parse_hms. apply ve_bind; [apply ve_hms_loop|]. intros [v x|v r l]; ve. Qed.
Lemma ve_time_part : forall s, value_error (parse_time_part s).
Proof. intros. unfold parse_time_part. ve; apply ve_hms. Qed.
Lemma ve_utf8 : forall s, value_error (utf8 s).
Proof. intros. unfold utf8. ve. Qed.
Lemma ve_date_new : forall y m d, value_error (date_new y m d).
Proof. intros. unfold date_new. ve. Qed.
Lemma ve_time_new : forall h m s us o, value_error (time_new h m s us o).
Proof. intros. unfold time_new. ve. Qed.

Lemma date_errors : forall s e, date_parse s = Err e -> e = EValue.
Proof.
  intros s. change (value_error (date_parse s)). unfold date_parse, date_fromisoformat.
  ve; auto using ve_utf8, ve_date_part, ve_date_new.
Qed.
Lemma time_errors : forall s e, time_parse s = Err e -> e = EValue.
Proof.
  intros s. change (value_error (time_parse s)). unfold time_parse, time_fromisoformat.
  ve; auto using ve_utf8, ve_time_part, ve_time_new.
Qed.
Lemma datetime_errors : forall s e, datetime_parse s = Err e -> e = EValue \/ e = EJsonValue.
Proof.
  intros s e H. unfold datetime_parse in H. cbv zeta in H.
  destruct (datetime_fromisoformat _) as [x|x] eqn:E; cbn [bind] in H.
  - destruct (t_off (dt_time x)); [discriminate|]. right. congruence.
  - left. injection H as <-. revert E. match goal with |- ?r = Err _ -> _ => cut (value_error r); [intros V; apply V|] end.
    unfold datetime_fromisoformat, find_separator. ve; auto using ve_utf8, ve_date_part, ve_time_part, ve_date_new, ve_time_new.
Qed.

(** ** Counterexamples *)
Lemma time_roundtrip_fails : exists t, time_wf t /\ time_parse (time_generate t) <> Ok t.
Proof.
  exists (mkTime 1 2 3 0 (Some 1%Z)). split; [repeat split; vm_compute; congruence|].
  vm_compute. congruence.
Qed.

Lemma datetime_roundtrip_fails :
  exists d s, datetime_wf d /\ datetime_generate d = Ok s /\ datetime_parse s <> Ok d.
Proof.
  exists (mkDT (mkDate 2024 3 1) (mkTime 1 2 3 0 (Some 1%Z))), (str "2024-03-01T01:02:03+00:00:00.000001").
  repeat split; try (vm_compute; congruence).
  exists 31. split; [left; split; [cbn; auto|reflexivity]|vm_compute; split; congruence].
Qed.
