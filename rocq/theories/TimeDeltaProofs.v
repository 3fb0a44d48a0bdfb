(** Proofs about the timedelta codec. *)
From Coq Require Import String List NArith ZArith Bool Lia.
From Coq Require Import ZifyBool ZifyN.
From Verif Require Import Base Digits DigitsProofs TimeDelta SpecTimeDelta.
Import ListNotations.
Open Scope list_scope.
Ltac Zify.zify_post_hook ::= Z.div_mod_to_equations.
Open Scope N_scope.

Lemma number_iff : forall s n, number s n <-> s <> [] /\ all_digits s /\ n = dec_val s.
Proof.
  intros s n. split.
  - induction 1 as [c Hc|s n c Hs [IH1 [IH2 IH3]] Hc].
    + split; [discriminate|]. split; [|unfold dec_val, undigits; simpl; lia].
      constructor; [apply is_digit_spec; assumption|constructor].
    + split; [destruct s; discriminate|]. split.
      * apply all_digits_app; [assumption|]. constructor; [apply is_digit_spec; assumption|constructor].
      * rewrite dec_val_app, IH3. simpl length. change (10 ^ N.of_nat 1) with 10.
        assert (dec_val [c] = c - 48) by (unfold dec_val, undigits; simpl; lia). lia.
  - intros (Hn & Hd & ->). revert Hn Hd. induction s as [|c s IH] using rev_ind; [congruence|].
    intros _ Hd. apply Forall_app in Hd. destruct Hd as [Hs Hc].
    inversion Hc; subst. apply is_digit_spec in H1.
    assert (E : dec_val [c] = c - 48) by (unfold dec_val, undigits; simpl; lia).
    destruct s as [|x s'].
    + simpl. rewrite E. constructor. assumption.
    + rewrite dec_val_app. simpl length. change (10 ^ N.of_nat 1) with 10.
      rewrite E, N.mul_comm. constructor; [|assumption]. apply IH; [discriminate|assumption].
Qed.

Lemma number_nonnil : forall s n, number s n -> s <> [].
Proof. intros s n H. apply number_iff in H. tauto. Qed.

(** ** The scanner against the grammar *)

(** [r] cannot start with a component of letter [l]. *)
Definition no_comp (l : N) (r : pystr) : Prop := scan_comp l r = (None, r).

Lemma no_comp_nil : forall l, no_comp l [].
Proof. reflexivity. Qed.

Lemma no_comp_nondigit : forall l c r, is_digit c = false -> no_comp l (c :: r).
Proof. intros. unfold no_comp, scan_comp. simpl. rewrite H. reflexivity. Qed.

Lemma no_comp_other : forall l ds c r, all_digits ds -> is_digit c = false -> c <> l ->
  no_comp l (ds ++ c :: r).
Proof.
  intros. unfold no_comp, scan_comp.
  rewrite span_digits_app; [|assumption|intros ? ? E; congruence].
  destruct ds; [reflexivity|]. destruct (N.eqb_spec c l); [contradiction|reflexivity].
Qed.

Lemma scan_comp_present : forall l s n r, number s n -> is_digit l = false ->
  scan_comp l (s ++ l :: r) = (Some s, r).
Proof.
  intros l s n r Hn Hl. apply number_iff in Hn. destruct Hn as (Hn & Hd & _).
  unfold scan_comp. rewrite span_digits_app; [|assumption|intros ? ? E; congruence].
  destruct s as [|c s]; [congruence|]. rewrite N.eqb_refl. reflexivity.
Qed.

Definition comp_val (o : option pystr) : N := match o with Some s => dec_val s | None => 0 end.
Definition comp_ok (o : option pystr) : Prop :=
  match o with Some s => s <> [] /\ all_digits s | None => True end.
Definition comp_text (l : N) (o : option pystr) : pystr :=
  match o with Some s => s ++ [l] | None => [] end.

Lemma scan_comp_sound : forall l s o r, scan_comp l s = (o, r) ->
  s = comp_text l o ++ r /\ comp_ok o.
Proof.
  intros l s o r H. unfold scan_comp in H.
  destruct (span_digits s) as [a b] eqn:E. apply span_digits_spec in E.
  destruct E as (-> & Ha & _).
  destruct a as [|c a]; [injection H as <- <-; simpl; auto|].
  destruct b as [|x b]; [injection H as <- <-; simpl; auto|].
  destruct (N.eqb_spec x l).
  - injection H as <- <-. subst. simpl. split; [|split; [discriminate|assumption]].
    rewrite <- app_assoc. reflexivity.
  - injection H as <- <-. split; simpl; auto.
Qed.

Lemma component_iff : forall letter l s n, str letter = [l] ->
  (component letter s n <-> exists o, s = comp_text l o /\ comp_ok o /\ n = comp_val o).
Proof.
  intros letter l s n Hl. split.
  - intros [|ds m Hm].
    + exists None. simpl. auto.
    + apply number_iff in Hm. exists (Some ds). simpl. rewrite Hl. tauto.
  - intros ([ds|] & -> & Hok & ->); simpl.
    + rewrite <- Hl. constructor. apply number_iff. simpl in Hok. tauto.
    + constructor.
Qed.

Definition sec_ok (o : option (pystr * option pystr)) : Prop :=
  match o with
  | None => True
  | Some (s, f) => s <> [] /\ all_digits s /\
      match f with None => True | Some g => g <> [] /\ all_digits g /\ (length g <= 9)%nat end
  end.
Definition sec_text (o : option (pystr * option pystr)) : pystr :=
  match o with
  | None => []
  | Some (s, None) => s ++ [83]
  | Some (s, Some g) => s ++ [46] ++ g ++ [83]
  end.
Definition frac_val (f : option pystr) : N :=
  match f with None => 0 | Some g => dec_val (pad_right 9 g) end.
Definition sec_val (o : option (pystr * option pystr)) : N :=
  match o with
  | None => 0
  | Some (s, f) => dec_val s * 1000000000 + frac_val f
  end.

Lemma scan_secs_sound : forall s o r, scan_secs s = (o, r) -> s = sec_text o ++ r /\ sec_ok o.
Proof.
  intros s o r H. unfold scan_secs in H.
  destruct (span_digits s) as [a b] eqn:E. apply span_digits_spec in E.
  destruct E as (-> & Ha & _).
  destruct a as [|c a]; [injection H as <- <-; simpl; auto|].
  destruct b as [|x b]; [injection H as <- <-; simpl; auto|].
  destruct (N.eqb_spec x 83).
  - injection H as <- <-. subst. simpl. split; [|repeat split; [discriminate|assumption]].
    rewrite <- app_assoc. reflexivity.
  - destruct (N.eqb_spec x 46).
    + destruct (span_digits b) as [a' b'] eqn:E'. apply span_digits_spec in E'.
      destruct E' as (-> & Ha' & _).
      destruct a' as [|c' a']; [injection H as <- <-; simpl; auto|].
      destruct b' as [|x' b']; [injection H as <- <-; simpl; auto|].
      destruct (N.eqb x' 83 && (length (c' :: a') <=? 9)%nat) eqn:Ex.
      * injection H as <- <-. apply andb_true_iff in Ex. destruct Ex as [E1 E2].
        apply N.eqb_eq in E1. apply Nat.leb_le in E2. subst.
        split; [|repeat split; try discriminate; try assumption; try lia].
        simpl. repeat (rewrite <- app_assoc; simpl). reflexivity.
      * injection H as <- <-. split; simpl; auto.
    + injection H as <- <-. split; simpl; auto.
Qed.

Lemma scan_secs_complete : forall o e, sec_ok o -> line_end e ->
  scan_secs (sec_text o ++ e) = (o, e).
Proof.
  intros o e Hok He. unfold scan_secs. destruct o as [[s f]|].
  - simpl in Hok. destruct Hok as (Hn & Hd & Hf). destruct f as [g|].
    + destruct Hf as (Hgn & Hgd & Hgl). simpl.
      rewrite <- app_assoc. simpl. rewrite <- app_assoc. simpl.
      rewrite span_digits_app; [|assumption|intros ? ? E; injection E as <- <-; reflexivity].
      destruct s as [|c s]; [congruence|]. simpl.
      rewrite span_digits_app; [|assumption|intros ? ? E; injection E as <- <-; reflexivity].
      destruct g as [|c' g]; [congruence|].
      assert (Hg8 : (length g <=? 8)%nat = true) by (apply Nat.leb_le; simpl in Hgl; lia).
      rewrite Hg8. reflexivity.
    + simpl. rewrite <- app_assoc. simpl.
      rewrite span_digits_app; [|assumption|intros ? ? E; injection E as <- <-; reflexivity].
      destruct s as [|c s]; [congruence|]. reflexivity.
  - simpl. destruct He as [->| ->]; reflexivity.
Qed.

Lemma pad9_val : forall g, dec_val (pad_right 9 g) = dec_val g * 10 ^ (9 - N.of_nat (length g)).
Proof. intros. rewrite dec_val_pad_right. do 2 f_equal. lia. Qed.

Lemma seconds_iff : forall s n,
  seconds_component s n <-> exists o, s = sec_text o /\ sec_ok o /\ n = sec_val o.
Proof.
  intros s n. split.
  - intros [|a m Hm|a m f k Hm Hk Hl].
    + exists None. simpl. auto.
    + apply number_iff in Hm. destruct Hm as (? & ? & ->).
      exists (Some (a, None)). simpl. repeat split; auto. lia.
    + apply number_iff in Hm. apply number_iff in Hk.
      destruct Hm as (? & ? & ->). destruct Hk as (? & ? & ->).
      exists (Some (a, Some f)). cbn -[pad_right]. rewrite pad9_val. repeat split; auto.
  - intros ([[a [f|]]|] & -> & Hok & ->); cbn -[pad_right] in *.
    + destruct Hok as (? & ? & ? & ? & ?). rewrite pad9_val.
      apply seconds_fraction; auto; apply number_iff; auto.
    + destruct Hok as (? & ? & _). rewrite N.add_0_r.
      apply (seconds_whole a (dec_val a)). apply number_iff. auto.
    + constructor.
Qed.

Lemma at_end_iff : forall e, at_end e = true <-> line_end e.
Proof.
  intros e. unfold line_end. destruct e as [|c [|c' e]]; simpl.
  - tauto.
  - rewrite N.eqb_eq. split; [intros ->; auto|]. intros [H|H]; [discriminate|]. congruence.
  - split; [discriminate|]. intros [H|H]; discriminate.
Qed.

(** Text described by a set of groups. *)
Definition date_text (g : duration_groups) : pystr :=
  comp_text 87 (g_weeks g) ++ comp_text 68 (g_days g).
Definition time_text (g : duration_groups) : pystr :=
  comp_text 72 (g_hours g) ++ comp_text 77 (g_minutes g) ++
  sec_text (match g_seconds g with Some s => Some (s, g_fractional g) | None => None end).
Definition groups_ok (g : duration_groups) : Prop :=
  comp_ok (g_weeks g) /\ comp_ok (g_days g) /\ comp_ok (g_hours g) /\ comp_ok (g_minutes g) /\
  sec_ok (match g_seconds g with Some s => Some (s, g_fractional g) | None => None end) /\
  (g_seconds g = None -> g_fractional g = None).
Definition no_time (g : duration_groups) : Prop :=
  g_hours g = None /\ g_minutes g = None /\ g_seconds g = None.

Lemma match_sound : forall s g, duration_match s = Some g ->
  groups_ok g /\
  exists e, line_end e /\
    ((no_time g /\ s = 80 :: date_text g ++ e) \/ s = 80 :: date_text g ++ 84 :: time_text g ++ e).
Proof.
  intros s g H. destruct s as [|c s0]; [discriminate|].
  unfold duration_match in H.
  destruct (N.eqb_spec c 80); [subst c|discriminate].
  destruct (scan_comp 87 s0) as [w s1] eqn:Ew. apply scan_comp_sound in Ew. destruct Ew as [-> Ow].
  destruct (scan_comp 68 s1) as [d s2] eqn:Ed. apply scan_comp_sound in Ed. destruct Ed as [-> Od].
  destruct s2 as [|t s3].
  - simpl in H. injection H as <-. unfold groups_ok, no_time. simpl. split; [tauto|].
    exists []. split; [left; reflexivity|]. left. split; [auto|].
    unfold date_text. simpl. rewrite <- app_assoc. reflexivity.
  - cbv zeta in H. destruct (N.eqb_spec t 84).
    + subst t.
      destruct (scan_comp 72 s3) as [h s4] eqn:Eh. apply scan_comp_sound in Eh. destruct Eh as [-> Oh].
      destruct (scan_comp 77 s4) as [m s5] eqn:Em. apply scan_comp_sound in Em. destruct Em as [-> Om].
      destruct (scan_secs s5) as [sf s6] eqn:Es. apply scan_secs_sound in Es. destruct Es as [-> Os].
      destruct (at_end s6) eqn:Ee; [|discriminate]. apply at_end_iff in Ee.
      injection H as <-. unfold groups_ok. cbn -[sec_text sec_ok comp_text comp_ok].
      assert (Hsf : match option_map fst sf with
                    | Some s => Some (s, match sf with Some (_, f) => f | None => None end)
                    | None => None end = sf) by (destruct sf as [[]|]; reflexivity).
      rewrite Hsf. split; [repeat split; try assumption; destruct sf as [[]|]; [discriminate|reflexivity]|].
      exists s6. split; [assumption|]. right.
      unfold date_text, time_text. cbn -[sec_text comp_text]. rewrite Hsf.
      repeat rewrite <- app_assoc. reflexivity.
    + destruct (at_end (t :: s3)) eqn:Ee; [|discriminate]. apply at_end_iff in Ee.
      injection H as <-. unfold groups_ok, no_time. simpl. split; [tauto|].
      exists (t :: s3). split; [assumption|]. left. split; [auto|].
      unfold date_text. simpl. rewrite <- app_assoc. reflexivity.
Qed.

Lemma comp_no_comp : forall l l' o r, comp_ok o -> is_digit l' = false -> l <> l' ->
  no_comp l r -> no_comp l (comp_text l' o ++ r).
Proof.
  intros l l' [s|] r Hok Hd Hne Hr; simpl; [|assumption].
  rewrite <- app_assoc. simpl. apply no_comp_other; auto. apply Hok.
Qed.

Lemma secs_no_comp : forall l o e, sec_ok o -> l <> 83 -> l <> 46 -> line_end e ->
  no_comp l (sec_text o ++ e).
Proof.
  intros l [[s [f|]]|] e Hok H1 H2 He; simpl in *.
  - rewrite <- app_assoc. simpl. apply no_comp_other; auto. apply Hok.
  - rewrite <- app_assoc. simpl. apply no_comp_other; auto. apply Hok.
  - destruct He as [->| ->]; [apply no_comp_nil|apply no_comp_nondigit; reflexivity].
Qed.

Lemma end_no_comp : forall l e, line_end e -> no_comp l e.
Proof. intros l e [->| ->]; [apply no_comp_nil|apply no_comp_nondigit; reflexivity]. Qed.

Lemma scan_comp_text : forall l o r, comp_ok o -> is_digit l = false -> no_comp l r ->
  scan_comp l (comp_text l o ++ r) = (o, r).
Proof.
  intros l [s|] r Hok Hl Hr; simpl; [|exact Hr].
  rewrite <- app_assoc. simpl. apply scan_comp_present with (n := dec_val s); auto.
  apply number_iff. simpl in Hok. tauto.
Qed.

Lemma match_complete_date : forall w d e, comp_ok w -> comp_ok d -> line_end e ->
  duration_match (80 :: comp_text 87 w ++ comp_text 68 d ++ e) = Some (mkDG w d None None None None).
Proof.
  intros w d e Hw Hd He. unfold duration_match. simpl (N.eqb 80 80). cbv iota.
  rewrite scan_comp_text; auto.
  2:{ apply comp_no_comp; auto; [lia|]. apply end_no_comp; assumption. }
  rewrite scan_comp_text; auto using end_no_comp.
  destruct He as [->| ->]; reflexivity.
Qed.

Lemma match_complete_time : forall w d h m sf e,
  comp_ok w -> comp_ok d -> comp_ok h -> comp_ok m -> sec_ok sf -> line_end e ->
  duration_match (80 :: comp_text 87 w ++ comp_text 68 d ++ 84 ::
                  comp_text 72 h ++ comp_text 77 m ++ sec_text sf ++ e)
  = Some (mkDG w d h m (option_map fst sf) (match sf with Some (_, f) => f | None => None end)).
Proof.
  intros w d h m sf e Hw Hd Hh Hm Hs He. unfold duration_match. simpl (N.eqb 80 80). cbv iota.
  rewrite scan_comp_text; auto.
  2:{ apply comp_no_comp; auto; [lia|]. apply no_comp_nondigit. reflexivity. }
  rewrite scan_comp_text; auto.
  2:{ apply no_comp_nondigit. reflexivity. }
  rewrite scan_comp_text; auto.
  2:{ apply comp_no_comp; auto; [lia|]. apply secs_no_comp; auto; lia. }
  rewrite scan_comp_text; auto.
  2:{ apply secs_no_comp; auto; lia. }
  rewrite scan_secs_complete by assumption.
  apply at_end_iff in He. rewrite He. reflexivity.
Qed.

(** Nanoseconds denoted by a set of groups. *)
Definition groups_ns (g : duration_groups) : N :=
  (comp_val (g_weeks g) * 7 + comp_val (g_days g)) * 86400 * 1000000000
  + ((comp_val (g_hours g) * 3600 + comp_val (g_minutes g) * 60) * 1000000000
     + (comp_val (g_seconds g) * 1000000000 + frac_val (g_fractional g))).

Lemma grammar_iff : forall s ns,
  duration_text s ns <-> exists g, duration_match s = Some g /\ ns = groups_ns g.
Proof.
  intros s ns. split.
  - intros [w wn d dn t tn e Hw Hd Ht He].
    apply (component_iff "W" 87 w wn eq_refl) in Hw. destruct Hw as (ow & -> & How & ->).
    apply (component_iff "D" 68 d dn eq_refl) in Hd. destruct Hd as (od & -> & Hod & ->).
    destruct Ht as [|h hn m mn sx nsx Hh Hm Hs].
    + eexists. split; [apply match_complete_date; assumption|].
      unfold groups_ns. simpl. lia.
    + apply (component_iff "H" 72 h hn eq_refl) in Hh. destruct Hh as (oh & -> & Hoh & ->).
      apply (component_iff "M" 77 m mn eq_refl) in Hm. destruct Hm as (om & -> & Hom & ->).
      apply seconds_iff in Hs. destruct Hs as (os & -> & Hos & ->).
      eexists. split.
      * change (str "P") with [80]. change (str "T") with [84]. simpl.
        repeat rewrite <- app_assoc. apply match_complete_time; assumption.
      * unfold groups_ns. cbn -[N.mul N.add pad_right]. destruct os as [[sy [fy|]]|]; cbn -[N.mul N.add pad_right]; first [reflexivity|lia].
  - intros (g & Hg & ->). apply match_sound in Hg.
    destruct Hg as ((Ow & Od & Oh & Om & Os & Of) & e & He & Hs).
    destruct g as [w d h m sc fr]. simpl in *.
    assert (Cw : component "W" (comp_text 87 w) (comp_val w))
      by (apply (component_iff "W" 87); [reflexivity|]; exists w; auto).
    assert (Cd : component "D" (comp_text 68 d) (comp_val d))
      by (apply (component_iff "D" 68); [reflexivity|]; exists d; auto).
    destruct Hs as [((Hh & Hm & Hsec) & ->)| ->]; simpl in *.
    + subst. specialize (Of eq_refl). subst. unfold date_text. simpl.
      replace (groups_ns (mkDG w d None None None None))
        with ((comp_val w * 7 + comp_val d) * 86400 * 1000000000 + 0)
        by (unfold groups_ns; simpl; lia).
      replace (80 :: (comp_text 87 w ++ comp_text 68 d) ++ e)
        with (str "P" ++ comp_text 87 w ++ comp_text 68 d ++ [] ++ e)
        by (simpl; rewrite <- app_assoc; reflexivity).
      constructor; auto. constructor.
    + unfold date_text, time_text. simpl.
      set (sf := match sc with Some s => Some (s, fr) | None => None end) in *.
      assert (Ct : time_part (str "T" ++ comp_text 72 h ++ comp_text 77 m ++ sec_text sf)
                     ((comp_val h * 3600 + comp_val m * 60) * 1000000000 + sec_val sf)).
      { constructor.
        - apply (component_iff "H" 72); [reflexivity|]. exists h; auto.
        - apply (component_iff "M" 77); [reflexivity|]. exists m; auto.
        - apply seconds_iff. exists sf; auto. }
      replace (groups_ns (mkDG w d h m sc fr))
        with ((comp_val w * 7 + comp_val d) * 86400 * 1000000000 +
              ((comp_val h * 3600 + comp_val m * 60) * 1000000000 + sec_val sf)).
      2:{ unfold groups_ns, sf. destruct sc; cbn -[N.mul N.add pad_right]; [lia|].
          rewrite (Of eq_refl). cbn -[N.mul N.add]. lia. }
      replace (80 :: (comp_text 87 w ++ comp_text 68 d) ++ 84 ::
               (comp_text 72 h ++ comp_text 77 m ++ sec_text sf) ++ e)
        with (str "P" ++ comp_text 87 w ++ comp_text 68 d ++
              (str "T" ++ comp_text 72 h ++ comp_text 77 m ++ sec_text sf) ++ e).
      2:{ change (str "P") with [80]. change (str "T") with [84]. simpl. repeat rewrite <- app_assoc. reflexivity. }
      constructor; auto.
Qed.

(** ** From groups to the timedelta *)

Lemma timedelta_new_spec : forall d s u t, (0 <= d)%Z -> (0 <= s)%Z -> (0 <= u)%Z ->
  (timedelta_new d s u = Ok t <->
   td_wf t /\ td_total t = ((d * 86400 + s) * 1000000 + u)%Z).
Proof.
  intros d s u [td ts tu] Hd Hs Hu. unfold timedelta_new.
  destruct (Z.leb_spec (Z.abs (d + (s + u / 1000000) / 86400)) 999999999); split; intros E.
  - injection E as <- <- <-. unfold td_wf, td_total. cbn -[Z.mul Z.add]. lia.
  - unfold td_wf, td_total in E. cbn -[Z.mul Z.add] in E. destruct E as ((E1 & E2 & E3) & E4).
    f_equal. f_equal; lia.
  - discriminate.
  - exfalso. unfold td_wf, td_total in E. cbn -[Z.mul Z.add] in E. lia.
Qed.

Lemma timedelta_new_err : forall d s u e, timedelta_new d s u = Err e -> e = EOverflow.
Proof. intros d s u e. unfold timedelta_new. destruct (_ <=? _)%Z; congruence. Qed.

Lemma int_or_zero_ok : forall o n, comp_ok o -> int_or_zero o = Ok n -> n = comp_val o.
Proof.
  intros [[|c s]|] n Hok H; simpl in *.
  - destruct Hok as [Hok _]. congruence.
  - unfold int_of_ascii_digits in H. destruct (_ <? _); congruence.
  - congruence.
Qed.

Lemma int_or_zero_short : forall o, comp_ok o ->
  (match o with Some s => N.of_nat (length s) <= 4300 | None => True end) ->
  int_or_zero o = Ok (comp_val o).
Proof.
  intros [[|c s]|] Hok H; simpl in *.
  - destruct Hok as [Hok _]. congruence.
  - unfold int_of_ascii_digits.
    destruct (N.ltb_spec 4300 (N.of_nat (length (c :: s)))); [|reflexivity].
    simpl length in *. lia.
  - reflexivity.
Qed.

Lemma int_or_zero_err : forall o e, int_or_zero o = Err e -> e = EValue.
Proof.
  intros [[|c s]|] e H; simpl in H; try discriminate.
  unfold int_of_ascii_digits in H. destruct (_ <? _); congruence.
Qed.

Lemma pad_right_nonnil : forall w s, s <> [] -> pad_right w s <> [].
Proof. intros w [|c s] H; [congruence|discriminate]. Qed.

Lemma pad_right_digits : forall w s, all_digits s -> all_digits (pad_right w s).
Proof. intros. apply all_digits_app; auto using all_digits_zeros. Qed.

Lemma frac_comp_ok : forall sc fr,
  sec_ok (match sc with Some s => Some (s, fr) | None => None end) ->
  (sc = None -> fr = None) -> comp_ok (option_map (pad_right 9) fr).
Proof.
  intros [s|] [f|] H H'; cbn -[pad_right] in *; auto.
  - destruct H as (_ & _ & H1 & H2 & _). auto using pad_right_nonnil, pad_right_digits.
  - specialize (H' eq_refl). discriminate.
Qed.

Lemma frac_val_comp : forall fr, comp_val (option_map (pad_right 9) fr) = frac_val fr.
Proof. intros [f|]; reflexivity. Qed.

Theorem parse_sound : forall s t, timedelta_parse s = Ok t ->
  exists ns, duration_text s ns /\ ns mod 1000 = 0 /\ td_wf t /\ td_total t = Z.of_N (ns / 1000).
Proof.
  intros s t H. unfold timedelta_parse in H.
  destruct (duration_match s) as [g|] eqn:E; [|discriminate].
  pose proof (match_sound _ _ E) as ((Ow & Od & Oh & Om & Os & Of) & _).
  exists (groups_ns g). split; [apply grammar_iff; exists g; auto|].
  unfold bind in H.
  destruct (int_or_zero (g_weeks g)) as [w|] eqn:Ew; [|discriminate].
  destruct (int_or_zero (g_days g)) as [d|] eqn:Ed; [|discriminate].
  destruct (int_or_zero (g_hours g)) as [h|] eqn:Eh; [|discriminate].
  destruct (int_or_zero (g_minutes g)) as [m|] eqn:Em; [|discriminate].
  destruct (int_or_zero (g_seconds g)) as [sc|] eqn:Es; [|discriminate].
  destruct (int_or_zero (option_map (pad_right 9) (g_fractional g))) as [f|] eqn:Ef; [|discriminate].
  apply int_or_zero_ok in Ew; [|assumption]. apply int_or_zero_ok in Ed; [|assumption].
  apply int_or_zero_ok in Eh; [|assumption]. apply int_or_zero_ok in Em; [|assumption].
  apply int_or_zero_ok in Es; [|destruct (g_seconds g); [simpl in Os; simpl; tauto|constructor]].
  apply int_or_zero_ok in Ef; [|eapply frac_comp_ok; eassumption].
  rewrite frac_val_comp in Ef.
  destruct (N.eqb_spec (f mod 1000) 0); [|discriminate]. cbn [negb] in H.
  apply timedelta_new_spec in H; try lia. destruct H as [Hwf Ht].
  unfold groups_ns. rewrite <- Ew, <- Ed, <- Eh, <- Em, <- Es, <- Ef.
  clear - Hwf Ht e. split; [|split; [assumption|]].
  - lia.
  - rewrite Ht. lia.
Qed.

Lemma comp_text_length : forall l o s r,
  comp_text l o = r -> o = Some s -> (length s <= length r)%nat.
Proof. intros l o s r <- ->. simpl. rewrite app_length. simpl. lia. Qed.

Lemma match_lengths : forall s g, duration_match s = Some g ->
  let ok o := match o with Some x => (length x <= length s)%nat | None => True end in
  ok (g_weeks g) /\ ok (g_days g) /\ ok (g_hours g) /\ ok (g_minutes g) /\ ok (g_seconds g).
Proof.
  intros s g H. apply match_sound in H. destruct H as (_ & e & _ & Hs).
  destruct g as [w d h m sc fr]. unfold no_time, date_text, time_text in Hs. simpl in Hs. simpl.
  destruct Hs as [((-> & -> & ->) & ->)| ->];
    destruct w, d; try destruct h; try destruct m; try destruct sc; try destruct fr;
    simpl; repeat (rewrite ?app_length; simpl); repeat split; try lia.
Qed.

Theorem parse_complete : forall s ns t, duration_text s ns -> ns mod 1000 = 0 ->
  N.of_nat (length s) <= 4300 ->
  td_wf t -> td_total t = Z.of_N (ns / 1000) -> timedelta_parse s = Ok t.
Proof.
  intros s ns t Hd Hmod Hlen Hwf Ht.
  apply grammar_iff in Hd. destruct Hd as (g & Hg & ->).
  unfold timedelta_parse. rewrite Hg.
  pose proof (match_sound _ _ Hg) as ((Ow & Od & Oh & Om & Os & Of) & _).
  pose proof (match_lengths _ _ Hg) as (Lw & Ld & Lh & Lm & Ls).
  assert (Os' : comp_ok (g_seconds g)) by (destruct (g_seconds g); [simpl in Os; simpl; tauto|constructor]).
  rewrite !int_or_zero_short; try assumption;
    try (match goal with |- match ?o with _ => _ end => destruct o; [lia|constructor] end).
  2:{ eapply frac_comp_ok; eassumption. }
  2:{ destruct (g_fractional g) as [f|] eqn:Ef; [|constructor]. simpl option_map. cbv iota.
      destruct (g_seconds g) as [sc|]; [|discriminate (Of eq_refl)].
      simpl in Os. unfold pad_right. rewrite app_length, repeat_length. lia. }
  unfold bind. rewrite frac_val_comp.
  unfold groups_ns in *. set (w := comp_val (g_weeks g)) in *. set (d := comp_val (g_days g)) in *.
  set (h := comp_val (g_hours g)) in *. set (m := comp_val (g_minutes g)) in *.
  set (sc := comp_val (g_seconds g)) in *. set (f := frac_val (g_fractional g)) in *.
  clearbody w d h m sc f.
  destruct (N.eqb_spec (f mod 1000) 0); [|exfalso; lia]. cbn [negb].
  apply timedelta_new_spec; try lia. split; [assumption|]. rewrite Ht. lia.
Qed.

Theorem parse_errors : forall s e, timedelta_parse s = Err e ->
  e = EJsonValue \/ e = EValue \/ e = EOverflow.
Proof.
  intros s e H. unfold timedelta_parse in H.
  destruct (duration_match s) as [g|]; [|injection H as <-; auto].
  unfold bind in H.
  repeat match type of H with
  | context [match int_or_zero ?o with _ => _ end] =>
      let E := fresh "E" in destruct (int_or_zero o) eqn:E;
      [|injection H as <-; apply int_or_zero_err in E; auto]
  end.
  destruct (negb _); [injection H as <-; auto|].
  apply timedelta_new_err in H. auto.
Qed.

(** ** Generation *)

Lemma number_dec_str : forall n, number (dec_str n) n.
Proof.
  intros. apply number_iff. split; [apply dec_str_nonnil|]. split; [apply dec_str_digits|].
  symmetry. apply dec_val_dec_str.
Qed.

Lemma number_dec_pad : forall w n, number (dec_pad w n) n.
Proof.
  intros. apply number_iff. split; [|split; [apply dec_pad_digits|symmetry; apply dec_val_dec_pad]].
  unfold dec_pad, pad_left. intros E. apply app_eq_nil in E. destruct E as [_ E].
  exact (dec_str_nonnil _ E).
Qed.

Definition gen_frac (u : Z) : pystr :=
  if negb (u mod 1000 =? 0)%Z then str "." ++ dec_pad 6 (Z.to_N u)
  else if negb (u / 1000 =? 0)%Z then str "." ++ dec_pad 3 (Z.to_N (u / 1000)) else [].

Lemma gen_secs : forall s u, (0 <= s)%Z -> (0 <= u < 1000000)%Z ->
  seconds_component (int_str s ++ gen_frac u ++ str "S")
                    (Z.to_N s * 1000000000 + Z.to_N u * 1000).
Proof.
  intros s u Hs Hu. rewrite int_str_nonneg by assumption. unfold gen_frac.
  destruct (Z.eqb_spec (u mod 1000) 0); simpl negb; cbv iota.
  - destruct (Z.eqb_spec (u / 1000) 0); simpl negb; cbv iota.
    + simpl. replace (Z.to_N s * 1000000000 + Z.to_N u * 1000) with (Z.to_N s * 1000000000) by lia.
      apply (seconds_whole (dec_str (Z.to_N s)) (Z.to_N s)). apply number_dec_str.
    + rewrite <- app_assoc.
      replace (Z.to_N u * 1000) with (Z.to_N (u / 1000) * 10 ^ (9 - N.of_nat (length (dec_pad 3 (Z.to_N (u / 1000)))))).
      * apply seconds_fraction; auto using number_dec_str, number_dec_pad.
        rewrite dec_pad_length; [lia| |lia]. change (10 ^ N.of_nat 3) with 1000. lia.
      * rewrite dec_pad_length; [|change (10 ^ N.of_nat 3) with 1000; lia|lia].
        change (10 ^ (9 - N.of_nat 3)) with 1000000. lia.
  - rewrite <- app_assoc.
    replace (Z.to_N u * 1000) with (Z.to_N u * 10 ^ (9 - N.of_nat (length (dec_pad 6 (Z.to_N u))))).
    + apply seconds_fraction; auto using number_dec_str, number_dec_pad.
      rewrite dec_pad_length; [lia| |lia]. change (10 ^ N.of_nat 6) with 1000000. lia.
    + rewrite dec_pad_length; [|change (10 ^ N.of_nat 6) with 1000000; lia|lia].
      change (10 ^ (9 - N.of_nat 6)) with 1000. lia.
Qed.

Lemma gen_time : forall s u, (0 <= s < 86400)%Z -> (0 <= u < 1000000)%Z ->
  time_part (iso8601_time_duration s u) (Z.to_N s * 1000000000 + Z.to_N u * 1000).
Proof.
  intros s u Hs Hu. unfold iso8601_time_duration. cbv zeta.
  change (if negb (u mod 1000 =? 0)%Z then str "." ++ dec_pad 6 (Z.to_N u)
          else if negb (u / 1000 =? 0)%Z then str "." ++ dec_pad 3 (Z.to_N (u / 1000)) else [])
    with (gen_frac u).
  set (h := (s / 3600)%Z). set (m := (s mod 3600 / 60)%Z). set (sc := (s mod 3600 mod 60)%Z).
  assert (E : s = (h * 3600 + m * 60 + sc)%Z) by (unfold h, m, sc; lia).
  assert (Hh : (0 <= h)%Z) by (unfold h; lia). assert (Hm : (0 <= m)%Z) by (unfold m; lia).
  assert (Hsc : (0 <= sc)%Z) by (unfold sc; lia). clearbody h m sc.
  pose proof (gen_secs sc u Hsc Hu) as G.
  assert (CH : component "H" (int_str h ++ str "H") (Z.to_N h))
    by (rewrite int_str_nonneg by assumption; apply component_present, number_dec_str).
  assert (CM : component "M" (int_str m ++ str "M") (Z.to_N m))
    by (rewrite int_str_nonneg by assumption; apply component_present, number_dec_str).
  destruct (Z.eqb_spec h 0); simpl negb; cbv iota.
  - destruct (Z.eqb_spec m 0); simpl negb; cbv iota.
    + replace (Z.to_N s * 1000000000 + Z.to_N u * 1000)
        with ((0 * 3600 + 0 * 60) * 1000000000 + (Z.to_N sc * 1000000000 + Z.to_N u * 1000)) by lia.
      change (time_part (str "T" ++ [] ++ [] ++ int_str sc ++ gen_frac u ++ str "S")
        ((0 * 3600 + 0 * 60) * 1000000000 + (Z.to_N sc * 1000000000 + Z.to_N u * 1000))).
      apply time_present; auto; apply component_absent.
    + replace (Z.to_N s * 1000000000 + Z.to_N u * 1000)
        with ((0 * 3600 + Z.to_N m * 60) * 1000000000 + (Z.to_N sc * 1000000000 + Z.to_N u * 1000)) by lia.
      replace (str "T" ++ int_str m ++ str "M" ++ int_str sc ++ gen_frac u ++ str "S")
        with (str "T" ++ [] ++ (int_str m ++ str "M") ++ int_str sc ++ gen_frac u ++ str "S")
        by (simpl; rewrite <- !app_assoc; reflexivity).
      apply (time_present [] 0 (int_str m ++ str "M") (Z.to_N m)); auto; apply component_absent.
  - replace (Z.to_N s * 1000000000 + Z.to_N u * 1000)
      with ((Z.to_N h * 3600 + Z.to_N m * 60) * 1000000000 + (Z.to_N sc * 1000000000 + Z.to_N u * 1000)) by lia.
    replace (str "T" ++ int_str h ++ str "H" ++ int_str m ++ str "M" ++ int_str sc ++ gen_frac u ++ str "S")
      with (str "T" ++ (int_str h ++ str "H") ++ (int_str m ++ str "M") ++ int_str sc ++ gen_frac u ++ str "S")
      by (rewrite <- !app_assoc; reflexivity).
    apply (time_present (int_str h ++ str "H") (Z.to_N h) (int_str m ++ str "M") (Z.to_N m)); auto.
Qed.

Lemma component_P : forall d, (0 <= d)%Z ->
  component "D" (if negb (d =? 0)%Z then int_str d ++ str "D" else []) (Z.to_N d).
Proof.
  intros d Hd. destruct (Z.eqb_spec d 0); simpl negb; cbv iota.
  - subst. apply component_absent.
  - rewrite int_str_nonneg by assumption. apply component_present, number_dec_str.
Qed.

Theorem generate_text : forall t, td_wf t -> (0 <= td_days t)%Z ->
  duration_text (timedelta_generate t) (Z.to_N (td_total t) * 1000).
Proof.
  intros [d s u] (Hd & Hs & Hu) Hp. unfold timedelta_generate, td_total. cbn [td_days td_secs td_us] in *.
  pose proof (component_P d Hp) as CD.
  set (dc := if negb (d =? 0)%Z then int_str d ++ str "D" else []) in *.
  assert (CT : time_part (if negb (s =? 0)%Z || negb (u =? 0)%Z then iso8601_time_duration s u else [])
                         (Z.to_N s * 1000000000 + Z.to_N u * 1000)).
  { destruct (negb (s =? 0)%Z || negb (u =? 0)%Z) eqn:E; [apply gen_time; assumption|].
    replace (Z.to_N s * 1000000000 + Z.to_N u * 1000) with 0 by lia. constructor. }
  set (tc := if negb (s =? 0)%Z || negb (u =? 0)%Z then iso8601_time_duration s u else []) in *.
  assert (G : duration_text (str "P" ++ dc ++ tc) (Z.to_N ((d * 86400 + s) * 1000000 + u) * 1000)).
  { replace (str "P" ++ dc ++ tc) with (str "P" ++ [] ++ dc ++ tc ++ [])
      by (rewrite app_nil_r; reflexivity).
    replace (Z.to_N ((d * 86400 + s) * 1000000 + u) * 1000)
      with ((0 * 7 + Z.to_N d) * 86400 * 1000000000 + (Z.to_N s * 1000000000 + Z.to_N u * 1000)) by lia.
    constructor; auto; [apply component_absent|left; reflexivity]. }
  destruct (dc ++ tc) as [|c r] eqn:E; [|exact G].
  apply app_eq_nil in E. destruct E as [E1 E2].
  assert (Hz : (d = 0 /\ s = 0 /\ u = 0)%Z).
  { split.
    - destruct (Z.eqb_spec d 0); [assumption|]. exfalso. unfold dc in E1. simpl in E1.
      apply app_eq_nil in E1. destruct E1; discriminate.
    - unfold tc in E2. destruct (negb (s =? 0)%Z || negb (u =? 0)%Z) eqn:Ez; [|lia].
      exfalso. revert E2. unfold iso8601_time_duration.
      destruct (negb (s / 3600 =? 0)%Z); [discriminate|].
      destruct (negb (s mod 3600 / 60 =? 0)%Z); discriminate. }
  destruct Hz as (-> & -> & ->). clear.
  apply grammar_iff. eexists. split; reflexivity.
Qed.

Lemma td_total_inj : forall a b, td_wf a -> td_wf b -> td_total a = td_total b -> a = b.
Proof.
  intros [d s u] [d' s' u'] H1 H2 E. unfold td_wf, td_total in *. cbn [td_days td_secs td_us] in *.
  f_equal; lia.
Qed.

Lemma dec_str_small : forall n, n < 10 ^ 10 -> (length (dec_str n) <= 10)%nat.
Proof. intros. apply dec_str_length; [|lia]. exact H. Qed.

Lemma generate_length : forall t, td_wf t -> (0 <= td_days t)%Z ->
  N.of_nat (length (timedelta_generate t)) <= 4300.
Proof.
  intros [d s u] (Hd & Hs & Hu) Hp. unfold timedelta_generate. cbn [td_days td_secs td_us] in *.
  assert (L : forall z, (0 <= z < 10000000000)%Z -> (length (int_str z) <= 10)%nat).
  { intros z Hz. rewrite int_str_nonneg by lia. apply dec_str_small. lia. }
  assert (LT : (length (iso8601_time_duration s u) <= 50)%nat).
  { unfold iso8601_time_duration. cbv zeta.
  change (if negb (u mod 1000 =? 0)%Z then str "." ++ dec_pad 6 (Z.to_N u)
          else if negb (u / 1000 =? 0)%Z then str "." ++ dec_pad 3 (Z.to_N (u / 1000)) else [])
    with (gen_frac u).
    assert (LF : (length (gen_frac u) <= 7)%nat).
    { unfold gen_frac. destruct (negb (u mod 1000 =? 0)%Z).
      - rewrite app_length, dec_pad_length; [simpl; lia| |lia]. change (10 ^ N.of_nat 6) with 1000000. lia.
      - destruct (negb (u / 1000 =? 0)%Z); [|simpl; lia].
        rewrite app_length, dec_pad_length; [simpl; lia| |lia]. change (10 ^ N.of_nat 3) with 1000. lia. }
    pose proof (L (s / 3600)%Z ltac:(lia)). pose proof (L (s mod 3600 / 60)%Z ltac:(lia)).
    pose proof (L (s mod 3600 mod 60)%Z ltac:(lia)).
    destruct (negb (s / 3600 =? 0)%Z); [|destruct (negb (s mod 3600 / 60 =? 0)%Z)];
      rewrite ?app_length; simpl length; lia. }
  pose proof (L d ltac:(lia)) as LD.
  set (dc := if negb (d =? 0)%Z then int_str d ++ str "D" else []).
  assert (LD' : (length dc <= 11)%nat)
    by (unfold dc; destruct (negb (d =? 0)%Z); rewrite ?app_length; simpl; lia).
  set (tc := if negb (s =? 0)%Z || negb (u =? 0)%Z then iso8601_time_duration s u else []).
  assert (LT' : (length tc <= 50)%nat)
    by (unfold tc; destruct (negb (s =? 0)%Z || negb (u =? 0)%Z); [assumption|simpl; lia]).
  pose proof (app_length dc tc) as Hl.
  destruct (dc ++ tc) as [|c r]; [vm_compute; discriminate|].
  rewrite app_length, Hl. simpl length. lia.
Qed.

Theorem roundtrip : forall t, td_wf t -> (0 <= td_days t)%Z ->
  timedelta_parse (timedelta_generate t) = Ok t.
Proof.
  intros t Hwf Hp.
  eapply parse_complete.
  - apply generate_text; assumption.
  - apply N.mod_mul. lia.
  - apply generate_length; assumption.
  - assumption.
  - rewrite N.div_mul by lia. unfold td_wf, td_total in *. lia.
Qed.

Lemma generate_nonneg_head : forall t, td_wf t -> (0 <= td_days t)%Z ->
  exists r, timedelta_generate t = 80 :: r /\ (forall r', r <> 45 :: r').
Proof.
  intros t Hwf Hp. pose proof (generate_text t Hwf Hp) as G.
  apply grammar_iff in G. destruct G as (g & Hg & _). apply match_sound in Hg.
  destruct Hg as ((Ow & Od & _) & e & He & Hs). unfold date_text in Hs.
  assert (Hh : forall l o r r', comp_ok o -> (forall r'', r <> 45 :: r'') -> comp_text l o ++ r <> 45 :: r').
  { intros l [x|] r r' Hok Hr; simpl; [|apply Hr]. destruct x as [|c x]; [destruct Hok; congruence|].
    simpl. intros E. injection E as -> _. destruct Hok as [_ Hok]. inversion Hok; subst. discriminate. }
  destruct Hs as [(_ & ->)| ->]; (eexists; split; [reflexivity|]); intros r'; rewrite <- app_assoc;
    apply Hh; auto; intros r''; apply Hh; auto; try discriminate.
  intros r3. destruct He as [->| ->]; discriminate.
Qed.

Lemma generate_negative : forall d s u, (d < 0)%Z ->
  exists r, timedelta_generate (mkTD (-d) s u) = 80 :: r /\ timedelta_generate (mkTD d s u) = 80 :: 45 :: r.
Proof.
  intros d s u Hd. unfold timedelta_generate. cbn [td_days td_secs td_us].
  destruct d as [|p|p]; try lia. cbn [Z.opp Z.eqb negb int_str].
  destruct (dec_str (N.pos p)) as [|c l] eqn:E; [destruct (dec_str_nonnil _ E)|].
  simpl. eexists. split; reflexivity.
Qed.

Theorem generate_injective : forall a b, td_wf a -> td_wf b ->
  timedelta_generate a = timedelta_generate b -> a = b.
Proof.
  assert (POS : forall a b, td_wf a -> td_wf b -> (0 <= td_days a)%Z -> (0 <= td_days b)%Z ->
    timedelta_generate a = timedelta_generate b -> a = b).
  { intros a b Ha Hb Pa Pb E. pose proof (roundtrip a Ha Pa) as Ra. pose proof (roundtrip b Hb Pb) as Rb.
    rewrite E in Ra. congruence. }
  assert (MIX : forall a b, td_wf a -> td_wf b -> (0 <= td_days a)%Z -> (td_days b < 0)%Z ->
    timedelta_generate a = timedelta_generate b -> False).
  { intros a [d s u] Ha Hb Pa Nb E. destruct (generate_nonneg_head a Ha Pa) as (r & Er & Hr).
    destruct (generate_negative d s u Nb) as (r' & _ & Er'). rewrite Er, Er' in E. injection E as E.
    exact (Hr _ E). }
  intros a b Ha Hb E.
  destruct (Z_lt_le_dec (td_days a) 0) as [Na|Pa]; destruct (Z_lt_le_dec (td_days b) 0) as [Nb|Pb].
  - destruct a as [d s u], b as [d' s' u']. cbn [td_days] in *.
    destruct (generate_negative d s u Na) as (r & E1 & E2).
    destruct (generate_negative d' s' u' Nb) as (r' & E1' & E2').
    assert (r = r') by congruence. subst r'.
    assert (EQ : mkTD (-d) s u = mkTD (-d') s' u').
    { unfold td_wf in *. cbn [td_days td_secs td_us] in *.
      apply POS; cbn [td_days]; try lia; try congruence; unfold td_wf; cbn [td_days td_secs td_us]; lia. }
    injection EQ as E3 -> ->. f_equal. lia.
  - exfalso. apply (MIX b a); auto.
  - exfalso. apply (MIX a b); auto.
  - apply POS; auto.
Qed.

Theorem negative_rejected : forall t, td_wf t -> (td_days t < 0)%Z ->
  timedelta_parse (timedelta_generate t) = Err EJsonValue.
Proof.
  intros [d s u] Hwf Hn. destruct (generate_negative d s u Hn) as (r & _ & ->). destruct r; reflexivity.
Qed.

Lemma roundtrip_fails : exists t, td_wf t /\ timedelta_parse (timedelta_generate t) <> Ok t.
Proof.
  exists (mkTD (-1) 86399 0). split; [repeat split; vm_compute; congruence|]. vm_compute. congruence.
Qed.
