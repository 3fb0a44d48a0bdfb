(** [py_eq] is equality. *)
From Coq Require Import String List NArith ZArith QArith Bool Lia.
From Verif Require Import Base Json IsoTime SpecIsoTime IsoTimeProofs TimeDelta Addresses PyTypes SpecNumbers NumbersProofs SpecEqual.
Import ListNotations.
Open Scope list_scope.
Open Scope N_scope.

(** * Days of the calendar *)
Lemma div_succ : forall z k, 0 < k -> (z + 1) / k = z / k + (if (z + 1) mod k =? 0 then 1 else 0).
Proof.
  intros z k K. pose proof (N.div_mod z k) as D. pose proof (N.mod_lt z k) as L.
  destruct (N.eq_dec (z mod k + 1) k) as [Q|Q].
  - assert (H : (z + 1) / k = z / k + 1 /\ (z + 1) mod k = 0).
    { split; symmetry; [eapply N.div_unique with (r := 0) | eapply N.mod_unique with (q := z / k + 1)]; nia. }
    destruct H as [-> ->]. reflexivity.
  - assert (H : (z + 1) / k = z / k /\ (z + 1) mod k = z mod k + 1).
    { split; symmetry; [eapply N.div_unique with (r := z mod k + 1) | eapply N.mod_unique with (q := z / k)]; nia. }
    destruct H as [-> ->]. destruct (N.eqb_spec (z mod k + 1) 0); lia.
Qed.

Lemma mod_0_divide : forall n a b, b <> 0 -> n mod (a * b) = 0 -> a <> 0 -> n mod b = 0.
Proof.
  intros n a b B H A. apply N.mod_divide; [exact B|]. apply N.mod_divide in H; [|nia]. destruct H as [q ->]. exists (q * a). nia.
Qed.

Lemma next_year : forall z, days_before_year (z + 2) = days_before_year (z + 1) + days_in_year (z + 1).
Proof.
  intros z. unfold days_before_year, days_in_year, is_leap.
  replace (z + 2 - 1) with (z + 1) by lia. replace (z + 1 - 1) with z by lia.
  rewrite (div_succ z 4), (div_succ z 100), (div_succ z 400) by lia.
  assert (A : (z + 1) mod 100 = 0 -> (z + 1) mod 4 = 0) by (intros H; apply (mod_0_divide _ 25 4); [lia | exact H | lia]).
  assert (B : (z + 1) mod 400 = 0 -> (z + 1) mod 100 = 0) by (intros H; apply (mod_0_divide _ 4 100); [lia | exact H | lia]).
  assert (C : z / 100 <= z / 4) by (apply N.div_le_compat_l; lia).
  destruct (N.eqb_spec ((z + 1) mod 4) 0), (N.eqb_spec ((z + 1) mod 100) 0), (N.eqb_spec ((z + 1) mod 400) 0); cbn [negb andb orb]; lia.
Qed.

Lemma day_bounds : forall d k, day d k -> 1 <= d_year d /\ 1 <= d_month d.
Proof. intros d k H. induction H; cbn [d_year d_month] in *; lia. Qed.

Lemma ordinal_year : forall y, date_ordinal (mkDate y 12 31) = Z.of_N (days_before_year y + days_in_year y).
Proof.
  intros y. unfold date_ordinal. cbn [d_year d_month d_day]. change (seq 1 (N.to_nat 12 - 1)) with [1; 2; 3; 4; 5; 6; 7; 8; 9; 10; 11]%nat.
  cbn [map fold_left N.of_nat]. unfold days_in_month, days_in_year. cbn. destruct (is_leap y); cbn; lia.
Qed.

Lemma day_ordinal : forall d k, day d k -> k = date_ordinal d.
Proof.
  intros d k H. induction H as [|y m d n k H IH L D|y m n k H IH L M|y k H IH].
  - reflexivity.
  - rewrite IH. unfold date_ordinal. cbn [d_year d_month d_day]. lia.
  - rewrite IH. apply day_bounds in H. cbn [d_year d_month] in H. apply month_length_fun in L. destruct L as [_ L].
    unfold date_ordinal. cbn [d_year d_month d_day]. replace (N.to_nat (m + 1) - 1)%nat with (Datatypes.S (N.to_nat m - 1)) by lia.
    rewrite seq_S, map_app, fold_left_app. cbn [map fold_left]. replace (N.of_nat (1 + (N.to_nat m - 1))) with m by lia. rewrite L. lia.
  - rewrite IH, ordinal_year. apply day_bounds in H. cbn [d_year d_month] in H. unfold date_ordinal. cbn [d_year d_month d_day].
    change (seq 1 (N.to_nat 1 - 1)) with (@nil nat). cbn [map fold_left].
    pose proof (next_year (y - 1)) as Q. replace (y - 1 + 2) with (y + 1) in Q by lia. replace (y - 1 + 1) with y in Q by lia. rewrite Q. lia.
Qed.

Lemma days_of_month : forall y m n k, day (mkDate y m 1) k -> month_length y m n -> forall d, 1 <= d -> d <= n -> exists j, day (mkDate y m d) j.
Proof.
  intros y m n k H L d. induction d as [|d IH] using N.peano_ind; intros A B; [lia|].
  destruct (N.eq_dec d 0) as [-> |Q]; [exists k; exact H|]. destruct IH as [j J]; [lia|lia|]. exists (j + 1)%Z. rewrite <- N.add_1_r. eapply day_next; [exact J | exact L | lia].
Qed.

Lemma month_lengths : forall y m, 1 <= m <= 12 -> 1 <= days_in_month y m.
Proof. intros y m _. unfold days_in_month. destruct (m =? 2); [destruct (is_leap y); lia|]. destruct (_ || _); lia. Qed.

Lemma months_of_year : forall y k, day (mkDate y 1 1) k -> forall m, 1 <= m -> m <= 12 -> exists j, day (mkDate y m 1) j.
Proof.
  intros y k H m. induction m as [|m IH] using N.peano_ind; intros A B; [lia|].
  destruct (N.eq_dec m 0) as [-> |Q]; [exists k; exact H|]. destruct IH as [j J]; [lia|lia|].
  assert (M : 1 <= m <= 12) by lia. pose proof (days_in_month_spec y m M) as L. pose proof (month_lengths y m M) as P.
  destruct (days_of_month _ _ _ _ J L _ P (N.le_refl _)) as [i I]. exists (i + 1)%Z. rewrite <- N.add_1_r. eapply day_month; [exact I | exact L | lia].
Qed.

Lemma years : forall y, 1 <= y -> exists k, day (mkDate y 1 1) k.
Proof.
  intros y. induction y as [|y IH] using N.peano_ind; intros A; [lia|].
  destruct (N.eq_dec y 0) as [-> |Q]; [exists 1%Z; exact day_first|]. destruct IH as [k K]; [lia|].
  destruct (months_of_year _ _ K 12) as [j J]; [lia|lia|].
  destruct (days_of_month _ _ 31 _ J) with (d := 31) as [i I]; [left; split; [cbn; tauto | reflexivity]|lia|lia|].
  exists (i + 1)%Z. rewrite <- N.add_1_r. apply day_year. exact I.
Qed.

Lemma day_exists : forall d, date_wf d -> day d (date_ordinal d).
Proof.
  intros [y m d] [Y (n & L & D)]. cbn [d_year d_month d_day] in *.
  destruct (years y) as [k K]; [lia|]. pose proof (proj1 (month_length_fun _ _ _ L)) as M.
  destruct (months_of_year _ _ K m) as [j J]; [lia|lia|]. destruct (days_of_month _ _ _ _ J L d) as [i I]; [lia|lia|].
  rewrite <- (day_ordinal _ _ I). exact I.
Qed.

Lemma clock_us : forall t, time_us t = clock t.
Proof. intros t. unfold time_us, clock. lia. Qed.

(** * Numbers *)
Definition as_json (v : value) : json :=
  match v with VBool b => JBool b | VInt z => JInt z | VFloat f => JFloat f | _ => JNull end.

Lemma value_number_spec : forall a b x y, value_number a = Some x -> value_number b = Some y -> forall E,
  (number_eqb x y = true <-> equal E a b).
Proof.
  intros a b x y A B E.
  assert (X : as_number (as_json a) = Some x) by (destruct a; try discriminate A; exact A).
  assert (Y : as_number (as_json b) = Some y) by (destruct b; try discriminate B; exact B).
  transitivity (scalar_eqb (as_json a) (as_json b) = true). { unfold scalar_eqb. rewrite X, Y. reflexivity. }
  rewrite scalar_eqb_spec.
  assert (NA : forall q, numeric (as_json a) q <-> amount a q).
  { intros q. destruct a; try discriminate A; cbn [as_json]; split; intros H; inversion H; subst; constructor; assumption. }
  assert (NB : forall q, numeric (as_json b) q <-> amount b q).
  { intros q. destruct b; try discriminate B; cbn [as_json]; split; intros H; inversion H; subst; constructor; assumption. }
  split.
  - intros H. inversion H as [Q1 Q2|s Q1 Q2|u v q r U V Q Q1 Q2|neg Q1 Q2].
    + destruct a; try discriminate A; discriminate Q1.
    + destruct a; try discriminate A; discriminate Q1.
    + eapply eq_number; [apply NA; exact U | apply NB; exact V | exact Q].
    + destruct a; try discriminate A; try discriminate Q1. destruct b; try discriminate B; try discriminate Q2.
      injection Q1 as <-. injection Q2 as <-. apply eq_atom. constructor.
  - intros H. inversion H as [v V Q1 Q2|u v q r U V Q Q1 Q2| | |u v vs ws U V F Q1 Q2|]; subst; try discriminate A.
    + destruct V; try discriminate A. constructor.
    + eapply je_num; [apply NA; exact U | apply NB; exact V | exact Q].
    + destruct U; discriminate A.
Qed.

Lemma number_amount : forall a q, amount a q -> exists x, value_number a = Some x.
Proof. intros a q H. destruct H; eexists; reflexivity. Qed.

Lemma tuple_like_spec : forall E c, tuple_like E c = true <->
  exists cl, get_class E c = Some cl /\ ((exists fs, c_kind cl = CTuple fs) \/ exists xs, c_kind cl = CRawTuple xs).
Proof.
  intros E c. unfold tuple_like. destruct (get_class E c) as [cl|].
  - split.
    + intros H. exists cl. split; [reflexivity|]. destruct (c_kind cl); try discriminate H; [left|right]; eexists; reflexivity.
    + intros (cl' & Q & [(fs & K)|(fs & K)]); injection Q as <-; rewrite K; reflexivity.
  - split; [discriminate|]. intros (cl & Q & _). discriminate Q.
Qed.

Lemma is_frozen_spec : forall E c, is_frozen E c = true <-> exists cl fs, get_class E c = Some cl /\ c_kind cl = CData true fs.
Proof.
  intros E c. unfold is_frozen. destruct (get_class E c) as [cl|].
  - split.
    + intros H. destruct (c_kind cl) eqn:K; try discriminate H. match goal with K : _ = CData ?f ?fs |- _ => destruct f; [|discriminate H]; exists cl, fs; auto end.
    + intros (cl' & fs & Q & K). injection Q as <-. rewrite K. reflexivity.
  - split; [discriminate|]. intros (cl & fs & Q & _). discriminate Q.
Qed.

(** * Objects *)
Lemma go_list : forall (f : value -> value -> bool) (x : list (pystr * value)) y,
  (fix go (l : list (pystr * value)) (l' : list value) : bool :=
     match l, l' with [], [] => true | kv :: r, v :: r' => f (snd kv) v && go r r' | _, _ => false end) x y = list_eqb f (map snd x) y.
Proof. intros f x. induction x as [|kv x IH]; intros [|v y]; try reflexivity. cbn [map list_eqb]. rewrite <- IH. reflexivity. Qed.

Lemma go_pairs : forall (f : value -> value -> bool) (x y : list (pystr * value)),
  (fix go (l l' : list (pystr * value)) : bool :=
     match l, l' with [], [] => true | kv :: r, kv' :: r' => f (snd kv) (snd kv') && go r r' | _, _ => false end) x y
  = list_eqb f (map snd x) (map snd y).
Proof. intros f x. induction x as [|kv x IH]; intros [|v y]; try reflexivity. cbn [map list_eqb]. rewrite <- IH. reflexivity. Qed.

Lemma py_eq_obj_tuple : forall E c x y, py_eq E (VObj c x) (VTuple y) = tuple_like E c && list_eqb (py_eq E) (map snd x) y.
Proof. intros E c x y. rewrite <- go_list. reflexivity. Qed.

Lemma py_eq_obj : forall E c x d y, py_eq E (VObj c x) (VObj d y) =
  ((tuple_like E c && tuple_like E d) || (Nat.eqb c d && is_frozen E c)) && list_eqb (py_eq E) (map snd x) (map snd y).
Proof. intros E c x d y. rewrite <- go_pairs. reflexivity. Qed.

Definition agrees_on (E : env) (a : value) : Prop :=
  calendar_dates a -> forall b, calendar_dates b -> (py_eq E a b = true <-> equal E a b).

Lemma list_spec : forall E vs, Forall (agrees_on E) vs -> (forall v, In v vs -> calendar_dates v) ->
  forall ws, (forall w, In w ws -> calendar_dates w) -> (list_eqb (py_eq E) vs ws = true <-> Forall2 (equal E) vs ws).
Proof.
  intros E vs H. induction H as [|v vs H F IH]; intros CV [|w ws] CW; cbn [list_eqb].
  - split; [constructor | reflexivity].
  - split; [discriminate | intros X; inversion X].
  - split; [discriminate | intros X; inversion X].
  - rewrite andb_true_iff, (H (CV v (or_introl eq_refl)) w (CW w (or_introl eq_refl))), (IH (fun u U => CV u (or_intror U)) ws (fun u U => CW u (or_intror U))).
    split; [intros [A B]; constructor; assumption | intros X; inversion X; auto].
Qed.

Lemma cal_tuple : forall vs, calendar_dates (VTuple vs) -> forall v, In v vs -> calendar_dates v.
Proof. intros vs H v I d D. apply H. eapply in_tuple; eassumption. Qed.
Lemma cal_obj : forall c x, calendar_dates (VObj c x) -> forall v, In v (map snd x) -> calendar_dates v.
Proof. intros c x H v I d D. apply H. apply in_map_iff in I. destruct I as ([n w] & <- & I). eapply in_object; eassumption. Qed.

Ltac parts := repeat match goal with
  | H : amount _ _ |- _ => inversion H; clear H
  | H : items _ _ _ |- _ => inversion H; clear H
  end.
Ltac differs := split; [intros H; cbn in H; discriminate H | intros H; inversion H; subst; parts; discriminate].

Lemma opt_str_eqb_eq : forall a b, opt_str_eqb a b = true <-> a = b.
Proof.
  intros [a|] [b|]; cbn [opt_str_eqb]; try (split; [discriminate|intros Q; discriminate Q]); [|split; reflexivity].
  rewrite pystr_eqb_eq. split; [intros ->; reflexivity | intros Q; injection Q as ->; reflexivity].
Qed.

Lemma same_atom : forall E (p : bool) v w, (p = true <-> v = w) -> atom v -> (equal E v w -> v = w) -> (p = true <-> equal E v w).
Proof. intros E p v w P A I. rewrite P. split; [intros <-; apply eq_atom; exact A | exact I]. Qed.

Ltac atomic := apply same_atom; [| constructor | intros H; inversion H; subst; parts; try discriminate; try reflexivity].

Lemma scalar_agrees : forall E v, match v with VList _ | VTuple _ | VSet _ | VDict _ | VObj _ _ => True | _ => agrees_on E v end.
Proof.
  intros E v. destruct v; try exact Logic.I; intros CA w CB; destruct w; try solve [differs];
    try (eapply value_number_spec; reflexivity).
  - atomic. split; reflexivity.
  - cbn [py_eq value_number]. atomic. rewrite pystr_eqb_eq. split; [intros ->; reflexivity | intros Q; injection Q as ->; reflexivity].
  - cbn [py_eq value_number]. atomic. rewrite pystr_eqb_eq. split; [intros ->; reflexivity | intros Q; injection Q as ->; reflexivity].
  - cbn [py_eq value_number]. pose proof (day_exists _ (CA _ (in_self _))) as DA. pose proof (day_exists _ (CB _ (in_self _))) as DB.
    unfold datetime_eqb. rewrite !clock_us. split.
    + intros H. eapply eq_datetime; [eexists; split; [exact DA | reflexivity] | eexists; split; [exact DB | reflexivity] |].
      destruct (t_off (dt_time d)), (t_off (dt_time d0)); try discriminate H; apply Z.eqb_eq in H; unfold same_instant; lia.
    + intros H. inversion H as [? V| | ? ? x y (j & J & X) (k & K & Y) S Q1 Q2| | |]; subst; parts; [inversion V|].
      apply day_ordinal in J. apply day_ordinal in K. subst j k. unfold same_instant in S.
      destruct (t_off (dt_time d)), (t_off (dt_time d0)); try contradiction; apply Z.eqb_eq; lia.
  - cbn [py_eq value_number]. atomic. destruct d as [y m d], d0 as [y' m' d']. unfold date_eqb. cbn [d_year d_month d_day].
    rewrite !andb_true_iff, !N.eqb_eq. split; [intros [[-> ->] ->]; reflexivity | intros Q; injection Q as -> -> ->; auto].
  - cbn [py_eq value_number]. unfold time_eqb. rewrite !clock_us. split.
    + intros H. apply eq_time. destruct (t_off t), (t_off t0); try discriminate H; apply Z.eqb_eq in H; exact H.
    + intros H. inversion H as [? V| | | ? ? S Q1 Q2| |]; subst; parts; [inversion V|]. unfold same_instant in S.
      destruct (t_off t), (t_off t0); try contradiction; apply Z.eqb_eq; assumption.
  - cbn [py_eq value_number]. atomic. destruct t as [y m d], t0 as [y' m' d']. unfold td_eqb. cbn [td_days td_secs td_us].
    rewrite !andb_true_iff, !Z.eqb_eq. split; [intros [[-> ->] ->]; reflexivity | intros Q; injection Q as -> -> ->; auto].
  - cbn [py_eq value_number]. atomic. rewrite N.eqb_eq. split; [intros ->; reflexivity | intros Q; injection Q as ->; reflexivity].
  - cbn [py_eq value_number]. atomic. rewrite N.eqb_eq. split; [intros ->; reflexivity | intros Q; injection Q as ->; reflexivity].
  - cbn [py_eq value_number]. atomic. destruct a as [u s], a0 as [u' s']. cbn [ip6_addr ip6_scope].
    rewrite andb_true_iff, N.eqb_eq, opt_str_eqb_eq. split; [intros [-> ->]; reflexivity | intros Q; injection Q as -> ->; auto].
  - cbn [py_eq value_number]. atomic. rewrite andb_true_iff, Nat.eqb_eq, pystr_eqb_eq. split; [intros [-> ->]; reflexivity | intros Q; injection Q as -> ->; auto].
  - split; [intros H; cbn in H; discriminate H|]. intros H. inversion H as [? V| | | | |]; subst; parts; inversion V.
Qed.

Lemma nothing_equal : forall E a b, py_eq E a b = false -> ~ equal E a b -> (py_eq E a b = true <-> equal E a b).
Proof. intros E a b P N. rewrite P. split; [discriminate | intros H; destruct (N H)]. Qed.

Theorem py_eq_spec : forall E a, agrees_on E a.
Proof.
  intros E. apply (value_induct (agrees_on E)); [|intros vs _|intros vs IH|intros vs _|intros kvs _|intros c x IH].
  - apply scalar_agrees.
  - intros _ b _. apply nothing_equal; [destruct b; reflexivity|]. intros H. inversion H as [? V| | | | |]; subst; parts; inversion V.
  - intros CA b CB. destruct b; try solve [differs].
    + change (py_eq E (VTuple vs) (VTuple vs0)) with (list_eqb (py_eq E) vs vs0). rewrite (list_spec E vs IH (cal_tuple _ CA) vs0 (cal_tuple _ CB)). split.
      * intros F. eapply eq_items; [constructor | constructor | exact F].
      * intros H. inversion H as [? V| | | |? ? us ws U W F|]; subst; [inversion V|parts|]. inversion U; subst. inversion W; subst. exact F.
    + change (py_eq E (VTuple vs) (VObj c attrs)) with (tuple_like E c && list_eqb (py_eq E) vs (map snd attrs)).
      rewrite andb_true_iff, tuple_like_spec, (list_spec E vs IH (cal_tuple _ CA) _ (cal_obj _ _ CB)). split.
      * intros [(cl & G & K) F]. eapply eq_items; [constructor | econstructor; eassumption | exact F].
      * intros H. inversion H as [| | | |? ? us ws U W F|]; subst; [parts|]. inversion U; subst. inversion W as [|? cl ? G K]; subst. split; [exists cl; auto | exact F].
  - intros _ b _. apply nothing_equal; [destruct b; reflexivity|]. intros H. inversion H as [? V| | | | |]; subst; parts; inversion V.
  - intros _ b _. apply nothing_equal; [destruct b; reflexivity|]. intros H. inversion H as [? V| | | | |]; subst; parts; inversion V.
  - assert (IH' : Forall (agrees_on E) (map snd x)) by (apply Forall_map; exact IH). clear IH.
    intros CA b CB. destruct b; try solve [differs].
    + rewrite py_eq_obj_tuple, andb_true_iff, tuple_like_spec, (list_spec E _ IH' (cal_obj _ _ CA) _ (cal_tuple _ CB)). split.
      * intros [(cl & G & K) F]. eapply eq_items; [econstructor; eassumption | constructor | exact F].
      * intros H. inversion H as [| | | |? ? us ws U W F|]; subst; [parts|]. inversion W; subst. inversion U as [|? cl ? G K]; subst. split; [exists cl; auto | exact F].
    + rewrite py_eq_obj, andb_true_iff, orb_true_iff, !andb_true_iff, !tuple_like_spec, is_frozen_spec, Nat.eqb_eq, (list_spec E _ IH' (cal_obj _ _ CA) _ (cal_obj _ _ CB)). split.
      * intros [[[(cl & G & K) (cl' & G' & K')]|[-> (cl & fs & G & K)]] F].
        -- eapply eq_items; [econstructor; eassumption | econstructor; eassumption | exact F].
        -- eapply eq_frozen; eassumption.
      * intros H. inversion H as [? V| | | |? ? us ws U W F|? cl fs ? ? G K F]; subst; [inversion V|parts| |].
        -- inversion U as [|? cl ? G K]; subst. inversion W as [|? cl' ? G' K']; subst. split; [left; split; [exists cl | exists cl']; auto | exact F].
        -- split; [right; split; [reflexivity | exists cl, fs; auto] | exact F].
Qed.
