(** Conversion of integers to floats; equality of numbers. *)
From Coq Require Import List NArith ZArith QArith Qabs Qpower Bool Lia Lqa Qfield ZifyBool ZifyN ZifyNat.
From Verif Require Import Base Json SpecNumbers.
Import ListNotations.
Open Scope list_scope.
Open Scope Z_scope.

Definition P52 : Z := 2 ^ 52.

(** * Rounding, in integers *)

(** [rounds a v]: [v] is the result of rounding [a]. *)
Inductive rounds (a : Z) : Z -> Prop :=
| r_exact : 0 <= a < 2 * P52 -> rounds a a
| r_round : forall s q r q', 0 <= s -> P52 <= q < 2 * P52 -> 0 <= r < 2 * 2 ^ s ->
    a = q * (2 * 2 ^ s) + r ->
    (r < 2 ^ s /\ q' = q \/ 2 ^ s < r /\ q' = q + 1 \/
     r = 2 ^ s /\ q' = q /\ Z.even q = true \/ r = 2 ^ s /\ q' = q + 1 /\ Z.even q = false) ->
    rounds a (q' * (2 * 2 ^ s)).

Lemma pow2_pos : forall e, 0 <= e -> 0 < 2 ^ e.
Proof. intros. apply Z.pow_pos_nonneg; lia. Qed.

Lemma round53_rounds : forall a, rounds (Z.of_N a) (Z.of_N (round53 a)).
Proof.
  intros a. unfold round53.
  destruct (N.leb_spec (N.log2 a + 1) 53).
  - apply r_exact. split; [lia|]. destruct (N.eq_dec a 0) as [->|NZ]; [reflexivity|].
    pose proof (N.log2_spec a ltac:(lia)) as [_ L].
    assert (2 ^ N.succ (N.log2 a) <= 2 ^ 53)%N by (apply N.pow_le_mono_r; lia).
    change (2 * P52) with (Z.of_N (2 ^ 53)). lia.
  - assert (NZ : (0 < a)%N).
    { destruct (N.eq_dec a 0) as [->|]; [cbn in H; lia | lia]. }
    pose proof (N.log2_spec a NZ) as [L1 L2].
    set (sh := (N.log2 a + 1 - 53)%N) in *. set (s := Z.of_N (sh - 1)).
    assert (E1 : (2 ^ sh = 2 * 2 ^ (sh - 1))%N).
    { replace sh with (N.succ (sh - 1)) at 1 by lia. rewrite N.pow_succ_r by lia. reflexivity. }
    assert (E2 : Z.of_N (2 ^ (sh - 1)) = 2 ^ s) by (unfold s; rewrite N2Z.inj_pow; reflexivity).
    assert (E3 : Z.of_N (2 ^ sh) = 2 * 2 ^ s) by (rewrite E1; lia).
    pose proof (pow2_pos s ltac:(lia)) as PS.
    pose proof (N.div_mod a (2 ^ sh) ltac:(lia)) as DM.
    pose proof (N.mod_lt a (2 ^ sh) ltac:(lia)) as ML.
    set (q := (a / 2 ^ sh)%N) in *. set (r := (a mod 2 ^ sh)%N) in *.
    assert (QB : P52 <= Z.of_N q < 2 * P52).
    { assert (A1 : (2 ^ N.log2 a = 2 ^ 52 * 2 ^ sh)%N) by (rewrite <- N.pow_add_r; f_equal; lia).
      assert (A2 : (2 ^ N.succ (N.log2 a) = 2 ^ 53 * 2 ^ sh)%N) by (rewrite <- N.pow_add_r; f_equal; lia).
      rewrite A1 in L1. rewrite A2 in L2.
      change P52 with (Z.of_N (2 ^ 52)).
      assert (X1 : (2 ^ 52 <= q)%N) by (apply N.div_le_lower_bound; lia).
      assert (X2 : (q < 2 ^ 53)%N) by (apply N.div_lt_upper_bound; lia).
      change (2 * Z.of_N (2 ^ 52)) with (Z.of_N (2 ^ 53)). lia. }
    match goal with |- rounds _ (Z.of_N (?q' * _)) => set (qq := q') end.
    rewrite N2Z.inj_mul, E3.
    apply (r_round _ s (Z.of_N q) (Z.of_N r)); try lia.
    subst qq. rewrite <- E2.
    assert (EV : Z.even (Z.of_N q) = N.even q).
    { destruct q; [reflexivity|]. reflexivity. }
    rewrite EV.
    destruct (N.ltb_spec r (2 ^ (sh - 1))); [left; lia|].
    destruct (N.ltb_spec (2 ^ (sh - 1)) r); [right; left; lia|].
    destruct (N.even q); [right; right; left; lia | right; right; right; lia].
Qed.

(** * Doubles as integers and halves *)

Lemma qpower_pos : forall e, (0 < Qpower 2 e)%Q.
Proof.
  intros e. assert (H : (0 <= Qpower 2 e)%Q) by (apply Qpower_pos; discriminate).
  assert (N : ~ (Qpower 2 e == 0)%Q) by (apply Qpower_not_0; discriminate).
  apply Qle_lteq in H. destruct H as [H|H]; [exact H|]. exfalso. apply N. symmetry. exact H.
Qed.

Lemma qpower_nonneg : forall e, 0 <= e -> (Qpower 2 e == inject_Z (2 ^ e))%Q.
Proof. intros e H. rewrite Zpower_Qpower by exact H. reflexivity. Qed.

Lemma qpower_le : forall e f, e <= f -> (Qpower 2 e <= Qpower 2 f)%Q.
Proof.
  intros e f H. replace f with (e + (f - e)) by lia. rewrite Qpower_plus by discriminate.
  rewrite (qpower_nonneg (f - e)) by lia.
  assert (1 <= 2 ^ (f - e)) by (pose proof (pow2_pos (f - e) ltac:(lia)); lia).
  pose proof (qpower_pos e).
  assert (X : (1 <= inject_Z (2 ^ (f - e)))%Q) by (change 1%Q with (inject_Z 1); rewrite <- Zle_Qle; exact H0).
  nra.
Qed.

Lemma qabs_inj : forall z, (Qabs (inject_Z z) == inject_Z (Z.abs z))%Q.
Proof. intros z. unfold Qabs, inject_Z. reflexivity. Qed.

Lemma inj_sub : forall a b, (inject_Z a - inject_Z b == inject_Z (a - b))%Q.
Proof. intros. unfold Qminus. rewrite <- inject_Z_opp, <- inject_Z_plus. reflexivity. Qed.

(** Doubles above the grid of [2 * 2^s] and below. *)
Lemma double_split : forall q s, is_double q -> 0 <= s ->
  (exists k, (q == inject_Z (k * (2 * 2 ^ s)))%Q) \/
  (Qabs q <= inject_Z ((2 * P52 - 1) * 2 ^ s))%Q.
Proof.
  intros q s (m & e & M & _ & Q) S. destruct (Z_le_gt_dec e s) as [L|G].
  - right. rewrite Q, Qabs_Qmult, qabs_inj, inject_Z_mult.
    assert (A : (Qabs (Qpower 2 e) == Qpower 2 e)%Q) by (apply Qabs_pos, Qlt_le_weak, qpower_pos).
    rewrite A. assert (B : (Qpower 2 e <= inject_Z (2 ^ s))%Q) by (rewrite <- qpower_nonneg by exact S; apply qpower_le; exact L).
    assert (C : (inject_Z (Z.abs m) <= inject_Z (2 * P52 - 1))%Q).
    { rewrite <- Zle_Qle. change (2 ^ 53) with (2 * P52) in M. lia. }
    pose proof (qpower_pos e). assert (D : (0 <= inject_Z (Z.abs m))%Q) by (change 0%Q with (inject_Z 0); rewrite <- Zle_Qle; lia).
    apply Qle_trans with (inject_Z (Z.abs m) * inject_Z (2 ^ s))%Q.
    + rewrite (Qmult_comm _ (Qpower 2 e)), (Qmult_comm _ (inject_Z (2 ^ s))). apply Qmult_le_compat_r; assumption.
    + apply Qmult_le_compat_r; [exact C|]. change 0%Q with (inject_Z 0). rewrite <- Zle_Qle.
      pose proof (pow2_pos s S). lia.
  - left. exists (m * 2 ^ (e - s - 1)). rewrite Q. rewrite qpower_nonneg by lia. rewrite <- inject_Z_mult.
    replace e with ((e - s - 1) + (1 + s)) at 1 by lia. rewrite Z.pow_add_r, (Z.pow_add_r 2 1) by lia.
    change (2 ^ 1) with 2. rewrite Z.mul_assoc. reflexivity.
Qed.

Lemma rounds_nearest : forall a v q, rounds a v -> is_double q ->
  (Qabs (inject_Z v - inject_Z a) <= Qabs (q - inject_Z a))%Q.
Proof.
  intros a v q R D. destruct R as [B|s qq r q' S QB RB -> C].
  - rewrite inj_sub, Z.sub_diag. change (Qabs (inject_Z 0)) with 0%Q. apply Qabs_nonneg.
  - pose proof (pow2_pos s S) as PS. rewrite inj_sub, qabs_inj.
    set (T := 2 * 2 ^ s) in *.
    assert (LE : Z.abs (q' * T - (qq * T + r)) <= r /\ Z.abs (q' * T - (qq * T + r)) <= T - r).
    { unfold T in *. destruct C as [[? ->]|[[? ->]|[(? & -> & _)|(? & -> & _)]]]; split; lia. }
    destruct (double_split q s D S) as [(k & K)|K].
    + rewrite K, inj_sub, qabs_inj, <- Zle_Qle. destruct (Z_le_gt_dec k qq).
      * assert (k * T <= qq * T) by (apply Z.mul_le_mono_nonneg_r; lia). lia.
      * assert ((qq + 1) * T <= k * T) by (apply Z.mul_le_mono_nonneg_r; lia). lia.
    + apply Qle_trans with (inject_Z r); [rewrite <- Zle_Qle; lia|].
      rewrite Qabs_Qminus. eapply Qle_trans; [|apply Qle_Qabs].
      assert (X : (q <= inject_Z ((2 * P52 - 1) * 2 ^ s))%Q) by (eapply Qle_trans; [apply Qle_Qabs | exact K]).
      assert (Y : (inject_Z ((2 * P52 - 1) * 2 ^ s) <= inject_Z (qq * T))%Q) by (rewrite <- Zle_Qle; unfold T; nia).
      rewrite inject_Z_plus. lra.
Qed.

Lemma rounds_tie : forall a v q, rounds a v -> is_double q -> ~ (q == inject_Z v)%Q ->
  (Qabs (inject_Z v - inject_Z a) == Qabs (q - inject_Z a))%Q -> even_double (inject_Z v).
Proof.
  intros a v q R D NE TIE. destruct R as [B|s qq r q' S QB RB -> C].
  - exfalso. apply NE. rewrite inj_sub, Z.sub_diag in TIE. change (Qabs (inject_Z 0)) with 0%Q in TIE.
    assert (Z : (q - inject_Z a == 0)%Q).
    { destruct (Qlt_le_dec 0 (q - inject_Z a)) as [L|L].
      - rewrite Qabs_pos in TIE by (apply Qlt_le_weak; exact L). rewrite <- TIE. reflexivity.
      - rewrite Qabs_neg in TIE by exact L. lra. }
    lra.
  - pose proof (pow2_pos s S) as PS. rewrite inj_sub, qabs_inj in TIE.
    set (T := 2 * 2 ^ s) in *.
    assert (EVEN : Z.even q' = true).
    { destruct (double_split q s D S) as [(k & K)|K].
      - rewrite K, inj_sub, qabs_inj in TIE. rewrite inject_Z_injective in TIE.
        assert (NK : k <> q') by (intros ->; apply NE; exact K).
        assert (R2 : r = 2 ^ s).
        { unfold T in *. destruct C as [[? ->]|[[? ->]|[(? & -> & _)|(? & -> & _)]]]; try assumption; exfalso.
          - destruct (Z_lt_ge_dec k qq).
            + assert (k * (2 * 2 ^ s) <= (qq - 1) * (2 * 2 ^ s)) by (apply Z.mul_le_mono_nonneg_r; lia). lia.
            + assert ((qq + 1) * (2 * 2 ^ s) <= k * (2 * 2 ^ s)) by (apply Z.mul_le_mono_nonneg_r; lia). lia.
          - destruct (Z_lt_ge_dec k (qq + 1)).
            + assert (k * (2 * 2 ^ s) <= qq * (2 * 2 ^ s)) by (apply Z.mul_le_mono_nonneg_r; lia). lia.
            + assert ((qq + 2) * (2 * 2 ^ s) <= k * (2 * 2 ^ s)) by (apply Z.mul_le_mono_nonneg_r; lia). lia. }
        destruct C as [[? ->]|[[? ->]|[(? & -> & Ev)|(? & -> & Ev)]]]; try (exfalso; lia); [exact Ev|].
        rewrite Z.even_add, Ev. reflexivity.
      - exfalso. rewrite Qabs_Qminus in TIE.
        assert (X : (q <= inject_Z ((2 * P52 - 1) * 2 ^ s))%Q) by (eapply Qle_trans; [apply Qle_Qabs | exact K]).
        assert (Y : (inject_Z ((2 * P52 - 1) * 2 ^ s) + inject_Z 1 <= inject_Z (qq * T))%Q)
          by (rewrite <- inject_Z_plus, <- Zle_Qle; unfold T; nia).
        assert (W : (inject_Z (Z.abs (q' * T - (qq * T + r))) <= inject_Z r)%Q).
        { rewrite <- Zle_Qle. unfold T in *.
          destruct C as [[? ->]|[[? ->]|[(? & -> & _)|(? & -> & _)]]]; lia. }
        assert (Z1 : (inject_Z (qq * T + r) - q <= Qabs (inject_Z (qq * T + r) - q))%Q) by apply Qle_Qabs.
        rewrite inject_Z_plus in *. change (inject_Z 1) with 1%Q in Y. lra. }
    assert (QB' : P52 <= q' <= 2 * P52).
    { destruct C as [[? ->]|[[? ->]|[(? & -> & _)|(? & -> & _)]]]; lia. }
    apply Z.even_spec in EVEN. destruct EVEN as (h & ->). exists h, (1 + s). split.
    + change P52 with (2 * 2 ^ 51) in QB'. lia.
    + rewrite qpower_nonneg by lia. rewrite <- inject_Z_mult, Z.pow_add_r by lia. reflexivity.
Qed.

Lemma pow_1024 : 2 ^ 1024 = 2 * P52 * (2 * 2 ^ 970).
Proof.
  replace 1024 with (Z.succ (52 + Z.succ 970)) by reflexivity.
  rewrite Z.pow_succ_r, Z.pow_add_r, Z.pow_succ_r by lia. fold P52. apply Z.mul_assoc.
Qed.

Lemma grid_too_large : forall p h q w, 0 < p -> 0 < h -> p <= q -> 2 * h <= w -> q * (2 * w) < 2 * p * (2 * h) -> False.
Proof. intros. nia. Qed.

Lemma grid_overflow : forall p h a v s qq r q', 0 < p -> 0 < h -> 0 < s -> p <= qq < 2 * p -> 0 <= r < 2 * s ->
  a = qq * (2 * s) + r ->
  (r < s /\ q' = qq \/ s < r /\ q' = qq + 1 \/
   r = s /\ q' = qq /\ Z.even qq = true \/ r = s /\ q' = qq + 1 /\ Z.even qq = false) ->
  v = q' * (2 * s) -> 2 * s <= h \/ s = h \/ 2 * h <= s ->
  (2 * p * (2 * h) <= v <-> 2 * p * (2 * h) - h <= a).
Proof.
  intros p h a v s qq r q' PP PX PS QB RB -> C -> [HH|[->|HH]].
  - assert (q' <= 2 * p) by (destruct C as [[? ->]|[[? ->]|[(? & -> & _)|(? & -> & _)]]]; lia).
    split; intros; exfalso; nia.
  - split.
    + intros Q. destruct C as [[? ->]|[[? ->]|[(? & -> & Ev)|(? & -> & Ev)]]]; nia.
    + intros Q. assert (qq = 2 * p - 1) by nia. subst qq.
      assert (Od : Z.even (2 * p - 1) = false).
      { rewrite Z.even_sub, Z.even_mul. reflexivity. }
      destruct C as [[? ->]|[[? ->]|[(? & -> & Ev)|(? & -> & Ev)]]]; try congruence; nia.
  - assert (p <= q') by (destruct C as [[? ->]|[[? ->]|[(? & -> & _)|(? & -> & _)]]]; lia).
    split; intros; nia.
Qed.

Lemma small_overflow : forall p h a, 0 < p -> 2 * p < h -> 0 <= a < 2 * p ->
  (2 * p * (2 * h) <= a <-> 2 * p * (2 * h) - h <= a).
Proof. intros. split; nia. Qed.

Lemma rounds_double : forall a v, rounds a v -> v < 2 ^ 1024 -> is_double (inject_Z v).
Proof.
  intros a v R L. destruct R as [B|s qq r q' S QB RB -> C].
  - exists a, 0. change (2 ^ 53) with (2 * P52). repeat split; try lia.
    change (Qpower 2 0) with 1%Q. rewrite Qmult_1_r. reflexivity.
  - pose proof (pow2_pos s S) as PS.
    assert (QB' : P52 <= q' <= 2 * P52).
    { destruct C as [[? ->]|[[? ->]|[(? & -> & _)|(? & -> & _)]]]; lia. }
    assert (SB : s <= 970).
    { destruct (Z_le_gt_dec s 970); [assumption|exfalso].
      rewrite pow_1024 in L. refine (grid_too_large P52 (2 ^ 970) q' (2 ^ s) _ _ _ _ L).
      - reflexivity.
      - apply pow2_pos. discriminate.
      - apply QB'.
      - rewrite <- Z.pow_succ_r by discriminate. apply Z.pow_le_mono_r; lia. }
    destruct (Z.eq_dec q' (2 * P52)) as [->|NE].
    + (* power of two *)
      assert (SB' : s <= 969).
      { destruct (Z_le_gt_dec s 969); [assumption|exfalso]. assert (s = 970) by lia. subst s.
        rewrite pow_1024 in L. exact (Z.lt_irrefl _ L). }
      exists P52, (2 + s). split; [vm_compute; reflexivity|]. split; [lia|].
      rewrite qpower_nonneg by lia. rewrite <- inject_Z_mult, Z.pow_add_r by lia. change (2 ^ 2) with 4.
      replace (2 * P52 * (2 * 2 ^ s)) with (P52 * (4 * 2 ^ s)) by lia. reflexivity.
    + exists q', (1 + s). change (2 ^ 53) with (2 * P52). split; [lia|]. split; [lia|].
      rewrite qpower_nonneg by lia. rewrite <- inject_Z_mult, Z.pow_add_r by lia. reflexivity.
Qed.

Lemma rounds_overflow : forall a v, rounds a v -> (2 ^ 1024 <= v <-> 2 ^ 1024 - 2 ^ 970 <= a).
Proof.
  intros a v R.
  rewrite pow_1024. assert (PX : 0 < 2 ^ 970) by (apply pow2_pos; discriminate).
  destruct R as [B|s qq r q' S QB RB A C].
  - apply small_overflow; [reflexivity | | exact B].
    apply Z.lt_le_trans with (2 ^ 54); [reflexivity | apply Z.pow_le_mono_r; discriminate || reflexivity].
  - eapply grid_overflow; [reflexivity | exact PX | apply pow2_pos; exact S | exact QB | exact RB | exact A | exact C | reflexivity |].
    destruct (Z.lt_trichotomy s 970) as [L|[->|G]].
    + left. rewrite <- Z.pow_succ_r by exact S. apply Z.pow_le_mono_r; lia.
    + right. left. reflexivity.
    + right. right. rewrite <- Z.pow_succ_r by discriminate. apply Z.pow_le_mono_r; lia.
Qed.

(** * Floats *)

Lemma strip_twos_spec : forall p q k, strip_twos p = (q, k) -> Zpos p = Zpos q * 2 ^ Z.of_nat k /\ Z.odd (Zpos q) = true.
Proof.
  induction p as [p IH|p IH|]; intros q k H; cbn [strip_twos] in H.
  - injection H as <- <-. split; [cbn; lia | reflexivity].
  - destruct (strip_twos p) as [r i]. injection H as <- <-. destruct (IH _ _ eq_refl) as [A B]. split; [|exact B].
    rewrite Nat2Z.inj_succ, Z.pow_succ_r by lia. change (Zpos (xO p)) with (2 * Zpos p). rewrite A. lia.
  - injection H as <- <-. split; [cbn; lia | reflexivity].
Qed.

Lemma flt_make_value : forall neg m e, exists q, flt_q (flt_make neg m e) = Some q /\
  (q == inject_Z (if neg then - Z.of_N m else Z.of_N m) * Qpower 2 e)%Q.
Proof.
  intros neg m e. destruct m as [|p].
  - eexists. split; [reflexivity|]. destruct neg; cbn [Z.of_N Z.opp]; change (inject_Z 0) with 0%Q;
      rewrite !Qmult_0_l; reflexivity.
  - cbn [flt_make]. destruct (strip_twos p) as [q k] eqn:S. apply strip_twos_spec in S. destruct S as [S _].
    eexists. split; [reflexivity|]. rewrite Qpower_plus by discriminate. rewrite (qpower_nonneg (Z.of_nat k)) by lia.
    cbn [Z.of_N]. rewrite S. destruct neg.
    + rewrite <- Z.mul_opp_l, inject_Z_mult. field.
    + rewrite inject_Z_mult. field.
Qed.

Theorem int_to_float_nearest : forall z f, int_to_float z = Ok f ->
  exists q, flt_q f = Some q /\ nearest_double z q.
Proof.
  intros z f H. unfold int_to_float in H.
  destruct (N.leb_spec (2 ^ 1024) (round53 (Z.to_N (Z.abs z)))) as [|LE]; [discriminate|]. injection H as <-.
  pose proof (round53_rounds (Z.to_N (Z.abs z))) as R. set (m := round53 _) in *. rewrite Z2N.id in R by lia.
  assert (LT : Z.of_N m < 2 ^ 1024) by (apply N2Z.inj_lt in LE; rewrite N2Z.inj_pow in LE; exact LE). clear LE.
  destruct (flt_make_value (z <? 0) m 0) as (q & Q & V). change (Qpower 2 0) with 1%Q in V. rewrite Qmult_1_r in V.
  exists q. split; [exact Q|].
  assert (OPP : forall x, is_double x -> is_double (- x)).
  { intros x (a & e & A & B & C). exists (- a), e. rewrite Z.abs_opp. repeat split; try tauto; try lia.
    rewrite C, inject_Z_opp. field. }
  assert (OPPE : forall x y, (y == - x)%Q -> even_double x -> even_double y).
  { intros x y Y (a & e & A & C). exists (- a), e. rewrite Z.abs_opp. split; [exact A|].
    replace (2 * - a) with (- (2 * a)) by lia. rewrite Y, C, inject_Z_opp. field. }
  assert (DQ : forall x y, (y == x)%Q -> is_double x -> is_double y).
  { intros x y Y (a & e & A & B & C). exists a, e. repeat split; try tauto; try lia. rewrite Y. exact C. }
  destruct (Z.ltb_spec z 0) as [NEG|POS].
  - rewrite Z.abs_neq in R by lia.
    assert (FLIP : forall x y, (Qabs (- x - inject_Z (- y)) == Qabs (x - inject_Z y))%Q).
    { intros x y. rewrite inject_Z_opp. rewrite <- (Qabs_opp (x - inject_Z y)). apply Qabs_wd. field. }
    assert (VQ : (q == - inject_Z (Z.of_N m))%Q) by (rewrite V, inject_Z_opp; reflexivity).
    assert (E0 : (Qabs (q - inject_Z z) == Qabs (inject_Z (Z.of_N m) - inject_Z (- z)))%Q).
    { rewrite VQ. rewrite <- (Z.opp_involutive z) at 1. apply FLIP. }
    assert (E1 : forall x, (Qabs (x - inject_Z z) == Qabs (- x - inject_Z (- z)))%Q).
    { intros x. rewrite <- (FLIP x z). reflexivity. }
    split; [|split].
    + eapply DQ; [exact VQ|]. apply OPP. eapply rounds_double; eassumption.
    + intros x D. rewrite E0, E1. apply rounds_nearest; [exact R | apply OPP; exact D].
    + intros x D NE T. rewrite E0, E1 in T. eapply OPPE; [exact VQ|].
      eapply rounds_tie; [exact R | apply OPP; exact D | | exact T].
      intros X. apply NE. rewrite VQ, <- X. field.
  - rewrite Z.abs_eq in R by lia.
    split; [|split].
    + eapply DQ; [exact V|]. eapply rounds_double; eassumption.
    + intros x D. rewrite V. apply rounds_nearest; assumption.
    + intros x D NE T. rewrite V in T. assert (EV : even_double (inject_Z (Z.of_N m))).
      { eapply rounds_tie; [exact R | exact D | | exact T]. intros X. apply NE. rewrite V. exact X. }
      destruct EV as (a & e & A & C). exists a, e. split; [exact A|]. rewrite V. exact C.
Qed.

Theorem int_to_float_overflow : forall z e, int_to_float z = Err e <->
  e = EOverflow /\ 2 ^ 1024 - 2 ^ 970 <= Z.abs z.
Proof.
  intros z e. unfold int_to_float. pose proof (round53_rounds (Z.to_N (Z.abs z))) as R. set (m := round53 _) in *.
  rewrite Z2N.id in R by lia. apply rounds_overflow in R.
  destruct (N.leb_spec (2 ^ 1024) m) as [L|L].
  - split; [intros Q; injection Q as <- | intros [-> _]]; [|reflexivity]. split; [reflexivity|].
    apply R. apply N2Z.inj_le in L. rewrite N2Z.inj_pow in L. exact L.
  - split; [discriminate|]. intros [_ Q]. apply R in Q. apply N2Z.inj_lt in L. rewrite N2Z.inj_pow in L.
    exfalso. exact (Z.lt_irrefl _ (Z.le_lt_trans _ _ _ Q L)).
Qed.

(** * Equality *)

Definition sgn (neg : bool) (m : N) : Z := if neg then - Z.of_N m else Z.of_N m.

Lemma q_scale : forall x y e, (inject_Z x * Qpower 2 e == inject_Z y * Qpower 2 e)%Q <-> x = y.
Proof.
  intros x y e. pose proof (qpower_pos e) as P. split; [|intros ->; reflexivity].
  intros H. apply Qmult_inj_r in H; [apply inject_Z_injective; exact H|].
  intros Z. rewrite Z in P. discriminate.
Qed.

Lemma dyadic_spec : forall x m e y m' e',
  (dyadic_eqb m e m' e' && (Bool.eqb x y || (m =? 0)%N)) = true <->
  (inject_Z (sgn x m) * Qpower 2 e == inject_Z (sgn y m') * Qpower 2 e')%Q.
Proof.
  intros x m e y m' e'. unfold dyadic_eqb. destruct (Z.leb_spec e e') as [L|L].
  - assert (PW : (Qpower 2 e' == Qpower 2 e * inject_Z (2 ^ (e' - e)))%Q).
    { rewrite <- qpower_nonneg by lia. rewrite <- Qpower_plus by discriminate.
      replace (e + (e' - e)) with e' by lia. reflexivity. }
    rewrite PW.
    assert (A : (inject_Z (sgn y m') * (Qpower 2 e * inject_Z (2 ^ (e' - e))) ==
                 inject_Z (sgn y m' * 2 ^ (e' - e)) * Qpower 2 e)%Q) by (rewrite inject_Z_mult; field).
    rewrite A, q_scale. pose proof (pow2_pos (e' - e) ltac:(lia)) as P.
    assert (B : Z.of_N (2 ^ Z.to_N (e' - e)) = 2 ^ (e' - e)) by (rewrite N2Z.inj_pow, Z2N.id by lia; reflexivity).
    set (w := 2 ^ (e' - e)) in *. set (n := (2 ^ Z.to_N (e' - e))%N) in *.
    unfold sgn. rewrite andb_true_iff, orb_true_iff, N.eqb_eq, N.eqb_eq.
    destruct x, y; cbn [Bool.eqb]; split; nia.
  - assert (PW : (Qpower 2 e == Qpower 2 e' * inject_Z (2 ^ (e - e')))%Q).
    { rewrite <- qpower_nonneg by lia. rewrite <- Qpower_plus by discriminate.
      replace (e' + (e - e')) with e by lia. reflexivity. }
    rewrite PW.
    assert (A : (inject_Z (sgn x m) * (Qpower 2 e' * inject_Z (2 ^ (e - e'))) ==
                 inject_Z (sgn x m * 2 ^ (e - e')) * Qpower 2 e')%Q) by (rewrite inject_Z_mult; field).
    rewrite A, q_scale. pose proof (pow2_pos (e - e') ltac:(lia)) as P.
    assert (B : Z.of_N (2 ^ Z.to_N (e - e')) = 2 ^ (e - e')) by (rewrite N2Z.inj_pow, Z2N.id by lia; reflexivity).
    set (w := 2 ^ (e - e')) in *. set (n := (2 ^ Z.to_N (e - e'))%N) in *.
    unfold sgn. rewrite andb_true_iff, orb_true_iff, N.eqb_eq, N.eqb_eq.
    destruct x, y; cbn [Bool.eqb]; split; nia.
Qed.

Lemma int_sgn : forall z, sgn (z <? 0) (Z.to_N (Z.abs z)) = z.
Proof. intros z. unfold sgn. destruct (Z.ltb_spec z 0); lia. Qed.

Lemma int_flt_spec : forall z f, int_flt_eqb z f = true <-> exists q, flt_q f = Some q /\ (inject_Z z == q)%Q.
Proof.
  intros z f. unfold int_flt_eqb. destruct f as [|n|neg m e]; cbn [flt_eqb flt_q].
  - split; [discriminate|]. intros (q & Q & _). discriminate.
  - split; [discriminate|]. intros (q & Q & _). discriminate.
  - rewrite dyadic_spec, int_sgn. change (Qpower 2 0) with 1%Q. rewrite Qmult_1_r. split.
    + intros H. eexists. split; [reflexivity | exact H].
    + intros (q & Q & H). injection Q as <-. exact H.
Qed.

Lemma number_spec : forall a b x y, as_number a = Some x -> as_number b = Some y ->
  (number_eqb x y = true <-> json_equal a b).
Proof.
  assert (NUM : forall a q z, as_number a = Some (inl z) -> (numeric a q <-> q = inject_Z z)).
  { intros a q z H. destruct a; try discriminate; injection H as <-; split; intros N;
      try (inversion N; reflexivity); subst; constructor. }
  assert (FLT : forall a q f, as_number a = Some (inr f) -> (numeric a q <-> flt_q f = Some q)).
  { intros a q f H. destruct a; try discriminate. injection H as <-. split; intros N.
    - inversion N; assumption.
    - constructor. exact N. }
  assert (INF : forall a, as_number a = Some (inr (FInf true)) \/ as_number a = Some (inr (FInf false)) ->
    exists n, a = JFloat (FInf n)).
  { intros a [H|H]; destruct a; try discriminate; injection H as ->; eexists; reflexivity. }
  intros a b x y A B. split.
  - destruct x as [x|f], y as [y|g]; cbn [number_eqb]; intros H.
    + apply Z.eqb_eq in H. subst y. apply (je_num _ _ (inject_Z x) (inject_Z x)).
      * apply (NUM _ _ _ A). reflexivity.
      * apply (NUM _ _ _ B). reflexivity.
      * reflexivity.
    + apply int_flt_spec in H. destruct H as (q & Q & H). apply (je_num _ _ (inject_Z x) q).
      * apply (NUM _ _ _ A). reflexivity.
      * apply (FLT _ _ _ B). exact Q.
      * exact H.
    + apply int_flt_spec in H. destruct H as (q & Q & H). apply (je_num _ _ q (inject_Z y)).
      * apply (FLT _ _ _ A). exact Q.
      * apply (NUM _ _ _ B). reflexivity.
      * symmetry. exact H.
    + destruct f as [|n|n m e], g as [|n'|n' m' e']; cbn [flt_eqb] in H; try discriminate.
      * apply Bool.eqb_prop in H. subst n'.
        destruct a; try discriminate; injection A as ->. destruct b; try discriminate; injection B as ->. constructor.
      * eapply je_num.
        -- apply (FLT _ _ _ A). reflexivity.
        -- apply (FLT _ _ _ B). reflexivity.
        -- apply dyadic_spec in H. exact H.
  - intros H. destruct H as [|s|a b q q' Na Nb Q|n]; try discriminate.
    + destruct x as [x|f], y as [y|g]; cbn [number_eqb].
      * apply (NUM _ _ _ A) in Na. apply (NUM _ _ _ B) in Nb. subst. apply Z.eqb_eq, inject_Z_injective. exact Q.
      * apply (NUM _ _ _ A) in Na. apply (FLT _ _ _ B) in Nb. subst. apply int_flt_spec. exists q'. auto.
      * apply (FLT _ _ _ A) in Na. apply (NUM _ _ _ B) in Nb. subst. apply int_flt_spec. exists q. split; [exact Na | symmetry; exact Q].
      * apply (FLT _ _ _ A) in Na. apply (FLT _ _ _ B) in Nb. destruct f as [|?|n m e], g as [|?|n' m' e']; try discriminate.
        injection Na as <-. injection Nb as <-. cbn [flt_eqb]. apply dyadic_spec. exact Q.
    + injection A as <-. injection B as <-. cbn [number_eqb flt_eqb]. apply Bool.eqb_reflx.
Qed.

Theorem scalar_eqb_spec : forall a b, scalar_eqb a b = true <-> json_equal a b.
Proof.
  intros a b. unfold scalar_eqb. destruct (as_number a) as [x|] eqn:A, (as_number b) as [y|] eqn:B.
  1: apply number_spec; assumption.
  all: split; [|intros H; inversion H; subst; try discriminate; try reflexivity; try apply pystr_eqb_refl;
    repeat match goal with N : numeric _ _ |- _ => inversion N; clear N; subst; discriminate end].
  all: destruct a; try discriminate; destruct b; try discriminate; intros H; try constructor.
  apply pystr_eqb_eq in H. subst. constructor.
Qed.
