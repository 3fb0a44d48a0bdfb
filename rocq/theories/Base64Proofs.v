From Coq Require Import String List NArith ZArith Bool Lia ZifyBool ZifyN.
From Verif Require Import Base Digits DigitsProofs Base64 SpecBase64.
Import ListNotations.
Open Scope list_scope.
Open Scope N_scope.
Ltac Zify.zify_post_hook ::= Z.div_mod_to_equations.

Lemma F2_length : forall A B (R : A -> B -> Prop) l l', Forall2 R l l' -> length l = length l'.
Proof. intros A B R l l' H. induction H; cbn; congruence. Qed.
Arguments F2_length {A B R l l'} _.

Lemma val_char : forall v, v < 64 -> b64_val (b64_char v) = Some v.
Proof.
  intros v H. unfold b64_char, b64_val.
  destruct (v <? 26) eqn:E1; [|destruct (v <? 52) eqn:E2; [|destruct (v <? 62) eqn:E3; [|destruct (v =? 62) eqn:E4]]].
  all: repeat match goal with |- context [if ?b then _ else _] => destruct b eqn:?; try (f_equal; lia); try lia end.
Qed.

Lemma char_not_pad : forall v, v < 64 -> (b64_char v =? b64_pad) = false.
Proof.
  intros v H. unfold b64_char, b64_pad.
  destruct (v <? 26) eqn:E1; [|destruct (v <? 52) eqn:E2; [|destruct (v <? 62) eqn:E3; [|destruct (v =? 62) eqn:E4]]]; lia.
Qed.

Lemma char_ascii : forall v, v < 64 -> (b64_char v <? 128) = true.
Proof.
  intros v H. unfold b64_char.
  destruct (v <? 26) eqn:E1; [|destruct (v <? 52) eqn:E2; [|destruct (v <? 62) eqn:E3; [|destruct (v =? 62) eqn:E4]]]; lia.
Qed.

Lemma val_lt : forall c v, b64_val c = Some v -> v < 64 /\ b64_char v = c.
Proof.
  intros c v. unfold b64_val, b64_char.
  repeat match goal with |- (if ?b then _ else _) = _ -> _ => destruct b eqn:? end;
    intros H; try discriminate; injection H as <-; (split; [lia|]);
    repeat match goal with |- context [if ?b then _ else _] => destruct b eqn:?; try lia end.
Qed.

(** The alphabet of the specification. *)
Lemma symbol_char : forall v, v < 64 -> symbol (b64_char v) v.
Proof.
  assert (H : forallb (fun k => match nth_error alphabet k with
              | Some c => c =? b64_char (N.of_nat k) | None => false end) (seq 0 64) = true)
    by (vm_compute; reflexivity).
  intros v Hv. unfold symbol. rewrite forallb_forall in H.
  specialize (H (N.to_nat v)). rewrite in_seq in H. specialize (H ltac:(lia)).
  destruct (nth_error alphabet (N.to_nat v)); [|discriminate].
  apply N.eqb_eq in H. subst. rewrite N2Nat.id. reflexivity.
Qed.

Lemma symbol_lt : forall c v, symbol c v -> v < 64.
Proof.
  intros c v H. unfold symbol in H.
  assert (N.to_nat v < 64)%nat by (change 64%nat with (length alphabet); apply nth_error_Some; congruence).
  lia.
Qed.

Lemma symbol_char' : forall c v, symbol c v -> c = b64_char v.
Proof.
  intros c v H. pose proof (symbol_lt _ _ H) as L. pose proof (symbol_char _ L) as G.
  unfold symbol in *. congruence.
Qed.

Lemma symbol_val : forall c v, symbol c v -> b64_val c = Some v.
Proof. intros. rewrite (symbol_char' _ _ H). apply val_char. eauto using symbol_lt. Qed.

Lemma val_symbol : forall c v, b64_val c = Some v -> symbol c v.
Proof. intros c v H. destruct (val_lt _ _ H) as [L E]. subst. auto using symbol_char. Qed.

(** Three-step induction on lists. *)
Lemma list3_ind : forall (P : list N -> Prop), P [] -> (forall a, P [a]) -> (forall a b, P [a; b]) ->
  (forall a b c l, P l -> P (a :: b :: c :: l)) -> forall l, P l.
Proof.
  intros P H0 H1 H2 H3. fix IH 1. intros [|a [|b [|c l]]]; [exact H0|apply H1|apply H2|apply H3, IH].
Qed.

Lemma loop_char : forall v r q l p, v < 64 ->
  b64_loop (b64_char v :: r) q l p false =
  if q =? 0 then b64_loop r 1 v 0 false
  else if q =? 1 then do o <- b64_loop r 2 (v mod 16) 0 false; Ok (l * 4 + v / 16 :: o)
  else if q =? 2 then do o <- b64_loop r 3 (v mod 4) 0 false; Ok (l * 16 + v / 4 :: o)
  else do o <- b64_loop r 0 0 0 false; Ok (l * 64 + v :: o).
Proof. intros. cbn [b64_loop]. rewrite char_not_pad, val_char by assumption. reflexivity. Qed.

Lemma loop_encode : forall bs, Forall is_byte bs ->
  b64_loop (b64_encode bs) 0 0 0 false = Ok bs.
Proof.
  induction bs as [|a|a b|a b c l IH] using list3_ind; intros H; cbn [b64_encode].
  - reflexivity.
  - inversion H; subst. unfold is_byte in *.
    rewrite !loop_char by lia. cbn -[N.mul N.add N.div N.modulo].
    change (4 <=? 2 + (0 + 1)) with false. change (4 <=? 2 + (0 + 1 + 1)) with true. cbn [bind].
    f_equal. f_equal. lia.
  - inversion H as [|? ? Ha H']; subst. inversion H' as [|? ? Hb H'']; subst. unfold is_byte in *.
    rewrite !loop_char by lia. cbn -[N.mul N.add N.div N.modulo].
    change (4 <=? 3 + (0 + 1)) with true. cbn [bind]. repeat f_equal; lia.
  - inversion H as [|? ? Ha H']; subst. inversion H' as [|? ? Hb H'']; subst.
    inversion H'' as [|? ? Hc Hl]; subst. unfold is_byte in *.
    rewrite !loop_char by lia. 
    change (2 =? 0) with false. change (2 =? 1) with false. change (2 =? 2) with true.
    change (1 =? 0) with false. change (1 =? 1) with true. change (0 =? 0) with true.
    change (3 =? 0) with false. change (3 =? 1) with false. change (3 =? 2) with false. cbv iota.
    rewrite (IH Hl). cbn [bind]. repeat f_equal; lia.
Qed.

Lemma encode_ascii : forall bs, Forall is_byte bs -> forallb (fun c => c <? 128) (b64_encode bs) = true.
Proof.
  induction bs as [|a|a b|a b c l IH] using list3_ind; intros H; cbn [b64_encode forallb].
  - reflexivity.
  - inversion H; subst. unfold is_byte in *. rewrite !char_ascii by lia. reflexivity.
  - inversion H as [|? ? Ha H']; subst. inversion H' as [|? ? Hb H'']; subst. unfold is_byte in *.
    rewrite !char_ascii by lia. reflexivity.
  - inversion H as [|? ? Ha H']; subst. inversion H' as [|? ? Hb H'']; subst.
    inversion H'' as [|? ? Hc Hl]; subst. unfold is_byte in *.
    rewrite !char_ascii by lia. rewrite IH by assumption. reflexivity.
Qed.

Lemma parse_loop : forall s, (forall c r, s = c :: r -> (c =? b64_pad) = false) ->
  forallb (fun c => c <? 128) s = true -> bytes_parse s = b64_loop s 0 0 0 false.
Proof.
  intros s H A. unfold bytes_parse. rewrite A. destruct s as [|c r]; [reflexivity|].
  rewrite (H _ _ eq_refl). reflexivity.
Qed.

Lemma encode_head : forall bs c r, Forall is_byte bs -> b64_encode bs = c :: r -> (c =? b64_pad) = false.
Proof.
  intros [|a [|b [|d l]]] c r H E; cbn [b64_encode] in E; try discriminate; injection E as <- _;
    inversion H; subst; unfold is_byte in *; apply char_not_pad; lia.
Qed.

Lemma roundtrip : forall bs, Forall is_byte bs -> bytes_parse (bytes_generate bs) = Ok bs.
Proof.
  intros. unfold bytes_generate. rewrite parse_loop; eauto using encode_ascii, encode_head, loop_encode.
Qed.

(** Decoding: characterisation of the loop before any padding.  [pend] is the
    number of bits held in [left]. *)
Definition pend (q : N) : N := if q =? 1 then 6 else if q =? 2 then 4 else if q =? 3 then 2 else 0.

Lemma loop_pads1 : forall n l p st, b64_loop (repeat b64_pad n) 1 l p st = Err EValue.
Proof.
  induction n; intros; cbn [repeat b64_loop]; [reflexivity|]. rewrite N.eqb_refl. cbn. apply IHn.
Qed.

(** After padding has started only pad characters are accepted and no output is
    produced. *)
Lemma loop_started : forall s q l p o, q < 4 -> b64_loop s q l p true = Ok o ->
  o = [] /\ exists n, s = repeat b64_pad n.
Proof.
  induction s as [|c s IH]; intros q l p o Hq H; cbn [b64_loop] in H.
  - destruct (q =? 0); [|discriminate]. injection H as <-. split; [reflexivity|]. exists 0%nat. reflexivity.
  - destruct (c =? b64_pad) eqn:Ec.
    + apply N.eqb_eq in Ec. subst c.
      destruct ((2 <=? q) && (4 <=? q + (p + 1))).
      * destruct s; [|discriminate]. injection H as <-. split; [reflexivity|]. exists 1%nat. reflexivity.
      * apply IH in H; [|assumption]. destruct H as [-> [n ->]]. split; [reflexivity|]. exists (S n). reflexivity.
    + destruct (b64_val c); discriminate.
Qed.

Lemma pow_split : forall a b, 2 ^ (a + b) = 2 ^ a * 2 ^ b.
Proof. intros. apply N.pow_add_r. Qed.

(** Decoding the data part: [vs] are the values of the data characters. *)
Lemma loop_sound : forall s q l o, q < 4 -> l < 2 ^ pend q ->
  b64_loop s q l 0 false = Ok o ->
  exists cs vs n r filler,
    s = cs ++ repeat b64_pad n /\ Forall2 symbol cs vs /\ Forall is_byte o /\
    pend q + 6 * N.of_nat (length cs) = 8 * N.of_nat (length o) + r /\ r < 6 /\ filler < 2 ^ r /\
    l * 64 ^ N.of_nat (length cs) + undigits 64 vs = undigits 256 o * 2 ^ r + filler.
Proof.
  induction s as [|c s IH]; intros q l o Hq Hl H; cbn [b64_loop] in H.
  - destruct (q =? 0) eqn:E; [|discriminate]. injection H as <-. apply N.eqb_eq in E. subst.
    cbn in Hl. exists [], [], 0%nat, 0, 0. cbn. repeat split; try constructor; lia.
  - destruct (c =? b64_pad) eqn:Ec.
    + apply N.eqb_eq in Ec. subst c.
      exists [], [], (S (length s)). 
      assert (G : o = [] /\ s = repeat b64_pad (length s) /\ pend q < 6).
      { destruct ((2 <=? q) && (4 <=? q + (0 + 1))) eqn:E.
        - destruct s; [|discriminate]. injection H as <-. repeat split. unfold pend.
          destruct (q =? 1) eqn:?; [lia|]. destruct (q =? 2); destruct (q =? 3); lia.
        - pose proof H as H'. apply loop_started in H; [|assumption]. destruct H as [-> [n ->]].
          rewrite repeat_length. repeat split.
          unfold pend. destruct (q =? 1) eqn:E1.
          { apply N.eqb_eq in E1. subst q. rewrite loop_pads1 in H'. discriminate. }
           destruct (q =? 2); destruct (q =? 3); lia. }
      destruct G as [-> [Es P]]. exists (pend q), l. cbn [length app]. cbn [repeat]. rewrite <- Es.
      assert (Hu : forall b, undigits b [] = 0) by reflexivity. rewrite !Hu.
      change (64 ^ N.of_nat 0) with 1. change (N.of_nat 0) with 0.
      repeat split; try constructor; lia.
    + destruct (b64_val c) as [v|] eqn:Ev; [|discriminate].
      pose proof (val_symbol _ _ Ev) as Sy. pose proof (symbol_lt _ _ Sy) as Lv.
      assert (Hc : forall k, 64 ^ N.of_nat (S k) = 64 * 64 ^ N.of_nat k).
      { intros. rewrite Nat2N.inj_succ, N.pow_succ_r'. reflexivity. }
      destruct (q =? 0) eqn:E0; [|destruct (q =? 1) eqn:E1; [|destruct (q =? 2) eqn:E2]].
      * apply IH in H; [|lia|cbn; lia].
        destruct H as (cs & vs & n & r & fl & -> & F & B & L & R & Fl & U).
        exists (c :: cs), (v :: vs), n, r, fl.
        assert (l = 0) by (assert (q = 0) by lia; subst q; cbn in Hl; lia). subst l.
        repeat split; auto.
        -- assert (q = 0) by lia. subst q. cbn [length]. change (pend 0) with 0. change (pend 1) with 6 in L. lia.
        -- rewrite undigits_cons. rewrite <- (F2_length F). rewrite N.mul_0_l. lia.
      * destruct (b64_loop s 2 (v mod 16) 0 false) as [o'|] eqn:Eo; [|discriminate].
        cbn [bind] in H. injection H as <-.
        apply IH in Eo; [|lia|cbn; lia].
        destruct Eo as (cs & vs & n & r & fl & -> & F & B & L & R & Fl & U).
        assert (q = 1) by lia. subst q. change (pend 1) with 6 in *. change (pend 2) with 4 in *.
        change (2 ^ 6) with 64 in Hl.
        exists (c :: cs), (v :: vs), n, r, fl. repeat split; auto.
        -- constructor; [|assumption]. unfold is_byte. lia.
        -- cbn [length]. lia.
        -- cbn [length]. rewrite !undigits_cons, Hc, <- (F2_length F).
           assert (P : 256 ^ N.of_nat (length o') * 2 ^ r = 16 * 64 ^ N.of_nat (length cs)).
           { change 256 with (2 ^ 8). change 64 with (2 ^ 6). change 16 with (2 ^ 4).
             rewrite <- !N.pow_mul_r, <- !N.pow_add_r. f_equal. lia. }
           transitivity ((l * 4 + v / 16) * (256 ^ N.of_nat (length o') * 2 ^ r) + (undigits 256 o' * 2 ^ r + fl)); [|ring].
           rewrite P, <- U.
           replace (l * (64 * 64 ^ N.of_nat (length cs)) + (v * 64 ^ N.of_nat (length cs) + undigits 64 vs))
             with ((l * 64 + v) * 64 ^ N.of_nat (length cs) + undigits 64 vs) by ring.
           replace (l * 64 + v) with ((l * 4 + v / 16) * 16 + v mod 16) by lia. ring.
      * destruct (b64_loop s 3 (v mod 4) 0 false) as [o'|] eqn:Eo; [|discriminate].
        cbn [bind] in H. injection H as <-.
        apply IH in Eo; [|lia|cbn; lia].
        destruct Eo as (cs & vs & n & r & fl & -> & F & B & L & R & Fl & U).
        assert (q = 2) by lia. subst q. change (pend 3) with 2 in *. change (pend 2) with 4 in *.
        change (2 ^ 4) with 16 in Hl.
        exists (c :: cs), (v :: vs), n, r, fl. repeat split; auto.
        -- constructor; [|assumption]. unfold is_byte. lia.
        -- cbn [length]. lia.
        -- cbn [length]. rewrite !undigits_cons, Hc, <- (F2_length F).
           assert (P : 256 ^ N.of_nat (length o') * 2 ^ r = 4 * 64 ^ N.of_nat (length cs)).
           { change 256 with (2 ^ 8). change 64 with (2 ^ 6). change 4 with (2 ^ 2).
             rewrite <- !N.pow_mul_r, <- !N.pow_add_r. f_equal. lia. }
           transitivity ((l * 16 + v / 4) * (256 ^ N.of_nat (length o') * 2 ^ r) + (undigits 256 o' * 2 ^ r + fl)); [|ring].
           rewrite P, <- U.
           replace (l * (64 * 64 ^ N.of_nat (length cs)) + (v * 64 ^ N.of_nat (length cs) + undigits 64 vs))
             with ((l * 64 + v) * 64 ^ N.of_nat (length cs) + undigits 64 vs) by ring.
           replace (l * 64 + v) with ((l * 16 + v / 4) * 4 + v mod 4) by lia. ring.
      * destruct (b64_loop s 0 0 0 false) as [o'|] eqn:Eo; [|discriminate].
        cbn [bind] in H. injection H as <-.
        apply IH in Eo; [|lia|cbn; lia].
        destruct Eo as (cs & vs & n & r & fl & -> & F & B & L & R & Fl & U).
        assert (q = 3) by lia. subst q. change (pend 3) with 2 in *. change (pend 0) with 0 in *.
        change (2 ^ 2) with 4 in Hl.
        exists (c :: cs), (v :: vs), n, r, fl. repeat split; auto.
        -- constructor; [|assumption]. unfold is_byte. lia.
        -- cbn [length]. lia.
        -- cbn [length]. rewrite !undigits_cons, Hc, <- (F2_length F).
           assert (P : 256 ^ N.of_nat (length o') * 2 ^ r = 64 ^ N.of_nat (length cs)).
           { change 256 with (2 ^ 8). change 64 with (2 ^ 6).
             rewrite <- !N.pow_mul_r, <- !N.pow_add_r. f_equal. lia. }
           transitivity ((l * 64 + v) * (256 ^ N.of_nat (length o') * 2 ^ r) + (undigits 256 o' * 2 ^ r + fl)); [|ring].
           rewrite P, <- U. ring.
Qed.

Lemma parse_sound : forall s bs, bytes_parse s = Ok bs -> exists filler, b64_text s bs filler.
Proof.
  intros s bs H.
  assert (L : s = [] /\ bs = [] \/ b64_loop s 0 0 0 false = Ok bs).
  { unfold bytes_parse in H. destruct (forallb _ s); [|discriminate].
    destruct s; [left; split; congruence|]. destruct (n =? b64_pad); [discriminate|]. right. assumption. }
  destruct L as [[-> ->]|L].
  - exists 0. apply (b64_text_intro [] [] 0 [] 0 0); try constructor; cbn; lia.
  - apply loop_sound in L; [|lia|cbn; lia].
    destruct L as (cs & vs & n & r & fl & -> & F & B & L & R & Fl & U).
    exists fl. change b64_pad with 61. apply (b64_text_intro cs vs n bs r fl); auto.
Qed.

(** Two readings of the same text agree. *)
Lemma repeat_pad_inj : forall cs vs n cs' vs' n', Forall2 symbol cs vs -> Forall2 symbol cs' vs' ->
  cs ++ repeat 61 n = cs' ++ repeat 61 n' -> cs = cs' /\ vs = vs'.
Proof.
  assert (NP : forall v, ~ symbol 61 v).
  { intros v H. apply symbol_val in H. discriminate. }
  induction cs as [|c cs IH]; intros vs n cs' vs' n' F F' E.
  - inversion F; subst. destruct cs' as [|c' cs']; [inversion F'; auto|].
    inversion F'; subst. destruct n; [discriminate|]. injection E as <- _. exfalso. eapply NP; eauto.
  - inversion F as [|x v l l' Sy Fl]; subst. destruct cs' as [|c' cs'].
    + destruct n'; [discriminate|]. injection E as -> _. exfalso. eapply NP; eauto.
    + inversion F' as [|x' v' l2 l2' Sy' Fl']; subst. injection E as <- E.
      destruct (IH _ _ _ _ _ Fl Fl' E) as [-> ->].
      assert (v = v') by (apply symbol_val in Sy; apply symbol_val in Sy'; congruence). subst. auto.
Qed.

Lemma text_unique : forall s bs f bs' f', b64_text s bs f -> b64_text s bs' f' -> bs = bs' /\ f = f'.
Proof.
  intros s bs f bs' f' H H'. inversion H as [cs vs n bs0 r f0 F B L R Fl U]; subst.
  inversion H' as [cs' vs' n' bs0' r' f0' F' B' L' R' Fl' U' E]; subst.
  destruct (repeat_pad_inj _ _ _ _ _ _ F F' (eq_sym E)) as [-> ->].
  assert (length bs = length bs') by lia. assert (r = r') by lia. subst r'.
  assert (P : 2 ^ r <> 0) by (apply N.pow_nonzero; lia).
  assert (E1 : undigits 256 bs = undigits 256 bs').
  { rewrite U in U'. 
    assert (G := N.div_unique (undigits 256 bs * 2 ^ r + f) (2 ^ r) (undigits 256 bs) f Fl ltac:(ring)).
    assert (G' := N.div_unique (undigits 256 bs' * 2 ^ r + f') (2 ^ r) (undigits 256 bs') f' Fl' ltac:(ring)).
    congruence. }
  split; [|rewrite E1 in *; lia].
  eapply (undigits_inj 256); eauto; lia.
Qed.

(** Encoding is canonical. *)
Lemma undigits4 : forall a b c d l, undigits 64 (a :: b :: c :: d :: l) =
  (a * 262144 + b * 4096 + c * 64 + d) * 64 ^ N.of_nat (length l) + undigits 64 l.
Proof.
  intros. rewrite !undigits_cons. cbn [length]. rewrite !Nat2N.inj_succ, !N.pow_succ_r'. ring.
Qed.
Lemma undigits3 : forall a b c l, undigits 256 (a :: b :: c :: l) =
  (a * 65536 + b * 256 + c) * 256 ^ N.of_nat (length l) + undigits 256 l.
Proof.
  intros. rewrite !undigits_cons. cbn [length]. rewrite !Nat2N.inj_succ, !N.pow_succ_r'. ring.
Qed.

Lemma encode_spec : forall bs, Forall is_byte bs ->
  exists cs vs n r, b64_encode bs = cs ++ repeat 61 n /\ Forall2 symbol cs vs /\
    6 * N.of_nat (length cs) = 8 * N.of_nat (length bs) + r /\ r < 6 /\
    undigits 64 vs = undigits 256 bs * 2 ^ r /\ Nat.modulo (length cs + n) 4 = 0%nat /\ (n < 3)%nat
    /\ (length cs + n < length bs * 4 / 3 + 4)%nat.
Proof.
  induction bs as [|a|a b|a b c l IH] using list3_ind; intros H; cbn [b64_encode].
  - exists [], [], 0%nat, 0. repeat split; try constructor; cbn; lia.
  - inversion H; subst. unfold is_byte in *.
    exists [b64_char (a / 4); b64_char (a mod 4 * 16)], [a / 4; a mod 4 * 16], 2%nat, 4.
    repeat split; try (repeat constructor; try apply symbol_char; lia).
    unfold undigits. cbn -[N.mul N.add N.div N.modulo]. lia. 
  - inversion H as [|? ? Ha H']; subst. inversion H' as [|? ? Hb H'']; subst. unfold is_byte in *.
    exists [b64_char (a / 4); b64_char (a mod 4 * 16 + b / 16); b64_char (b mod 16 * 4)],
      [a / 4; a mod 4 * 16 + b / 16; b mod 16 * 4], 1%nat, 2.
    repeat split; try (repeat constructor; try apply symbol_char; lia).
    unfold undigits. cbn -[N.mul N.add N.div N.modulo]. lia.
  - inversion H as [|? ? Ha H']; subst. inversion H' as [|? ? Hb H'']; subst.
    inversion H'' as [|? ? Hc Hl]; subst. unfold is_byte in *.
    destruct (IH Hl) as (cs & vs & n & r & E & F & L & R & U & M & N3 & Len).
    exists (b64_char (a / 4) :: b64_char (a mod 4 * 16 + b / 16) :: b64_char (b mod 16 * 4 + c / 64)
            :: b64_char (c mod 64) :: cs),
      (a / 4 :: a mod 4 * 16 + b / 16 :: b mod 16 * 4 + c / 64 :: c mod 64 :: vs), n, r.
    rewrite E. repeat split.
    + repeat constructor; try assumption; apply symbol_char; lia.
    + cbn [length]. lia.
    + lia.
    + rewrite undigits4, undigits3, U, <- (F2_length F).
      replace (64 ^ N.of_nat (length cs)) with (256 ^ N.of_nat (length l) * 2 ^ r).
      2:{ change 256 with (2 ^ 8). change 64 with (2 ^ 6).
          rewrite <- !N.pow_mul_r, <- !N.pow_add_r. f_equal. lia. }
      replace (a / 4 * 262144 + (a mod 4 * 16 + b / 16) * 4096 + (b mod 16 * 4 + c / 64) * 64 + c mod 64)
        with (a * 65536 + b * 256 + c) by lia. ring.
    + cbn [length]. replace (S (S (S (S (length cs)))) + n)%nat with (length cs + n + 1 * 4)%nat by lia.
      rewrite Nat.mod_add by lia. assumption.
    + assumption.
    + cbn [length]. replace (S (S (S (length l))) * 4 )%nat with (length l * 4 + 4 * 3)%nat by lia.
      rewrite Nat.div_add by lia. lia.
Qed.

Lemma generate_canonical : forall bs, Forall is_byte bs -> canonical (bytes_generate bs) bs.
Proof.
  intros bs H. destruct (encode_spec bs H) as (cs & vs & n & r & E & F & L & R & U & M & N3 & Len).
  unfold canonical, bytes_generate. rewrite E, app_length, repeat_length. repeat split; auto.
  apply (b64_text_intro cs vs n bs r 0); auto; try lia.
  assert (2 ^ r <> 0) by (apply N.pow_nonzero; lia). lia.
Qed.

Lemma parse_errors : forall s e, bytes_parse s = Err e -> e = EValue.
Proof.
  assert (L : forall s q l p st e, b64_loop s q l p st = Err e -> e = EValue).
  { induction s as [|c s IH]; intros q l p st e H; cbn [b64_loop] in H.
    - destruct (q =? 0); congruence.
    - destruct (c =? b64_pad).
      + destruct (_ && _); [destruct s; congruence|eauto].
      + destruct (b64_val c); [|congruence]. destruct st; [congruence|].
        repeat match type of H with (if ?b then _ else _) = _ => destruct b end; [eauto| | |];
        match type of H with bind ?x _ = _ => destruct x eqn:E; cbn [bind] in H; [discriminate|] end;
        injection H as <-; eauto. }
  intros s e H. unfold bytes_parse in H. destruct (forallb _ s); [|congruence].
  destruct s; [discriminate|]. destruct (_ =? _); [congruence|]. eauto.
Qed.

(** Exactly which texts are accepted. *)
Lemma loop_data : forall cs vs s q l, Forall2 symbol cs vs -> q < 4 ->
  exists pre l', b64_loop (cs ++ s) q l 0 false =
    bind (b64_loop s ((q + N.of_nat (length cs)) mod 4) l' 0 false) (fun o => Ok (pre ++ o)).
Proof.
  induction cs as [|c cs IH]; intros vs s q l F Hq.
  - exists [], l. cbn [length app]. rewrite N.add_0_r.
    rewrite N.mod_small by lia. destruct (b64_loop s q l 0 false); reflexivity.
  - inversion F as [|? v ? vs' Sy F']; subst. pose proof (symbol_lt _ _ Sy) as Lv.
    rewrite (symbol_char' _ _ Sy). cbn [app].
    rewrite loop_char by assumption. cbn [length].
    destruct (q =? 0) eqn:E0; [|destruct (q =? 1) eqn:E1; [|destruct (q =? 2) eqn:E2]].
    + destruct (IH vs' s 1 v F' ltac:(lia)) as (pre & l' & G). exists pre, l'.
      replace (q + N.of_nat (S (length cs))) with (1 + N.of_nat (length cs)) by lia. exact G.
    + destruct (IH vs' s 2 (v mod 16) F' ltac:(lia)) as (pre & l' & G).
      exists ((l * 4 + v / 16) :: pre), l'. rewrite G.
      replace (q + N.of_nat (S (length cs))) with (2 + N.of_nat (length cs)) by lia.
      destruct (b64_loop s _ l' 0 false); reflexivity.
    + destruct (IH vs' s 3 (v mod 4) F' ltac:(lia)) as (pre & l' & G).
      exists ((l * 16 + v / 4) :: pre), l'. rewrite G.
      replace (q + N.of_nat (S (length cs))) with (3 + N.of_nat (length cs)) by lia.
      destruct (b64_loop s _ l' 0 false); reflexivity.
    + destruct (IH vs' s 0 0 F' ltac:(lia)) as (pre & l' & G).
      exists ((l * 64 + v) :: pre), l'. rewrite G.
      replace ((q + N.of_nat (S (length cs))) mod 4) with ((0 + N.of_nat (length cs)) mod 4) by lia.
      destruct (b64_loop s _ l' 0 false); reflexivity.
Qed.

Lemma loop_pads0 : forall n l p st, b64_loop (repeat b64_pad n) 0 l p st = Ok [].
Proof.
  induction n; intros; cbn [repeat b64_loop]; [reflexivity|]. rewrite N.eqb_refl. cbn. apply IHn.
Qed.

(** The loop on a run of pads directly after the data part. *)
Lemma loop_pads_iff : forall n q l, q < 4 ->
  (exists o, b64_loop (repeat b64_pad n) q l 0 false = Ok o) <->
  (q = 0 \/ (q = 2 /\ n = 2%nat) \/ (q = 3 /\ n = 1%nat)).
Proof.
  intros n q l Hq. assert (C : q = 0 \/ q = 1 \/ q = 2 \/ q = 3) by lia.
  destruct C as [->|[->|[->| ->]]].
  - split; [lia|]. intros _. exists []. apply loop_pads0.
  - rewrite loop_pads1. split; [intros [o H]; discriminate|lia].
  - destruct n as [|[|[|n]]]; cbn; split;
      try (intros [o H]; discriminate || lia); try lia; intros; eexists; reflexivity.
  - destruct n as [|[|n]]; cbn; split;
      try (intros [o H]; discriminate || lia); try lia; intros; eexists; reflexivity.
Qed.

Lemma shape_ascii : forall cs vs n, Forall2 symbol cs vs ->
  forallb (fun c => c <? 128) (cs ++ repeat 61 n) = true.
Proof.
  intros cs vs n F. rewrite forallb_app. apply andb_true_iff. split.
  - induction F; [reflexivity|]. cbn [forallb]. rewrite IHF, andb_true_r.
    rewrite (symbol_char' _ _ H). apply char_ascii. eauto using symbol_lt.
  - induction n; [reflexivity|]. cbn [repeat forallb]. rewrite IHn. reflexivity.
Qed.

Lemma mod4_N : forall k, (N.of_nat k) mod 4 = N.of_nat (k mod 4).
Proof. intros. rewrite Nat2N.inj_mod. reflexivity. Qed.

Lemma parse_shape : forall s, (exists bs, bytes_parse s = Ok bs) <-> accepted_shape s.
Proof.
  intros s. split.
  - intros [bs H].
    assert (L : s = [] \/ (exists c r, s = c :: r /\ c <> 61) /\ b64_loop s 0 0 0 false = Ok bs).
    { unfold bytes_parse in H. destruct (forallb _ s); [|discriminate].
      destruct s as [|c r]; [left; reflexivity|]. destruct (c =? b64_pad) eqn:E; [discriminate|].
      right. split; [|assumption]. exists c, r. split; [reflexivity|]. unfold b64_pad in E. lia. }
    destruct L as [->|[(c0 & r0 & Es & Ec) L]].
    + exists [], [], 0%nat. repeat split; try constructor. cbn. auto.
    + pose proof L as L'. apply loop_sound in L; [|lia|cbn; lia].
      destruct L as (cs & vs & n & r & fl & E & F & _). change b64_pad with 61 in E.
      exists cs, vs, n. split; [assumption|]. split; [assumption|].
      rewrite E in L'. destruct (loop_data cs vs (repeat 61 n) 0 0 F ltac:(lia)) as (pre & l' & G).
      rewrite G in L'. 
      assert (Q : exists o, b64_loop (repeat b64_pad n) ((0 + N.of_nat (length cs)) mod 4) l' 0 false = Ok o).
      { change b64_pad with 61. destruct (b64_loop (repeat 61 n) _ l' 0 false) as [o|]; [eauto|discriminate]. }
      apply loop_pads_iff in Q; [|lia]. rewrite N.add_0_l, mod4_N in Q.
      assert (cs = [] -> n = 0%nat).
      { intros ->. destruct n; [reflexivity|]. cbn in E. subst s. injection E as -> _. congruence. }
      destruct cs; [left; cbn; auto|]. 
      destruct Q as [Q|[[Q ->]|[Q ->]]]; [left; split; [lia|right; discriminate]|right; left|right; right]; split; lia.
  - intros (cs & vs & n & -> & F & H).
    destruct cs as [|c cs].
    + assert (n = 0%nat) by (destruct H as [[_ [H|H]]|[[H _]|[H _]]]; [assumption|congruence|discriminate|discriminate]).
      subst. exists []. reflexivity.
    + destruct (loop_data (c :: cs) vs (repeat 61 n) 0 0 F ltac:(lia)) as (pre & l' & G).
      assert (Q : exists o, b64_loop (repeat b64_pad n) ((0 + N.of_nat (length (c :: cs))) mod 4) l' 0 false = Ok o).
      { apply loop_pads_iff; [lia|]. rewrite N.add_0_l, mod4_N. lia. }
      destruct Q as [o Q]. exists (pre ++ o).
      rewrite parse_loop; eauto using shape_ascii.
      * rewrite G. change 61 with b64_pad. rewrite Q. reflexivity.
      * intros c' r' E. cbn [app] in E. injection E as <- _. inversion F; subst.
        rewrite (symbol_char' _ _ H2). apply char_not_pad. eauto using symbol_lt.
Qed.
