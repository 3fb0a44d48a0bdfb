From Coq Require Import String List NArith ZArith Bool Lia ZifyBool ZifyN ZifyNat.
From Verif Require Import Base Digits DigitsProofs PyStr PyStrProofs Addresses SpecAddresses.
Import ListNotations.
Open Scope list_scope.
Open Scope N_scope.
Ltac Zify.zify_post_hook ::= Z.div_mod_to_equations.

(** ** UUID *)
Lemma Forall_firstn : forall A (P : A -> Prop) n l, Forall P l -> Forall P (firstn n l).
Proof. intros A P n. induction n; intros [|x l] H; cbn [firstn]; try constructor; inversion H; auto. Qed.
Lemma Forall_skipn : forall A (P : A -> Prop) n l, Forall P l -> Forall P (skipn n l).
Proof. intros A P n. induction n; intros [|x l] H; cbn [skipn]; auto; inversion H; auto. Qed.

Lemma uuid_chars : forall u, Forall (fun c => hex_char c \/ c = 45) (uuid_generate u).
Proof.
  intros u. unfold uuid_generate. cbv zeta. pose proof (hex_pad_chars 32 u) as H.
  assert (G : forall l, Forall hex_char l -> Forall (fun c => hex_char c \/ c = 45) l).
  { intros l Hl. eapply Forall_impl; [|exact Hl]. auto. }
  assert (D : Forall (fun c => hex_char c \/ c = 45) (str "-")) by (repeat constructor; auto).
  repeat (apply Forall_app; split); auto using Forall_firstn, Forall_skipn.
Qed.

Lemma filter_hex : forall l, Forall hex_char l -> filter (fun c => negb (c =? 45)) l = l.
Proof.
  induction 1; [reflexivity|]. cbn [filter]. apply hex_char_facts in H.
  destruct (N.eqb_spec x 45); [lia|]. cbn [negb]. rewrite IHForall. reflexivity.
Qed.

Lemma pieces : forall (h : pystr),
  firstn 8 h ++ firstn 4 (skipn 8 h) ++ firstn 4 (skipn 12 h) ++ firstn 4 (skipn 16 h) ++ skipn 20 h = h.
Proof.
  intros h. rewrite <- (firstn_skipn 8 h) at 6. f_equal.
  assert (S : forall n m (l : pystr), skipn (n + m) l = skipn m (skipn n l)).
  { induction n; intros m [|x l]; cbn [plus skipn]; auto. destruct m; reflexivity. }
  change (skipn 12 h) with (skipn (8 + 4) h). change (skipn 16 h) with (skipn (8 + 8) h).
  change (skipn 20 h) with (skipn (8 + 12) h). rewrite !S.
  generalize (skipn 8 h). intros k. rewrite <- (firstn_skipn 4 k) at 5. f_equal.
  change (skipn 8 k) with (skipn (4 + 4) k). change (skipn 12 k) with (skipn (4 + 8) k). rewrite !S. generalize (skipn 4 k). intros l.
  rewrite <- (firstn_skipn 4 l) at 4. f_equal. change (skipn 8 l) with (skipn (4 + 4) l). rewrite !S. apply firstn_skipn.
Qed.

Lemma uuid_filter : forall u, filter (fun c => negb (c =? 45)) (uuid_generate u) = hex_pad 32 u.
Proof.
  intros u. unfold uuid_generate. cbv zeta. pose proof (hex_pad_chars 32 u) as H.
  rewrite !filter_app. change (filter (fun c => negb (c =? 45)) (str "-")) with (@nil N).
  cbn [app]. rewrite !filter_hex by auto using Forall_firstn, Forall_skipn. apply pieces.
Qed.

Lemma uuid_roundtrip : forall u, u < 2 ^ 128 -> uuid_parse (uuid_generate u) = Ok u.
Proof.
  intros u Hu. unfold uuid_parse. pose proof (uuid_chars u) as C.
  assert (N58 : ~ In 58 (uuid_generate u)).
  { intros I. rewrite Forall_forall in C. destruct (C _ I) as [G|G]; [|discriminate].
    apply hex_char_facts in G. lia. }
  rewrite (remove_pat_id (str "urn:") 58) by (cbn; auto 10).
  rewrite (remove_pat_id (str "uuid:") 58) by (cbn; auto 10).
  rewrite strip_id.
  2:{ eapply Forall_impl; [|exact C]. cbv beta. intros c [G| ->]; [|reflexivity]. apply hex_char_facts in G. lia. }
  cbv zeta. rewrite uuid_filter.
  assert (L : length (hex_pad 32 u) = 32%nat) by (apply hex_pad_length; [exact Hu|lia]).
  rewrite L. change (N.of_nat 32 =? 32) with true. cbv iota.
  rewrite int_base16_hex; [|apply hex_pad_chars|intros E; rewrite E in L; discriminate].
  rewrite hex_pad_value. cbn [bind].
  destruct (Z.leb_spec 0 (Z.of_N u)); [|lia].
  destruct (Z.ltb_spec (Z.of_N u) (2 ^ 128)); [|lia]. cbn [andb]. rewrite N2Z.id. reflexivity.
Qed.

Lemma hex_digit_char : forall d, d < 16 -> hex_digit d (digit_char d).
Proof.
  intros d H. unfold digit_char. destruct (N.ltb_spec d 10); [constructor; assumption|].
  replace (87 + d) with (97 + (d - 10)) by lia. constructor. lia.
Qed.

Lemma hex_numeral_of : forall l, Forall hex_char l ->
  hex_numeral (length l) (undigits 16 (map hex_value l)) l.
Proof.
  intros l. induction l as [|c l IH] using rev_ind; intros H; [constructor|].
  apply Forall_app in H. destruct H as [H1 H2]. inversion H2 as [|? ? [d [Hd E]] _]; subst.
  rewrite app_length, map_app, undigits_app. cbn [length map]. rewrite Nat.add_1_r.
  unfold hex_value at 2. rewrite char_digit_digit_char by assumption.
  change (16 ^ N.of_nat 1) with 16. change (undigits 16 [d]) with (0 * 16 + d).
  replace (undigits 16 (map hex_value l) * 16 + (0 * 16 + d)) with (16 * undigits 16 (map hex_value l) + d) by lia.
  constructor; auto using hex_digit_char.
Qed.

Lemma uuid_generate_text : forall u, u < 2 ^ 128 -> uuid_text u (uuid_generate u).
Proof.
  intros u Hu. pose proof (hex_pad_chars 32 u) as C.
  assert (L : length (hex_pad 32 u) = 32%nat) by (apply hex_pad_length; [exact Hu|lia]).
  set (h := hex_pad 32 u) in *.
  set (p1 := firstn 8 h). set (p2 := firstn 4 (skipn 8 h)). set (p3 := firstn 4 (skipn 12 h)).
  set (p4 := firstn 4 (skipn 16 h)). set (p5 := skipn 20 h).
  assert (V : undigits 16 (map hex_value h) = u) by apply hex_pad_value.
  rewrite <- (pieces h) in V. fold p1 p2 p3 p4 p5 in V. rewrite !map_app, !undigits_app in V.
  rewrite !app_length, !map_length in V.
  assert (L1 : length p1 = 8%nat) by (unfold p1; rewrite firstn_length; lia).
  assert (L2 : length p2 = 4%nat) by (unfold p2; rewrite firstn_length, skipn_length; lia).
  assert (L3 : length p3 = 4%nat) by (unfold p3; rewrite firstn_length, skipn_length; lia).
  assert (L4 : length p4 = 4%nat) by (unfold p4; rewrite firstn_length, skipn_length; lia).
  assert (L5 : length p5 = 12%nat) by (unfold p5; rewrite skipn_length; lia).
  rewrite L2, L3, L4, L5 in V.
  change (uuid_generate u) with (p1 ++ str "-" ++ p2 ++ str "-" ++ p3 ++ str "-" ++ p4 ++ str "-" ++ p5).
  rewrite <- V at 1. pose proof (uuid_text_intro _ _ _ _ _ _ _ _ _ _
    (eq_rect _ (fun k => hex_numeral k _ p1) (hex_numeral_of p1 (Forall_firstn _ _ _ _ C)) _ L1)
    (eq_rect _ (fun k => hex_numeral k _ p2) (hex_numeral_of p2 (Forall_firstn _ _ _ _ (Forall_skipn _ _ _ _ C))) _ L2)
    (eq_rect _ (fun k => hex_numeral k _ p3) (hex_numeral_of p3 (Forall_firstn _ _ _ _ (Forall_skipn _ _ _ _ C))) _ L3)
    (eq_rect _ (fun k => hex_numeral k _ p4) (hex_numeral_of p4 (Forall_firstn _ _ _ _ (Forall_skipn _ _ _ _ C))) _ L4)
    (eq_rect _ (fun k => hex_numeral k _ p5) (hex_numeral_of p5 (Forall_skipn _ _ _ _ C)) _ L5)) as G.
  match type of G with uuid_text ?x _ => match goal with |- uuid_text ?y _ => replace y with x; [exact G|] end end.
  change (16 ^ N.of_nat (4 + (4 + (4 + 12)))) with (2 ^ 96). change (16 ^ N.of_nat (4 + (4 + 12))) with (2 ^ 80).
  change (16 ^ N.of_nat (4 + 12)) with (2 ^ 64). change (16 ^ N.of_nat 12) with (2 ^ 48).
  lia.
Qed.

Lemma uuid_parse_bound : forall s u, uuid_parse s = Ok u -> u < 2 ^ 128.
Proof.
  intros s u H. unfold uuid_parse in H. cbv zeta in H. destruct (_ =? 32); [|discriminate].
  destruct (int_base16 _) as [v|]; [|discriminate]. cbn [bind] in H.
  destruct (Z.leb_spec 0 v); [|discriminate]. destruct (Z.ltb_spec v (2 ^ 128)); [|discriminate].
  injection H as <-. lia.
Qed.

Lemma uuid_errors : forall s e, uuid_parse s = Err e -> e = EValue.
Proof.
  intros s e H. unfold uuid_parse in H. cbv zeta in H. destruct (_ =? 32); [|congruence].
  destruct (int_base16 _) as [v|x] eqn:E; cbn [bind] in H.
  - destruct (_ && _); congruence.
  - injection H as <-. unfold int_base16 in E. cbv zeta in E.
    match type of E with (let '(_, _) := ?p in _) = _ => destruct p as [neg r] end.
    destruct (drop_0x r); [congruence|]. destruct (char_digit n); [|congruence].
    destruct (scan_hex _ _ _) as [[v rest]|]; [|congruence]. destruct (forallb _ _); congruence.
Qed.

(** ** IPv4 *)
Lemma octet_chars : forall n, n < 256 ->
  dec_str n = (if n <? 10 then [48 + n] else if n <? 100 then [48 + n / 10; 48 + n mod 10]
               else [48 + n / 100; 48 + n / 10 mod 10; 48 + n mod 10]).
Proof.
  assert (H : forallb (fun k => let n := N.of_nat k in pystr_eqb (dec_str n)
     (if n <? 10 then [48 + n] else if n <? 100 then [48 + n / 10; 48 + n mod 10]
               else [48 + n / 100; 48 + n / 10 mod 10; 48 + n mod 10])) (seq 0 256) = true)
    by (vm_compute; reflexivity).
  intros n Hn. rewrite forallb_forall in H. specialize (H (N.to_nat n)). rewrite in_seq in H.
  specialize (H ltac:(lia)). cbv zeta in H. rewrite N2Nat.id in H. apply pystr_eqb_eq in H. exact H.
Qed.

Lemma octet_text : forall n, n < 256 -> octet n (dec_str n).
Proof.
  intros n H. rewrite octet_chars by assumption.
  destruct (N.ltb_spec n 10); [constructor; assumption|].
  destruct (N.ltb_spec n 100).
  - replace n with (10 * (n / 10) + n mod 10) at 1 by lia. constructor; lia.
  - replace n with (100 * (n / 100) + 10 * (n / 10 mod 10) + n mod 10) at 1 by lia. constructor; lia.
Qed.

Lemma parse_octet_iff : forall s n, parse_octet s = Ok n <-> octet n s.
Proof.
  intros s n. split.
  - intros H. unfold parse_octet in H. destruct s as [|c s]; [discriminate|].
    destruct (forallb is_digit (c :: s)) eqn:D; [|discriminate]. cbn [negb] in H.
    destruct (3 <? N.of_nat (length (c :: s))) eqn:L; [discriminate|].
    destruct (negb (pystr_eqb (c :: s) (str "0")) && (c =? 48)) eqn:Z; [discriminate|].
    destruct (255 <? dec_val (c :: s)) eqn:B; [discriminate|]. injection H as <-.
    cbn [forallb] in D. apply andb_true_iff in D. destruct D as [D1 D2]. apply is_digit_spec in D1.
    destruct s as [|c2 s].
    + change (dec_val [c]) with (0 * 10 + (c - 48)). replace c with (48 + (c - 48)) at 2 by lia.
      replace (0 * 10 + (c - 48)) with (c - 48) by lia. constructor. lia.
    + assert (c <> 48).
      { intros ->. cbn in Z. discriminate. }
      cbn [forallb] in D2. apply andb_true_iff in D2. destruct D2 as [D2 D3]. apply is_digit_spec in D2.
      destruct s as [|c3 s].
      * change (dec_val [c; c2]) with ((0 * 10 + (c - 48)) * 10 + (c2 - 48)).
        replace [c; c2] with [48 + (c - 48); 48 + (c2 - 48)] by (do 2 f_equal; [|f_equal]; lia).
        replace ((0 * 10 + (c - 48)) * 10 + (c2 - 48)) with (10 * (c - 48) + (c2 - 48)) by lia. constructor; lia.
      * cbn [forallb] in D3. apply andb_true_iff in D3. destruct D3 as [D3 D4]. apply is_digit_spec in D3.
        destruct s as [|c4 s]; [|cbn [length] in L; lia].
        change (dec_val [c; c2; c3]) with (((0 * 10 + (c - 48)) * 10 + (c2 - 48)) * 10 + (c3 - 48)) in *.
        replace [c; c2; c3] with [48 + (c - 48); 48 + (c2 - 48); 48 + (c3 - 48)] by (repeat f_equal; lia).
        replace (((0 * 10 + (c - 48)) * 10 + (c2 - 48)) * 10 + (c3 - 48))
          with (100 * (c - 48) + 10 * (c2 - 48) + (c3 - 48)) by lia.
        constructor; lia.
  - intros H. inversion H as [a Ha|a b Ha Hb|a b c Ha Hb Hc Hl]; subst; unfold parse_octet.
    + replace (forallb is_digit [48 + n]) with true by (cbn [forallb]; unfold is_digit; lia).
      cbn [negb length]. change (3 <? N.of_nat 1) with false.
      replace (negb (pystr_eqb [48 + n] (str "0")) && (48 + n =? 48)) with false.
      2:{ change (pystr_eqb [48 + n] (str "0")) with ((48 + n =? 48) && true). lia. }
      change (dec_val [48 + n]) with (0 * 10 + (48 + n - 48)).
      destruct (N.ltb_spec 255 (0 * 10 + (48 + n - 48))); [lia|]. f_equal. lia.
    + replace (forallb is_digit [48 + a; 48 + b]) with true by (cbn [forallb]; unfold is_digit; lia).
      cbn [negb length]. change (3 <? N.of_nat 2) with false.
      replace (48 + a =? 48) with false by lia. rewrite andb_false_r.
      change (dec_val [48 + a; 48 + b]) with ((0 * 10 + (48 + a - 48)) * 10 + (48 + b - 48)).
      destruct (N.ltb_spec 255 ((0 * 10 + (48 + a - 48)) * 10 + (48 + b - 48))); [lia|]. f_equal. lia.
    + replace (forallb is_digit [48 + a; 48 + b; 48 + c]) with true by (cbn [forallb]; unfold is_digit; lia).
      cbn [negb length]. change (3 <? N.of_nat 3) with false.
      replace (48 + a =? 48) with false by lia. rewrite andb_false_r.
      change (dec_val [48 + a; 48 + b; 48 + c]) with (((0 * 10 + (48 + a - 48)) * 10 + (48 + b - 48)) * 10 + (48 + c - 48)).
      destruct (N.ltb_spec 255 (((0 * 10 + (48 + a - 48)) * 10 + (48 + b - 48)) * 10 + (48 + c - 48))); [lia|]. f_equal. lia.
Qed.

Lemma octet_no_dot : forall n s, octet n s -> ~ In 46 s /\ ~ In 47 s.
Proof. intros n s H. inversion H; subst; cbn [In]; lia. Qed.

Lemma ipv4_parse_iff : forall s n, ipv4_parse s = Ok n <-> ipv4_text n s.
Proof.
  intros s n. split.
  - intros H. unfold ipv4_parse in H. destruct (mem_char 47 s); [discriminate|]. unfold ipv4_from_string in H.
    pose proof (join_split 46 s) as J.
    destruct (split_on 46 s) as [|a [|b [|c [|d [|]]]]]; try discriminate.
    destruct (parse_octet a) as [na|] eqn:Ea; [|discriminate]. cbn [bind] in H.
    destruct (parse_octet b) as [nb|] eqn:Eb; [|discriminate]. cbn [bind] in H.
    destruct (parse_octet c) as [nc|] eqn:Ec; [|discriminate]. cbn [bind] in H.
    destruct (parse_octet d) as [nd|] eqn:Ed; [|discriminate]. cbn [bind] in H.
    apply parse_octet_iff in Ea, Eb, Ec, Ed. injection H as <-. subst s.
    replace (((na * 256 + nb) * 256 + nc) * 256 + nd) with (na * 2 ^ 24 + nb * 2 ^ 16 + nc * 2 ^ 8 + nd) by lia.
    exact (ipv4_text_intro na nb nc nd a b c d Ea Eb Ec Ed).
  - intros H. inversion H as [a b c d sa sb sc sd Ha Hb Hc Hd]; subst. unfold ipv4_parse, ipv4_from_string.
    pose proof (octet_no_dot _ _ Ha). pose proof (octet_no_dot _ _ Hb).
    pose proof (octet_no_dot _ _ Hc). pose proof (octet_no_dot _ _ Hd).
    set (t := sa ++ str "." ++ sb ++ str "." ++ sc ++ str "." ++ sd).
    assert (M : mem_char 47 t = false).
    { apply mem_char_not_in. unfold t. rewrite !in_app_iff. change (str ".") with [46]. cbn [In].
      assert (46 <> 47) by discriminate. tauto. }
    rewrite M. replace (split_on 46 t) with [sa; sb; sc; sd].
    2:{ change t with (join [46] [sa; sb; sc; sd]). symmetry. apply split_on_join; [discriminate|].
        repeat constructor; tauto. }
    apply parse_octet_iff in Ha, Hb, Hc, Hd. rewrite Ha, Hb, Hc, Hd. cbn [bind]. f_equal. lia.
Qed.

Lemma ipv4_generate_text : forall a, a < 2 ^ 32 -> ipv4_text a (ipv4_generate a).
Proof.
  intros a Ha. replace a with (a / 16777216 * 2 ^ 24 + a / 65536 mod 256 * 2 ^ 16 + a / 256 mod 256 * 2 ^ 8 + a mod 256) at 1 by lia.
  unfold ipv4_generate. cbn [map join]. constructor; apply octet_text; lia.
Qed.

Lemma ipv4_roundtrip : forall a, a < 2 ^ 32 -> ipv4_parse (ipv4_generate a) = Ok a.
Proof. intros a H. apply ipv4_parse_iff, ipv4_generate_text, H. Qed.

Lemma octet_bound : forall n s, octet n s -> n < 256.
Proof. intros n s H. inversion H; lia. Qed.

Lemma ipv4_bound : forall s a, ipv4_parse s = Ok a -> a < 2 ^ 32.
Proof.
  intros s a H. apply ipv4_parse_iff in H. inversion H; subst.
  repeat match goal with G : octet _ _ |- _ => apply octet_bound in G end. lia.
Qed.

Lemma octet_error : forall s e, parse_octet s = Err e -> e = EValue.
Proof.
  intros s e H. unfold parse_octet in H. destruct s; [congruence|].
  repeat match type of H with (if ?b then _ else _) = _ => destruct b end; congruence.
Qed.

Lemma ipv4_errors : forall s e, ipv4_parse s = Err e -> e = EValue.
Proof.
  intros s e H. unfold ipv4_parse in H. destruct (mem_char 47 s); [congruence|]. unfold ipv4_from_string in H.
  destruct (split_on 46 s) as [|a [|b [|c [|d [|]]]]]; try congruence.
  repeat match type of H with bind (parse_octet ?x) _ = _ =>
    let E := fresh in destruct (parse_octet x) eqn:E; cbn [bind] in H; [|apply octet_error in E; congruence] end.
  discriminate.
Qed.

(** ** IPv6 *)
Definition zero := str "0".

Lemma repeat_snoc : forall A (x : A) n, repeat x n ++ [x] = repeat x (S n).
Proof. intros. induction n; cbn [repeat app]; [reflexivity|]. rewrite IHn. reflexivity. Qed.

Lemma best_run_spec : forall hs pre cs cl bs bl s l,
  (exists p0, pre = p0 ++ repeat zero cl /\ ((0 < cl)%nat -> cs = length p0)) ->
  (exists p1 p2, pre = p1 ++ repeat zero bl ++ p2 /\ ((0 < bl)%nat -> bs = length p1)) ->
  best_run hs (length pre) cs cl bs bl = (s, l) ->
  exists q1 q2, pre ++ hs = q1 ++ repeat zero l ++ q2 /\ ((0 < l)%nat -> s = length q1).
Proof.
  induction hs as [|h hs IH]; intros pre cs cl bs bl s l (p0 & E0 & C0) (p1 & p2 & E1 & C1) H; cbn [best_run] in H.
  - injection H as <- <-. exists p1, p2. rewrite app_nil_r. auto.
  - replace (S (length pre)) with (length (pre ++ [h])) in H by (rewrite app_length; cbn; lia).
    assert (A : pre ++ h :: hs = (pre ++ [h]) ++ hs) by (rewrite <- app_assoc; reflexivity).
    rewrite A. fold zero in H. destruct (pystr_eqb h zero) eqn:Ez.
    + apply pystr_eqb_eq in Ez. subst h.
      set (cs' := if (cl =? 0)%nat then length pre else cs) in *.
      assert (Cur : exists p0, pre ++ [zero] = p0 ++ repeat zero (S cl) /\ ((0 < S cl)%nat -> cs' = length p0)).
      { exists p0. split; [rewrite E0, <- app_assoc, repeat_snoc; reflexivity|]. intros _. unfold cs'.
        destruct (Nat.eqb_spec cl 0); [subst cl; rewrite E0, app_length; cbn; lia|apply C0; lia]. }
      destruct (bl <? S cl)%nat eqn:B.
      * eapply IH; [exact Cur| |exact H]. destruct Cur as (q & Eq & Cq). exists q, []. rewrite app_nil_r. auto.
      * eapply IH; [exact Cur| |exact H]. exists p1, (p2 ++ [zero]). split; [rewrite E1, <- !app_assoc; reflexivity|auto].
    + eapply IH; [| |exact H].
      * exists (pre ++ [h]). split; [cbn [repeat]; rewrite app_nil_r; reflexivity|lia].
      * exists p1, (p2 ++ [h]). split; [rewrite E1, <- !app_assoc; reflexivity|auto].
Qed.

(** Hextet texts. *)
Lemma hex_str_nonnil : forall n, hex_str n <> [].
Proof. intros n H. unfold hex_str in H. apply map_eq_nil in H. exact (digits_nonnil _ _ H). Qed.

Lemma parse_hextet_hex : forall n, n < 65536 -> parse_hextet (hex_str n) = Ok n.
Proof.
  intros n H. unfold parse_hextet.
  pose proof (hex_str_chars n) as C. pose proof (hex_str_length n 4 H ltac:(lia)) as L.
  assert (F : forallb (fun c => match char_digit c with Some _ => true | None => false end) (hex_str n) = true).
  { apply forallb_forall. intros c Hc. rewrite Forall_forall in C. specialize (C c Hc). 
    destruct (hex_char_facts c C) as ((d & -> & _) & _). reflexivity. }
  rewrite F. cbn [negb]. destruct (N.ltb_spec 4 (N.of_nat (length (hex_str n)))); [lia|].
  change (fun c : N => match char_digit c with Some d => d | None => 0 end) with hex_value.
  rewrite hex_str_value. pose proof (hex_str_nonnil n). destruct (hex_str n); [congruence|reflexivity].
Qed.

Lemma accumulate_hex : forall ns acc, Forall (fun n => n < 65536) ns ->
  accumulate acc (map hex_str ns) = Ok (acc * 65536 ^ N.of_nat (length ns) + undigits 65536 ns).
Proof.
  induction ns as [|n ns IH]; intros acc H; cbn [map accumulate].
  - change (undigits 65536 []) with 0. change (65536 ^ N.of_nat (length [])) with 1. f_equal. lia.
  - inversion H; subst. rewrite parse_hextet_hex by assumption. cbn [bind]. rewrite IH by assumption.
    rewrite undigits_cons. cbn [length]. rewrite Nat2N.inj_succ, N.pow_succ_r'. f_equal. ring.
Qed.

Lemma find_skip_none : forall m i f, Forall (fun p => p <> []) m -> find_skip m i f = Some f.
Proof.
  induction m as [|p m IH]; intros i f H; [reflexivity|]. inversion H; subst. cbn [find_skip].
  destruct p; [congruence|]. apply IH. assumption.
Qed.
Lemma find_skip_one : forall (m1 m2 : list (list N)) i, Forall (fun p => p <> []) m1 -> Forall (fun p => p <> []) m2 ->
  find_skip (m1 ++ [] :: m2) i None = Some (Some (i + length m1)%nat).
Proof.
  induction m1 as [|p m1 IH]; intros m2 i H1 H2; cbn [app find_skip].
  - rewrite find_skip_none by assumption. cbn [length]. rewrite Nat.add_0_r. reflexivity.
  - inversion H1; subst. destruct p; [congruence|]. rewrite IH by assumption. cbn [length]. do 2 f_equal. lia.
Qed.

Lemma hextets_value : forall a, undigits 65536 (hextets a) = a.
Proof.
  intros a. unfold hextets, undigits. cbn [fold_left].
  change (2 ^ 112) with (2 ^ 96 * 65536). change (2 ^ 96) with (2 ^ 80 * 65536).
  change (2 ^ 80) with (2 ^ 64 * 65536). change (2 ^ 64) with (2 ^ 48 * 65536).
  change (2 ^ 48) with (2 ^ 32 * 65536). change (2 ^ 32) with (2 ^ 16 * 65536). change (2 ^ 16) with 65536.
  rewrite <- !N.div_div by (vm_compute; discriminate).
  rewrite N.mul_0_l, N.add_0_l.
  assert (S : forall x, x / 65536 * 65536 + x mod 65536 = x) by (intros; lia).
  rewrite !S. reflexivity.
Qed.

Lemma hextets_bound : forall a, a < 2 ^ 128 -> Forall (fun n => n < 65536) (hextets a).
Proof.
  intros a H. unfold hextets. repeat constructor; try (apply N.mod_lt; lia).
  apply N.div_lt_upper_bound; [vm_compute; discriminate|]. exact H.
Qed.

Lemma hex_str_no : forall n c, c = 58 \/ c = 46 \/ c = 47 \/ c = 37 -> ~ In c (hex_str n).
Proof.
  intros n c Hc I. pose proof (hex_str_chars n) as C. rewrite Forall_forall in C. specialize (C c I).
  apply hex_char_facts in C. lia.
Qed.

Lemma zero_hex : forall n, hex_str n = zero -> n = 0.
Proof. intros n H. rewrite <- (hex_str_value n), H. reflexivity. Qed.

Lemma removelast_snoc : forall A (l : list A) x, removelast (l ++ [x]) = l.
Proof. intros. apply removelast_last. Qed.

Ltac use_skip lem :=
  match goal with |- context [find_skip ?m ?i ?f] =>
    let H := fresh in pose proof lem as H;
    match type of H with _ = ?v => replace (find_skip m i f) with v by (symmetry; exact H) end; clear H end.

(** The parts of a compressed address. *)
Lemma from_parts : forall n1 n2, Forall (fun n => n < 65536) n1 -> Forall (fun n => n < 65536) n2 ->
  (length n1 + length n2 <= 7)%nat ->
  forall q1 q2 : list pystr, q1 = map hex_str n1 -> q2 = map hex_str n2 ->
  ipv6_from_string (join (str ":")
    ((match q1 with [] => [[]] | _ => [] end) ++ q1 ++ [[]] ++ q2 ++ (match q2 with [] => [[]] | _ => [] end)))
  = Ok (undigits 65536 n1 * 65536 ^ N.of_nat (8 - length n1) + undigits 65536 n2).
Proof.
  intros n1 n2 F1 F2 L q1 q2 Eq1 Eq2.
  set (parts := (match q1 with [] => [[]] | _ => [] end) ++ q1 ++ [[]] ++ q2 ++ (match q2 with [] => [[]] | _ => [] end)).
  assert (NE : forall ns, Forall (fun p : list N => p <> []) (map hex_str ns)).
  { intros. apply Forall_map, Forall_forall. intros. apply hex_str_nonnil. }
  assert (NC : forall c ns, c = 58 \/ c = 46 \/ c = 47 \/ c = 37 -> Forall (fun p => ~ In c p) (map hex_str ns)).
  { intros. apply Forall_map, Forall_forall. intros. apply hex_str_no. assumption. }
  assert (Lq1 : length q1 = length n1) by (subst; apply map_length).
  assert (Lq2 : length q2 = length n2) by (subst; apply map_length).
  assert (P58 : forall c, c = 58 \/ c = 46 \/ c = 47 \/ c = 37 -> Forall (fun p => ~ In c p) parts).
  { intros c Hc. unfold parts. repeat (apply Forall_app; split); try (rewrite ?Eq1, ?Eq2; apply NC; assumption);
      [destruct q1|repeat constructor; auto|destruct q2]; repeat constructor; auto. }
  assert (Pn : parts <> []).
  { unfold parts. intros E. apply app_eq_nil in E. destruct E as [_ E]. apply app_eq_nil in E. destruct E; discriminate. }
  assert (Sp : split_on 58 (join (str ":") parts) = parts).
  { change (str ":") with [58]. apply split_on_join; auto. }
  unfold ipv6_from_string.
  destruct (join (str ":") parts) as [|c0 s0] eqn:J.
  { exfalso. cbn [split_on] in Sp. unfold parts in Sp.
    apply (f_equal (@length pystr)) in Sp. revert Sp. rewrite !app_length. cbn [length].
    destruct q1, q2; cbn [length]; lia. }
  rewrite Sp.
  assert (Lp : (3 <= length parts <= 9)%nat).
  { unfold parts. rewrite !app_length. cbn [length]. destruct q1, q2; cbn [length] in *; lia. }
  destruct (Nat.ltb_spec (length parts) 3); [lia|].
  assert (Ld : mem_char 46 (last parts []) = false).
  { apply mem_char_not_in. specialize (P58 46 ltac:(auto)). rewrite Forall_forall in P58. apply P58.
    destruct (exists_last Pn) as (l' & x & ->). rewrite last_last. apply in_or_app. right. left. reflexivity. }
  cbv zeta. match goal with |- context [mem_char 46 ?x] => replace (mem_char 46 x) with false by (symmetry; exact Ld) end.
  cbn [bind]. destruct (Nat.ltb_spec 9 (length parts)); [lia|].
  assert (NE1 : Forall (fun p : list N => p <> []) q1) by (rewrite Eq1; apply NE).
  assert (NE2 : Forall (fun p : list N => p <> []) q2) by (rewrite Eq2; apply NE).
  destruct q1 as [|a1 r1].
  - assert (n1 = []) by (destruct n1; [reflexivity|discriminate]). subst n1. cbn [length] in *.
    change (undigits 65536 []) with 0.
    destruct q2 as [|a2 r2].
    + assert (n2 = []) by (destruct n2; [reflexivity|discriminate]). subst n2. vm_compute. reflexivity.
    + unfold parts. cbn [app]. rewrite app_nil_r. cbn [tl hd is_empty].
      assert (X : exists r' z, a2 :: r2 = r' ++ [z] /\ Forall (fun p : list N => p <> []) r' /\ z <> []).
      { destruct (@exists_last _ (a2 :: r2)) as (r' & z & E); [discriminate|]. rewrite E in NE2.
        apply Forall_app in NE2. destruct NE2 as [? G]. inversion G; subst. eauto. }
      destruct X as (r' & z & E & Fr & Hz). rewrite E in Eq2 |- *. clear E.
      replace (removelast ([] :: r' ++ [z])) with ([] :: r') by (symmetry; exact (removelast_snoc _ ([] :: r') z)).
      use_skip (find_skip_one [] r' 1 (Forall_nil _) Fr). cbn [length plus].
      replace (last ([] :: [] :: r' ++ [z]) []) with z by (rewrite 2!app_comm_cons, last_last; reflexivity).
      replace (is_empty z) with false by (destruct z; [congruence|reflexivity]). cbn [andb negb].
      change (1 - 1)%nat with 0%nat. cbn [Nat.eqb negb].
      assert (Lr : length (r' ++ [z]) = length n2) by (rewrite Eq2; apply map_length).
      rewrite Lr. replace (S (S (length n2)) - 1 - 1)%nat with (length n2) by lia.
      destruct (Nat.ltb_spec 8 (0 + length n2 + 1)); [lia|]. cbn [firstn accumulate bind].
      replace (S (S (length n2)) - length n2)%nat with 2%nat by lia. cbn [skipn].
      rewrite Eq2. rewrite accumulate_hex by assumption. rewrite ?N.mul_0_l; reflexivity.
  - assert (Hd1 : a1 <> []) by (inversion NE1; assumption).
    assert (Fr1 : Forall (fun p : list N => p <> []) r1) by (inversion NE1; assumption).
    destruct q2 as [|a2 r2].
    + assert (n2 = []) by (destruct n2; [reflexivity|discriminate]). subst n2. 
      change (undigits 65536 []) with 0. rewrite N.add_0_r.
      unfold parts. cbn [app tl hd]. 
      replace (removelast (r1 ++ [[]; []])) with (r1 ++ [[] : list N]).
      2:{ change [[]; []] with ([[]] ++ [[] : list N]). rewrite app_assoc, removelast_snoc. reflexivity. }
      use_skip (find_skip_one r1 [] 1 Fr1 (Forall_nil _)).
      replace (last (a1 :: r1 ++ [[]; []]) []) with ([] : list N).
      2:{ change [[]; []] with ([[]] ++ [[] : list N]). rewrite app_assoc, app_comm_cons, last_last. reflexivity. }
      replace (is_empty a1) with false by (destruct a1; [congruence|reflexivity]). cbn [andb negb is_empty].
      cbn [length] in *. rewrite app_length. cbn [length].
      replace (S (length r1 + 2) - (1 + length r1) - 1 - 1)%nat with 0%nat by lia. cbn [Nat.eqb negb andb].
      destruct (Nat.ltb_spec 8 (1 + length r1 + 0 + 1)); [lia|].
      replace (firstn (1 + length r1) (a1 :: r1 ++ [[]; []])) with (map hex_str n1).
      2:{ cbn [plus firstn]. rewrite firstn_app, firstn_all, Nat.sub_diag. cbn [firstn]. rewrite app_nil_r. symmetry; exact Eq1. }
      rewrite accumulate_hex by assumption. cbn [bind].
      replace (S (length r1 + 2) - 0)%nat with (length (a1 :: r1 ++ [[]; []])) by (cbn [length]; rewrite app_length; cbn; lia).
      rewrite skipn_all. cbn [accumulate]. f_equal.
      replace (8 - (1 + length r1 + 0))%nat with (8 - length n1)%nat by lia. lia.
    + unfold parts. cbn [app tl hd]. rewrite app_nil_r.
      assert (X : exists r' z, a2 :: r2 = r' ++ [z] /\ Forall (fun p : list N => p <> []) r' /\ z <> []).
      { destruct (@exists_last _ (a2 :: r2)) as (r' & z & E); [discriminate|]. rewrite E in NE2.
        apply Forall_app in NE2. destruct NE2 as [? G]. inversion G; subst. eauto. }
      destruct X as (r' & z & E & Fr & Hz). rewrite E in Eq2 |- *. clear E.
      replace (removelast (r1 ++ [] :: r' ++ [z])) with (r1 ++ [] :: r').
      2:{ rewrite app_comm_cons, app_assoc, removelast_snoc. reflexivity. }
      use_skip (find_skip_one r1 r' 1 Fr1 Fr).
      replace (last (a1 :: r1 ++ [] :: r' ++ [z]) []) with z.
      2:{ rewrite (app_comm_cons r' [z] []), app_assoc, app_comm_cons, last_last. reflexivity. }
      replace (is_empty a1) with false by (destruct a1; [congruence|reflexivity]).
      replace (is_empty z) with false by (destruct z; [congruence|reflexivity]). cbn [andb negb].
      assert (Lr : length (r' ++ [z]) = length n2) by (rewrite Eq2; apply map_length).
      cbn [length] in *. rewrite app_length. cbn [length]. rewrite Lr.
      replace (S (length r1 + S (length n2)) - (1 + length r1) - 1)%nat with (length n2) by lia.
      destruct (Nat.ltb_spec 8 (1 + length r1 + length n2 + 1)); [lia|].
      replace (firstn (1 + length r1) (a1 :: r1 ++ [] :: r' ++ [z])) with (map hex_str n1).
      2:{ cbn [plus firstn]. rewrite firstn_app, firstn_all, Nat.sub_diag. cbn [firstn]. rewrite app_nil_r. symmetry; exact Eq1. }
      rewrite accumulate_hex by assumption. cbn [bind].
      replace (skipn (S (length r1 + S (length n2)) - length n2) (a1 :: r1 ++ [] :: r' ++ [z])) with (map hex_str n2).
      2:{ replace (S (length r1 + S (length n2)) - length n2)%nat with (length (a1 :: r1 ++ [[]])) 
            by (cbn [length]; rewrite app_length; cbn [length]; lia).
          replace (a1 :: r1 ++ [] :: r' ++ [z]) with ((a1 :: r1 ++ [[]]) ++ (r' ++ [z]))
            by (cbn [app]; rewrite <- app_assoc; reflexivity).
          rewrite skipn_app, skipn_all, Nat.sub_diag. cbn [skipn app]. symmetry; exact Eq2. }
      rewrite accumulate_hex by assumption. f_equal.
      rewrite N.mul_0_l, N.add_0_l.
      replace (undigits 65536 n1 * 65536 ^ N.of_nat (8 - (1 + length r1 + length n2)) * 65536 ^ N.of_nat (length n2))
        with (undigits 65536 n1 * 65536 ^ N.of_nat (8 - length n1)); [reflexivity|].
      rewrite <- N.mul_assoc, <- N.pow_add_r. do 2 f_equal. lia.
Qed.

Lemma from_full : forall ns, Forall (fun n => n < 65536) ns -> length ns = 8%nat ->
  ipv6_from_string (join (str ":") (map hex_str ns)) = Ok (undigits 65536 ns).
Proof.
  intros ns F L. unfold ipv6_from_string.
  assert (Sp : split_on 58 (join (str ":") (map hex_str ns)) = map hex_str ns).
  { change (str ":") with [58]. apply split_on_join.
    - destruct ns; discriminate.
    - apply Forall_map, Forall_forall. intros. apply hex_str_no. auto. }
  destruct (join (str ":") (map hex_str ns)) as [|c0 s0].
  { exfalso. cbn [split_on] in Sp. apply (f_equal (@length pystr)) in Sp. rewrite map_length, L in Sp. discriminate. }
  cbv zeta. rewrite Sp, map_length, L. cbn [Nat.ltb Nat.leb].
  assert (Ld : mem_char 46 (last (map hex_str ns) []) = false).
  { apply mem_char_not_in.
    destruct (@exists_last _ ns) as (l' & x & ->); [destruct ns; discriminate|].
    rewrite map_app. cbn [map]. rewrite last_last. apply hex_str_no. auto. }
  rewrite Ld. cbn [bind]. rewrite map_length, L. cbn [Nat.ltb Nat.leb].
  assert (NE : Forall (fun p : pystr => p <> []) (map hex_str ns)).
  { apply Forall_map, Forall_forall. intros. apply hex_str_nonnil. }
  destruct ns as [|n0 ns]; [discriminate|]. cbn [map tl hd].
  rewrite find_skip_none.
  2:{ cbn [map] in NE. inversion NE; subst. clear -H2. induction (map hex_str ns) as [|x [|y l] IH]; [constructor|constructor|].
      inversion H2; subst. change (removelast (x :: y :: l)) with (x :: removelast (y :: l)). constructor; auto. }
  cbn [length] in L. cbn [Nat.eqb negb].
  assert (I : is_empty (hex_str n0) = false) by (pose proof (hex_str_nonnil n0); destruct (hex_str n0); [congruence|reflexivity]).
  rewrite I.
  assert (I2 : is_empty (last (hex_str n0 :: map hex_str ns) []) = false).
  { change (hex_str n0 :: map hex_str ns) with (map hex_str (n0 :: ns)).
    destruct (@exists_last _ (n0 :: ns)) as (l' & x & ->); [discriminate|].
    rewrite map_app. cbn [map]. rewrite last_last.
    pose proof (hex_str_nonnil x); destruct (hex_str x); [congruence|reflexivity]. }
  rewrite I2. change (hex_str n0 :: map hex_str ns) with (map hex_str (n0 :: ns)).
  rewrite accumulate_hex by assumption. f_equal.
Qed.

Lemma map_app_inv : forall A B (f : A -> B) l b1 b2, map f l = b1 ++ b2 ->
  exists l1 l2, l = l1 ++ l2 /\ map f l1 = b1 /\ map f l2 = b2.
Proof.
  intros A B f l b1. revert l. induction b1 as [|x b1 IH]; intros l b2 H.
  - exists [], l. auto.
  - destruct l as [|y l]; [discriminate|]. injection H as <- H. destruct (IH _ _ H) as (l1 & l2 & -> & <- & <-).
    exists (y :: l1), l2. auto.
Qed.

Lemma address_roundtrip : forall a, a < 2 ^ 128 ->
  ipv6_from_string (join (str ":") (compress_hextets (map hex_str (hextets a)))) = Ok a.
Proof.
  intros a Ha. pose proof (hextets_bound a Ha) as F. pose proof (hextets_value a) as V.
  assert (L8 : length (hextets a) = 8%nat) by reflexivity.
  set (ns := hextets a) in *. clearbody ns.
  unfold compress_hextets.
  destruct (best_run (map hex_str ns) 0 0 0 0 0) as [s l] eqn:B.
  destruct (Nat.ltb_spec 1 l).
  - apply (best_run_spec (map hex_str ns) [] 0 0 0 0 s l) in B.
    2:{ exists []. split; [reflexivity|lia]. }
    2:{ exists [], []. split; [reflexivity|lia]. }
    destruct B as (q1 & q2 & E & S). specialize (S ltac:(lia)). subst s. cbn [app] in E.
    pose proof E as E'. apply map_app_inv in E. destruct E as (n1 & n23 & -> & M1 & M23).
    apply map_app_inv in M23. destruct M23 as (nz & n2 & -> & Mz & M2).
    apply Forall_app in F. destruct F as [F1 F]. apply Forall_app in F. destruct F as [_ F2].
    assert (Lz : length nz = l) by (rewrite <- (map_length hex_str nz), Mz, repeat_length; reflexivity).
    assert (Z : nz = repeat 0 l).
    { clear -Mz. revert l Mz. induction nz as [|x nz IH]; intros [|l] Mz; try discriminate; [reflexivity|].
      cbn [map repeat] in *. injection Mz as Hx Hz. f_equal; [apply zero_hex; exact Hx|auto]. }
    rewrite E'. rewrite !app_length, L8 || idtac.
    assert (Lq1 : length q1 = length n1) by (rewrite <- M1; apply map_length).
    assert (Lq2 : length q2 = length n2) by (rewrite <- M2; apply map_length).
    rewrite !app_length in L8.
    replace (firstn (length q1) (q1 ++ repeat zero l ++ q2)) with q1
      by (rewrite firstn_app, firstn_all, Nat.sub_diag; cbn [firstn]; rewrite app_nil_r; reflexivity).
    replace (skipn (length q1 + l) (q1 ++ repeat zero l ++ q2)) with q2.
    2:{ rewrite app_assoc. replace (length q1 + l)%nat with (length (q1 ++ repeat zero l))
          by (rewrite app_length, repeat_length; reflexivity).
        rewrite skipn_app, skipn_all, Nat.sub_diag. reflexivity. }
    replace (if (length q1 =? 0)%nat then [[]] else []) with (match q1 with [] => [[] : pystr] | _ => [] end)
      by (destruct q1; reflexivity).
    rewrite !app_length, repeat_length.
    replace (if (length q1 + l =? length q1 + (l + length q2))%nat then [[]] else [])
      with (match q2 with [] => [[] : pystr] | _ => [] end).
    2:{ destruct q2; cbn [length]; [rewrite Nat.add_0_r, Nat.eqb_refl; reflexivity|].
        destruct (Nat.eqb_spec (length q1 + l) (length q1 + (l + S (length q2)))); [lia|reflexivity]. }
    rewrite <- M1, <- M2. rewrite (from_parts n1 n2 F1 F2) by (reflexivity || lia). f_equal.
    rewrite <- V, Z, !undigits_app, undigits_zeros', app_length, repeat_length.
    replace (8 - length n1)%nat with (l + length n2)%nat by lia. lia.
  - rewrite from_full by assumption. rewrite V. reflexivity.
Qed.

Lemma compress_chars : forall c a, c = 47 \/ c = 37 ->
  ~ In c (join (str ":") (compress_hextets (map hex_str (hextets a)))).
Proof.
  intros c a Hc.
  assert (J : forall parts, Forall (fun p => ~ In c p) parts -> ~ In c (join (str ":") parts)).
  { induction parts as [|p ps IH]; intros H; [cbn; auto|]. inversion H; subst.
    destruct ps as [|q ps]; [exact H2|]. change (join (str ":") (p :: q :: ps)) with (p ++ 58 :: join (str ":") (q :: ps)).
    rewrite in_app_iff. cbn [In]. specialize (IH H3). intros [G|[G|G]]; [auto|lia|auto]. }
  apply J. unfold compress_hextets.
  assert (F : Forall (fun p => ~ In c p) (map hex_str (hextets a))).
  { apply Forall_map, Forall_forall. intros. apply hex_str_no. tauto. }
  destruct (best_run _ 0 0 0 0 0) as [s l]. destruct (1 <? l)%nat; [|exact F].
  assert (E : Forall (fun p => ~ In c p) [[] : pystr]) by (repeat constructor; auto).
  repeat (apply Forall_app; split); auto using Forall_firstn, Forall_skipn; destruct (_ =? _)%nat; auto.
Qed.

Lemma ipv6_roundtrip : forall a, ipv6_wf a -> ipv6_parse (ipv6_generate a) = Ok a.
Proof.
  intros [a sc] [Ha Hs]. cbn [ip6_addr ip6_scope] in *. unfold ipv6_generate, ipv6_parse. cbn [ip6_addr ip6_scope].
  set (t := join (str ":") (compress_hextets (map hex_str (hextets a)))).
  assert (R : ipv6_from_string t = Ok a) by (apply address_roundtrip; exact Ha).
  assert (N47 : ~ In 47 t) by (apply compress_chars; auto).
  assert (N37 : ~ In 37 t) by (apply compress_chars; auto).
  destruct sc as [[|c sc]|].
  - cbn [scope_wf] in Hs. destruct Hs. congruence.
  - cbn [scope_wf] in Hs. destruct Hs as (_ & S37 & S47).
    assert (M : mem_char 47 (t ++ str "%" ++ c :: sc) = false).
    { apply mem_char_not_in. rewrite !in_app_iff. intros [G|[G|G]]; [auto| |auto].
      cbn in G. destruct G as [G|[]]. discriminate. }
    rewrite M. change (str "%" ++ c :: sc) with (37 :: c :: sc). rewrite partition_some by assumption.
    apply mem_char_not_in in S37. rewrite S37, R. reflexivity.
  - assert (M : mem_char 47 t = false) by (apply mem_char_not_in; assumption).
    rewrite M, partition_none, R by assumption. reflexivity.
Qed.

(** Errors and ranges of IPv6. *)
Lemma parse_hextet_bound : forall p h, parse_hextet p = Ok h -> h < 65536.
Proof.
  intros p h H. unfold parse_hextet in H. destruct (forallb _ p) eqn:F; [|discriminate]. cbn [negb] in H.
  destruct (N.ltb_spec 4 (N.of_nat (length p))); [discriminate|].
  destruct p as [|c p]; [discriminate|]. injection H as <-.
  change (fun c : N => match char_digit c with Some d => d | None => 0 end) with hex_value.
  set (l := c :: p) in *.
  assert (B : undigits 16 (map hex_value l) < 16 ^ N.of_nat (length (map hex_value l))).
  { apply undigits_lt; [lia|]. apply Forall_map, Forall_forall. intros x _. unfold hex_value, char_digit.
    destruct ((48 <=? x) && (x <=? 57)) eqn:?; [lia|]. destruct ((97 <=? x) && (x <=? 102)) eqn:?; [lia|].
    destruct ((65 <=? x) && (x <=? 70)) eqn:?; lia. }
  rewrite map_length in B. eapply N.lt_le_trans; [exact B|].
  change 65536 with (16 ^ 4). apply N.pow_le_mono_r; lia.
Qed.

Lemma accumulate_bound : forall ps acc k v, accumulate acc ps = Ok v -> acc < 65536 ^ k ->
  v < 65536 ^ (k + N.of_nat (length ps)).
Proof.
  induction ps as [|p ps IH]; intros acc k v H B; cbn [accumulate] in H.
  - injection H as <-. cbn [length]. rewrite N.add_0_r. assumption.
  - destruct (parse_hextet p) as [h|] eqn:E; [|discriminate]. cbn [bind] in H.
    apply parse_hextet_bound in E. apply (IH _ (k + 1)) in H.
    + cbn [length]. replace (k + N.of_nat (S (length ps))) with (k + 1 + N.of_nat (length ps)) by lia. assumption.
    + rewrite N.add_1_r, N.pow_succ_r'. lia.
Qed.

Lemma ipv6_from_string_bound : forall s a, ipv6_from_string s = Ok a -> a < 2 ^ 128.
Proof.
  intros s a H. unfold ipv6_from_string in H. destruct s as [|c s]; [discriminate|].
  destruct (_ <? 3)%nat; [discriminate|].
  match type of H with bind ?x _ = _ => destruct x as [parts|]; [|discriminate] end. cbn [bind] in H.
  destruct (_ <? _)%nat; [discriminate|]. change (2 ^ 128) with (65536 ^ 8).
  destruct (find_skip _ _ _) as [[i|]|]; [| |discriminate].
  - cbv zeta in H.
    set (hi := if is_empty (hd [] parts) then (i - 1)%nat else i) in *.
    set (lo := if is_empty (last parts []) then (length parts - i - 1 - 1)%nat else (length parts - i - 1)%nat) in *.
    destruct (_ && _); [discriminate|]. destruct (_ && _); [discriminate|].
    destruct (Nat.ltb_spec 8 (hi + lo + 1)); [discriminate|].
    destruct (accumulate 0 _) as [v|] eqn:E; [|discriminate]. cbn [bind] in H.
    apply (accumulate_bound _ _ 0) in E; [|cbn; lia]. 
    assert (Lf : (length (firstn hi parts) <= hi)%nat) by apply firstn_le_length.
    apply (accumulate_bound _ _ (N.of_nat (8 - lo))) in H.
    + eapply N.lt_le_trans; [exact H|]. apply N.pow_le_mono_r; [lia|]. rewrite skipn_length.
      unfold lo in *. destruct (is_empty (last parts [])); lia.
    + replace (N.of_nat (8 - lo)) with (N.of_nat hi + N.of_nat (8 - (hi + lo))) by lia.
      rewrite N.pow_add_r. apply N.mul_lt_mono_pos_r; [apply N.neq_0_lt_0, N.pow_nonzero; lia|].
      eapply N.lt_le_trans; [exact E|]. apply N.pow_le_mono_r; lia.
  - destruct (Nat.eqb_spec (length parts) 8) as [E8|]; [|discriminate]. cbn [negb] in H.
    destruct (is_empty _); [discriminate|]. destruct (is_empty _); [discriminate|].
    apply (accumulate_bound _ _ 0) in H; [|cbn; lia]. rewrite E8 in H. exact H.
Qed.

Lemma partition_scope : forall c s a b, partition c s = (a, b) ->
  ~ In c a /\ match b with Some r => s = a ++ c :: r | None => s = a end.
Proof.
  induction s as [|d s IH]; intros a b H; cbn [partition] in H.
  - injection H as <- <-. auto.
  - destruct (N.eqb_spec d c).
    + injection H as <- <-. subst. auto.
    + destruct (partition c s) as [a' b'] eqn:E. injection H as <- <-. destruct (IH _ _ eq_refl) as [N G].
      split; [intros [K|K]; auto|]. destruct b'; subst; reflexivity.
Qed.

Lemma ipv6_parse_wf : forall s a, ipv6_parse s = Ok a -> ipv6_wf a.
Proof.
  intros s a H. unfold ipv6_parse in H. destruct (mem_char 47 s) eqn:M; [discriminate|].
  apply mem_char_not_in in M.
  destruct (partition 37 s) as [ad sc] eqn:P. apply partition_scope in P. destruct P as [N P].
  destruct sc as [[|c sc]|]; [discriminate| |].
  - destruct (mem_char 37 (c :: sc)) eqn:E; [discriminate|]. apply mem_char_not_in in E.
    destruct (ipv6_from_string ad) eqn:F; [|discriminate]. injection H as <-.
    apply ipv6_from_string_bound in F. split; [exact F|]. cbn [ip6_scope scope_wf]. split; [discriminate|].
    split; [exact E|]. intros G. apply M. subst s. rewrite in_app_iff. right. right. exact G.
  - destruct (ipv6_from_string ad) eqn:F; [|discriminate]. injection H as <-.
    apply ipv6_from_string_bound in F. split; [exact F|exact I].
Qed.

Lemma hextet_error : forall p e, parse_hextet p = Err e -> e = EValue.
Proof.
  intros p e H. unfold parse_hextet in H. destruct (negb _); [congruence|]. destruct (_ <? _); [congruence|].
  destruct p; congruence.
Qed.
Lemma accumulate_error : forall ps acc e, accumulate acc ps = Err e -> e = EValue.
Proof.
  induction ps as [|p ps IH]; intros acc e H; cbn [accumulate] in H; [discriminate|].
  destruct (parse_hextet p) eqn:E; cbn [bind] in H; [eauto|]. apply hextet_error in E. congruence.
Qed.

Lemma ipv6_from_string_error : forall s e, ipv6_from_string s = Err e -> e = EValue.
Proof.
  intros s e H. unfold ipv6_from_string in H. destruct s as [|c s]; [congruence|].
  destruct (_ <? 3)%nat; [congruence|].
  match type of H with bind ?x _ = _ => destruct x as [parts|x'] eqn:E end; cbn [bind] in H.
  - destruct (_ <? _)%nat; [congruence|].
    destruct (find_skip _ _ _) as [[i|]|]; [| |congruence].
    + cbv zeta in H. destruct (_ && _); [congruence|]. destruct (_ && _); [congruence|]. destruct (_ <? _)%nat; [congruence|].
      destruct (accumulate 0 _) eqn:A; cbn [bind] in H; [|apply accumulate_error in A; congruence].
      eapply accumulate_error; eauto.
    + repeat match type of H with (if ?b then _ else _) = _ => destruct b; [congruence|] end.
      eapply accumulate_error; eauto.
  - injection H as <-. destruct (mem_char 46 _); [|discriminate].
    destruct (ipv4_parse _) eqn:F; cbn [bind] in E; [discriminate|]. apply ipv4_errors in F. congruence.
Qed.

Lemma ipv6_errors : forall s e, ipv6_parse s = Err e -> e = EValue.
Proof.
  intros s e H. unfold ipv6_parse in H. destruct (mem_char 47 s); [congruence|].
  destruct (partition 37 s) as [ad [[|c sc]|]]; [congruence| |].
  - destruct (mem_char 37 _); [congruence|]. destruct (ipv6_from_string ad) eqn:F; [discriminate|].
    apply ipv6_from_string_error in F. cbn [bind] in H. congruence.
  - destruct (ipv6_from_string ad) eqn:F; [discriminate|].
    apply ipv6_from_string_error in F. cbn [bind] in H. congruence.
Qed.
