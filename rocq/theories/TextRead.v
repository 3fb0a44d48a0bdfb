(** Reading values: [scan] accepts exactly the texts of the grammar. *)
From Coq Require Import String List NArith ZArith Bool Lia.
From Verif Require Import Base Json Digits DigitsProofs Ser Lists SpecSer SerFacts Text SpecText TextProofs.
Import ListNotations.
Open Scope list_scope.
Open Scope nat_scope.

(** * Numbers *)

Definition no_digit (s : pystr) : Prop := forall c r, s = c :: r -> is_digit c = false.

(** the integer part, after the sign *)
Definition scan_integer (s1 : pystr) : option (pystr * pystr) :=
  match s1 with
  | [] => None
  | c :: r => if negb (is_digit c) then None else Some (if (c =? 48)%N then ([c], r) else span_digits s1)
  end.

Lemma scan_integer_app : forall ds n r, numeral ds n -> no_leading_zero ds -> no_digit r ->
  scan_integer (ds ++ r) = Some (ds, r).
Proof.
  intros ds n r H Z ND. destruct (numeral_digits _ _ H) as (A & NE & _). destruct ds as [|c ds]; [contradiction|].
  cbn [app scan_integer]. inversion A as [|? ? D A']; subst. rewrite D. cbn [negb].
  destruct (N.eqb_spec c 48) as [->|NZ].
  - rewrite (Z _ eq_refl). reflexivity.
  - f_equal. change (c :: ds ++ r) with ((c :: ds) ++ r). apply span_digits_app; assumption.
Qed.

Lemma scan_integer_some : forall s ds r, scan_integer s = Some (ds, r) ->
  s = ds ++ r /\ numeral ds (dec_val ds) /\ no_leading_zero ds.
Proof.
  intros [|c s] ds r Q; [discriminate|]. cbn [scan_integer] in Q. destruct (is_digit c) eqn:D; [|discriminate]. cbn [negb] in Q.
  destruct (N.eqb_spec c 48) as [->|NZ].
  - injection Q as <- <-. split; [reflexivity|]. split.
    + apply digits_numeral; [constructor; [exact D|constructor]|discriminate].
    + intros x E. injection E as <-. reflexivity.
  - assert (E : span_digits (c :: s) = (ds, r)) by congruence. clear Q. rename ds into a, r into b.
    assert (NE : exists a', a = c :: a').
    { cbn [span_digits] in E. rewrite D in E. destruct (span_digits s) as [a' b']. injection E as <- <-. exists a'. reflexivity. }
    apply span_digits_spec in E. destruct E as (E & A & _). destruct NE as (a' & ->). split; [exact E|]. split.
    + apply digits_numeral; [exact A|discriminate].
    + intros x X. injection X as -> _. contradiction.
Qed.

Lemma numeral_span : forall ds n r, numeral ds n -> no_digit r -> span_digits (ds ++ r) = (ds, r) /\ ds <> [].
Proof.
  intros ds n r H ND. destruct (numeral_digits _ _ H) as (A & NE & _). split; [apply span_digits_app; assumption|exact NE].
Qed.

Lemma scan_fraction_app : forall f r, fraction_text f -> no_digit r -> scan_fraction (f ++ r) = (f, r).
Proof.
  intros f r (ds & n & -> & H) ND. destruct (numeral_span _ _ _ H ND) as [Q NE].
  cbn [app scan_fraction]. cbn [N.eqb Pos.eqb]. rewrite Q. destruct ds; [contradiction|reflexivity].
Qed.

Lemma scan_fraction_none : forall r, (forall c x, r = c :: x -> (c =? 46)%N = false) -> scan_fraction r = ([], r).
Proof. intros [|c r] H; [reflexivity|]. cbn [scan_fraction]. rewrite (H c r eq_refl). reflexivity. Qed.

Lemma scan_fraction_ok : forall s f r, scan_fraction s = (f, r) -> s = f ++ r /\ (f = [] \/ fraction_text f).
Proof.
  intros [|c s] f r Q; cbn [scan_fraction] in Q.
  - injection Q as <- <-. split; [reflexivity|left; reflexivity].
  - destruct (N.eqb_spec c 46) as [->|]; [|injection Q as <- <-; split; [reflexivity|left; reflexivity]].
    destruct (span_digits s) as [[|d ds] b] eqn:E; injection Q as <- <-; [split; [reflexivity|left; reflexivity]|].
    apply span_digits_spec in E. destruct E as (-> & A & _). split; [reflexivity|]. right.
    exists (d :: ds), (dec_val (d :: ds)). split; [reflexivity|]. apply digits_numeral; [exact A|discriminate].
Qed.

Lemma scan_exponent_app : forall e r, exponent_text e -> no_digit r -> scan_exponent (e ++ r) = (e, r).
Proof.
  intros e r (c & sign & ds & n & -> & C & S & H) ND. destruct (numeral_span _ _ _ H ND) as [Q NE].
  assert (C' : ((c =? 101) || (c =? 69))%N = true) by (destruct C as [<-|[<-|[]]]; reflexivity).
  cbn [app scan_exponent]. rewrite C'. rewrite <- app_assoc.
  destruct ds as [|d ds]; [contradiction|].
  destruct (numeral_digits _ _ H) as (A & _). inversion A as [|? ? D _]; subst. apply is_digit_spec in D.
  destruct S as [<-|[<-|[<-|[]]]]; cbn [app].
  - assert (((d =? 43) || (d =? 45))%N = false) as ->.
    { apply orb_false_iff. rewrite !N.eqb_neq. lia. }
    cbn [app] in Q. rewrite Q. reflexivity.
  - cbn [N.eqb Pos.eqb orb]. cbn [app] in Q. rewrite Q. reflexivity.
  - cbn [N.eqb Pos.eqb orb]. cbn [app] in Q. rewrite Q. reflexivity.
Qed.

Lemma scan_exponent_none : forall r, (forall c x, r = c :: x -> ((c =? 101) || (c =? 69))%N = false) -> scan_exponent r = ([], r).
Proof. intros [|c r] H; [reflexivity|]. cbn [scan_exponent]. rewrite (H c r eq_refl). reflexivity. Qed.

Lemma scan_exponent_ok : forall s e r, scan_exponent s = (e, r) -> s = e ++ r /\ (e = [] \/ exponent_text e).
Proof.
  intros [|c s] e r Q; cbn [scan_exponent] in Q.
  - injection Q as <- <-. split; [reflexivity|left; reflexivity].
  - destruct ((c =? 101) || (c =? 69))%N eqn:C; [|injection Q as <- <-; split; [reflexivity|left; reflexivity]].
    assert (C' : In c [101; 69]%N).
    { apply orb_true_iff in C. rewrite !N.eqb_eq in C. cbn [In]. intuition congruence. }
    assert (K : exists sign r1, In sign [[]; [43]; [45]]%N /\ s = sign ++ r1 /\
      match s with d :: r1 => if ((d =? 43) || (d =? 45))%N then ([d], r1) else ([], s) | [] => ([], s) end = (sign, r1)).
    { destruct s as [|d s]; [exists [], []; repeat split; left; reflexivity|].
      destruct ((d =? 43) || (d =? 45))%N eqn:D.
      - exists [d], s. repeat split. apply orb_true_iff in D. rewrite !N.eqb_eq in D. cbn [In]. destruct D as [-> | ->]; tauto.
      - exists [], (d :: s). repeat split. left. reflexivity. }
    destruct K as (sign & r1 & S & E1 & E2). rewrite E2 in Q.
    destruct (span_digits r1) as [[|d ds] b] eqn:E; injection Q as <- <-; [split; [reflexivity|left; reflexivity]|].
    apply span_digits_spec in E. destruct E as (-> & A & _). split.
    + rewrite E1. cbn [app]. rewrite <- app_assoc. reflexivity.
    + right. exists c, sign, (d :: ds), (dec_val (d :: ds)). split; [reflexivity|]. split; [exact C'|]. split; [exact S|].
      apply digits_numeral; [exact A|discriminate].
Qed.

(** [scan_number] in terms of its parts *)
Definition split_sign (s : pystr) : pystr * pystr :=
  match s with c :: r => if (c =? 45)%N then ([c], r) else ([], s) | [] => ([], s) end.

Lemma scan_number_parts : forall F s, scan_number F s =
  let (sign, s1) := split_sign s in
  match scan_integer s1 with
  | None => Err EValue
  | Some (ds, s2) =>
      let (frac, s3) := scan_fraction s2 in
      let (exp, s4) := scan_exponent s3 in
      match frac, exp with
      | [], [] => do n <- int_of_ascii_digits ds; Ok (JInt (match sign with [] => Z.of_N n | _ => (- Z.of_N n)%Z end), s4)
      | _, _ => Ok (JFloat (f_read F (sign ++ ds ++ frac ++ exp)), s4)
      end
  end.
Proof.
  intros F s. unfold scan_number. change (match s with c :: r => if (c =? 45)%N then ([c], r) else ([], s) | [] => ([], s) end) with (split_sign s).
  destruct (split_sign s) as [sign s1]. destruct s1 as [|c r]; [reflexivity|]. cbn [scan_integer].
  destruct (is_digit c); [|reflexivity]. cbn [negb]. destruct (if (c =? 48)%N then ([c], r) else span_digits (c :: r)) as [ds s2]. reflexivity.
Qed.

Lemma split_sign_app : forall s z r, integer_text s z -> exists sign ds n, s = sign ++ ds /\ numeral ds n /\ no_leading_zero ds /\
  split_sign (s ++ r) = (sign, ds ++ r) /\ z = match sign with [] => Z.of_N n | _ => (- Z.of_N n)%Z end.
Proof.
  intros s z r (ds & n & H & Z & [[-> ->]|[-> ->]]).
  - exists [], ds, n. repeat split; try assumption. destruct (numeral_digits _ _ H) as (A & NE & _).
    destruct ds as [|c ds]; [contradiction|]. inversion A as [|? ? D _]; subst. apply is_digit_spec in D.
    cbn [app split_sign]. assert (c =? 45 = false)%N as -> by (apply N.eqb_neq; lia). reflexivity.
  - exists [45%N], ds, n. repeat split; assumption.
Qed.

Lemma split_sign_ok : forall s sign s1, split_sign s = (sign, s1) -> s = sign ++ s1 /\ (sign = [] \/ sign = [45%N]).
Proof.
  intros [|c s] sign s1 Q; cbn [split_sign] in Q; [injection Q as <- <-; split; [reflexivity|left; reflexivity]|].
  destruct (N.eqb_spec c 45) as [->|]; injection Q as <- <-; split; try reflexivity; [right|left]; reflexivity.
Qed.

Lemma int_digits_ok : forall ds m n, numeral ds m -> no_leading_zero ds ->
  (int_of_ascii_digits ds = Ok n <-> n = m /\ (N.of_nat (length ds) <= 4300)%N).
Proof.
  intros ds m n H Z. destruct (numeral_digits _ _ H) as (_ & _ & V). unfold int_of_ascii_digits.
  destruct (4300 <? _)%N eqn:Q; [apply N.ltb_lt in Q|apply N.ltb_ge in Q]; split.
  - discriminate.
  - intros [_ L]. exfalso. exact (proj1 (N.lt_nge _ _) Q L).
  - intros E. injection E as <-. split; [exact V|exact Q].
  - intros [-> _]. rewrite V. reflexivity.
Qed.

Lemma short_sign : forall ds n (sign : pystr), numeral ds n -> no_leading_zero ds ->
  (short (match sign with [] => Z.of_N n | _ => (- Z.of_N n)%Z end) <-> (N.of_nat (length ds) <= 4300)%N).
Proof.
  intros ds n sign H Z.
  assert (E : Z.to_N (Z.abs (match sign with [] => Z.of_N n | _ => (- Z.of_N n)%Z end)) = n) by (destruct sign; lia).
  unfold short. rewrite E. split.
  - intros (d & D & ZD & L). rewrite (numeral_unique _ _ _ H Z D ZD). exact L.
  - intros L. exists ds. repeat split; assumption.
Qed.

Lemma stops_parts : forall r, stops r -> no_digit r /\ scan_fraction r = ([], r) /\ scan_exponent r = ([], r).
Proof.
  intros r S. assert (K := fun c x (E : r = c :: x) => stops_not c x (eq_ind r stops S _ E)). repeat split.
  - intros c x E. apply (K c x E).
  - apply scan_fraction_none. intros c x E. apply (K c x E).
  - apply scan_exponent_none. intros c x E. apply (K c x E).
Qed.

Lemma scan_number_int : forall F s z r, integer_text s z -> short z -> stops r -> scan_number F (s ++ r) = Ok (JInt z, r).
Proof.
  intros F s z r H SH S. destruct (split_sign_app s z r H) as (sign & ds & n & -> & Hn & Z & Q & ->).
  destruct (stops_parts r S) as (ND & QF & QE).
  rewrite scan_number_parts, Q, (scan_integer_app ds n r Hn Z ND), QF, QE.
  apply (short_sign ds n sign Hn Z) in SH.
  rewrite (proj2 (int_digits_ok ds n n Hn Z) (conj eq_refl SH)). reflexivity.
Qed.

Lemma scan_number_real : forall F s r, real_text s -> stops r -> scan_number F (s ++ r) = Ok (JFloat (f_read F s), r).
Proof.
  intros F s r (i & z & f & e & -> & Hi & Hf & He & NE) S.
  destruct (stops_parts r S) as (ND & QF & QE).
  assert (Xe : scan_exponent (e ++ r) = (e, r)).
  { destruct He as [->|He]; [exact QE|apply scan_exponent_app; assumption]. }
  assert (De : no_digit (e ++ r)).
  { destruct He as [->|(c & sg & ds & n & -> & C & _)]; [exact ND|]. intros x y E. cbn [app] in E. injection E as <- _.
    destruct C as [<-|[<-|[]]]; reflexivity. }
  assert (Xf : scan_fraction (f ++ e ++ r) = (f, e ++ r)).
  { destruct Hf as [->|Hf]; [|apply scan_fraction_app; assumption].
    apply scan_fraction_none. destruct He as [->|(c & sg & ds & n & -> & C & _)].
    - intros c x E. cbn [app] in E. apply (stops_not c x). rewrite <- E. exact S.
    - intros x y E. cbn [app] in E. injection E as <- _. destruct C as [<-|[<-|[]]]; reflexivity. }
  assert (Df : no_digit (f ++ e ++ r)).
  { destruct Hf as [->|(ds & n & -> & _)]; [exact De|]. intros x y E. cbn [app] in E. injection E as <- _. reflexivity. }
  destruct (split_sign_app i z (f ++ e ++ r) Hi) as (sign & ds & n & -> & Hn & Z & Q & _).
  replace (((sign ++ ds) ++ f ++ e) ++ r) with ((sign ++ ds) ++ f ++ e ++ r) by (rewrite <- !app_assoc; reflexivity).
  rewrite scan_number_parts, Q, (scan_integer_app ds n _ Hn Z Df), Xf, Xe. rewrite <- app_assoc.
  destruct f, e; try reflexivity. destruct NE; contradiction.
Qed.

Lemma scan_number_sound : forall F s j r, scan_number F s = Ok (j, r) ->
  exists t, s = t ++ r /\ text (f_read F) True False j t.
Proof.
  intros F s j r Q. rewrite scan_number_parts in Q.
  destruct (split_sign s) as [sign s1] eqn:E1. apply split_sign_ok in E1. destruct E1 as [-> SG].
  destruct (scan_integer s1) as [[ds s2]|] eqn:E2; [|discriminate]. apply scan_integer_some in E2. destruct E2 as (-> & Hn & Z).
  destruct (scan_fraction s2) as [f s3] eqn:E3. apply scan_fraction_ok in E3. destruct E3 as [-> Hf].
  destruct (scan_exponent s3) as [e s4] eqn:E4. apply scan_exponent_ok in E4. destruct E4 as [-> He].
  set (n := dec_val ds) in *.
  assert (IT : integer_text (sign ++ ds) (match sign with [] => Z.of_N n | _ => (- Z.of_N n)%Z end)).
  { exists ds, n. split; [exact Hn|]. split; [exact Z|]. destruct SG as [-> | ->]; [left|right]; split; reflexivity. }
  assert (RT : (f <> [] \/ e <> []) -> Ok (JFloat (f_read F (sign ++ ds ++ f ++ e)), s4) = Ok (j, r) ->
    exists t, sign ++ ds ++ f ++ e ++ s4 = t ++ r /\ text (f_read F) True False j t).
  { intros NE E. injection E as <- <-. exists (sign ++ ds ++ f ++ e). split; [rewrite <- !app_assoc; reflexivity|].
    apply tx_float. exists (sign ++ ds), (match sign with [] => Z.of_N n | _ => (- Z.of_N n)%Z end), f, e.
    split; [rewrite <- app_assoc; reflexivity|]. repeat split; assumption. }
  destruct f as [|c f]; [|apply RT; [left; discriminate|exact Q]].
  destruct e as [|c e]; [|apply RT; [right; discriminate|exact Q]]. clear RT.
  destruct (int_of_ascii_digits ds) as [m|] eqn:E5; [|discriminate]. apply (int_digits_ok ds n m Hn Z) in E5. destruct E5 as [-> L].
  cbn [bind] in Q. injection Q as <- <-. exists (sign ++ ds). split; [rewrite <- app_assoc; reflexivity|].
  apply tx_int; [exact IT|]. right. apply (short_sign ds n sign Hn Z). exact L.
Qed.

(** * Values *)

Scheme text_mind := Induction for text Sort Prop
  with padded_mind := Induction for padded Sort Prop
  with elements_mind := Induction for elements Sort Prop
  with members_mind := Induction for members Sort Prop.
Combined Scheme grammar_ind from text_mind, padded_mind, elements_mind, members_mind.

Lemma starts_with_app : forall p s, starts_with p (p ++ s) = true.
Proof.
  intros p s. unfold starts_with. rewrite firstn_app, Nat.sub_diag, firstn_all. cbn [firstn]. rewrite app_nil_r. apply pystr_eqb_refl.
Qed.

Lemma starts_with_true : forall p s, starts_with p s = true -> s = p ++ skipn (length p) s.
Proof.
  intros p s Q. unfold starts_with in Q. apply pystr_eqb_eq in Q. rewrite <- Q at 1. symmetry. apply firstn_skipn.
Qed.

Lemma number_head : forall s, (exists z, integer_text s z) \/ real_text s ->
  exists c r, s = c :: r /\ (is_digit c = true \/ c = 45%N /\ exists d r', r = d :: r' /\ is_digit d = true).
Proof.
  assert (K : forall i z x, integer_text i z -> exists c r, i ++ x = c :: r /\
    (is_digit c = true \/ c = 45%N /\ exists d r', r = d :: r' /\ is_digit d = true)).
  { intros i z x (ds & n & H & _ & E). destruct (numeral_digits _ _ H) as (A & NE & _). destruct ds as [|d ds]; [contradiction|].
    inversion A as [|? ? D _]; subst. destruct E as [[-> _]|[-> _]]; cbn [app].
    - exists d, (ds ++ x). split; [reflexivity|]. left. exact D.
    - exists 45%N, (d :: ds ++ x). split; [reflexivity|]. right. split; [reflexivity|]. exists d, (ds ++ x). split; [reflexivity|exact D]. }
  intros s [[z H]|(i & z & f & e & -> & H & _)].
  - rewrite <- (app_nil_r s). apply (K _ _ _ H).
  - apply (K _ _ _ H).
Qed.

Lemma scan_is_number : forall F n s rest, (exists z, integer_text s z) \/ real_text s ->
  scan F (Datatypes.S n) (s ++ rest) = scan_number F (s ++ rest).
Proof.
  intros F n s rest H. destruct (number_head s H) as (c & r & -> & D). cbn [app scan].
  destruct D as [D|[-> (d & r' & -> & D)]].
  - apply is_digit_spec in D.
    assert (NE : forall x, ~ (48 <= x <= 57)%N -> (c =? x)%N = false) by (intros x L; apply N.eqb_neq; lia).
    rewrite !NE by lia.
    assert (SW : forall x p, ~ (48 <= x <= 57)%N -> starts_with (x :: p) (c :: r ++ rest) = false).
    { intros x p L. destruct (starts_with (x :: p) (c :: r ++ rest)) eqn:Q; [|reflexivity].
      apply starts_with_true in Q. cbn [app] in Q. injection Q as Q _. lia. }
    change (str "null") with (110 :: str "ull")%N. change (str "true") with (116 :: str "rue")%N.
    change (str "false") with (102 :: str "alse")%N. change (str "NaN") with (78 :: str "aN")%N.
    change (str "-Infinity") with (45 :: str "Infinity")%N.
    rewrite !SW by lia. change (str "Infinity") with (73 :: str "nfinity")%N. rewrite SW by lia. reflexivity.
  - apply is_digit_spec in D.
    assert (SW : forall p, starts_with (45%N :: 73%N :: p) (45%N :: d :: r' ++ rest) = false).
    { intros p. destruct (starts_with _ _) eqn:Q; [|reflexivity].
      apply starts_with_true in Q. cbn [app] in Q. injection Q as Q _. lia. }
    change (str "-Infinity") with (45 :: 73 :: str "nfinity")%N. cbn [app]. rewrite SW. reflexivity.
Qed.

Definition begins (t : pystr) : Prop :=
  exists c r, t = c :: r /\ is_ws c = false /\ c <> 93%N /\ c <> 65279%N.

Lemma text_begins : forall read python big j t, text read python big j t -> begins t.
Proof.
  intros read python big j t H.
  destruct H as [ | | |z s H _|s H| | | |s t _|w _|l t _|w _|ps o t _ _];
    try (eexists _, _; repeat split; discriminate).
  - destruct (number_head s (or_introl (ex_intro _ z H))) as (c & r & -> & D).
    exists c, r. destruct D as [D|[-> _]]; [|repeat split; discriminate]. apply is_digit_spec in D. repeat split; try lia.
    destruct (is_ws c) eqn:W; [|reflexivity]. apply is_ws_spec in W. cbn [In] in W. lia.
  - destruct (number_head s (or_intror H)) as (c & r & -> & D).
    exists c, r. destruct D as [D|[-> _]]; [|repeat split; discriminate]. apply is_digit_spec in D. repeat split; try lia.
    destruct (is_ws c) eqn:W; [|reflexivity]. apply is_ws_spec in W. cbn [In] in W. lia.
Qed.

Lemma begins_skip : forall t r, begins t -> skip_ws (t ++ r) = t ++ r.
Proof. intros t r (c & x & -> & W & _). cbn [app]. apply skip_ws_stop. exact W. Qed.

Lemma blank_stops : forall b c r, blank b -> In c [44; 93; 125]%N -> stops (b ++ c :: r).
Proof.
  intros b c r B C x y E. destruct b as [|d b]; cbn [app] in E; injection E as <- _.
  - cbn [In] in *. tauto.
  - inversion B as [|? ? D _]; subst. cbn [In] in *. tauto.
Qed.

Section Reading.
  Variable F : floats.
  Let T := text (f_read F) True False.
  Let P := padded (f_read F) True False.
  Let E := elements (f_read F) True False.
  Let M := members (f_read F) True False.

  Lemma members_begin : forall ps t, M ps t -> exists a t', blank a /\ t = a ++ 34%N :: t'.
  Proof. intros ps t H. destruct H as [a k s b j t Ba _ _ _|a k s b j t o u Ba _ _ _ _]; eexists a, _; split; try exact Ba; reflexivity. Qed.

  Lemma scan_complete :
    (forall j t, T j t -> forall n rest, length t <= n -> stops rest -> scan F n (t ++ rest) = Ok (j, rest)) /\
    (forall j t, P j t -> forall n c rest, length t <= n -> In c [44; 93; 125]%N ->
      exists b, blank b /\ scan F n (skip_ws (t ++ c :: rest)) = Ok (j, b ++ c :: rest)) /\
    (forall l t, E l t -> forall n rest, length t < n ->
      scan_elements F n (skip_ws (t ++ 93%N :: rest)) = Ok (l, rest)) /\
    (forall ps t, M ps t -> forall n rest, length t < n ->
      exists i, skip_ws (t ++ 125%N :: rest) = 34%N :: i /\ scan_members F n i = Ok (ps, rest)).
  Proof.
    apply grammar_ind.
    - intros n rest L _. destruct n as [|n]; [cbn in L; lia|]. reflexivity.
    - intros n rest L _. destruct n as [|n]; [cbn in L; lia|]. reflexivity.
    - intros n rest L _. destruct n as [|n]; [cbn in L; lia|]. reflexivity.
    - intros z s H SH n rest L S. destruct SH as [[]|SH].
      destruct n as [|n]; [destruct (number_head s (or_introl (ex_intro _ z H))) as (? & ? & -> & _); cbn in L; lia|].
      rewrite scan_is_number by (left; exists z; exact H). apply scan_number_int; assumption.
    - intros s H n rest L S.
      destruct n as [|n]; [destruct (number_head s (or_intror H)) as (? & ? & -> & _); cbn in L; lia|].
      rewrite scan_is_number by (right; exact H). apply scan_number_real; assumption.
    - intros _ n rest L _. destruct n as [|n]; [cbn in L; lia|]. reflexivity.
    - intros _ n rest L _. destruct n as [|n]; [cbn in L; lia|]. reflexivity.
    - intros _ n rest L _. destruct n as [|n]; [cbn in L; lia|]. reflexivity.
    - intros s t H n rest L _. destruct n as [|n]; [cbn in L; lia|].
      cbn [app scan N.eqb Pos.eqb]. rewrite <- app_assoc. cbn [app]. rewrite (scan_chars _ _ _ H). reflexivity.
    - intros w B n rest L _. destruct n as [|n]; [cbn in L; lia|].
      cbn [app scan N.eqb Pos.eqb]. rewrite <- app_assoc. cbn [app]. rewrite (skip_ws_app _ _ B), skip_ws_stop by reflexivity. reflexivity.
    - intros l t H IH n rest L _. cbn [length] in L. rewrite app_length in L. cbn [length] in L.
      destruct n as [|n]; [lia|]. cbn [app scan N.eqb Pos.eqb]. rewrite <- app_assoc. cbn [app].
      specialize (IH n rest ltac:(lia)).
      assert (K : exists c x, skip_ws (t ++ 93%N :: rest) = c :: x /\ c <> 93%N).
      { destruct H as [j t H|j t l u H _]; destruct H as [j a t b Ba Ht Bb];
          destruct (text_begins _ _ _ _ _ Ht) as (c & x & -> & W & N93 & _); rewrite <- !app_assoc, skip_ws_app by exact Ba;
          cbn [app]; rewrite skip_ws_stop by exact W; eexists c, _; split; try reflexivity; exact N93. }
      destruct K as (c & x & Q & NC). rewrite Q in *. apply N.eqb_neq in NC. rewrite NC, IH. reflexivity.
    - intros w B n rest L _. destruct n as [|n]; [cbn in L; lia|].
      cbn [app scan N.eqb Pos.eqb]. rewrite <- app_assoc. cbn [app]. rewrite (skip_ws_app _ _ B), skip_ws_stop by reflexivity. reflexivity.
    - intros ps o t H IH MG n rest L _. cbn [length] in L. rewrite app_length in L. cbn [length] in L.
      destruct n as [|n]; [lia|]. cbn [app scan N.eqb Pos.eqb]. rewrite <- app_assoc. cbn [app].
      destruct (IH n rest ltac:(lia)) as (i & Q & R). rewrite Q. cbn [N.eqb Pos.eqb]. rewrite R. cbn [bind fst snd].
      rewrite (merged_fun _ _ MG). reflexivity.
    - intros j a t b Ba Ht IH Bb n c rest L C. rewrite !app_length in L.
      exists b. split; [exact Bb|]. rewrite <- !app_assoc, skip_ws_app by exact Ba.
      rewrite begins_skip by (eapply text_begins; exact Ht). apply IH; [lia|]. apply blank_stops; assumption.
    - intros j t Ht IH n rest L. destruct n as [|n]; [lia|]. cbn [scan_elements].
      destruct (IH n 93%N rest ltac:(lia) ltac:(cbn; tauto)) as (b & B & ->). cbn [bind fst snd].
      rewrite skip_ws_app, skip_ws_stop by (exact B || reflexivity). reflexivity.
    - intros j t l u Ht IHt Hu IHu n rest L. rewrite app_length in L. cbn [length] in L. destruct n as [|n]; [lia|].
      cbn [scan_elements]. rewrite <- app_assoc. cbn [app].
      destruct (IHt n 44%N (u ++ 93%N :: rest) ltac:(lia) ltac:(cbn; tauto)) as (b & B & ->). cbn [bind fst snd].
      rewrite skip_ws_app, skip_ws_stop by (exact B || reflexivity). cbn [N.eqb Pos.eqb].
      rewrite (IHu n rest ltac:(lia)). reflexivity.
    - intros a k s b j t Ba Hk Bb Ht IH n rest L. rewrite !app_length in L. cbn [length] in L. rewrite !app_length in L.
      cbn [length] in L. rewrite !app_length in L. cbn [length] in L.
      destruct n as [|n]; [lia|]. exists (s ++ 34%N :: b ++ 58%N :: t ++ 125%N :: rest). split.
      + repeat (rewrite <- app_assoc; cbn [app]). rewrite skip_ws_app, skip_ws_stop by (exact Ba || reflexivity). reflexivity.
      + cbn [scan_members]. rewrite (scan_chars _ _ _ Hk). cbn [bind fst snd].
        rewrite skip_ws_app, skip_ws_stop by (exact Bb || reflexivity). cbn [N.eqb Pos.eqb].
        destruct (IH n 125%N rest ltac:(lia) ltac:(cbn; tauto)) as (b' & B' & ->). cbn [bind fst snd].
        rewrite skip_ws_app, skip_ws_stop by (exact B' || reflexivity). reflexivity.
    - intros a k s b j t o u Ba Hk Bb Ht IH Hu IHu n rest L. rewrite !app_length in L. cbn [length] in L. rewrite !app_length in L.
      cbn [length] in L. rewrite !app_length in L. cbn [length] in L. rewrite !app_length in L. cbn [length] in L.
      destruct n as [|n]; [lia|]. exists (s ++ 34%N :: b ++ 58%N :: t ++ 44%N :: u ++ 125%N :: rest). split.
      + repeat (rewrite <- app_assoc; cbn [app]). rewrite skip_ws_app, skip_ws_stop by (exact Ba || reflexivity). reflexivity.
      + cbn [scan_members]. rewrite (scan_chars _ _ _ Hk). cbn [bind fst snd].
        rewrite skip_ws_app, skip_ws_stop by (exact Bb || reflexivity). cbn [N.eqb Pos.eqb].
        destruct (IH n 44%N (u ++ 125%N :: rest) ltac:(lia) ltac:(cbn; tauto)) as (b' & B' & ->). cbn [bind fst snd].
        rewrite skip_ws_app, skip_ws_stop by (exact B' || reflexivity). cbn [N.eqb Pos.eqb].
        destruct (IHu n rest ltac:(lia)) as (i & Q & R). rewrite Q. cbn [N.eqb Pos.eqb]. rewrite R. reflexivity.
  Qed.

  Lemma skip_cons : forall s c r, skip_ws s = c :: r -> exists a, blank a /\ s = a ++ c :: r.
  Proof. intros s c r Q. destruct (skip_ws_split s) as (a & B & H). rewrite Q in H. exists a. split; assumption. Qed.

  Lemma scan_sound : forall n,
    (forall s j r, scan F n s = Ok (j, r) -> exists t, s = t ++ r /\ T j t) /\
    (forall s l r, scan_elements F n s = Ok (l, r) -> exists t, s = t ++ 93%N :: r /\ E l t) /\
    (forall s ps r, scan_members F n s = Ok (ps, r) -> exists t, s = t ++ 125%N :: r /\ M ps (34%N :: t)).
  Proof.
    induction n as [|n (IHs & IHe & IHm)]; [repeat split; intros; discriminate|].
    assert (B0 : blank []) by constructor.
    repeat split.
    - intros [|c s] j r Q; [discriminate|]. cbn [scan] in Q.
      destruct (N.eqb_spec c 34) as [->|_].
      { apply bind_ok in Q. destruct Q as ([x y] & Qs & Q). injection Q as <- <-. apply chars_scan in Qs. destruct Qs as (t & -> & H).
        exists (34%N :: t ++ [34%N]). split; [cbn [app]; rewrite <- app_assoc; reflexivity|]. apply tx_str. exact H. }
      destruct (N.eqb_spec c 123) as [->|_].
      { destruct (skip_ws s) as [|d s'] eqn:W; [discriminate|]. apply skip_cons in W. destruct W as (a & Ba & ->).
        destruct (N.eqb_spec d 34) as [->|_].
        - apply bind_ok in Q. destruct Q as ([x y] & Qs & Q). injection Q as <- <-. apply IHm in Qs. destruct Qs as (t & -> & H).
          exists (123%N :: (a ++ 34%N :: t) ++ [125%N]). split; [cbn [app]; rewrite <- !app_assoc; reflexivity|].
          eapply tx_obj; [|apply merged_dict_of].
          remember (34%N :: t) as t0 eqn:Et. destruct H as [a' k s b j t' Ba' Hk Bb Ht|a' k s b j t' o u Ba' Hk Bb Ht Hu];
            rewrite app_assoc; constructor; try assumption; apply Forall_app; split; assumption.
        - destruct (N.eqb_spec d 125) as [->|_]; [|discriminate]. injection Q as <- <-.
          exists (123%N :: a ++ [125%N]). split; [cbn [app]; rewrite <- app_assoc; reflexivity|]. apply tx_obj_nil. exact Ba. }
      destruct (N.eqb_spec c 91) as [->|_].
      { destruct (skip_ws s) as [|d s'] eqn:W; [discriminate|]. apply skip_cons in W. destruct W as (a & Ba & ->).
        destruct (N.eqb_spec d 93) as [->|_].
        - injection Q as <- <-. exists (91%N :: a ++ [93%N]). split; [cbn [app]; rewrite <- app_assoc; reflexivity|]. apply tx_arr_nil. exact Ba.
        - apply bind_ok in Q. destruct Q as ([x y] & Qs & Q). injection Q as <- <-. apply IHe in Qs. destruct Qs as (t & Et & H).
          rewrite Et. exists (91%N :: (a ++ t) ++ [93%N]). split; [cbn [app]; rewrite <- !app_assoc; reflexivity|].
          apply tx_arr. clear Et. destruct H as [j t H|j t l u H Hu]; destruct H as [j a' t b Ba' Ht Bb].
          + apply el_one. rewrite app_assoc. apply pd; try assumption. apply Forall_app; split; assumption.
          + rewrite app_assoc. apply el_more; [|exact Hu]. rewrite app_assoc. apply pd; try assumption. apply Forall_app; split; assumption. }
      destruct (starts_with (str "null") (c :: s)) eqn:W.
      { apply starts_with_true in W. injection Q as <- <-. eexists; split; [exact W|constructor]. }
      clear W. destruct (starts_with (str "true") (c :: s)) eqn:W.
      { apply starts_with_true in W. injection Q as <- <-. eexists; split; [exact W|constructor]. }
      clear W. destruct (starts_with (str "false") (c :: s)) eqn:W.
      { apply starts_with_true in W. injection Q as <- <-. eexists; split; [exact W|constructor]. }
      clear W. destruct (starts_with (str "NaN") (c :: s)) eqn:W.
      { apply starts_with_true in W. injection Q as <- <-. eexists; split; [exact W|constructor; exact Logic.I]. }
      clear W. destruct (starts_with (str "Infinity") (c :: s)) eqn:W.
      { apply starts_with_true in W. injection Q as <- <-. eexists; split; [exact W|constructor; exact Logic.I]. }
      clear W. destruct (starts_with (str "-Infinity") (c :: s)) eqn:W.
      { apply starts_with_true in W. injection Q as <- <-. eexists; split; [exact W|constructor; exact Logic.I]. }
      apply scan_number_sound in Q. exact Q.
    - intros s l r Q. cbn [scan_elements] in Q. apply bind_ok in Q. destruct Q as ([j y] & Qs & Q). cbn [fst snd] in Q.
      apply IHs in Qs. destruct Qs as (t & -> & H).
      destruct (skip_ws y) as [|c y'] eqn:W; [discriminate|]. apply skip_cons in W. destruct W as (b & Bb & ->).
      destruct (N.eqb_spec c 93) as [->|_].
      + injection Q as <- <-. exists (t ++ b). split; [rewrite <- app_assoc; reflexivity|]. apply el_one. apply (pd _ _ _ j [] t b); assumption.
      + destruct (N.eqb_spec c 44) as [->|_]; [|discriminate]. apply bind_ok in Q. destruct Q as ([l' y2] & Qs & Q). injection Q as <- <-.
        apply IHe in Qs. destruct Qs as (u & Eu & Hu). destruct (skip_ws_split y') as (a & Ba & Ey). rewrite Eu in Ey. rewrite Ey.
        exists ((t ++ b) ++ 44%N :: a ++ u). split; [rewrite <- !app_assoc; cbn [app]; rewrite <- app_assoc; reflexivity|].
        apply el_more; [apply (pd _ _ _ j [] t b); assumption|].
        clear Ey Eu. destruct Hu as [j' t' Hp|j' t' l' u Hp Hu]; destruct Hp as [j' a' t' b' Ba' Ht' Bb'].
        * apply el_one. rewrite app_assoc. apply pd; try assumption. apply Forall_app; split; assumption.
        * rewrite app_assoc. apply el_more; [|exact Hu]. rewrite app_assoc. apply pd; try assumption. apply Forall_app; split; assumption.
    - intros s ps r Q. cbn [scan_members] in Q. apply bind_ok in Q. destruct Q as ([k y] & Qk & Q). cbn [fst snd] in Q.
      apply chars_scan in Qk. destruct Qk as (tk & -> & Hk).
      destruct (skip_ws y) as [|c y'] eqn:W; [discriminate|]. apply skip_cons in W. destruct W as (b & Bb & ->).
      destruct (N.eqb_spec c 58) as [->|_]; [|discriminate].
      apply bind_ok in Q. destruct Q as ([j z] & Qv & Q). cbn [fst snd] in Q. apply IHs in Qv. destruct Qv as (t & Et & Ht).
      destruct (skip_ws_split y') as (a2 & Ba2 & Ey). rewrite Et in Ey. subst y'. clear Et.
      destruct (skip_ws z) as [|c z'] eqn:W; [discriminate|]. apply skip_cons in W. destruct W as (b2 & Bb2 & ->).
      assert (HP : padded (f_read F) True False j (a2 ++ t ++ b2)) by (apply pd; assumption).
      destruct (N.eqb_spec c 125) as [->|_].
      + injection Q as <- <-. exists (tk ++ 34%N :: b ++ 58%N :: a2 ++ t ++ b2). split.
        * repeat (rewrite <- app_assoc; cbn [app]). reflexivity.
        * apply (ms_one _ _ _ [] k tk b j); assumption.
      + destruct (N.eqb_spec c 44) as [->|_]; [|discriminate].
        destruct (skip_ws z') as [|d z2] eqn:W; [discriminate|]. apply skip_cons in W. destruct W as (a3 & Ba3 & ->).
        destruct (N.eqb_spec d 34) as [->|_]; [|discriminate].
        apply bind_ok in Q. destruct Q as ([o y3] & Qm & Q). injection Q as <- <-. apply IHm in Qm. destruct Qm as (u & -> & Hu).
        exists (tk ++ 34%N :: b ++ 58%N :: (a2 ++ t ++ b2) ++ 44%N :: a3 ++ 34%N :: u). split.
        * repeat (rewrite <- app_assoc; cbn [app]). reflexivity.
        * apply (ms_more _ _ _ [] k tk b j (a2 ++ t ++ b2) o (a3 ++ 34%N :: u)); try assumption.
          remember (34%N :: u) as t0 eqn:Et0. destruct Hu as [a' k' s' b' j' t' Ba' Hk' Bb' Ht'|a' k' s' b' j' t' o' u' Ba' Hk' Bb' Ht' Hu'];
            rewrite app_assoc; constructor; try assumption; apply Forall_app; split; assumption.
  Qed.

  Theorem loads_exact : forall s j, json_loads F s = Ok j <-> padded (f_read F) True False j s.
  Proof.
    intros s j. split.
    - intros Q. assert (K : (do q <- scan F (2 * length s + 1) (skip_ws s);
        match skip_ws (snd q) with [] => Ok (fst q) | _ :: _ => Err EValue end) = Ok j).
      { unfold json_loads in Q. destruct (starts_with _ s); [discriminate|exact Q]. }
      clear Q. apply bind_ok in K. destruct K as ([j' r] & Q & K). cbn [fst snd] in K.
      destruct (skip_ws r) eqn:W; [|discriminate]. injection K as ->.
      apply (proj1 (scan_sound _)) in Q. destruct Q as (t & Et & Ht).
      destruct (skip_ws_split s) as (a & Ba & Es). destruct (skip_ws_split r) as (b & Bb & Er). rewrite W, app_nil_r in Er. subst b.
      rewrite Es, Et. apply pd; assumption.
    - intros H. destruct H as [j a t b Ba Ht Bb]. unfold json_loads.
      assert (K : (do q <- scan F (2 * length (a ++ t ++ b) + 1) (skip_ws (a ++ t ++ b));
        match skip_ws (snd q) with [] => Ok (fst q) | _ :: _ => Err EValue end) = Ok j).
      { rewrite skip_ws_app by exact Ba. rewrite begins_skip by (eapply text_begins; exact Ht).
        rewrite (proj1 scan_complete j t Ht).
        - cbn [bind fst snd]. rewrite (skip_ws_blank b Bb). reflexivity.
        - rewrite !app_length. lia.
        - intros c r Er. subst b. inversion Bb as [|? ? D _]; subst. cbn [In] in *. tauto. }
      assert (NB : forall r, a ++ t ++ b <> 65279%N :: r).
      { intros r. destruct a as [|c a].
        - destruct (text_begins _ _ _ _ _ Ht) as (c & x & -> & _ & _ & NB). cbn [app]. congruence.
        - inversion Ba as [|? ? D _]; subst. cbn [app]. intros X. injection X as -> _. cbn [In] in D. intuition discriminate. }
      destruct (starts_with [65279%N] (a ++ t ++ b)) eqn:W; [|exact K].
      apply starts_with_true in W. exfalso. exact (NB _ W).
  Qed.
End Reading.
