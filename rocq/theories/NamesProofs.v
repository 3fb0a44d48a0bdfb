(** Proofs about the names of types. *)
From Coq Require Import String List NArith ZArith Bool Lia.
From Verif Require Import Base Json Digits DigitsProofs PyStr PyTypes TypeAlgebra TypeAlgebraProofs Schema SpecTypes Lists PyStrProofs TypingFacts Names SpecNames.
Import ListNotations.
Open Scope list_scope.
Open Scope N_scope.

(** ** Tokens *)

Definition delims : list N := [91; 93; 44; 32; 46; 58; 40; 41; 60; 62; 39; 34; 124].
Definition tok (s : pystr) : Prop := forall c, In c s -> ~ In c delims.
Definition halt (k : pystr) : Prop := k = [] \/ exists c r, k = c :: r /\ In c delims.

Lemma tok_split : forall h h' k k', tok h -> tok h' -> halt k -> halt k' -> h ++ k = h' ++ k' -> h = h' /\ k = k'.
Proof.
  induction h as [|c h IH]; intros [|d h'] k k' T T' K K' Q; cbn [app] in Q.
  - auto.
  - exfalso. destruct K as [->|(x & r & -> & I)]; [discriminate Q|]. injection Q as -> _. apply (T' d); [left; reflexivity | exact I].
  - exfalso. destruct K' as [->|(x & r & -> & I)]; [discriminate Q|]. injection Q as <- _. apply (T c); [left; reflexivity | exact I].
  - injection Q as -> Q. destruct (IH h' k k') as (-> & ->); auto; intros x I; [apply T | apply T']; right; exact I.
Qed.

Lemma tok_str : forall s, name_like s -> tok s.
Proof. intros s [_ H]. exact H. Qed.

Ltac tokens := let c := fresh in let I := fresh in intros c I; cbn in I; cbn; repeat (destruct I as [<-|I]; [intros J; repeat (destruct J as [J|J]; [discriminate J|]); exact J|]); destruct I.

(** ** Lists *)

Lemma join_cons : forall sep x r z, join sep (x :: r) ++ z = x ++ (match r with [] => z | _ => sep ++ join sep r ++ z end).
Proof. intros sep x [|y r] z; [reflexivity|]. cbn [join]. rewrite <- !app_assoc. reflexivity. Qed.

Section Joined.
  Context {A B : Type}.
  Variables (f : A -> pystr) (g : B -> pystr) (R : A -> B -> Prop) (c0 : N) (sep' : pystr) (G : pystr -> Prop).
  Hypothesis HG : forall r, G (c0 :: sep' ++ r).

  Lemma join_split : forall l l' z z', l <> [] -> l' <> [] -> G z -> G z' -> hd_error z <> Some c0 -> hd_error z' <> Some c0 ->
    (forall a b k k', In a l -> In b l' -> G k -> G k' -> f a ++ k = g b ++ k' -> R a b /\ k = k') ->
    join (c0 :: sep') (map f l) ++ z = join (c0 :: sep') (map g l') ++ z' -> Forall2 R l l' /\ z = z'.
  Proof.
    induction l as [|a l IH]; intros [|b l'] z z' N N' Gz Gz' Hz Hz' S Q; try congruence.
    cbn [map] in Q. rewrite !join_cons in Q.
    assert (X : forall (x : list pystr) z, G z -> G (match x with [] => z | _ => (c0 :: sep') ++ join (c0 :: sep') x ++ z end)) by (intros [|y x] w Gw; [exact Gw | apply HG]).
    destruct (S a b _ _ (or_introl eq_refl) (or_introl eq_refl) (X (map f l) z Gz) (X (map g l') z' Gz') Q) as (Ra & Q').
    destruct l as [|a2 l], l' as [|b2 l']; cbn [map] in Q'.
    - split; [repeat constructor; exact Ra | exact Q'].
    - exfalso. apply Hz. rewrite Q'. reflexivity.
    - exfalso. apply Hz'. rewrite <- Q'. reflexivity.
    - apply app_inv_head in Q'. destruct (IH (b2 :: l') z z') as (F & ->); auto; try discriminate.
      + intros x y k k' I J. apply S; right; assumption.
  Qed.
End Joined.

(** Arguments up to a closing bracket. *)
Definition closes (e : N) (k : pystr) : Prop := exists r, k = 44 :: 32 :: r \/ k = e :: r.

Lemma args_split : forall {A B} (f : A -> pystr) (g : B -> pystr) (R : A -> B -> Prop) e l l' k k', e <> 44 ->
  (forall a, In a l -> hd_error (f a) <> None /\ hd_error (f a) <> Some e) -> (forall b, In b l' -> hd_error (g b) <> None /\ hd_error (g b) <> Some e) ->
  (forall a b k k', In a l -> In b l' -> closes e k -> closes e k' -> f a ++ k = g b ++ k' -> R a b /\ k = k') ->
  join (str ", ") (map f l) ++ e :: k = join (str ", ") (map g l') ++ e :: k' -> Forall2 R l l' /\ k = k'.
Proof.
  intros A B f g R e l l' k k' NE O O' S Q. destruct l as [|a l], l' as [|b l'].
  - injection Q as <-. auto.
  - exfalso. cbn [map] in Q. rewrite (join_cons _ (g b)) in Q. destruct (O' b (or_introl eq_refl)) as (N1 & N2). destruct (g b) as [|c s]; [exfalso; apply N1; reflexivity|].
    cbn [app map join] in Q. injection Q as <- _. apply N2. reflexivity.
  - exfalso. cbn [map] in Q. rewrite (join_cons _ (f a)) in Q. destruct (O a (or_introl eq_refl)) as (N1 & N2). destruct (f a) as [|c s]; [exfalso; apply N1; reflexivity|].
    cbn [app map join] in Q. injection Q as -> _. apply N2. reflexivity.
  - destruct (join_split f g R 44 [32] (closes e) (fun r => ex_intro _ r (or_introl eq_refl)) (a :: l) (b :: l') (e :: k) (e :: k')) as (F & X);
      try discriminate; auto.
    + exists k. right. reflexivity.
    + exists k'. right. reflexivity.
    + cbn. congruence.
    + cbn. congruence.
    + injection X as <-. auto.
Qed.

(** ** [repr] *)

Definition digit_like (c : N) : Prop := (48 <= c <= 57) \/ (97 <= c <= 102).

Lemma digit_char_like : forall d, d < 16 -> digit_like (digit_char d).
Proof. intros d H. unfold digit_like, digit_char. destruct (N.ltb_spec d 10); lia. Qed.

Lemma digit_char_inj : forall l l', Forall (fun d => d < 16) l -> Forall (fun d => d < 16) l' -> map digit_char l = map digit_char l' -> l = l'.
Proof.
  induction l as [|a l IH]; intros [|b l'] F F' Q; try discriminate Q; [reflexivity|]. inversion F; inversion F'; subst. cbn [map] in Q. injection Q as Q1 Q2.
  assert (char_digit (digit_char a) = char_digit (digit_char b)) as X by (rewrite Q1; reflexivity). rewrite !char_digit_digit_char in X by assumption. injection X as ->.
  f_equal. auto.
Qed.

Lemma pad_map : forall w l, pad_left w (map digit_char l) = map digit_char (repeat 0 (w - length l) ++ l).
Proof. intros w l. unfold pad_left. rewrite map_app, map_length. f_equal. induction (w - length l)%nat as [|n IH]; [reflexivity|]. cbn [repeat map]. rewrite <- IH. reflexivity. Qed.

Lemma hex_pad_inj : forall w c d, hex_pad w c = hex_pad w d -> c = d.
Proof.
  intros w c d Q. unfold hex_pad, hex_str in Q. rewrite !pad_map in Q.
  assert (Z : forall k, Forall (fun d => d < 16) (repeat 0 k)) by (intros k; apply Forall_forall; intros x I; apply repeat_spec in I; subst; lia).
  apply digit_char_inj in Q; [|apply Forall_app; split; [apply Z | apply digits_lt; lia]|apply Forall_app; split; [apply Z | apply digits_lt; lia]].
  assert (X : undigits 16 (repeat 0 (w - length (digits 16 c)) ++ digits 16 c) = undigits 16 (repeat 0 (w - length (digits 16 d)) ++ digits 16 d)) by (rewrite Q; reflexivity).
  rewrite !undigits_zeros, !undigits_digits in X by lia. exact X.
Qed.

Lemma app_length_inv : forall (a b k k' : pystr), length a = length b -> a ++ k = b ++ k' -> a = b /\ k = k'.
Proof.
  induction a as [|x a IH]; intros [|y b] k k' L Q; try discriminate L; [auto|]. cbn [app] in Q. injection Q as -> Q. injection L as L.
  destruct (IH b k k' L Q) as (-> & ->). auto.
Qed.

(** The escape of one character can be told from what follows. *)
Lemma escape_hex_split : forall c d k k', c < 1114112 -> d < 1114112 -> escape_hex c ++ k = escape_hex d ++ k' -> c = d /\ k = k'.
Proof.
  intros c d k k' C D Q. unfold escape_hex in Q. change (str "\x") with [92; 120] in Q. change (str "\u") with [92; 117] in Q. change (str "\U") with [92; 85] in Q.
  assert (W : forall w, (1 <= w)%nat -> c < 16 ^ N.of_nat w -> d < 16 ^ N.of_nat w -> forall p, (p ++ hex_pad w c) ++ k = (p ++ hex_pad w d) ++ k' -> c = d /\ k = k').
  { intros w W1 Wc Wd p Q'. rewrite <- !app_assoc in Q'. apply app_inv_head in Q'. apply app_length_inv in Q'; [|rewrite !hex_pad_length by assumption; reflexivity].
    destruct Q' as (Q' & ->). apply hex_pad_inj in Q'. auto. }
  destruct (N.leb_spec c 255), (N.leb_spec d 255), (N.leb_spec c 65535), (N.leb_spec d 65535); try lia; try discriminate Q.
  - apply (W 2%nat) in Q; [exact Q | lia | cbn; lia | cbn; lia].
  - apply (W 4%nat) in Q; [exact Q | lia | cbn; lia | cbn; lia].
  - apply (W 8%nat) in Q; [exact Q | lia | cbn; lia | cbn; lia].
Qed.

Lemma escape_hex_head : forall c, exists x r, escape_hex c = 92 :: x :: r /\ (x = 120 \/ x = 117 \/ x = 85).
Proof.
  intros c. unfold escape_hex. destruct (c <=? 255); [|destruct (c <=? 65535)]; (eexists _, _; split; [reflexivity|]); auto.
Qed.

(** Ways to write a character. *)
Lemma escape_cases : forall P q c, q = 39 \/ q = 34 ->
  (escape P q c = [c] /\ c <> 92 /\ c <> q) \/
  (exists x, escape P q c = [92; x] /\ In (c, x) [(q, q); (92, 92); (9, 116); (10, 110); (13, 114)]) \/
  escape P q c = escape_hex c.
Proof.
  intros P q c Hq. unfold escape. destruct (N.eqb_spec c q) as [->|Nq]; cbn [orb].
  { right. left. exists q. split; [reflexivity | left; reflexivity]. }
  destruct (N.eqb_spec c 92) as [->|N92]. { right. left. exists 92. split; [reflexivity | right; left; reflexivity]. }
  destruct (N.eqb_spec c 9) as [->|N9]. { right. left. exists 116. split; [reflexivity | cbn; auto 10]. }
  destruct (N.eqb_spec c 10) as [->|N10]. { right. left. exists 110. split; [reflexivity | cbn; auto 10]. }
  destruct (N.eqb_spec c 13) as [->|N13]. { right. left. exists 114. split; [reflexivity | cbn; auto 10]. }
  destruct ((c <? 32) || (c =? 127)); [right; right; reflexivity|]. destruct (c <? 127); [left; auto|]. destruct (py_printable P c); [left; auto | right; right; reflexivity].
Qed.

Lemma escape_split : forall P q c d k k', q = 39 \/ q = 34 -> c < 1114112 -> d < 1114112 -> escape P q c ++ k = escape P q d ++ k' -> c = d /\ k = k'.
Proof.
  intros P q c d k k' Hq C D Q.
  destruct (escape_cases P q c Hq) as [(Qc & Nc & _)|[(x & Qc & Ic)|Qc]], (escape_cases P q d Hq) as [(Qd & Nd & _)|[(y & Qd & Id)|Qd]]; rewrite Qc, Qd in Q.
  - injection Q as -> ->. auto.
  - injection Q as -> _. congruence.
  - destruct (escape_hex_head d) as (z & r & Eh & _). rewrite Eh in Q. injection Q as -> _. congruence.
  - injection Q as <- _. congruence.
  - injection Q as <- ->. split; [|reflexivity]. cbn [In] in Ic, Id.
    repeat (destruct Ic as [Ic|Ic]; [injection Ic as <- <-; repeat (destruct Id as [Id|Id]; [injection Id; intros; subst; try reflexivity; destruct Hq; discriminate|]); destruct Id|]). destruct Ic.
  - exfalso. destruct (escape_hex_head d) as (z & r & Eh & Z). rewrite Eh in Q. injection Q as -> _. cbn [In] in Ic.
    repeat (destruct Ic as [Ic|Ic]; [injection Ic as <- <-; destruct Hq; subst; destruct Z as [Z|[Z|Z]]; discriminate Z|]). destruct Ic.
  - destruct (escape_hex_head c) as (z & r & Eh & _). rewrite Eh in Q. injection Q as <- _. congruence.
  - exfalso. destruct (escape_hex_head c) as (z & r & Eh & Z). rewrite Eh in Q. injection Q as -> _. cbn [In] in Id.
    repeat (destruct Id as [Id|Id]; [injection Id as <- <-; destruct Hq; subst; destruct Z as [Z|[Z|Z]]; discriminate Z|]). destruct Id.
  - exact (escape_hex_split c d k k' C D Q).
Qed.

Lemma escape_not_quote : forall P q c, q = 39 \/ q = 34 -> exists x r, escape P q c = x :: r /\ x <> q.
Proof.
  intros P q c Hq. destruct (escape_cases P q c Hq) as [(-> & _ & N)|[(x & -> & _)| ->]].
  - exists c, []. auto.
  - exists 92, [x]. split; [reflexivity | destruct Hq; subst; discriminate].
  - destruct (escape_hex_head c) as (z & r & -> & _). exists 92, (z :: r). split; [reflexivity | destruct Hq; subst; discriminate].
Qed.

Lemma quoted_split : forall P q s s' k k', q = 39 \/ q = 34 -> Forall (fun c => c < 1114112) s -> Forall (fun c => c < 1114112) s' ->
  flat_map (escape P q) s ++ q :: k = flat_map (escape P q) s' ++ q :: k' -> s = s' /\ k = k'.
Proof.
  intros P q s s' k k' Hq F. revert s'. induction F as [|c s C F IH]; intros s' F' Q.
  - destruct F' as [|d s' D F']; [injection Q as ->; auto|]. exfalso. destruct (escape_not_quote P q d Hq) as (x & r & E & N). cbn [flat_map] in Q. rewrite E in Q. injection Q as Q _. congruence.
  - destruct F' as [|d s' D F']; cbn [flat_map] in Q.
    + exfalso. destruct (escape_not_quote P q c Hq) as (x & r & E & N). rewrite E in Q. injection Q as Q _. congruence.
    + rewrite <- !app_assoc in Q. apply (escape_split P q c d _ _ Hq C D) in Q. destruct Q as (-> & Q). destruct (IH s' F' Q) as (-> & ->). auto.
Qed.

Lemma quote_for_cases : forall s, quote_for s = 39 \/ quote_for s = 34.
Proof. intros s. unfold quote_for. destruct (_ && _); auto. Qed.

Lemma repr_str_split : forall P s s' k k', Forall (fun c => c < 1114112) s -> Forall (fun c => c < 1114112) s' ->
  repr_str P s ++ k = repr_str P s' ++ k' -> s = s' /\ k = k'.
Proof.
  intros P s s' k k' F F' Q. unfold repr_str in Q. cbn [app] in Q. injection Q as Qq Q. rewrite <- Qq, <- !app_assoc in Q. cbn [app] in Q.
  exact (quoted_split P _ s s' k k' (quote_for_cases s) F F' Q).
Qed.

Lemma halt_cons : forall c k, In c delims -> halt (c :: k).
Proof. intros c k I. right. exists c, k. auto. Qed.
Ltac halts := first [assumption | apply halt_cons; cbn; tauto].

Lemma tok_digits : forall s, all_digits s -> tok s.
Proof.
  intros s A c I. unfold all_digits in A. rewrite Forall_forall in A. specialize (A c I). apply is_digit_spec in A.
  intros J. cbn in J. repeat (destruct J as [J|J]; [lia|]). exact J.
Qed.

Lemma dec_str_inj : forall a b, dec_str a = dec_str b -> a = b.
Proof. intros a b Q. rewrite <- (dec_val_dec_str a), <- (dec_val_dec_str b), Q. reflexivity. Qed.

Lemma dec_str_tok : forall n, tok (dec_str n).
Proof. intros n. apply tok_digits, dec_str_digits. Qed.

Lemma dec_str_head : forall n, exists c r, dec_str n = c :: r /\ 48 <= c <= 57.
Proof.
  intros n. pose proof (dec_str_digits n) as A. pose proof (dec_str_nonnil n) as Z. destruct (dec_str n) as [|c r]; [congruence|].
  exists c, r. split; [reflexivity|]. apply is_digit_spec. inversion A; assumption.
Qed.

Lemma int_str_tok : forall z, tok (int_str z).
Proof.
  intros [|p|p].
  - tokens.
  - apply dec_str_tok.
  - intros c [<-|I]; [cbn; intros J; repeat (destruct J as [J|J]; [discriminate J|]); exact J | exact (dec_str_tok _ c I)].
Qed.

Lemma int_str_head : forall z, exists c r, int_str z = c :: r /\ (48 <= c <= 57 \/ c = 45).
Proof.
  intros [|p|p].
  - exists 48, []. split; [reflexivity | lia].
  - destruct (dec_str_head (Npos p)) as (c & r & Q & D). exists c, r. auto.
  - exists 45, (dec_str (Npos p)). auto.
Qed.

Lemma int_str_inj : forall a b, int_str a = int_str b -> a = b.
Proof.
  assert (X : forall p q, int_str (Zneg p) <> int_str (Zpos q)).
  { intros p q Q. cbn [int_str] in Q. destruct (dec_str_head (Npos q)) as (c & r & Qc & D). rewrite Qc in Q. injection Q as <- _. lia. }
  assert (X0 : forall p, int_str (Zneg p) <> int_str 0) by (intros p Q; cbn [int_str] in Q; discriminate Q).
  assert (Y : forall p, int_str (Zpos p) <> int_str 0).
  { intros p Q. change (int_str 0) with (dec_str 0) in Q. apply dec_str_inj in Q. discriminate Q. }
  intros [|p|p] [|q|q] Q; try reflexivity; try (exfalso; symmetry in Q; first [exact (X _ _ Q) | exact (X0 _ Q) | exact (Y _ Q)]); try (exfalso; first [exact (X _ _ Q) | exact (X0 _ Q) | exact (Y _ Q)]).
  - apply dec_str_inj in Q. congruence.
  - cbn [int_str] in Q. injection Q as Q. apply dec_str_inj in Q. congruence.
Qed.

Lemma repr_str_head : forall P s, exists q r, repr_str P s = q :: r /\ (q = 39 \/ q = 34).
Proof. intros P s. exists (quote_for s). eexists. split; [reflexivity | apply quote_for_cases]. Qed.

(** The written literal, if it is a single token. *)
Definition lit_tok (l : lit) : option pystr :=
  match l with LNone => Some (str "None") | LBool b => Some (repr_bool b) | LInt z => Some (int_str z) | _ => None end.

Lemma lit_tok_spec : forall P E l h, lit_tok l = Some h -> repr_lit P E l = Ok h /\ tok h /\ h <> [] /\ h <> [98].
Proof.
  intros P E [|b|z|s|bs|c x] h Q; try discriminate Q; injection Q as <-; (split; [reflexivity|]).
  - split; [tokens | split; discriminate].
  - destruct b; (split; [tokens | split; discriminate]).
  - split; [apply int_str_tok|]. destruct (int_str_head z) as (c & r & -> & D). split; [discriminate|]. intros X. injection X as -> _. lia.
Qed.

Lemma lit_tok_inj : forall l l' h, lit_tok l = Some h -> lit_tok l' = Some h -> l = l'.
Proof.
  intros l l' h Q Q'. destruct l as [|b|z|s|bs|c x], l' as [|b'|z'|s'|bs'|c' x']; cbn [lit_tok] in Q, Q'; try discriminate; try reflexivity;
    injection Q as <-; injection Q' as Q'.
  - destruct b'; discriminate Q'.
  - destruct (int_str_head z') as (c & r & X & D). rewrite X in Q'. injection Q' as -> _. lia.
  - destruct b; discriminate Q'.
  - destruct b, b'; try discriminate Q'; reflexivity.
  - exfalso. destruct (int_str_head z') as (c & r & X & D). rewrite X in Q'. destruct b; injection Q' as -> _; lia.
  - destruct (int_str_head z) as (c & r & X & D). rewrite X in Q'. injection Q' as <- _. lia.
  - exfalso. destruct (int_str_head z) as (c & r & X & D). rewrite X in Q'. destruct b'; injection Q' as <- _; lia.
  - apply int_str_inj in Q'. congruence.
Qed.

Lemma not_tok_head : forall h c r k, tok h -> h <> [] -> In c delims -> h ++ k <> c :: r.
Proof. intros [|x h] c r k T Z I Q; [congruence|]. injection Q as -> _. apply (T c); [left; reflexivity | exact I]. Qed.

Lemma quote_delim : forall q, q = 39 \/ q = 34 -> In q delims.
Proof. intros q [->| ->]; cbn; tauto. Qed.

Definition lit_kind (l : lit) : nat := match l with LStr _ => 1 | LBytes _ => 2 | LEnum _ _ => 3 | _ => 0 end.

(** Literals that are no tokens, by their first characters. *)
Lemma lit_head : forall P E l s, repr_lit P E l = Ok s ->
  (lit_tok l = Some s) \/
  (lit_kind l = 1%nat /\ exists q r, s = q :: r /\ (q = 39 \/ q = 34)) \/
  (lit_kind l = 2%nat /\ exists q r, s = [98] ++ q :: r /\ (q = 39 \/ q = 34)) \/
  (lit_kind l = 3%nat /\ exists r, s = 60 :: r).
Proof.
  intros P E [|b|z|s|bs|c x] s0 Q; cbn [repr_lit] in Q.
  1-3: left; injection Q as <-; reflexivity.
  - right. left. split; [reflexivity|]. injection Q as <-. apply repr_str_head.
  - right. right. left. split; [reflexivity|]. injection Q as <-. unfold repr_bytes.
    match goal with |- context[repr_str ?P ?s] => destruct (repr_str_head P s) as (q & r & X & Hq); rewrite X end. exists q, r. split; [reflexivity | exact Hq].
  - right. right. right. split; [reflexivity|]. destruct (get_class E c) as [cl|]; [|discriminate Q]. destruct (c_kind cl) as [ms| | | |]; try discriminate Q. destruct (dict_get ms x); [|discriminate Q].
    injection Q as <-. eexists. reflexivity.
Qed.

Lemma lit_split : forall P E l l' s s' k k', well_named E -> legible_lit E l -> legible_lit E l' -> repr_lit P E l = Ok s -> repr_lit P E l' = Ok s' -> halt k -> halt k' ->
  s ++ k = s' ++ k' -> l = l' /\ k = k'.
Proof.
  intros P E l l' s s' k k' W L L' R R' K K' Q.
  destruct (lit_head _ _ _ _ R) as [T|[(Kd & q & r & X & Hq)|[(Kd & q & r & X & Hq)|(Kd & r & X)]]], (lit_head _ _ _ _ R') as [T'|[(Kd' & q' & r' & X' & Hq')|[(Kd' & q' & r' & X' & Hq')|(Kd' & r' & X')]]].
  - destruct (lit_tok_spec P E _ _ T) as (_ & Tk & _), (lit_tok_spec P E _ _ T') as (_ & Tk' & _). destruct (tok_split _ _ _ _ Tk Tk' K K' Q) as (-> & ->).
    split; [exact (lit_tok_inj _ _ _ T T') | reflexivity].
  - exfalso. destruct (lit_tok_spec P E _ _ T) as (_ & Tk & Z & _). rewrite X' in Q. exact (not_tok_head _ _ _ _ Tk Z (quote_delim _ Hq') Q).
  - exfalso. destruct (lit_tok_spec P E _ _ T) as (_ & Tk & _ & Z). rewrite X', <- app_assoc in Q. apply tok_split in Q; [destruct Q; congruence | exact Tk | tokens | exact K | apply halt_cons, quote_delim; exact Hq'].
  - exfalso. destruct (lit_tok_spec P E _ _ T) as (_ & Tk & Z & _). rewrite X' in Q. refine (not_tok_head _ _ _ _ Tk Z _ Q). cbn; tauto.
  - exfalso. destruct (lit_tok_spec P E _ _ T') as (_ & Tk & Z & _). rewrite X in Q. symmetry in Q. exact (not_tok_head _ _ _ _ Tk Z (quote_delim _ Hq) Q).
  - destruct l as [| | |a| |]; try discriminate Kd. destruct l' as [| | |a'| |]; try discriminate Kd'. injection R as <-. injection R' as <-. destruct (repr_str_split _ _ _ _ _ L L' Q) as (-> & ->). auto.
  - exfalso. rewrite X, X' in Q. injection Q as -> _. destruct Hq; discriminate.
  - exfalso. rewrite X, X' in Q. injection Q as -> _. destruct Hq; discriminate.
  - exfalso. destruct (lit_tok_spec P E _ _ T') as (_ & Tk & _ & Z). rewrite X, <- app_assoc in Q. symmetry in Q. apply tok_split in Q; [destruct Q; congruence | exact Tk | tokens | exact K' | apply halt_cons, quote_delim; exact Hq].
  - exfalso. rewrite X, X' in Q. injection Q as <- _. destruct Hq'; discriminate.
  - destruct l as [| | | |a|]; try discriminate Kd. destruct l' as [| | | |a'|]; try discriminate Kd'. injection R as <-. injection R' as <-. unfold repr_bytes in Q. rewrite <- !app_assoc in Q. apply app_inv_head in Q.
    assert (B : forall x, legible_lit E (LBytes x) -> Forall (fun c => c < 1114112) x) by (intros x B; apply (Forall_impl _ (P := fun c => c < 256)); [intros y Hy; lia | exact B]).
    destruct (repr_str_split _ _ _ _ _ (B _ L) (B _ L') Q) as (-> & ->). auto.
  - exfalso. rewrite X, X' in Q. discriminate Q.
  - exfalso. destruct (lit_tok_spec P E _ _ T') as (_ & Tk & Z & _). rewrite X in Q. symmetry in Q. refine (not_tok_head _ _ _ _ Tk Z _ Q). cbn; tauto.
  - exfalso. rewrite X, X' in Q. injection Q as <- _. destruct Hq'; discriminate.
  - exfalso. rewrite X, X' in Q. discriminate Q.
  - destruct l as [| | | | |c x]; try discriminate Kd. destruct l' as [| | | | |d y]; try discriminate Kd'. clear X X'. pose proof R as R0.
    destruct L as (cl & ms & j & Gc & Kc & Dj). destruct L' as (dl & ms' & j' & Gd & Kd2 & Dj'). cbn [repr_lit] in R, R'. rewrite Gc, Kc, Dj in R. rewrite Gd, Kd2, Dj' in R'.
    assert (s = str "<" ++ c_name cl ++ str "." ++ x ++ str ": " ++ repr_scalar P j ++ str ">") as -> by congruence.
    assert (s' = str "<" ++ c_name dl ++ str "." ++ y ++ str ": " ++ repr_scalar P j' ++ str ">") as -> by congruence. clear R R' R0.
    rewrite <- !app_assoc in Q. apply app_inv_head in Q. destruct (wn_class E W c cl Gc) as ((_ & T1) & _). destruct (wn_class E W d dl Gd) as ((_ & T2) & _).
    apply tok_split in Q; [|exact T1|exact T2|halts|halts]. destruct Q as (Qn & Q). assert (c = d) as <- by exact (wn_distinct E W _ _ _ _ Gc Gd Qn).
    rewrite Gd in Gc. injection Gc as <-. rewrite Kd2 in Kc. injection Kc as <-. apply app_inv_head in Q.
    apply dict_get_in in Dj as I1. apply dict_get_in in Dj' as I2. destruct (wn_member E W _ _ _ _ _ Gd Kd2 I1) as (_ & T3). destruct (wn_member E W _ _ _ _ _ Gd Kd2 I2) as (_ & T4).
    apply tok_split in Q; [|exact T3|exact T4|halts|halts]. destruct Q as (<- & Q). split; [reflexivity|]. rewrite Dj in Dj'. injection Dj' as <-. repeat apply app_inv_head in Q. exact Q.
Qed.

Lemma annot_split : forall P a b k k', legible_annot a -> legible_annot b -> repr_annot P a ++ k = repr_annot P b ++ k' -> a = b /\ k = k'.
Proof.
  intros P a b k k' La Lb Q.
  assert (W : forall f f' x x', tok f -> tok f' -> call f x ++ k = call f' x' ++ k' -> f = f' /\ join (str ", ") x ++ 41 :: k = join (str ", ") x' ++ 41 :: k').
  { intros f f' x x' T T' X. unfold call in X. rewrite <- !app_assoc in X. apply tok_split in X; [|exact T|exact T'|halts|halts]. destruct X as (<- & X). split; [reflexivity|]. apply app_inv_head in X. exact X. }
  assert (H41 : forall z, halt (41 :: z)) by (intros z; halts). assert (H44 : forall z, halt (44 :: z)) by (intros z; halts).
  destruct a as [x|lo hi|s d|n|n|n|s|n], b as [x'|lo' hi'|s' d'|n'|n'|n'|s'|n']; try contradiction La; try contradiction Lb; cbn [repr_annot] in Q;
    (apply W in Q; [|tokens|tokens]); destruct Q as (Qf & Q); try discriminate Qf; clear Qf; cbn [join] in Q.
  - destruct (repr_str_split _ _ _ _ _ La Lb Q) as (-> & X). injection X as ->. auto.
  - rewrite <- !app_assoc in Q. apply tok_split in Q; [|apply int_str_tok|apply int_str_tok|apply H44|apply H44]. destruct Q as (Q1 & Q). apply int_str_inj in Q1 as ->. apply app_inv_head in Q.
    apply tok_split in Q; [|apply int_str_tok|apply int_str_tok|apply H41|apply H41]. destruct Q as (Q1 & Q). apply int_str_inj in Q1 as ->. injection Q as ->. auto.
  - rewrite <- !app_assoc in Q. apply tok_split in Q; [|apply dec_str_tok|apply dec_str_tok|apply H44|apply H44]. destruct Q as (Q1 & Q). apply dec_str_inj in Q1 as ->. apply app_inv_head in Q.
    apply tok_split in Q; [|apply dec_str_tok|apply dec_str_tok|apply H41|apply H41]. destruct Q as (Q1 & Q). apply dec_str_inj in Q1 as ->. injection Q as ->. auto.
  - apply tok_split in Q; [|apply dec_str_tok|apply dec_str_tok|apply H41|apply H41]. destruct Q as (Q1 & Q). apply dec_str_inj in Q1 as ->. injection Q as ->. auto.
  - apply tok_split in Q; [|apply dec_str_tok|apply dec_str_tok|apply H41|apply H41]. destruct Q as (Q1 & Q). apply dec_str_inj in Q1 as ->. injection Q as ->. auto.
  - apply tok_split in Q; [|apply dec_str_tok|apply dec_str_tok|apply H41|apply H41]. destruct Q as (Q1 & Q). apply dec_str_inj in Q1 as ->. injection Q as ->. auto.
  - destruct s, s'; try discriminate Q; cbn in Q; injection Q as ->; auto.
Qed.

Lemma annot_head : forall P a, legible_annot a -> hd_error (repr_annot P a) <> None /\ hd_error (repr_annot P a) <> Some 93.
Proof. intros P [] L; try contradiction L; split; discriminate. Qed.

Lemma Forall2_eq : forall {A} (l l' : list A), Forall2 eq l l' -> l = l'.
Proof. intros A l l' F. induction F; congruence. Qed.

Lemma annots_split : forall P l l' k k', Forall legible_annot l -> Forall legible_annot l' ->
  join (str ", ") (map (repr_annot P) l) ++ 93 :: k = join (str ", ") (map (repr_annot P) l') ++ 93 :: k' -> l = l' /\ k = k'.
Proof.
  intros P l l' k k' F F' Q. rewrite Forall_forall in F, F'. apply (args_split _ _ eq) in Q.
  - destruct Q as (Q & ->). split; [apply Forall2_eq; exact Q | reflexivity].
  - discriminate.
  - intros a I. apply annot_head, F, I.
  - intros a I. apply annot_head, F', I.
  - intros a b z z' I J _ _. apply annot_split; [apply F, I | apply F', J].
Qed.

Lemma closes_halt : forall k, closes 93 k -> halt k.
Proof. intros k (r & [-> | ->]); halts. Qed.

Definition lit_text (P : python) (E : env) (l : lit) : pystr := match repr_lit P E l with Ok s => s | Err _ => [] end.

Lemma lit_text_ok : forall P E l, legible_lit E l -> repr_lit P E l = Ok (lit_text P E l).
Proof.
  intros P E l L. unfold lit_text. destruct l as [|b|z|s|bs|c x]; try reflexivity. destruct L as (cl & ms & j & G & K & D). cbn [repr_lit]. rewrite G, K, D. reflexivity.
Qed.

Lemma lit_text_head : forall P E l, legible_lit E l -> hd_error (lit_text P E l) <> None /\ hd_error (lit_text P E l) <> Some 93.
Proof.
  intros P E l L. pose proof (lit_text_ok P E l L) as R. destruct (lit_head _ _ _ _ R) as [T|[(_ & q & r & X & [->| ->])|[(_ & q & r & X & _)|(_ & r & X)]]].
  - destruct (lit_tok_spec P E _ _ T) as (_ & Tk & Z & _). destruct (lit_text P E l) as [|c r]; [congruence|]. split; [discriminate|]. intros Y. injection Y as ->.
    apply (Tk 93); [left; reflexivity | cbn; tauto].
  - rewrite X. split; discriminate.
  - rewrite X. split; discriminate.
  - rewrite X. split; discriminate.
  - rewrite X. split; discriminate.
Qed.

Lemma lits_split : forall P E l l' k k', well_named E -> Forall (legible_lit E) l -> Forall (legible_lit E) l' ->
  join (str ", ") (map (lit_text P E) l) ++ 93 :: k = join (str ", ") (map (lit_text P E) l') ++ 93 :: k' -> l = l' /\ k = k'.
Proof.
  intros P E l l' k k' W F F' Q. rewrite Forall_forall in F, F'. apply (args_split _ _ eq) in Q.
  - destruct Q as (Q & ->). split; [apply Forall2_eq; exact Q | reflexivity].
  - discriminate.
  - intros a I. apply lit_text_head, F, I.
  - intros a I. apply lit_text_head, F', I.
  - intros a b z z' I J C C'. apply (lit_split P E); auto; try apply lit_text_ok; auto using closes_halt.
Qed.

(** ** The written type *)

Section Show.
  Variables (P : python) (E : env) (op : bool).

  Fixpoint show (plain : bool) (t : typ) : pystr :=
    match t with
    | TScalar KNone => if plain then scalar_name KNone else str "None"
    | TScalar k => scalar_name k
    | TBare b => bare_name b
    | TClass c => match get_class E c with Some cl => c_name cl | None => [] end
    | TRef s => s
    | TList u => bracket (str "list") [show false u]
    | TSet u => bracket (str "set") [show false u]
    | TDict k u => bracket (str "dict") [show false k; show false u]
    | TTuple ts => bracket (str "tuple") (map (show false) ts)
    | TLiteral ls => bracket (str "Literal") (map (lit_text P E) ls)
    | TUnion _ ts =>
        if op then join (str " | ") (map (show false) ts)
        else if Nat.eqb (length ts) 2 && existsb (typ_eqb (TScalar KNone)) ts
        then bracket (str "Optional") (flat_map (fun u => if typ_eqb u (TScalar KNone) then [] else [show false u]) ts)
        else bracket (str "Union") (map (show false) ts)
    | TAnnot w md =>
        match get_auxiliary_format t with
        | Some x => x
        | None =>
            match find_auxiliary sorted_auxiliary w md with
            | Some (x, rest) => bracket (str "Annotated") [x; join (str ", ") (map (repr_annot P) rest)]
            | None => bracket (str "Annotated") [show true w; join (str ", ") (map (repr_annot P) md)]
            end
        end
    | TForm => []
    end.

  Lemma show_union : forall plain o ts, op = false -> show plain (TUnion o ts) =
    if Nat.eqb (length ts) 2 && existsb (typ_eqb (TScalar KNone)) ts
    then bracket (str "Optional") (flat_map (fun u => if typ_eqb u (TScalar KNone) then [] else [show false u]) ts)
    else bracket (str "Union") (map (show false) ts).
  Proof. intros plain o ts Q. cbn [show]. rewrite Q at 1. reflexivity. Qed.

  Lemma show_joined : forall plain o ts, op = true -> show plain (TUnion o ts) = join (str " | ") (map (show false) ts).
  Proof. intros plain o ts Q. cbn [show]. rewrite Q at 1. reflexivity. Qed.

  Let F := mkFormatter None None None op.

  Definition all_str (eval : typ -> res pystr) : bool -> bool -> list typ -> res (list pystr) :=
    fix all (skip fwd : bool) (ts : list typ) : res (list pystr) :=
      match ts with
      | [] => Ok []
      | u :: r =>
          if skip && typ_eqb u (TScalar KNone) then all skip fwd r
          else do s <- to_str_at P E F eval false fwd u; do rs <- all skip fwd r; Ok (s :: rs)
      end.

  Lemma all_str_ok : forall eval skip fwd ts, Forall (fun u => to_str_at P E F eval false fwd u = Ok (show false u)) ts ->
    all_str eval skip fwd ts = Ok (flat_map (fun u => if skip && typ_eqb u (TScalar KNone) then [] else [show false u]) ts).
  Proof.
    intros eval skip fwd ts H. induction H as [|u ts Hu H IH]; [reflexivity|]. cbn [all_str flat_map]. fold (all_str eval).
    destruct (skip && typ_eqb u (TScalar KNone)); [exact IH|]. rewrite Hu. cbn [bind]. rewrite IH. reflexivity.
  Qed.

  Lemma flat_map_one : forall {A B} (f : A -> B) l, flat_map (fun u => [f u]) l = map f l.
  Proof. intros A B f l. induction l as [|a l IH]; [reflexivity|]. cbn [flat_map map app]. rewrite IH. reflexivity. Qed.

  Lemma mapM_lits : forall ls, Forall (legible_lit E) ls -> mapM (value_to_str P E F) ls = Ok (map (lit_text P E) ls).
  Proof.
    intros ls H. induction H as [|l ls Hl H IH]; [reflexivity|]. cbn [mapM map]. unfold value_to_str at 1. cbn [fm_value F]. rewrite (lit_text_ok P E l Hl). cbn [bind]. rewrite IH. reflexivity.
  Qed.

  Lemma to_str_show : forall eval t plain fwd, canonical t -> legible E (py_identifier P) t -> (plain = true -> ~ is_annotated t) ->
    to_str_at P E F eval plain fwd t = Ok (show plain t).
  Proof.
    intros eval.
    induction t as [k|b|u IH|u IH|k u IHk IH|ts IH|o ts IH|ls|u md IH|c|s|] using typ_induct; intros plain fwd C L Pl; inversion L; subst; inversion C; subst.
    - destruct k, plain; reflexivity.
    - reflexivity.
    - cbn [to_str_at show]. rewrite IH by (assumption || discriminate). reflexivity.
    - cbn [to_str_at show]. rewrite IH by (assumption || discriminate). reflexivity.
    - cbn [to_str_at show]. rewrite IHk by (assumption || discriminate). cbn [bind]. rewrite IH by (assumption || discriminate). reflexivity.
    - change (to_str_at P E F eval plain fwd (TTuple ts)) with (do ss <- all_str eval false false ts; Ok (bracket (str "tuple") ss)).
      rewrite all_str_ok; [cbn [bind andb show]; rewrite flat_map_one; reflexivity|]. rewrite Forall_forall in *. intros u I. apply IH; auto. discriminate.
    - assert (X : Forall (fun u => to_str_at P E F eval false true u = Ok (show false u)) ts).
      { rewrite Forall_forall in *. intros u I. apply IH; auto. - apply H4, I. - discriminate. }
      change (to_str_at P E F eval plain fwd (TUnion o ts)) with
        (if op then do ss <- all_str eval false true ts; Ok (join (str " | ") ss)
         else if Nat.eqb (length ts) 2 && existsb (typ_eqb (TScalar KNone)) ts
         then do ss <- all_str eval true true ts; Ok (bracket (str "Optional") ss)
         else do ss <- all_str eval false true ts; Ok (bracket (str "Union") ss)).
      rewrite !(all_str_ok _ _ _ _ X). cbn [show]. destruct op; [cbn [bind andb]; rewrite flat_map_one; reflexivity|].
      destruct (Nat.eqb (length ts) 2 && existsb (typ_eqb (TScalar KNone)) ts); cbn [bind andb]; [reflexivity | rewrite flat_map_one; reflexivity].
    - cbn [to_str_at show]. rewrite mapM_lits by assumption. reflexivity.
    - destruct plain; [exfalso; apply Pl; [reflexivity | exact Logic.I]|]. cbn [to_str_at]. cbn [show]. destruct (get_auxiliary_format (TAnnot u md)); [reflexivity|].
      destruct (find_auxiliary sorted_auxiliary u md) as [(x & rest)|]; [reflexivity|]. rewrite IH by auto. reflexivity.
    - cbn [to_str_at show]. unfold class_name. rewrite H0. reflexivity.
    - cbn [to_str_at show]. unfold ref_to_str. cbn [fm_context F]. rewrite H0. destruct fwd; reflexivity.
  Qed.
End Show.

(** ** Auxiliary types *)

Lemma sorted_auxiliary_eq : sorted_auxiliary = map (fun q : pystr * (scalar * list annot) => (TAnnot (TScalar (fst (snd q))) (snd (snd q)), fst q)) numbers.
Proof. reflexivity. Qed.

Lemma get_aux_numbers : forall t x, get_auxiliary_format t = Some x -> exactly t x.
Proof.
  intros t x Q.
  assert (G : forall l, (forall u f, In (u, f) l -> exactly u f) -> (fix go l := match l with [] => None | (u, f) :: r => if typ_eqb u t then Some f else go r end) l = Some x -> exactly t x).
  { induction l as [|[u f] l IH]; intros H X; [discriminate X|]. destruct (typ_eqb u t) eqn:Y.
    - injection X as <-. apply typ_eqb_eq in Y. subst u. apply H. left. reflexivity.
    - apply IH; [|exact X]. intros v g I. apply H. right. exact I. }
  apply (G auxiliary_types); [|exact Q]. clear. intros u f I. unfold exactly. cbn [auxiliary_types In] in I.
  repeat (destruct I as [I|I]; [injection I as <- <-; eexists _, _; (split; [|reflexivity]); cbn [numbers In]; tauto|]). destruct I.
Qed.

Lemma exactly_get_aux : forall t x, exactly t x -> get_auxiliary_format t <> None.
Proof.
  intros t x (k & amd & I & ->) Q.
  assert (G : forall l u, (exists f, In (u, f) l) -> (fix go l := match l with [] => None | (u', f) :: r => if typ_eqb u' u then Some f else go r end) l <> None (A := pystr)).
  { induction l as [|[u' f] l IH]; intros u (g & J) X; [destruct J|]. destruct (typ_eqb u' u) eqn:Y; [discriminate X|]. destruct J as [J|J].
    - injection J as -> _. rewrite typ_eqb_refl in Y. discriminate Y.
    - exact (IH u (ex_intro _ g J) X). }
  apply (G auxiliary_types (TAnnot (TScalar k) amd)); [|exact Q]. clear - I. cbn [numbers In] in I.
  repeat (destruct I as [I|I]; [injection I as <- <- <-; eexists; cbn [auxiliary_types In]; tauto|]). destruct I.
Qed.

Lemma mem_annot_in : forall a l, mem_annot a l = true <-> In a l.
Proof.
  intros a l. unfold mem_annot. rewrite existsb_exists. split.
  - intros (b & I & Q). apply annot_eqb_eq in Q. subst b. exact I.
  - intros I. exists a. split; [exact I | apply annot_eqb_refl].
Qed.

Lemma leaves_out_filter : forall amd md, leaves_out amd md (filter (fun a => negb (mem_annot a amd)) md).
Proof.
  intros amd md. induction md as [|a md IH]; [constructor|]. cbn [filter]. destruct (mem_annot a amd) eqn:M; cbn [negb]; [apply lo_drop | apply lo_keep]; auto.
  - apply mem_annot_in. exact M.
  - intros I. apply mem_annot_in in I. congruence.
Qed.

Lemma leaves_out_det : forall amd md r r', leaves_out amd md r -> leaves_out amd md r' -> r = r'.
Proof. intros amd md r r' H. revert r'. induction H; intros r' H'; inversion H'; subst; try contradiction; f_equal; auto. Qed.

Lemma forallb_mem : forall amd md, forallb (fun a => mem_annot a md) amd = true <-> incl amd md.
Proof. intros amd md. rewrite forallb_forall. unfold incl. split; intros H a I; specialize (H a I); apply mem_annot_in; exact H. Qed.

Lemma find_aux_refines : forall w md x rest, find_auxiliary sorted_auxiliary w md = Some (x, rest) <-> exists k, w = TScalar k /\ refines k md x rest.
Proof.
  intros w md x rest. rewrite sorted_auxiliary_eq. unfold refines. generalize numbers. intros l. split.
  - intros Q. induction l as [|[y [k amd]] l IH]; [discriminate Q|]. cbn [map find_auxiliary fst snd] in Q.
    destruct (typ_eqb (TScalar k) w && forallb (fun a => mem_annot a md) amd) eqn:B.
    + injection Q as <- <-. apply andb_true_iff in B. destruct B as (B1 & B2). apply typ_eqb_eq in B1. subst w. apply forallb_mem in B2. exists k. split; [reflexivity|].
      exists [], amd, l. repeat split; auto using leaves_out_filter.
    + destruct (IH Q) as (k' & -> & l1 & bmd & l2 & -> & I & L & Z). exists k'. split; [reflexivity|]. exists ((y, (k, amd)) :: l1), bmd, l2. repeat split; auto.
      intros z cmd [J|J]; [|exact (Z z cmd J)]. injection J as <- <- <-. intros J. apply forallb_mem in J. rewrite J, typ_eqb_refl in B. discriminate B.
  - intros (k & -> & l1 & amd & l2 & -> & I & L & Z). induction l1 as [|[y [j bmd]] l1 IH]; cbn [app map find_auxiliary fst snd].
    + apply forallb_mem in I. rewrite I, typ_eqb_refl. cbn [andb]. f_equal. f_equal. exact (leaves_out_det _ _ _ _ (leaves_out_filter amd md) L).
    + destruct (typ_eqb (TScalar j) (TScalar k) && forallb (fun a => mem_annot a md) bmd) eqn:B.
      * exfalso. apply andb_true_iff in B. destruct B as (B1 & B2). apply typ_eqb_eq in B1. injection B1 as ->. apply forallb_mem in B2. exact (Z y bmd (or_introl eq_refl) B2).
      * apply IH. intros z cmd J. apply (Z z cmd). right. exact J.
Qed.

Lemma refines_number : forall k md x rest, refines k md x rest -> exists amd, In (x, (k, amd)) numbers.
Proof. intros k md x rest (l1 & amd & l2 & Q & _). exists amd. rewrite Q. apply in_or_app. right. left. reflexivity. Qed.

Lemma refines_legible : forall k md x rest, refines k md x rest -> Forall legible_annot md -> Forall legible_annot rest.
Proof.
  intros k md x rest (l1 & amd & l2 & _ & _ & L & _). clear - L. induction L; intros F; [constructor | inversion F; auto | inversion F; auto].
Qed.

(** ** Atoms *)

(** Everything built in that is written without brackets. *)
Definition builtins : list (typ * pystr) :=
  (TScalar KNone, str "None") ::
  map (fun k => (TScalar k, scalar_name k)) [KNone; KBool; KInt; KFloat; KStr; KBytes; KDateTime; KDate; KTime; KTimeDelta; KUUID; KIPv4; KIPv6] ++
  map (fun b => (TBare b, bare_name b)) [BList; BDict; BSet; BTuple] ++
  map (fun q : pystr * (scalar * list annot) => (TAnnot (TScalar (fst (snd q))) (snd (snd q)), fst q)) numbers.

Fixpoint distinct (l : list pystr) : bool := match l with [] => true | x :: r => negb (mem_str x r) && distinct r end.
Lemma distinct_nodup : forall l, distinct l = true -> NoDup l.
Proof.
  induction l as [|x l IH]; intros H; [constructor|]. cbn [distinct] in H. apply andb_true_iff in H. destruct H as (H1 & H2). constructor; [|auto].
  intros I. apply mem_str_in in I. rewrite I in H1. discriminate H1.
Qed.

Lemma builtins_distinct : NoDup (map snd builtins).
Proof. apply distinct_nodup. vm_compute. reflexivity. Qed.

Lemma builtins_inj : forall t u x, In (t, x) builtins -> In (u, x) builtins -> t = u.
Proof.
  intros t u x I J. pose proof builtins_distinct as Z. induction builtins as [|[v y] l IH]; [destruct I|]. inversion Z as [|? ? Z1 Z2]; subst.
  destruct I as [I|I], J as [J|J]; try congruence; auto.
  - exfalso. injection I as -> ->. apply Z1. apply (in_map snd) in J. exact J.
  - exfalso. injection J as -> ->. apply Z1. apply (in_map snd) in I. exact I.
Qed.

Lemma builtins_named : forall t x, In (t, x) builtins -> In x builtin_names.
Proof.
  intros t x I. apply mem_str_in. apply (in_map snd) in I. cbn [snd] in I. revert x I. apply Forall_forall. apply Forall_forall. 
  assert (X : forallb (fun x => mem_str x builtin_names) (map snd builtins) = true) by (vm_compute; reflexivity). rewrite forallb_forall in X. exact X.
Qed.

Lemma builtin_like : forall x, In x builtin_names -> tok x /\ x <> [].
Proof.
  assert (X : forallb (fun x => negb (pystr_eqb x []) && forallb (fun c => negb (mem_char c delims)) x) builtin_names = true) by (vm_compute; reflexivity).
  rewrite forallb_forall in X. intros x I. specialize (X x I). apply andb_true_iff in X. destruct X as (X1 & X2). rewrite forallb_forall in X2. split.
  - intros c J K. specialize (X2 c J). apply mem_char_in in K. rewrite K in X2. discriminate X2.
  - intros ->. discriminate X1.
Qed.

Section Split.
  Variables (P : python) (E : env) (op : bool).
  Hypothesis W : well_named E.
  Notation show := (show P E op).
  Notation alike := (alike E op).
  Definition fine (t : typ) : Prop := canonical t /\ legible E (py_identifier P) t.

  Inductive atomic : typ -> pystr -> Prop :=
  | at_builtin : forall t x, In (t, x) builtins -> atomic t x
  | at_class : forall c cl, get_class E c = Some cl -> atomic (TClass c) (c_name cl)
  | at_ref : forall s, name_like s -> ~ In s builtin_names -> atomic (TRef s) s.

  Lemma atomic_tok : forall t x, atomic t x -> tok x /\ x <> [].
  Proof.
    intros t x [u y I|c cl G|s [Z N] _]; [apply builtin_like, builtins_named with (1 := I) | | split; assumption]. destruct (wn_class E W _ _ G) as ((Z & N) & _). split; assumption.
  Qed.

  Lemma atomic_alike : forall t u x, atomic t x -> atomic u x -> alike t u.
  Proof.
    intros t u x A B. destruct A as [t x I|c cl G|s Z N]; inversion B as [u' y J|d dl G'|s' Z' N']; subst.
    - rewrite (builtins_inj _ _ _ I J). clear - J. unfold builtins in J. cbn [map app In] in J.
      destruct J as [J|J]; [injection J as <- _; constructor|].
      assert (R : forall t, (exists k, t = TScalar k) \/ (exists b, t = TBare b) \/ (exists k md, t = TAnnot (TScalar k) md) -> alike t t).
      { intros v [(k & ->)|[(b & ->)|(k & md & ->)]]; repeat constructor. }
      apply R. clear R. repeat (destruct J as [J|J]; [injection J as <- _; eauto 6|]). destruct J.
    - exfalso. apply (proj2 (wn_class E W _ _ G')). exact (builtins_named _ _ I).
    - exfalso. apply N'. exact (builtins_named _ _ I).
    - exfalso. apply (proj2 (wn_class E W _ _ G)). exact (builtins_named _ _ J).
    - assert (c = d) as -> by (apply (wn_distinct E W c d cl dl); congruence). constructor.
    - constructor. exact G.
    - exfalso. apply N. exact (builtins_named _ _ J).
    - constructor. exact G'.
    - constructor.
  Qed.

  (** Bracketed types: what stands before and within the brackets. *)
  Inductive boxed : typ -> pystr -> pystr -> Prop :=
  | bx_list : forall u, boxed (TList u) (str "list") (join (str ", ") (map (show false) [u]))
  | bx_set : forall u, boxed (TSet u) (str "set") (join (str ", ") (map (show false) [u]))
  | bx_dict : forall k u, boxed (TDict k u) (str "dict") (join (str ", ") (map (show false) [k; u]))
  | bx_tuple : forall ts, boxed (TTuple ts) (str "tuple") (join (str ", ") (map (show false) ts))
  | bx_literal : forall ls, boxed (TLiteral ls) (str "Literal") (join (str ", ") (map (lit_text P E) ls))
  | bx_optional : forall o ts t, op = false -> ts = [t; none_type] \/ ts = [none_type; t] -> In t ts -> boxed (TUnion o ts) (str "Optional") (join (str ", ") (map (show false) [t]))
  | bx_union : forall o ts, op = false -> boxed (TUnion o ts) (str "Union") (join (str ", ") (map (show false) ts))
  | bx_auxiliary : forall k md x rest, (forall y, ~ exactly (TAnnot (TScalar k) md) y) -> refines k md x rest ->
      boxed (TAnnot (TScalar k) md) (str "Annotated") (x ++ 44 :: 32 :: join (str ", ") (map (repr_annot P) rest))
  | bx_annot : forall w md, boxed (TAnnot w md) (str "Annotated") (show true w ++ 44 :: 32 :: join (str ", ") (map (repr_annot P) md)).

  Lemma boxed_head : forall t f x, boxed t f x -> tok f /\ f <> [].
  Proof. intros t f x B. destruct B; (split; [tokens | discriminate]). Qed.

  Definition joined (t : typ) : Prop := op = true /\ is_union t.

  Lemma show_cases : forall plain t, canonical t -> legible E (py_identifier P) t -> ~ joined t ->
    atomic t (show plain t) \/ exists f x, boxed t f x /\ show plain t = f ++ 91 :: x ++ [93].
  Proof.
    intros plain t C L J. destruct t as [k|b|u|u|k u|ts|o ts|ls|u md|c|s|]; inversion L; subst; inversion C; subst.
    - left. apply at_builtin. destruct k, plain; cbn; tauto.
    - left. apply at_builtin. destruct b; cbn; tauto.
    - right. eexists _, _. split; [constructor | reflexivity].
    - right. eexists _, _. split; [constructor | reflexivity].
    - right. eexists _, _. split; [constructor | reflexivity].
    - right. eexists _, _. split; [constructor | reflexivity].
    - right. assert (Qop : op = false) by (destruct op eqn:Qop; [exfalso; apply J; split; [exact Qop | exact Logic.I] | reflexivity]). rewrite (show_union _ _ _ _ _ _ Qop).
      destruct (Nat.eqb (length ts) 2 && existsb (typ_eqb (TScalar KNone)) ts) eqn:B; [|eexists _, _; split; [constructor; exact Qop | reflexivity]].
      apply andb_true_iff in B. destruct B as (B1 & B2). apply Nat.eqb_eq in B1. destruct ts as [|a [|b [|? ?]]]; try discriminate B1. cbn [existsb] in B2. rewrite orb_false_r in B2.
      inversion H3 as [|? ? Z _]; subst. destruct (typ_eqb (TScalar KNone) a) eqn:Qa; cbn [orb] in B2.
      + apply typ_eqb_eq in Qa. subst a. assert (Qb : typ_eqb b (TScalar KNone) = false). { destruct (typ_eqb b (TScalar KNone)) eqn:Y; [|reflexivity]. apply typ_eqb_eq in Y. subst b. exfalso. apply Z. left. reflexivity. }
        exists (str "Optional"). eexists. split; [apply (bx_optional o [none_type; b] b Qop); [right; reflexivity | right; left; reflexivity]|].
        cbn [flat_map]. rewrite typ_eqb_refl, Qb. reflexivity.
      + apply typ_eqb_eq in B2. subst b. assert (Qb : typ_eqb a (TScalar KNone) = false). { destruct (typ_eqb a (TScalar KNone)) eqn:Y; [|reflexivity]. apply typ_eqb_eq in Y. subst a. rewrite typ_eqb_refl in Qa. discriminate Qa. }
        exists (str "Optional"). eexists. split; [apply (bx_optional o [a; none_type] a Qop); [left; reflexivity | left; reflexivity]|].
        cbn [flat_map]. rewrite typ_eqb_refl, Qb. reflexivity.
    - right. eexists _, _. split; [constructor | reflexivity].
    - cbn [NamesProofs.show]. destruct (get_auxiliary_format (TAnnot u md)) as [x|] eqn:G.
      + left. apply at_builtin. apply get_aux_numbers in G. destruct G as (k & amd & I & Q). injection Q as -> ->. unfold builtins. right. apply in_or_app. right. apply in_or_app. right.
        apply (in_map (fun q : pystr * (scalar * list annot) => (TAnnot (TScalar (fst (snd q))) (snd (snd q)), fst q))) in I. exact I.
      + right. destruct (find_auxiliary sorted_auxiliary u md) as [(x & rest)|] eqn:Fa.
        * apply find_aux_refines in Fa. destruct Fa as (k & -> & R). exists (str "Annotated"). eexists. split; [apply (bx_auxiliary k md x rest); [|exact R]|].
          -- intros y X. apply exactly_get_aux in X. congruence.
          -- unfold bracket. cbn [join]. rewrite <- !app_assoc. reflexivity.
        * exists (str "Annotated"). eexists. split; [apply bx_annot|]. unfold bracket. cbn [join]. rewrite <- !app_assoc. reflexivity.
    - left. cbn [NamesProofs.show]. rewrite H0. apply at_class. exact H0.
    - left. cbn [NamesProofs.show]. apply at_ref; assumption.
  Qed.

  Definition parts (t : typ) : list typ :=
    match t with
    | TList u | TSet u | TAnnot u _ => [u]
    | TDict k u => [k; u]
    | TTuple ts | TUnion _ ts => ts
    | _ => []
    end.

  Lemma fine_parts : forall t, fine t -> Forall fine (parts t).
  Proof.
    intros t [C L]. unfold fine. destruct C; cbn [parts]; inversion L; subst; repeat constructor; auto; rewrite Forall_forall in *; intros u I; split; auto.
    apply H1. exact I.
  Qed.

  Definition starts (s : pystr) : Prop := hd_error s <> None /\ hd_error s <> Some 93.

  Lemma tok_starts : forall h k, tok h -> h <> [] -> starts (h ++ k).
  Proof.
    intros [|c h] k T Z; [congruence|]. split; [discriminate|]. cbn. intros Q. injection Q as ->. apply (T 93); [left; reflexivity | cbn; tauto].
  Qed.

  Lemma show_starts_simple : forall p t, fine t -> ~ joined t -> forall k, starts (show p t ++ k).
  Proof.
    intros p t [C L] J k. destruct (show_cases p t C L J) as [A|(f & x & B & ->)].
    - destruct (atomic_tok _ _ A). apply tok_starts; assumption.
    - destruct (boxed_head _ _ _ B). rewrite <- app_assoc. apply tok_starts; assumption.
  Qed.

  Lemma joined_dec : forall t, joined t \/ ~ joined t.
  Proof.
    intros t. unfold joined. destruct op; [|right; intros (X & _); discriminate X]. destruct t; cbn [is_union]; tauto.
  Qed.

  Lemma member_fine : forall o ts, fine (TUnion o ts) -> Forall (fun t => fine t /\ ~ joined t) ts.
  Proof.
    intros o ts [C L]. inversion C; subst. inversion L; subst. rewrite Forall_forall in *. intros u I. destruct (H3 u I) as (X & Y). repeat split; auto.
    intros (_ & Z). exact (Y Z).
  Qed.

  Lemma show_starts : forall p t, fine t -> forall k, starts (show p t ++ k).
  Proof.
    intros p t Ft k. destruct (joined_dec t) as [(Qop & U)|J]; [|apply show_starts_simple; assumption]. destruct t as [| | | | | |o ts| | | | |]; try contradiction U.
    rewrite (show_joined _ _ _ _ _ _ Qop). pose proof (member_fine _ _ Ft) as M. destruct Ft as [C _]. inversion C; subst. destruct ts as [|a ts]; [cbn in *; lia|]. cbn [map]. rewrite join_cons.
    inversion M as [|? ? (Fa & Ja) _]; subst. apply show_starts_simple; assumption.
  Qed.

  Definition stop (k : pystr) : Prop := k = [] \/ exists c r, k = c :: r /\ In c [44; 93; 32].
  Definition stopc (k : pystr) : Prop := k = [] \/ exists c r, k = c :: r /\ In c [44; 93].

  Definition splits (t : typ) : Prop := forall p p' u k k', fine u -> ~ joined t -> ~ joined u -> stop k -> stop k' ->
    show p t ++ k = show p' u ++ k' -> alike t u /\ k = k'.
  Definition splits_any (t : typ) : Prop := forall p p' u k k', fine u -> stopc k -> stopc k' ->
    show p t ++ k = show p' u ++ k' -> alike t u /\ k = k'.

  Lemma stop_halt : forall k, stop k -> halt k.
  Proof. intros k [->|(c & r & -> & I)]; [left; reflexivity|]. apply halt_cons. cbn [In] in I. destruct I as [<-|[<-|[<-|[]]]]; cbn; tauto. Qed.
  Lemma stopc_stop : forall k, stopc k -> stop k.
  Proof. intros k [->|(c & r & -> & I)]; [left; reflexivity|]. right. exists c, r. split; [reflexivity|]. cbn [In] in *. tauto. Qed.
  Lemma stop_open : forall r, ~ stop (91 :: r).
  Proof. intros r [X|(c & r' & X & I)]; [discriminate X|]. injection X as <- <-. cbn [In] in I. repeat (destruct I as [I|I]; [discriminate I|]). exact I. Qed.
  Lemma closes_stopc : forall k, closes 93 k -> stopc k.
  Proof. intros k (r & [-> | ->]); right; eexists _, _; (split; [reflexivity|]); cbn; tauto. Qed.

  Lemma args_alike : forall ts us k k', Forall fine ts -> Forall fine us -> Forall splits_any ts ->
    join (str ", ") (map (show false) ts) ++ 93 :: k = join (str ", ") (map (show false) us) ++ 93 :: k' -> Forall2 alike ts us /\ k = k'.
  Proof.
    intros ts us k k' Ft Fu S Q. rewrite Forall_forall in Ft, Fu, S. apply (args_split _ _ alike) in Q; [exact Q | discriminate | | |].
    - intros a I. pose proof (show_starts false a (Ft a I) []) as X. rewrite app_nil_r in X. exact X.
    - intros a I. pose proof (show_starts false a (Fu a I) []) as X. rewrite app_nil_r in X. exact X.
    - intros a b z z' I J C C'. apply (S a I); auto using closes_stopc.
  Qed.

  Lemma aux_atomic : forall k md x rest, refines k md x rest -> exists amd, atomic (TAnnot (TScalar k) amd) x.
  Proof.
    intros k md x rest R. destruct (refines_number _ _ _ _ R) as (amd & I). exists amd. apply at_builtin. unfold builtins. right. apply in_or_app. right. apply in_or_app. right.
    apply (in_map (fun q : pystr * (scalar * list annot) => (TAnnot (TScalar (fst (snd q))) (snd (snd q)), fst q))) in I. exact I.
  Qed.

  Lemma alike_annot_inv : forall w md u, alike (TAnnot w md) u -> is_annotated u.
  Proof. intros w md u H. inversion H; exact Logic.I. Qed.

  (** The name of an auxiliary type is no other type. *)
  Lemma aux_not_show : forall k md x rest w z z' p, refines k md x rest -> fine w -> ~ is_annotated w -> x ++ 44 :: z = show p w ++ 44 :: z' -> False.
  Proof.
    intros k md x rest w z z' p R Fw NA Q. destruct (aux_atomic _ _ _ _ R) as (amd & A). destruct (atomic_tok _ _ A) as (T & _).
    assert (G : forall u q y, fine u -> ~ joined u -> stop y -> x ++ 44 :: z = show q u ++ y -> exists r, y = 44 :: r).
    { intros u q y [C L] J Sy Q'. destruct (show_cases q u C L J) as [B|(f & b & B & X)].
      - destruct (atomic_tok _ _ B) as (T' & _). apply tok_split in Q'; [|exact T|exact T'|halts|apply stop_halt; exact Sy]. destruct Q' as (_ & <-). eauto.
      - exfalso. rewrite X in Q'. destruct (boxed_head _ _ _ B) as (T' & _). rewrite <- app_assoc in Q'. apply tok_split in Q'; [|exact T|exact T'|halts|cbn [app]; halts]. destruct Q' as (_ & Q'). discriminate Q'. }
    destruct (joined_dec w) as [(Qop & U)|J].
    - destruct w as [| | | | | |o ts| | | | |]; try contradiction U. rewrite (show_joined _ _ _ _ _ _ Qop) in Q. pose proof (member_fine _ _ Fw) as M. destruct Fw as [C _]. inversion C; subst.
      destruct ts as [|a [|b ts]]; cbn [length] in *; try lia. cbn [map] in Q. rewrite join_cons in Q. inversion M as [|? ? (Fa & Ja) _]; subst.
      destruct (G a false _ Fa Ja (or_intror (ex_intro _ 32 (ex_intro _ _ (conj eq_refl (or_intror (or_intror (or_introl eq_refl))))))) Q) as (r & X). discriminate X.
    - destruct Fw as [C L]. destruct (show_cases p w C L J) as [B|(f & b & B & X)].
      + destruct (atomic_tok _ _ B) as (T' & _). apply tok_split in Q; [|exact T|exact T'|halts|halts]. destruct Q as (Qx & _). rewrite <- Qx in B.
        apply NA. apply (alike_annot_inv (TScalar k) amd). exact (atomic_alike _ _ _ A B).
      + rewrite X in Q. destruct (boxed_head _ _ _ B) as (T' & _). rewrite <- app_assoc in Q. apply tok_split in Q; [|exact T|exact T'|halts|cbn [app]; halts]. destruct Q as (_ & Q). discriminate Q.
  Qed.

  Lemma refines_scalar : forall k md x rest k' md' rest', refines k md x rest -> refines k' md' x rest' -> k = k'.
  Proof.
    intros k md x rest k' md' rest' R R'. destruct (refines_number _ _ _ _ R) as (a & I), (refines_number _ _ _ _ R') as (a' & I').
    assert (X : TAnnot (TScalar k) a = TAnnot (TScalar k') a').
    { apply (builtins_inj _ _ x); unfold builtins; right; apply in_or_app; right; apply in_or_app; right;
        [exact (in_map (fun q : pystr * (scalar * list annot) => (TAnnot (TScalar (fst (snd q))) (snd (snd q)), fst q)) _ _ I)
        |exact (in_map (fun q : pystr * (scalar * list annot) => (TAnnot (TScalar (fst (snd q))) (snd (snd q)), fst q)) _ _ I')]. }
    congruence.
  Qed.

  Lemma boxed_split : forall t u f f' x x' k k', boxed t f x -> boxed u f' x' -> fine t -> fine u -> Forall splits_any (parts t) ->
    f = f' -> x ++ 93 :: k = x' ++ 93 :: k' -> alike t u /\ k = k'.
  Proof.
    intros t u f f' x x' k k' B B' Ft Fu S Qf Q. pose proof (fine_parts _ Ft) as Pt. pose proof (fine_parts _ Fu) as Pu.
    assert (One : forall a b, fine a -> fine b -> splits_any a -> join (str ", ") (map (show false) [a]) ++ 93 :: k = join (str ", ") (map (show false) [b]) ++ 93 :: k' -> alike a b /\ k = k').
    { intros a b Fa Fb Sa X. apply args_alike in X; [|constructor; [exact Fa | constructor]|constructor; [exact Fb | constructor]|constructor; [exact Sa | constructor]]. destruct X as (X & ->). inversion X; auto. }
    destruct B as [a|a|a1 a2|ts|ls|o ts a Qop Qts Ia|o ts Qop|j md y rest NE R|w md]; destruct B' as [b|b|b1 b2|us|ls'|o' us b Qop' Qus Ib|o' us Qop'|j' md' y' rest' NE' R'|w' md'];
      try discriminate Qf; cbn [parts] in S, Pt, Pu.
    - inversion S; inversion Pt; inversion Pu; subst. destruct (One a b) as (X & ->); auto. split; [constructor; exact X | reflexivity].
    - inversion S; inversion Pt; inversion Pu; subst. destruct (One a b) as (X & ->); auto. split; [constructor; exact X | reflexivity].
    - apply args_alike in Q; auto. destruct Q as (X & ->). split; [|reflexivity]. inversion X as [|? ? ? ? X1 X2]; subst. inversion X2; subst. constructor; assumption.
    - apply args_alike in Q; auto. destruct Q as (X & ->). split; [|reflexivity]. constructor. exact X.
    - destruct Ft as [_ Lt]. destruct Fu as [_ Lu]. inversion Lt; inversion Lu; subst. apply lits_split in Q; auto. destruct Q as (-> & ->). split; [constructor | reflexivity].
    - rewrite Forall_forall in S, Pt, Pu. destruct (One a b) as (X & ->); auto. split; [|reflexivity]. apply (al_optional E op o o' ts us a b); assumption.
    - apply args_alike in Q; auto. destruct Q as (X & ->). split; [|reflexivity]. constructor. exact X.
    - rewrite <- !app_assoc in Q. cbn [app] in Q. destruct (aux_atomic _ _ _ _ R) as (amd & A), (aux_atomic _ _ _ _ R') as (amd' & A').
      destruct (atomic_tok _ _ A) as (T & _), (atomic_tok _ _ A') as (T' & _). apply tok_split in Q; [|exact T|exact T'|halts|halts]. destruct Q as (<- & Q). injection Q as Q.
      destruct Ft as [_ Lt]. destruct Fu as [_ Lu]. inversion Lt; inversion Lu; subst.
      apply annots_split in Q; [|apply (refines_legible _ _ _ _ R); assumption|apply (refines_legible _ _ _ _ R'); assumption]. destruct Q as (<- & ->). split; [|reflexivity].
      assert (j = j') as <- by exact (refines_scalar _ _ _ _ _ _ _ R R'). apply (al_auxiliary E op j md md' y rest); assumption.
    - exfalso. rewrite <- !app_assoc in Q. cbn [app] in Q. inversion Pu as [|? ? Fw' _]; subst. destruct Fu as [Cu _]. inversion Cu; subst. apply (aux_not_show _ _ _ _ _ _ _ _ R Fw' H2 Q).
    - exfalso. rewrite <- !app_assoc in Q. cbn [app] in Q. inversion Pt as [|? ? Fw _]; subst. destruct Ft as [Ct _]. inversion Ct; subst. symmetry in Q. apply (aux_not_show _ _ _ _ _ _ _ _ R' Fw H2 Q).
    - rewrite <- !app_assoc in Q. cbn [app] in Q. inversion Pt as [|? ? Fw _]; inversion Pu as [|? ? Fw' _]; inversion S as [|? ? Sw _]; subst.
      apply (Sw true true w') in Q; [|exact Fw'|right; eexists _, _; split; [reflexivity | left; reflexivity]|right; eexists _, _; split; [reflexivity | left; reflexivity]].
      destruct Q as (X & Q). injection Q as Q. destruct Ft as [_ Lt]. destruct Fu as [_ Lu]. inversion Lt; inversion Lu; subst. apply annots_split in Q; [|assumption|assumption]. destruct Q as (<- & ->).
      split; [constructor; exact X | reflexivity].
  Qed.

  Lemma splits_step : forall t, fine t -> Forall splits_any (parts t) -> splits t.
  Proof.
    intros t Ft S p p' u k k' Fu J J' K K' Q. pose proof Ft as [C L]. pose proof Fu as [C' L'].
    destruct (show_cases p t C L J) as [A|(f & x & B & X)], (show_cases p' u C' L' J') as [A'|(f' & x' & B' & X')].
    - destruct (atomic_tok _ _ A) as (T & _), (atomic_tok _ _ A') as (T' & _). apply tok_split in Q; [|exact T|exact T'|apply stop_halt; exact K|apply stop_halt; exact K']. destruct Q as (Q & ->). split; [|reflexivity].
      rewrite <- Q in A'. exact (atomic_alike _ _ _ A A').
    - exfalso. rewrite X' in Q. destruct (atomic_tok _ _ A) as (T & _), (boxed_head _ _ _ B') as (T' & _). rewrite <- app_assoc in Q. apply tok_split in Q; [|exact T|exact T'|apply stop_halt; exact K|cbn [app]; halts].
      destruct Q as (_ & ->). exact (stop_open _ K).
    - exfalso. rewrite X in Q. destruct (atomic_tok _ _ A') as (T & _), (boxed_head _ _ _ B) as (T' & _). rewrite <- app_assoc in Q. apply tok_split in Q; [|exact T'|exact T|cbn [app]; halts|apply stop_halt; exact K'].
      destruct Q as (_ & <-). exact (stop_open _ K').
    - rewrite X, X' in Q. destruct (boxed_head _ _ _ B) as (T & _), (boxed_head _ _ _ B') as (T' & _). rewrite <- !app_assoc in Q. apply tok_split in Q; [|exact T|exact T'|cbn [app]; halts|cbn [app]; halts].
      destruct Q as (Qf & Q). cbn [app] in Q. injection Q as Q. rewrite <- !app_assoc in Q. cbn [app] in Q. exact (boxed_split _ _ _ _ _ _ _ _ B B' Ft Fu S Qf Q).
  Qed.

  (** Types written between vertical bars. *)
  Definition members (t : typ) : list typ := match t with TUnion _ ts => if op then ts else [t] | _ => [t] end.

  Lemma show_members : forall p t, exists q, show p t = join (str " | ") (map (show q) (members t)).
  Proof.
    intros p t. destruct t as [k|b|u|u|k u|ts|o ts|ls|u md|c|s|]; try (exists p; reflexivity). cbn [members]. destruct op eqn:Q; [|exists p; reflexivity].
    exists false. reflexivity.
  Qed.

  Lemma members_fine : forall t, fine t -> Forall (fun u => fine u /\ ~ joined u) (members t).
  Proof.
    intros t Ft. destruct (joined_dec t) as [(Q & U)|J].
    - destruct t as [| | | | | |o ts| | | | |]; try contradiction U. cbn [members]. rewrite Q. exact (member_fine _ _ Ft).
    - assert (members t = [t]) as ->; [|constructor; [split; assumption | constructor]]. destruct t as [| | | | | |o ts| | | | |]; try reflexivity. cbn [members]. destruct op eqn:Q; [|reflexivity].
      exfalso. apply J. split; [exact Q | exact Logic.I].
  Qed.

  Lemma splits_members : forall t, fine t -> Forall splits (members t) -> splits_any t.
  Proof.
    intros t Ft S p p' u k k' Fu K K' Q. destruct (show_members p t) as (q & X), (show_members p' u) as (q' & X'). rewrite X, X' in Q.
    pose proof (members_fine t Ft) as Mt. pose proof (members_fine u Fu) as Mu. rewrite Forall_forall in Mt, Mu, S.
    assert (NB : forall z, stopc z -> hd_error z <> Some 32).
    { intros z [->|(c & r & -> & I)]; [discriminate|]. cbn. intros Y. injection Y as ->. cbn [In] in I. repeat (destruct I as [I|I]; [discriminate I|]). exact I. }
    assert (NN : forall v, fine v -> members v <> []).
    { intros v [Cv _]. destruct v as [| | | | | |o ts| | | | |]; try discriminate. cbn [members]. destruct op; [|discriminate]. inversion Cv; subst. intros ->. cbn in *; lia. }
    change (str " | ") with (32 :: [124; 32]) in Q.
    apply (join_split (show q) (show q') alike 32 [124; 32] stop) in Q; [| |auto|auto|apply stopc_stop; exact K|apply stopc_stop; exact K'|auto|auto|].
    - destruct Q as (Fa & ->). split; [|reflexivity]. destruct Ft as [Ct _]. destruct Fu as [Cu _].
      destruct t as [| | | | | |o ts| | | | |], u as [| | | | | |o' us| | | | |]; cbn [members] in Fa; try (inversion Fa; assumption).
      all: destruct op eqn:Qop; try (inversion Fa; assumption).
      all: pose proof (Forall2_length_eq _ _ _ _ _ Fa) as Len; cbn [Datatypes.length] in Len.
      all: try (exfalso; inversion Cu; lia).
      all: try (exfalso; inversion Ct; lia).
      constructor. exact Fa.
    - intros r. right. eexists _, _. split; [reflexivity | cbn; tauto].
    - intros a b z z' I I' Z Z'. destruct (Mt a I), (Mu b I'). apply (S a I); assumption.
  Qed.

  Lemma split_all : forall t, fine t -> splits t /\ splits_any t.
  Proof.
    induction t as [k|b|u IH|u IH|k u IHk IH|ts IH|o ts IH|ls|u md IH|c|s|] using typ_induct; intros Ft; pose proof (fine_parts _ Ft) as Pt; cbn [parts] in Pt.
    all: match goal with |- splits ?t /\ _ => assert (Sp : Forall splits_any (parts t)) end; cbn [parts].
    all: try match goal with Sp : Forall splits_any _ |- splits ?t /\ _ =>
      pose proof (splits_step t Ft Sp) as St; split; [exact St|]; apply splits_members; [exact Ft|]; cbn [members]; try (constructor; [exact St | constructor]) end.
    all: try (constructor; fail).
    - inversion Pt; subst. constructor; [apply IH; assumption | constructor].
    - inversion Pt; subst. constructor; [apply IH; assumption | constructor].
    - inversion Pt as [|? ? F1 P2]; subst. inversion P2; subst. constructor; [apply IHk; assumption | constructor; [apply IH; assumption | constructor]].
    - rewrite Forall_forall in *. intros u I. apply IH; auto.
    - rewrite Forall_forall in *. intros u I. apply IH; auto.
    - destruct op; [|constructor; [exact St | constructor]]. rewrite Forall_forall in *. intros u I. apply IH; auto.
    - inversion Pt; subst. constructor; [apply IH; assumption | constructor].
  Qed.

  Lemma show_inj : forall p t u, fine t -> fine u -> show p t = show p u -> alike t u.
  Proof.
    intros p t u Ft Fu Q. apply (proj2 (split_all t Ft) p p u [] []); auto; try (left; reflexivity). rewrite Q. reflexivity.
  Qed.

  Lemma alike_none : forall t u, alike t u -> typ_eqb t (TScalar KNone) = typ_eqb u (TScalar KNone).
  Proof. intros t u H. inversion H; subst; reflexivity. Qed.
  Lemma alike_none' : forall t u, alike t u -> typ_eqb (TScalar KNone) t = typ_eqb (TScalar KNone) u.
  Proof. intros t u H. inversion H; subst; reflexivity. Qed.

  Lemma optional_show : forall p o ts t, op = false -> fine (TUnion o ts) -> ts = [t; none_type] \/ ts = [none_type; t] ->
    show p (TUnion o ts) = bracket (str "Optional") [show false t].
  Proof.
    intros p o ts t Qop [C _] Q. rewrite (show_union _ _ _ _ _ _ Qop). inversion C as [| | | | | |? ? _ Nd _| | | | |]; subst.
    assert (Z : typ_eqb t (TScalar KNone) = false /\ typ_eqb (TScalar KNone) t = false).
    { assert (t <> TScalar KNone) as X. { intros ->. destruct Q as [->| ->]; inversion Nd as [|? ? Y _]; apply Y; left; reflexivity. }
      split; [destruct (typ_eqb t (TScalar KNone)) eqn:Y | destruct (typ_eqb (TScalar KNone) t) eqn:Y]; try reflexivity; apply typ_eqb_eq in Y; congruence. }
    destruct Z as (Z & Z'). destruct Q as [->| ->]; cbn [length Nat.eqb existsb flat_map app andb orb none_type]; unfold none_type; rewrite ?Z, ?Z'; reflexivity.
  Qed.

  Lemma aux_none : forall w md, (forall k, w <> TScalar k) -> get_auxiliary_format (TAnnot w md) = None /\ find_auxiliary sorted_auxiliary w md = None.
  Proof.
    intros w md H. split.
    - destruct (get_auxiliary_format (TAnnot w md)) as [x|] eqn:G; [|reflexivity]. apply get_aux_numbers in G. destruct G as (k & amd & _ & X). exfalso. apply (H k). congruence.
    - destruct (find_auxiliary sorted_auxiliary w md) as [(x & rest)|] eqn:G; [|reflexivity]. apply find_aux_refines in G. destruct G as (k & X & _). exfalso. exact (H k X).
  Qed.

  Lemma not_exactly : forall t, (forall y, ~ exactly t y) -> get_auxiliary_format t = None.
  Proof. intros t H. destruct (get_auxiliary_format t) as [x|] eqn:G; [|reflexivity]. exfalso. exact (H x (get_aux_numbers _ _ G)). Qed.

  Lemma map_alike : forall ts us p, Forall (fun t => forall u p, fine t -> fine u -> alike t u -> show p t = show p u) ts -> Forall fine ts -> Forall fine us -> Forall2 alike ts us ->
    map (show p) ts = map (show p) us.
  Proof.
    intros ts us p IH Ft Fu H. induction H as [|t u ts us Htu H IHl]; [reflexivity|]. inversion IH; inversion Ft; inversion Fu; subst. cbn [map]. f_equal; auto.
  Qed.

  Lemma alike_show : forall t u p, fine t -> fine u -> alike t u -> show p t = show p u.
  Proof.
    induction t as [k|b|t1 IH|t1 IH|k t1 IHk IH|ts IH|o ts IH|ls|w md IH|c|s|] using typ_induct; intros u p Ft Fu H; pose proof (fine_parts _ Ft) as Pt; pose proof (fine_parts _ Fu) as Pu; inversion H;
      try match goal with Q : op = false |- _ => apply (proj2 (negb_true_iff _)) in Q; rename Q into Qop end; subst; cbn [parts] in Pt, Pu.
    - reflexivity.
    - reflexivity.
    - inversion Pt; inversion Pu; subst. cbn [NamesProofs.show]. do 2 f_equal. auto.
    - inversion Pt; inversion Pu; subst. cbn [NamesProofs.show]. do 2 f_equal. auto.
    - inversion Pt as [|? ? ? Pt']; inversion Pu as [|? ? ? Pu']; inversion Pt'; inversion Pu'; subst. cbn [NamesProofs.show]. f_equal. f_equal; [auto|]. f_equal. auto.
    - cbn [NamesProofs.show]. f_equal. apply map_alike; assumption.
    - destruct (joined_dec (TUnion o ts)) as [(Qop & _)|J].
      + rewrite !(show_joined _ _ _ _ _ _ Qop). f_equal. apply map_alike; assumption.
      + assert (Qop : op = false) by (destruct op eqn:Qop; [exfalso; apply J; split; [exact Qop | exact Logic.I] | reflexivity]). rewrite !(show_union _ _ _ _ _ _ Qop).
        rewrite (map_alike ts us false) by assumption. rewrite (Forall2_length_eq _ _ _ _ _ H3).
        assert (X : existsb (typ_eqb (TScalar KNone)) ts = existsb (typ_eqb (TScalar KNone)) us).
        { clear - H3. induction H3 as [|t u ts us Htu F IH]; [reflexivity|]. cbn [existsb]. rewrite (alike_none' _ _ Htu), IH. reflexivity. }
        rewrite X. assert (Y : flat_map (fun u => if typ_eqb u (TScalar KNone) then [] else [show false u]) ts = flat_map (fun u => if typ_eqb u (TScalar KNone) then [] else [show false u]) us).
        { clear - H3 IH Pt Pu. induction H3 as [|t u ts us Htu F IHl]; [reflexivity|]. inversion IH; inversion Pt; inversion Pu; subst. cbn [flat_map]. rewrite (alike_none _ _ Htu), IHl by assumption.
          f_equal. destruct (typ_eqb u (TScalar KNone)); [reflexivity|]. f_equal. auto. }
        rewrite Y. reflexivity.
    - apply negb_true_iff in Qop. rewrite (optional_show p o ts t Qop Ft) by assumption. rewrite (optional_show p o' us u0 Qop Fu) by assumption. do 2 f_equal.
      assert (In t ts) as It by (match goal with X : ts = _ \/ ts = _ |- _ => destruct X as [->| ->] end; cbn; auto).
      assert (In u0 us) as Iu by (match goal with X : us = _ \/ us = _ |- _ => destruct X as [->| ->] end; cbn; auto).
      rewrite Forall_forall in *. apply IH; auto.
    - reflexivity.
    - inversion Pt; inversion Pu; subst. assert (Z : (exists k, w = TScalar k) \/ (forall k, w <> TScalar k)) by (destruct w; [left; eauto | right; discriminate ..]).
      match goal with X : alike w ?v |- _ => rename X into Hw; assert (Z' : (exists k, w = TScalar k /\ v = TScalar k) \/ ((forall k, w <> TScalar k) /\ (forall k, v <> TScalar k))) by
        (destruct Z as [(k & ->)|Z]; [left; inversion Hw; subst; eauto | right; split; [exact Z|]; inversion Hw; subst; try discriminate; exfalso; eapply Z; reflexivity]) end.
      destruct Z' as [(k & -> & ->)|(Z1 & Z2)]; [reflexivity|]. cbn [NamesProofs.show]. destruct (aux_none _ md Z1) as (-> & ->), (aux_none _ md Z2) as (-> & ->). do 2 f_equal. auto.
    - cbn [NamesProofs.show]. rewrite !not_exactly by assumption.
      assert (X : forall md, refines k md x rest -> find_auxiliary sorted_auxiliary (TScalar k) md = Some (x, rest)) by (intros m R; apply find_aux_refines; eauto).
      rewrite !X by assumption. reflexivity.
    - reflexivity.
    - cbn [NamesProofs.show]. match goal with X : get_class E c = Some _ |- _ => rewrite X end. reflexivity.
    - reflexivity.
    - cbn [NamesProofs.show]. match goal with X : get_class E _ = Some _ |- _ => rewrite X end. reflexivity.
  Qed.
End Split.

(** ** [python_type_to_str] *)

Lemma to_str_ok : forall P E op n fwd t, canonical t -> legible E (py_identifier P) t -> python_type_to_str P E op n fwd t = Ok (show P E op false t).
Proof.
  intros P E op n fwd t C L. unfold python_type_to_str.
  assert (X : forall k, to_str P E (mkFormatter None None None op) n fwd t = Ok k -> Ok k = Ok (show P E op false t) -> python_type_to_str P E op n fwd t = Ok (show P E op false t)).
  { intros k Q1 Q2. rewrite <- Q2, <- Q1. unfold python_type_to_str. destruct t as [| | | | | | | | |c| |]; try reflexivity. destruct n; reflexivity. }
  fold (python_type_to_str P E op n fwd t). apply (X (show P E op false t)); [|reflexivity].
  destruct n; cbn [to_str]; apply to_str_show; auto; discriminate.
Qed.

Theorem str_alike : forall P E op n m fwd fwd' t u, well_named E -> canonical t -> legible E (py_identifier P) t -> canonical u -> legible E (py_identifier P) u ->
  (python_type_to_str P E op n fwd t = python_type_to_str P E op m fwd' u <-> alike E op t u).
Proof.
  intros P E op n m fwd fwd' t u W Ct Lt Cu Lu. rewrite !to_str_ok by assumption. split.
  - intros Q. injection Q as Q. exact (show_inj P E op W false t u (conj Ct Lt) (conj Cu Lu) Q).
  - intros H. f_equal. exact (alike_show P E op t u false (conj Ct Lt) (conj Cu Lu) H).
Qed.

(** ** [python_type_to_name] *)

Definition clear (x : pystr) : Prop := x <> [] /\ separable_name x.
Definition seps : pystr := [95; 95].
Definition parted (k : pystr) : Prop := k = [] \/ exists r, k = seps ++ r.

Lemma clear_split_half : forall x y z k r, clear x -> y <> [] -> x = y ++ z -> z ++ k = seps ++ r -> parted k -> z = [].
Proof.
  intros x y z k r (Nx & S1 & S2) Ny -> Q K. destruct z as [|a [|b z]]; [reflexivity| |].
  - injection Q as -> Q. exfalso. exact (S2 y eq_refl).
  - injection Q as -> -> Q. exfalso. exact (S1 y z eq_refl).
Qed.

Lemma clear_split : forall x y k k', clear x -> clear y -> parted k -> parted k' -> x ++ k = y ++ k' -> x = y /\ k = k'.
Proof.
  intros x y k k' Cx Cy K K' Q. apply app_eq_app in Q. destruct Q as (z & [(Q1 & Q2)|(Q1 & Q2)]).
  - assert (z = []) as ->; [|rewrite app_nil_r in Q1; auto]. destruct K' as [->|(r & ->)].
    + symmetry in Q2. apply app_eq_nil in Q2. apply Q2.
    + apply (clear_split_half x y z k r); auto. apply Cy.
  - assert (z = []) as ->; [|rewrite app_nil_r in Q1; auto]. destruct K as [->|(r & ->)].
    + symmetry in Q2. apply app_eq_nil in Q2. apply Q2.
    + apply (clear_split_half y x z k' r); auto. apply Cx.
Qed.

Lemma join_seps_inj : forall l l', Forall clear l -> Forall clear l' -> join (str "__") l = join (str "__") l' -> l = l'.
Proof.
  assert (Z : forall x (r : list pystr), clear x -> join (str "__") (x :: r) <> []).
  { intros x r (Nx & _) Q. pose proof (join_cons (str "__") x r []) as X. rewrite app_nil_r, Q in X. symmetry in X. apply app_eq_nil in X. apply Nx, X. }
  induction l as [|x l IH]; intros [|y l'] F F' Q; [reflexivity| | |].
  - inversion F'; subst. exfalso. symmetry in Q. exact (Z _ _ H1 Q).
  - inversion F; subst. exfalso. exact (Z _ _ H1 Q).
  - inversion F as [|? ? Cx Fl]; inversion F' as [|? ? Cy Fl']; subst. pose proof (f_equal (fun s => s ++ []) Q) as Q1. cbn beta in Q1. rewrite !join_cons in Q1.
    assert (K : forall (r : list pystr), parted (match r with [] => [] | _ => str "__" ++ join (str "__") r ++ [] end)) by (intros [|? ?]; [left; reflexivity | right; eexists; reflexivity]).
    apply clear_split in Q1; auto. destruct Q1 as (-> & Q1). f_equal. destruct l as [|x2 l], l' as [|y2 l']; try reflexivity; try discriminate Q1.
    apply app_inv_head in Q1. rewrite !app_nil_r in Q1. apply IH; assumption.
Qed.

Fixpoint clear_b (x : pystr) : bool :=
  match x with
  | [] => true
  | [a] => negb (a =? 95)
  | a :: (b :: _) as r => negb ((a =? 95) && (b =? 95)) && clear_b r
  end.

Lemma clear_b_ok : forall x, clear_b x = true -> separable_name x.
Proof.
  intros x H. unfold separable_name. induction x as [|a x IH]; [split; [intros [|? ?] b Q; discriminate Q | intros [|? ?] Q; discriminate Q]|].
  assert (T : clear_b x = true) by (destruct x as [|b x]; [reflexivity|]; cbn [clear_b] in H; apply andb_true_iff in H; exact (proj2 H)). destruct (IH T) as (I1 & I2). split.
  - intros [|c l] b Q; cbn [app] in Q; injection Q as -> Q; [|exact (I1 l b Q)]. subst x. cbn in H. discriminate H.
  - intros [|c l] Q; cbn [app] in Q; injection Q as -> Q; [subst x; discriminate H | exact (I2 l Q)].
Qed.

Lemma builtin_clear : forall x, In x builtin_names -> clear x.
Proof.
  assert (X : forallb (fun x => negb (pystr_eqb x []) && clear_b x) builtin_names = true) by (vm_compute; reflexivity).
  rewrite forallb_forall in X. intros x I. specialize (X x I). apply andb_true_iff in X. destruct X as (X1 & X2). split; [intros ->; discriminate X1 | apply clear_b_ok; exact X2].
Qed.

Section Short.
  Variable E : env.
  Hypothesis W : well_named E.

  Definition basic_text (n : typ) : pystr :=
    match n with
    | TScalar k => scalar_name k
    | TBare b => bare_name b
    | TClass c => match get_class E c with Some cl => c_name cl | None => [] end
    | _ => match get_auxiliary_format n with Some x => x | None => [] end
    end.

  Lemma exactly_fun : forall t x, exactly t x -> get_auxiliary_format t = Some x.
  Proof.
    intros t x H. destruct (get_auxiliary_format t) as [y|] eqn:G; [|exfalso; exact (exactly_get_aux _ _ H G)]. apply get_aux_numbers in G. f_equal.
    destruct H as (k & amd & I & ->), G as (k' & amd' & I' & Q). injection Q as <- <-. clear - I I'. cbn [numbers In] in I.
    repeat (destruct I as [I|I]; [injection I as <- <- <-; cbn [numbers In] in I'; repeat (destruct I' as [I'|I']; [injection I'; intros; subst; try reflexivity; try discriminate|]); destruct I'|]). destruct I.
  Qed.

  Lemma basic_short : forall t n, basic E t n -> short_name E t = Ok (basic_text n).
  Proof.
    intros t n H. induction H as [t x X|t md n X H IH|k|b| |c cl G].
    - pose proof (exactly_fun _ _ X) as Q. assert (basic_text t = x) as -> by (destruct X as (k & amd & _ & ->); cbn [basic_text]; rewrite Q; reflexivity).
      destruct X as (k & amd & _ & ->). cbn [short_name]. rewrite Q. reflexivity.
    - cbn [short_name]. rewrite (not_exactly _ X). exact IH.
    - destruct k; reflexivity.
    - destruct b; reflexivity.
    - reflexivity.
    - cbn [short_name basic_text]. replace (get_auxiliary_format (TClass c)) with (@None pystr) by reflexivity. cbn [simple_name]. unfold class_name. rewrite G. reflexivity.
  Qed.

  Lemma short_basic : forall t x, short_name E t = Ok x -> exists n, basic E t n.
  Proof.
    assert (Z : forall t, ~ is_annotated t -> short_name E t = simple_name E t) by (intros [] NA; try reflexivity; exfalso; apply NA; exact Logic.I).
    induction t as [k|b|u IH|u IH|k u IHk IH|ts IH|o ts IH|ls|u md IH|c|s|] using typ_induct; intros x Q;
      try (rewrite Z in Q by (intros X; exact X); cbn [simple_name] in Q; try discriminate Q).
    - eexists. constructor.
    - eexists. constructor.
    - destruct ts; [|discriminate Q]. eexists. constructor.
    - cbn [short_name] in Q. destruct (get_auxiliary_format (TAnnot u md)) as [y|] eqn:G.
      + eexists. apply (ba_auxiliary _ _ y). apply get_aux_numbers. exact G.
      + destruct (IH x Q) as (n & H). exists n. apply ba_annot; [|exact H]. intros y X. apply exactly_get_aux in X. congruence.
    - unfold class_name in Q. destruct (get_class E c) as [cl|] eqn:G; [|discriminate Q]. eexists. apply (ba_class _ _ cl). exact G.
  Qed.

  Lemma basic_place : forall t n, basic E t n -> In (n, basic_text n) builtins \/ exists c cl, n = TClass c /\ get_class E c = Some cl /\ basic_text n = c_name cl.
  Proof.
    intros t n H. induction H as [t x X|t md n X H IH|k|b| |c cl G]; [| exact IH | | | |].
    - left. rewrite (surjective_pairing (t, basic_text t)). cbn [fst snd]. pose proof (exactly_fun _ _ X) as Q. destruct X as (k & amd & I & ->). cbn [basic_text]. rewrite Q. unfold builtins. right. apply in_or_app. right. apply in_or_app. right.
      exact (in_map (fun q : pystr * (scalar * list annot) => (TAnnot (TScalar (fst (snd q))) (snd (snd q)), fst q)) _ _ I).
    - left. destruct k; cbn; tauto.
    - left. destruct b; cbn; tauto.
    - left. cbn; tauto.
    - right. exists c, cl. cbn [basic_text]. rewrite G. auto.
  Qed.

  Lemma basic_inj : forall t u n m, basic E t n -> basic E u m -> basic_text n = basic_text m -> n = m.
  Proof.
    intros t u n m H K Q. destruct (basic_place _ _ H) as [I|(c & cl & -> & G & X)], (basic_place _ _ K) as [J|(d & dl & -> & G' & Y)].
    - rewrite Q in I. exact (builtins_inj _ _ _ I J).
    - exfalso. apply (proj2 (wn_class E W _ _ G')). rewrite <- Y, <- Q. exact (builtins_named _ _ I).
    - exfalso. apply (proj2 (wn_class E W _ _ G)). rewrite <- X, Q. exact (builtins_named _ _ J).
    - f_equal. apply (wn_distinct E W c d cl dl G G'). congruence.
  Qed.

  Hypothesis Sep : separable_names E.

  Lemma basic_clear : forall t n, basic E t n -> clear (basic_text n).
  Proof.
    intros t n H. destruct (basic_place _ _ H) as [I|(c & cl & -> & G & X)].
    - apply builtin_clear. exact (builtins_named _ _ I).
    - rewrite X. split; [apply (wn_class E W _ _ G) | exact (Sep _ _ G)].
  Qed.

  Definition isbasic (n : typ) : Prop := exists t, basic E t n.

  Definition flat (l : label) : string * list typ :=
    match l with
    | OfBasic n => (""%string, [n])
    | OfDict a b => ("Dict"%string, [a; b])
    | OfList n => ("List"%string, [n])
    | OfSet n => ("Set"%string, [n])
    | OfTuple ns => ("Tuple"%string, ns)
    | OfOptional n => ("Optional"%string, [n])
    | OfUnion ns => ("Union"%string, ns)
    end.

  Definition label_text (l : label) : pystr :=
    match l with
    | OfBasic n => basic_text n
    | _ => str (fst (flat l)) ++ str "__" ++ join (str "__") (map basic_text (snd (flat l)))
    end.

  Lemma called_basic : forall force t l, called E force t l -> Forall isbasic (snd (flat l)).
  Proof.
    assert (Z : forall ts ns, Forall2 (basic E) ts ns -> Forall isbasic ns) by (intros ts ns F; induction F; constructor; [eexists; eassumption | assumption]).
    intros force t l H. destruct H; cbn [flat snd]; repeat (constructor; [eexists; eassumption|]); try constructor; eauto.
  Qed.

  Lemma called_name : forall force t l, canonical t -> called E force t l -> python_type_to_name E force t = Ok (label_text l).
  Proof.
    assert (Z : forall ts ns, Forall2 (basic E) ts ns -> mapM (short_name E) ts = Ok (map basic_text ns)).
    { intros ts ns F. induction F as [|t n ts ns B F IH]; [reflexivity|]. cbn [mapM map]. rewrite (basic_short _ _ B). cbn [bind]. rewrite IH. reflexivity. }
    intros force t l C H. destruct H as [t n B G|k v a b Qf B1 B2|t n Qf B|t n Qf B|ts ns Qf B|o ts t n Qf Q B|o ts ns Qf Q B]; try subst force.
    - pose proof (basic_short _ _ B) as S. unfold python_type_to_name. destruct (get_auxiliary_format t) as [x|] eqn:A.
      + destruct t as [| | | | | | | |w md| | |]; try discriminate A. cbn [short_name] in S. rewrite A in S. exact S.
      + destruct t as [k|b|u|u|k u|ts|o ts|ls|u md|c|s|]; try exact S; try (inversion B; fail).
        * inversion B as [t x X| | | | |]; subst; exfalso; destruct X as (? & ? & _ & X); discriminate X.
        * inversion B as [t x X| | | | |]; subst; exfalso; destruct X as (? & ? & _ & X); discriminate X.
        * inversion B as [t x X| | | | |]; subst; exfalso; destruct X as (? & ? & _ & X); discriminate X.
        * destruct force; [exfalso; apply G; [reflexivity | exact Logic.I]|]. exact S.
        * inversion B as [t x X| | | | |]; subst; exfalso; destruct X as (? & ? & _ & X); discriminate X.
        * cbn [short_name] in S. rewrite A in S. exact S.
    - cbn. rewrite (basic_short _ _ B1). cbn [bind]. rewrite (basic_short _ _ B2). reflexivity.
    - cbn. rewrite (basic_short _ _ B). reflexivity.
    - cbn. rewrite (basic_short _ _ B). reflexivity.
    - cbn. rewrite (Z _ _ B). reflexivity.
    - assert (N : t <> none_type). { intros ->. inversion C as [| | | | | |? ? _ Nd _| | | | |]; subst. destruct Q as [->| ->]; inversion Nd as [|? ? Y _]; apply Y; left; reflexivity. }
      assert (O : is_type_optional_strict (TUnion o ts) = true) by (destruct Q as [->| ->]; cbn; rewrite ?orb_true_r; reflexivity).
      assert (Un : unwrap_optional (TUnion o ts) = Ok t).
      { apply (proj2 (unwrap_optional_spec _ t C)). apply (dn_union o ts [t] t); [|constructor]. destruct Q as [->| ->]; [apply wo_keep; [exact N|]; apply wo_none; constructor | apply wo_none, wo_keep; [exact N | constructor]]. }
      change (python_type_to_name E true (TUnion o ts)) with (if is_type_optional_strict (TUnion o ts) then do u <- unwrap_optional (TUnion o ts); do a <- short_name E u; Ok (prefixed "Optional__" [a]) else do xs <- mapM (short_name E) ts; Ok (prefixed "Union__" xs)).
      rewrite O, Un. cbn [bind]. rewrite (basic_short _ _ B). reflexivity.
    - assert (O : is_type_optional_strict (TUnion o ts) = false).
      { unfold is_type_optional_strict. cbn [unwrap_annotated]. destruct (Nat.eqb (length ts) 2) eqn:L; [|reflexivity]. cbn [andb]. apply Nat.eqb_eq in L. destruct (existsb (typ_eqb (TScalar KNone)) ts) eqn:X; [|reflexivity].
        exfalso. apply existsb_exists in X. destruct X as (y & I & X). apply typ_eqb_eq in X. subst y. exact (Q L I). }
      change (python_type_to_name E true (TUnion o ts)) with (if is_type_optional_strict (TUnion o ts) then do u <- unwrap_optional (TUnion o ts); do a <- short_name E u; Ok (prefixed "Optional__" [a]) else do xs <- mapM (short_name E) ts; Ok (prefixed "Union__" xs)).
      rewrite O, (Z _ _ B). reflexivity.
  Qed.

  Lemma label_inj : forall l l', Forall isbasic (snd (flat l)) -> Forall isbasic (snd (flat l')) -> label_text l = label_text l' -> l = l'.
  Proof.
    assert (J : forall ns ms, Forall isbasic ns -> Forall isbasic ms -> map basic_text ns = map basic_text ms -> ns = ms).
    { induction ns as [|n ns IH]; intros [|m ms] F F' Q; try discriminate Q; [reflexivity|]. inversion F as [|? ? (t & B) Fn]; inversion F' as [|? ? (u & B') Fm]; subst. cbn [map] in Q. injection Q as Q1 Q2.
      f_equal; [exact (basic_inj _ _ _ _ B B' Q1) | auto]. }
    assert (Cl : forall ns, Forall isbasic ns -> Forall clear (map basic_text ns)).
    { intros ns F. induction F as [|n ns (t & B) F IH]; constructor; [exact (basic_clear _ _ B) | exact IH]. }
    assert (Pc : forall l, (exists n, l = OfBasic n) \/ clear (str (fst (flat l)))).
    { intros []; [left; eauto | right; split; [discriminate | apply clear_b_ok; reflexivity] ..]. }
    intros l l' F F' Q. destruct (Pc l) as [(n & ->)|P1], (Pc l') as [(m & ->)|P2].
    - cbn [flat snd] in F, F'. inversion F as [|? ? (t & B) _]; inversion F' as [|? ? (u & B') _]; subst. f_equal. exact (basic_inj _ _ _ _ B B' Q).
    - exfalso. inversion F as [|? ? (t & B) _]; subst. destruct (basic_clear _ _ B) as (_ & S1 & _). destruct l' as [m| | | | | |]; [destruct P2 as (X & _); apply X; reflexivity|..]; exact (S1 _ _ Q).
    - exfalso. inversion F' as [|? ? (t & B) _]; subst. destruct (basic_clear _ _ B) as (_ & S1 & _). symmetry in Q. destruct l as [n| | | | | |]; [destruct P1 as (X & _); apply X; reflexivity|..]; exact (S1 _ _ Q).
    - assert (Q' : str (fst (flat l)) ++ str "__" ++ join (str "__") (map basic_text (snd (flat l))) = str (fst (flat l')) ++ str "__" ++ join (str "__") (map basic_text (snd (flat l')))).
      { destruct l; [destruct P1 as (X & _); exfalso; apply X; reflexivity|..]; (destruct l'; [destruct P2 as (X & _); exfalso; apply X; reflexivity|..]); exact Q. }
      apply clear_split in Q'; [|exact P1|exact P2|right; eexists; reflexivity|right; eexists; reflexivity]. destruct Q' as (Q1 & Q2). apply app_inv_head in Q2.
      apply join_seps_inj in Q2; [|apply Cl; exact F|apply Cl; exact F']. apply J in Q2; [|exact F|exact F'].
      destruct l, l'; cbn [flat fst snd] in *; try discriminate Q1; congruence.
  Qed.

  Lemma mapM_short : forall ts xs, mapM (short_name E) ts = Ok xs -> exists ns, Forall2 (basic E) ts ns.
  Proof.
    intros ts xs Q. apply (proj1 (mapM_ok _ _ _ _ _)) in Q. induction Q as [|t x ts xs H Q IH]; [eexists; constructor|]. destruct IH as (ns & F). destruct (short_basic _ _ H) as (n & B).
    exists (n :: ns). constructor; assumption.
  Qed.

  Lemma name_called : forall force t x, canonical t -> python_type_to_name E force t = Ok x -> exists l, called E force t l.
  Proof.
    intros force t x C Q.
    assert (Ba : short_name E t = Ok x -> (force = true -> ~ generic t) -> exists l, called E force t l).
    { intros S G. destruct (short_basic _ _ S) as (n & B). exists (OfBasic n). constructor; assumption. }
    destruct t as [k|b|u|u|k u|ts|o ts|ls|u md|c|s|]; try (apply Ba; [exact Q | intros _ X; exact X]; fail).
    - destruct force; [|discriminate Q]. cbn in Q. destruct (short_name E u) as [a|] eqn:A; [|discriminate Q]. destruct (short_basic _ _ A) as (n & B). eexists. apply cd_list; eauto.
    - destruct force; [|discriminate Q]. cbn in Q. destruct (short_name E u) as [a|] eqn:A; [|discriminate Q]. destruct (short_basic _ _ A) as (n & B). eexists. apply cd_set; eauto.
    - destruct force; [|discriminate Q]. cbn in Q. destruct (short_name E k) as [a|] eqn:A; [|discriminate Q]. cbn [bind] in Q. destruct (short_name E u) as [b|] eqn:A'; [|discriminate Q].
      destruct (short_basic _ _ A) as (n & B), (short_basic _ _ A') as (m & B'). eexists. apply cd_dict; eauto.
    - destruct force; [|apply Ba; [exact Q | discriminate]]. cbn in Q. destruct (mapM (short_name E) ts) as [xs|] eqn:A; [|discriminate Q]. destruct (mapM_short _ _ A) as (ns & F). eexists. apply cd_tuple; eauto.
    - destruct force; [|discriminate Q].
      change (python_type_to_name E true (TUnion o ts)) with (if is_type_optional_strict (TUnion o ts) then do u <- unwrap_optional (TUnion o ts); do a <- short_name E u; Ok (prefixed "Optional__" [a]) else do xs <- mapM (short_name E) ts; Ok (prefixed "Union__" xs)) in Q.
      destruct (is_type_optional_strict (TUnion o ts)) eqn:O.
      + unfold is_type_optional_strict in O. cbn [unwrap_annotated] in O. apply andb_true_iff in O. destruct O as (O1 & O2). apply Nat.eqb_eq in O1. apply existsb_exists in O2. destruct O2 as (y & I & X). apply typ_eqb_eq in X. subst y.
        destruct (unwrap_optional (TUnion o ts)) as [u|] eqn:U; [|discriminate Q]. cbn [bind] in Q. destruct (short_name E u) as [a|] eqn:A; [|discriminate Q]. destruct (short_basic _ _ A) as (n & B).
        pose proof C as C0. inversion C as [| | | | | |? ? _ Nd _| | | | |]; subst. apply (proj1 (unwrap_optional_spec _ u C0)) in U. inversion U as [? ? us ? WO UO|]; subst.
        destruct ts as [|t1 [|t2 [|? ?]]]; try discriminate O1. inversion Nd as [|? ? N1 _]; subst.
        exists (OfOptional n). apply (cd_optional _ _ _ _ u); [reflexivity| |exact B].
        destruct I as [->|[->|[]]].
        * right. inversion WO as [|? ? W1|? ? ? Z1 W1]; subst; [|exfalso; apply Z1; reflexivity]. inversion W1 as [|? ? W2|? ? ? Z2 W2]; subst; [exfalso; apply N1; left; reflexivity|]. inversion W2; subst. inversion UO; subst. reflexivity.
        * left. inversion WO as [|? ? W1|? ? ? Z1 W1]; subst; [exfalso; apply N1; left; reflexivity|]. inversion W1 as [|? ? W2|? ? ? Z2 W2]; subst; [|exfalso; apply Z2; reflexivity]. inversion W2; subst. inversion UO; subst. reflexivity.
      + destruct (mapM (short_name E) ts) as [xs|] eqn:A; [|discriminate Q]. destruct (mapM_short _ _ A) as (ns & F). eexists. apply cd_union; [reflexivity| |exact F].
        intros L I. unfold is_type_optional_strict in O. cbn [unwrap_annotated] in O. rewrite L in O. cbn [Nat.eqb andb] in O. assert (existsb (typ_eqb (TScalar KNone)) ts = true) as X; [|congruence].
        apply existsb_exists. exists (TScalar KNone). split; [exact I | reflexivity].
  Qed.

  Theorem name_alike : forall force t u x y, canonical t -> canonical u -> python_type_to_name E force t = Ok x -> python_type_to_name E force u = Ok y ->
    (x = y <-> exists l, called E force t l /\ called E force u l).
  Proof.
    intros force t u x y Ct Cu Qt Qu. destruct (name_called _ _ _ Ct Qt) as (l & L), (name_called _ _ _ Cu Qu) as (m & M).
    pose proof (called_name _ _ _ Ct L) as X. pose proof (called_name _ _ _ Cu M) as Y. split.
    - intros ->. exists l. split; [exact L|]. assert (l = m) as ->; [|exact M]. apply label_inj; [exact (called_basic _ _ _ L) | exact (called_basic _ _ _ M) | congruence].
    - intros (l' & L' & M'). pose proof (called_name _ _ _ Ct L') as X'. pose proof (called_name _ _ _ Cu M') as Y'. congruence.
  Qed.

  Theorem name_given : forall force t, canonical t -> ((exists x, python_type_to_name E force t = Ok x) <-> exists l, called E force t l).
  Proof.
    intros force t C. split; [intros (x & Q); exact (name_called _ _ _ C Q) | intros (l & L); eexists; exact (called_name _ _ _ C L)].
  Qed.
End Short.

Lemma name_fails : forall E ident force t e, canonical t -> legible E ident t -> python_type_to_name E force t = Err e -> e = EType.
Proof.
  intros E ident force t e C L Q.
  assert (Si : forall t e, legible E ident t -> simple_name E t = Err e -> e = EType).
  { intros u d Lu X. destruct Lu; cbn [simple_name] in X; try congruence; [destruct ts; congruence|]. unfold class_name in X. rewrite H in X. discriminate X. }
  assert (Sh : forall t e, legible E ident t -> short_name E t = Err e -> e = EType).
  { induction t0 as [k|b|u IH|u IH|k u IHk IH|ts IH|o ts IH|ls|u md IH|c|s|] using typ_induct; intros d Lu X; try (apply (Si _ _ Lu); exact X; fail).
    cbn [short_name] in X. destruct (get_auxiliary_format (TAnnot u md)); [discriminate X|]. inversion Lu; subst. eauto. }
  assert (Ms : forall ts d, Forall (legible E ident) ts -> mapM (short_name E) ts = Err d -> d = EType).
  { intros ts d F. induction F as [|u ts Lu F IH]; intros X; [discriminate X|]. cbn [mapM] in X. destruct (short_name E u) as [a|e'] eqn:A; cbn [bind] in X; [|injection X as <-; exact (Sh _ _ Lu A)].
    destruct (mapM (short_name E) ts) as [xs|e'']; cbn [bind] in X; [discriminate X|]. injection X as <-. auto. }
  destruct t as [k|b|u|u|k u|ts|o ts|ls|u md|c|s|]; try (apply (Si _ _ L); exact Q; fail).
  - destruct force; [|apply (Si _ _ L); exact Q]. cbn in Q. destruct (short_name E u) as [a|e'] eqn:A; cbn [bind] in Q; [discriminate Q|]. injection Q as <-. apply (Sh u); [inversion L; assumption | exact A].
  - destruct force; [|apply (Si _ _ L); exact Q]. cbn in Q. destruct (short_name E u) as [a|e'] eqn:A; cbn [bind] in Q; [discriminate Q|]. injection Q as <-. apply (Sh u); [inversion L; assumption | exact A].
  - destruct force; [|apply (Si _ _ L); exact Q]. cbn in Q. destruct (short_name E k) as [a|e'] eqn:A; cbn [bind] in Q; [|injection Q as <-; apply (Sh k); [inversion L; assumption | exact A]].
    destruct (short_name E u) as [a'|e'] eqn:A'; cbn [bind] in Q; [discriminate Q|]. injection Q as <-. apply (Sh u); [inversion L; assumption | exact A'].
  - destruct force; [|apply (Si _ _ L); exact Q]. cbn in Q. destruct (mapM (short_name E) ts) as [xs|e'] eqn:A; cbn [bind] in Q; [discriminate Q|]. injection Q as <-. apply (Ms ts); [inversion L; assumption | exact A].
  - destruct force; [|apply (Si _ _ L); exact Q]. inversion L as [| | | | | |? ? Lts| | | |]; subst.
    change (python_type_to_name E true (TUnion o ts)) with (if is_type_optional_strict (TUnion o ts) then do u <- unwrap_optional (TUnion o ts); do a <- short_name E u; Ok (prefixed "Optional__" [a]) else do xs <- mapM (short_name E) ts; Ok (prefixed "Union__" xs)) in Q.
    destruct (is_type_optional_strict (TUnion o ts)).
    + destruct (unwrap_optional (TUnion o ts)) as [u|e'] eqn:U; cbn [bind] in Q; [|injection Q as <-; exact (unwrap_optional_fails _ _ U)].
      destruct (short_name E u) as [a|e'] eqn:A; cbn [bind] in Q; [discriminate Q|]. injection Q as <-. apply (proj1 (unwrap_optional_spec _ u C)) in U. inversion U as [? ? us ? WO UO|]; subst.
      inversion UO; subst; [|cbn in A; congruence]. apply (Sh u); [|exact A]. rewrite Forall_forall in Lts. apply Lts. clear - WO. remember [u] as us eqn:Qu. revert Qu.
      induction WO as [|ts us WO IH|t ts us N WO IH]; intros Qu; [discriminate Qu | right; auto | left; congruence].
    + destruct (mapM (short_name E) ts) as [xs|e'] eqn:A; cbn [bind] in Q; [discriminate Q|]. injection Q as <-. exact (Ms _ _ Lts A).
  - change (python_type_to_name E force (TAnnot u md)) with (match get_auxiliary_format (TAnnot u md) with Some x => Ok x | None => short_name E u end) in Q. destruct (get_auxiliary_format (TAnnot u md)); [discriminate Q|]. apply (Sh u); [inversion L; assumption | exact Q].
Qed.
