(** Proofs about documentation strings. *)
From Coq Require Import String List NArith Bool Lia PeanoNat.
From Verif Require Import Base Lists PyStr PyStrProofs Docstring SpecDocstring.
Import ListNotations.
Open Scope list_scope.
Open Scope nat_scope.

(** ** Words *)

Lemma flush_word : forall w, w <> [] -> flush w = [w].
Proof. intros [|c w] H; [congruence|reflexivity]. Qed.

Lemma words_from_nospace : forall w cur, Forall (fun c => space c = false) w ->
  words_from cur w = flush (cur ++ w).
Proof.
  induction w as [|c w IH]; intros cur H; cbn [words_from].
  - now rewrite app_nil_r.
  - inversion H; subst. rewrite H2, IH by assumption. now rewrite <- app_assoc.
Qed.

Lemma words_from_space : forall w cur c r, Forall (fun c => space c = false) w -> space c = true ->
  words_from cur (w ++ c :: r) = flush (cur ++ w) ++ words r.
Proof.
  induction w as [|d w IH]; intros cur c r H Hc; cbn [words_from app].
  - rewrite Hc, app_nil_r. reflexivity.
  - inversion H; subst. rewrite H2, IH by assumption. now rewrite <- app_assoc.
Qed.

Lemma words_blanks : forall s r, blanks s -> words (s ++ r) = words r.
Proof.
  induction s as [|c s IH]; intros r H; [reflexivity|]. inversion H; subst.
  unfold words. cbn [app words_from]. rewrite H2. cbn. apply IH. assumption.
Qed.

Lemma words_blank : forall s, blanks s -> words s = [].
Proof. intros. rewrite <- (app_nil_r s). now rewrite words_blanks. Qed.

(** text before a space does not interfere with text after it *)
Lemma words_from_app : forall a cur c r, space c = true ->
  words_from cur (a ++ c :: r) = words_from cur a ++ words r.
Proof.
  induction a as [|d a IH]; intros cur c r Hc; cbn [app words_from].
  - rewrite Hc. reflexivity.
  - destruct (space d) eqn:D; rewrite IH by assumption; [now rewrite app_assoc|reflexivity].
Qed.

Lemma words_app : forall a c r, space c = true -> words (a ++ c :: r) = words a ++ words r.
Proof. intros. now apply words_from_app. Qed.

Lemma spelled_words : forall ws s, spelled ws s -> words s = ws.
Proof.
  intros ws s H. induction H as [s H|pre w ws rest Hp [Hw1 Hw2] Hr H IH].
  - now apply words_blank.
  - rewrite words_blanks by assumption. destruct Hr as [->|[c [r [-> Hc]]]].
    + rewrite app_nil_r. unfold words. rewrite words_from_nospace by assumption. cbn [app].
      rewrite flush_word by assumption. rewrite <- IH. reflexivity.
    + unfold words. rewrite words_from_space by assumption. cbn [app].
      rewrite flush_word by assumption. cbn [app]. f_equal. rewrite <- IH.
      change (c :: r) with ([c] ++ r). rewrite words_blanks; [reflexivity|].
      constructor; [assumption|constructor].
Qed.

Lemma words_spelled_from : forall s cur, Forall (fun c => space c = false) cur ->
  spelled (words_from cur s) (cur ++ s).
Proof.
  induction s as [|c s IH]; intros cur H; cbn [words_from].
  - destruct cur as [|d cur]; cbn [flush].
    + apply spelled_nil. constructor.
    + apply (spelled_cons [] (d :: cur) [] []); [constructor|split; [discriminate|assumption]|now left|].
      apply spelled_nil. constructor.
  - destruct (space c) eqn:C.
    + assert (B : spelled (words_from [] s) (c :: s)).
      { specialize (IH [] (Forall_nil _)). cbn [app] in IH.
        inversion IH as [s' Hs E1 E2|pre w ws rest Hp Hw Hr Hs E1 E2]; subst.
        - apply spelled_nil. constructor; assumption.
        - change (c :: pre ++ w ++ rest) with ((c :: pre) ++ w ++ rest).
          apply spelled_cons; try assumption. constructor; assumption. }
      destruct cur as [|d cur]; cbn [flush app]; [exact B|].
      apply (spelled_cons [] (d :: cur) _ (c :: s)); [constructor|split; [discriminate|assumption]| |exact B].
      right. eauto.
    + specialize (IH (cur ++ [c])). rewrite <- app_assoc in IH. apply IH.
      apply Forall_app. split; [assumption|now repeat constructor].
Qed.

Lemma words_spelled : forall s, spelled (words s) s.
Proof. intros. apply (words_spelled_from s []). constructor. Qed.

Lemma spelled_iff : forall ws s, spelled ws s <-> words s = ws.
Proof. split; [apply spelled_words|intros <-; apply words_spelled]. Qed.

Lemma words_are_words : forall s cur, Forall (fun c => space c = false) cur ->
  Forall word (words_from cur s).
Proof.
  induction s as [|c s IH]; intros cur H; cbn [words_from].
  - destruct cur; constructor; [split; [discriminate|assumption]|constructor].
  - destruct (space c) eqn:C.
    + apply Forall_app. split; [|apply IH; constructor].
      destruct cur; constructor; [split; [discriminate|assumption]|constructor].
    + apply IH. apply Forall_app. split; [assumption|now repeat constructor].
Qed.

Lemma words_word : forall s, Forall word (words s).
Proof. intros. apply words_are_words. constructor. Qed.

Lemma space_32 : space 32 = true.
Proof. reflexivity. Qed.
Lemma space_NL : space NL = true.
Proof. reflexivity. Qed.
Lemma space_COLON : space COLON = false.
Proof. reflexivity. Qed.

Lemma words_spaced : forall ws, Forall word ws -> words (spaced ws) = ws.
Proof.
  unfold spaced. induction ws as [|w ws IH]; intros H; [reflexivity|]. inversion H as [|? ? [W1 W2] Hws]; subst.
  cbn [join]. destruct ws as [|w' ws].
  - unfold words. rewrite words_from_nospace by assumption. cbn [app]. now apply flush_word.
  - cbn [app]. unfold words. rewrite words_from_space by (assumption || reflexivity). cbn [app].
    rewrite flush_word by assumption. cbn [app]. f_equal. now apply IH.
Qed.

(** ** Stripping *)

Lemma lstrip_split : forall f s, exists p, s = p ++ lstrip f s /\ Forall (fun c => f c = true) p.
Proof.
  induction s as [|c s [p [E H]]]; [exists []; split; [reflexivity|constructor]|].
  cbn [lstrip]. destruct (f c) eqn:C.
  - exists (c :: p). split; [cbn; congruence|now constructor].
  - exists []. split; [reflexivity|constructor].
Qed.

Lemma lstrip_head : forall f s c r, lstrip f s = c :: r -> f c = false.
Proof.
  induction s as [|d s IH]; intros c r H; [discriminate|]. cbn [lstrip] in H.
  destruct (f d) eqn:D; [eauto|]. congruence.
Qed.

Lemma lstrip_all : forall f p r, Forall (fun c => f c = true) p -> lstrip f (p ++ r) = lstrip f r.
Proof. induction p as [|c p IH]; intros r H; [reflexivity|]. inversion H; subst. cbn. rewrite H2. auto. Qed.

Lemma lstrip_stop : forall f c r, f c = false -> lstrip f (c :: r) = c :: r.
Proof. intros. cbn. now rewrite H. Qed.

Lemma rstrip_split : forall f s, exists p, s = rstrip f s ++ p /\ Forall (fun c => f c = true) p.
Proof.
  intros. unfold rstrip. destruct (lstrip_split f (rev s)) as [p [E H]]. exists (rev p). split.
  - rewrite <- (rev_involutive s) at 1. rewrite E at 1. now rewrite rev_app_distr.
  - now apply Forall_rev.
Qed.

Lemma rstrip_stop : forall f r c, f c = false -> rstrip f (r ++ [c]) = r ++ [c].
Proof.
  intros. unfold rstrip. rewrite rev_app_distr. cbn [rev app]. rewrite lstrip_stop by assumption.
  cbn [rev]. now rewrite rev_involutive.
Qed.

Lemma rstrip_all : forall f r p, Forall (fun c => f c = true) p -> rstrip f (r ++ p) = rstrip f r.
Proof.
  intros. unfold rstrip. rewrite rev_app_distr, lstrip_all; [reflexivity|now apply Forall_rev].
Qed.

Lemma trim_split : forall s, exists p q, s = p ++ trim s ++ q /\ blanks p /\ blanks q.
Proof.
  intros. unfold trim, strip. destruct (lstrip_split space s) as [p [E Hp]].
  destruct (rstrip_split space (lstrip space s)) as [q [F Hq]].
  exists p, q. split; [|split; assumption]. rewrite <- F. exact E.
Qed.

Lemma trim_trimmed : forall s, trim s = [] \/ trimmed (trim s).
Proof.
  intros. unfold trim, strip.
  destruct (rstrip_split space (lstrip space s)) as [q [F Hq]].
  set (m := lstrip space s) in *.
  destruct (rstrip space m) as [|c r] eqn:R; [now left|]. right. split.
  - exists c, r. split; [reflexivity|]. cbn [app] in F. eapply lstrip_head. unfold m in F. exact F.
  - unfold rstrip in R. destruct (lstrip space (rev m)) as [|d l] eqn:L; [discriminate|].
    exists (rev l), d. split; [|eapply lstrip_head; exact L]. rewrite <- R. reflexivity.
Qed.

Lemma trim_trimmed_id : forall p s q, blanks p -> trimmed s -> blanks q -> trim (p ++ s ++ q) = s.
Proof.
  intros p s q Hp [[c [r [E Hc]]] [r' [c' [E' Hc']]]] Hq. unfold trim, strip.
  rewrite lstrip_all by assumption. rewrite E at 1. cbn [app]. rewrite lstrip_stop by assumption.
  change (c :: r ++ q) with ((c :: r) ++ q). rewrite <- E. rewrite rstrip_all by assumption.
  rewrite E'. now apply rstrip_stop.
Qed.

Lemma words_trailing : forall s q cur, blanks q -> words_from cur (s ++ q) = words_from cur s.
Proof.
  intros s q cur H. destruct q as [|c q]; [now rewrite app_nil_r|]. inversion H; subst.
  rewrite words_from_app by assumption. rewrite (words_blank q) by assumption. apply app_nil_r.
Qed.

Lemma words_trim : forall s, words (trim s) = words s.
Proof.
  intros. destruct (trim_split s) as [p [q [E [Hp Hq]]]]. rewrite E at 2.
  rewrite words_blanks by assumption. symmetry. now apply words_trailing.
Qed.

(** the last character is not white space *)
Definition good_end (s : pystr) : Prop := s = [] \/ exists r c, s = r ++ [c] /\ space c = false.

Lemma good_end_tail : forall c s, good_end (c :: s) -> good_end s /\ (space c = true -> s <> []).
Proof.
  intros c s [H|[r [d [E Hd]]]]; [discriminate|]. destruct r as [|x r]; cbn in E; injection E as -> ->.
  - split; [now left|]. congruence.
  - split; [right; eauto|]. intros _. now destruct r.
Qed.

Lemma words_nonempty : forall s cur, good_end s -> s <> [] -> words_from cur s <> [].
Proof.
  intros s cur [->|[r [c [-> Hc]]]] N; [congruence|]. revert cur.
  clear N. induction r as [|d r IH]; intros cur; cbn [app words_from].
  - rewrite Hc. destruct cur; discriminate.
  - destruct (space d).
    + intros E. apply app_eq_nil in E. destruct E as [_ E]. exact (IH _ E).
    + apply IH.
Qed.

Lemma collapse_words : forall s, good_end s ->
  (forall cur, cur <> [] -> cur ++ collapse false s = spaced (words_from cur s)) /\
  collapse true s = spaced (words s).
Proof.
  induction s as [|c s IH]; intros G.
  - split; [|reflexivity]. intros cur N. cbn. rewrite flush_word by assumption. cbn. apply app_nil_r.
  - apply good_end_tail in G. destruct G as [G N]. destruct (IH G) as [I1 I2].
    unfold words. cbn [collapse words_from]. destruct (space c) eqn:C.
    + split; [|exact I2]. intros cur Nc. rewrite flush_word by assumption.
      rewrite I2. cbn [app]. unfold spaced at 2. cbn [join]. change (words_from [] s) with (words s).
      destruct (words s) eqn:W; [|reflexivity].
      exfalso. exact (words_nonempty s [] G (N eq_refl) W).
    + split.
      * intros cur Nc. rewrite <- I1 by (now destruct cur). now rewrite <- app_assoc.
      * cbn [app]. rewrite <- I1 by discriminate. reflexivity.
Qed.

Lemma collapse_trim : forall s, collapse false (trim s) = spaced (words s).
Proof.
  intros. rewrite <- (words_trim s). destruct (trim_trimmed s) as [->|[[c [r [E Hc]]] L]]; [reflexivity|].
  assert (G : good_end (trim s)) by (right; exact L).
  rewrite E in G |- *. apply good_end_tail in G. destruct G as [G _].
  cbn [collapse]. rewrite Hc. unfold words. cbn [words_from]. rewrite Hc. cbn [app].
  rewrite <- (proj1 (collapse_words r G) [c]) by discriminate. reflexivity.
Qed.

Lemma unbreak_space : forall c, space (if (c =? NL)%N then 32%N else c) = space c.
Proof. intros. destruct (N.eqb_spec c NL); [subst; reflexivity|reflexivity]. Qed.

Lemma unbreak_words : forall s cur, ~ In NL cur -> words_from cur (unbreak s) = words_from cur s.
Proof.
  induction s as [|c s IH]; intros cur N; [reflexivity|]. unfold unbreak. cbn [map words_from].
  rewrite unbreak_space. fold (unbreak s). destruct (space c) eqn:C.
  - f_equal. apply IH. intros [].
  - destruct (N.eqb_spec c NL) as [->|E]; [discriminate|]. apply IH.
    rewrite in_app_iff. intros [H|[H|[]]]; [auto|congruence].
Qed.

Lemma unbreak_no_NL : forall s, ~ In NL (unbreak s).
Proof.
  intros s H. unfold unbreak in H. apply in_map_iff in H. destruct H as [c [E _]].
  destruct (N.eqb_spec c NL) as [X|X]; [discriminate|contradiction].
Qed.

Lemma unbreak_id : forall s, ~ In NL s -> unbreak s = s.
Proof.
  induction s as [|c s IH]; intros H; [reflexivity|]. unfold unbreak. cbn [map]. fold (unbreak s).
  rewrite IH by (intros X; apply H; now right).
  destruct (N.eqb_spec c NL) as [->|N]; [exfalso; apply H; now left|reflexivity].
Qed.

(** ** Paragraphs *)

Lemma paragraph_split : forall s a b, paragraph s = (a, b) ->
  s = a ++ match b with Some r => NL :: NL :: r | None => [] end.
Proof.
  induction s as [|c s IH]; intros a b H; cbn in H; [injection H as <- <-; reflexivity|].
  destruct s as [|d s]; [injection H as <- <-; reflexivity|].
  destruct ((c =? NL)%N && (d =? NL)%N) eqn:E.
  - injection H as <- <-. apply andb_true_iff in E. destruct E as [E1 E2].
    apply N.eqb_eq in E1, E2. now subst.
  - fold (paragraph (d :: s)) in H. destruct (paragraph (d :: s)) as [a' b'] eqn:P.
    injection H as <- <-. cbn [app]. now rewrite (IH _ _ eq_refl) at 1.
Qed.

Lemma paragraph_line : forall s, ~ In NL s -> paragraph s = (s, None).
Proof.
  induction s as [|c s IH]; intros H; [reflexivity|]. destruct s as [|d s]; [reflexivity|].
  change (paragraph (c :: d :: s)) with
    (if (c =? NL)%N && (d =? NL)%N then ([], Some s)
     else let (a, b) := paragraph (d :: s) in (c :: a, b)).
  destruct (N.eqb_spec c NL) as [->|N]; [exfalso; apply H; now left|]. cbn [andb].
  rewrite IH by (intros X; apply H; now right). reflexivity.
Qed.

Lemma paragraph_break : forall s r, ~ In NL s -> paragraph (s ++ NL :: NL :: r) = (s, Some r).
Proof.
  induction s as [|c s IH]; intros r H; [reflexivity|]. specialize (IH r (fun X => H (or_intror X))).
  cbn [app]. destruct s as [|d s].
  - cbn [app]. change (paragraph (c :: NL :: NL :: r)) with
      (if (c =? NL)%N && (NL =? NL)%N then ([], Some (NL :: r))
       else let (a, b) := paragraph (NL :: NL :: r) in (c :: a, b)).
    destruct (N.eqb_spec c NL) as [->|N]; [exfalso; apply H; now left|]. reflexivity.
  - cbn [app] in IH |- *.
    change (paragraph (c :: d :: s ++ NL :: NL :: r)) with
      (if (c =? NL)%N && (d =? NL)%N then ([], Some (s ++ NL :: NL :: r))
       else let (a, b) := paragraph (d :: s ++ NL :: NL :: r) in (c :: a, b)).
    destruct (N.eqb_spec c NL) as [->|N]; [exfalso; apply H; now left|]. cbn [andb].
    now rewrite IH.
Qed.

(** ** Cutting into fields *)

Definition bol_ok (bol : bool) (s : pystr) : Prop := bol = true -> forall r, s <> COLON :: r.

Lemma no_inner_tail : forall c s, no_inner_marker (c :: s) ->
  no_inner_marker s /\ bol_ok (c =? NL)%N s.
Proof.
  intros c s H. split.
  - intros a b ->. apply (H (c :: a) b). reflexivity.
  - intros E r ->. apply N.eqb_eq in E. subst. apply (H [] r). reflexivity.
Qed.

Lemma no_inner_nil : no_inner_marker [].
Proof. intros [|x a] b E; discriminate. Qed.

Lemma pieces_quiet : forall s bol, bol_ok bol s -> no_inner_marker s -> pieces bol s = (s, []).
Proof.
  induction s as [|c s IH]; intros bol B H; [reflexivity|]. cbn [pieces].
  apply no_inner_tail in H. destruct H as [H B']. rewrite IH by assumption.
  destruct (bol && (c =? COLON)%N) eqn:E; [|reflexivity]. exfalso.
  apply andb_true_iff in E. destruct E as [-> E]. apply N.eqb_eq in E. subst. exact (B eq_refl s eq_refl).
Qed.

(** whether the position after [s] is the beginning of a line *)
Fixpoint line_start (bol : bool) (s : pystr) : bool :=
  match s with [] => bol | c :: r => line_start (c =? NL)%N r end.

Lemma line_start_end : forall s bol, line_start bol (s ++ [NL]) = true.
Proof. induction s as [|c s IH]; intros bol; [reflexivity|]. cbn. apply IH. Qed.

Lemma line_start_true : forall s bol, line_start bol s = true -> s = [] /\ bol = true \/ ends_line s.
Proof.
  induction s as [|c s IH]; intros bol H; [left; split; [reflexivity|exact H]|]. right.
  cbn in H. destruct (IH _ H) as [[-> E]|[r ->]].
  - apply N.eqb_eq in E. subst. exists []. reflexivity.
  - exists (c :: r). reflexivity.
Qed.

Lemma pieces_app : forall s bol f fs r,
  bol_ok bol s -> no_inner_marker s -> line_start bol s = true ->
  pieces true (COLON :: r) = ([], f :: fs) -> pieces bol (s ++ COLON :: r) = (s, f :: fs).
Proof.
  induction s as [|c s IH]; intros bol f fs r B H L P.
  - cbn in L. subst. exact P.
  - apply no_inner_tail in H. destruct H as [H B']. cbn [app].
    change (pieces bol (c :: s ++ COLON :: r)) with
      (let (p, ps) := pieces (c =? NL)%N (s ++ COLON :: r) in
       if bol && (c =? COLON)%N then ([], (c :: p) :: ps) else (c :: p, ps)).
    rewrite (IH _ f fs r B' H L P).
    destruct (bol && (c =? COLON)%N) eqn:E; [|reflexivity]. exfalso.
    apply andb_true_iff in E. destruct E as [-> E]. apply N.eqb_eq in E. subst. exact (B eq_refl s eq_refl).
Qed.

Lemma pieces_fields : forall fs, fs <> [] ->
  Forall (fun f => exists r, f = COLON :: r /\ no_inner_marker f) fs ->
  (forall pre f f' post, fs = pre ++ f :: f' :: post -> ends_line f) ->
  pieces true (concat fs) = ([], fs).
Proof.
  induction fs as [|f fs IH]; intros NE H L; [congruence|].
  inversion H as [|? ? [r [E Hr]] Hf]; subst. cbn [concat app].
  apply no_inner_tail in Hr. destruct Hr as [Hr B].
  change (pieces true (COLON :: r ++ concat fs)) with
    (let (p, ps) := pieces (COLON =? NL)%N (r ++ concat fs) in ([] : list N, (COLON :: p) :: ps)).
  destruct fs as [|f' fs].
  - cbn [concat]. rewrite app_nil_r, pieces_quiet by assumption. reflexivity.
  - assert (I : pieces true (concat (f' :: fs)) = ([], f' :: fs)).
    { apply IH; [discriminate|assumption|].
      intros pre x y post E. apply (L ((COLON :: r) :: pre) x y post). now rewrite E. }
    inversion Hf as [|? ? [r' [-> Hr']] Hf']; subst. cbn [concat app] in I |- *.
    rewrite (pieces_app r (COLON =? NL)%N (COLON :: r') fs); [reflexivity|assumption|assumption| |assumption].
    destruct (L [] (COLON :: r) (COLON :: r') fs eq_refl) as [q Eq].
    destruct q as [|x q]; cbn in Eq; [discriminate|]. injection Eq as _ ->. apply line_start_end.
Qed.

Lemma layout_pieces : forall text desc fs, layout text desc fs -> pieces true text = (desc, fs).
Proof.
  intros text desc fs [-> [D1 D2] F L1 L2]. destruct fs as [|f fs].
  - cbn [concat]. rewrite app_nil_r. apply pieces_quiet; [intros _; exact D1|exact D2].
  - inversion F as [|? ? [r [-> _]] _]; subst. cbn [concat app].
    apply pieces_app; [intros _; exact D1|exact D2| |].
    + destruct L1 as [->|[q ->]]; [discriminate|reflexivity|apply line_start_end].
    + apply (pieces_fields ((COLON :: r) :: fs)); [discriminate|assumption|assumption].
Qed.

Lemma pieces_sound : forall s bol p ps, pieces bol s = (p, ps) ->
  s = p ++ concat ps /\ bol_ok bol p /\ no_inner_marker p /\
  Forall (fun f => exists r, f = COLON :: r /\ no_inner_marker f) ps /\
  (ps <> [] -> line_start bol p = true) /\
  (forall pre f f' post, ps = pre ++ f :: f' :: post -> ends_line f).
Proof.
  induction s as [|c s IH]; intros bol p ps H.
  - cbn in H. injection H as <- <-. repeat apply conj; try (intros _ r; discriminate); try constructor; try congruence.
    + exact no_inner_nil.
    + intros [|x pre] f f' post E; discriminate.
  - cbn [pieces] in H. destruct (pieces (c =? NL)%N s) as [p' ps'] eqn:P.
    destruct (IH _ _ _ P) as [E [B [Q [F [L1 L2]]]]].
    assert (NI : no_inner_marker (c :: p')).
    { intros [|x a] b X; cbn in X; injection X as -> ->.
      - apply (B eq_refl b). reflexivity.
      - apply (Q a b). reflexivity. }
    destruct (bol && (c =? COLON)%N) eqn:C.
    + injection H as <- <-. apply andb_true_iff in C. destruct C as [-> C]. apply N.eqb_eq in C. subst c.
      repeat apply conj.
      * cbn. congruence.
      * intros _ r. discriminate.
      * exact no_inner_nil.
      * constructor; [|exact F]. exists p'. split; [reflexivity|exact NI].
      * reflexivity.
      * intros pre f f' post X. destruct pre as [|y pre]; cbn in X.
        -- injection X as <- ->. specialize (L1 ltac:(discriminate)).
           apply line_start_true in L1. destruct L1 as [[_ X]|[r ->]]; [discriminate|].
           exists (COLON :: r). reflexivity.
        -- injection X as <- X. exact (L2 _ _ _ _ X).
    + injection H as <- <-. repeat apply conj.
      * cbn. congruence.
      * intros -> r X. injection X as -> ->. now rewrite N.eqb_refl in C.
      * exact NI.
      * exact F.
      * exact L1.
      * exact L2.
Qed.

Lemma pieces_layout : forall text, layout text (fst (pieces true text)) (snd (pieces true text)).
Proof.
  intros. destruct (pieces true text) as [p ps] eqn:P. destruct (pieces_sound _ _ _ _ P) as [E [B [Q [F [L1 L2]]]]].
  cbn. constructor; try assumption.
  - split; [exact (B eq_refl)|exact Q].
  - intros N. destruct (line_start_true _ _ (L1 N)) as [[-> _]|X]; auto.
Qed.

(** ** Fields *)

Definition view (f : pystr) : option (list pystr * list pystr) :=
  match partition COLON (lstrip (N.eqb COLON) f) with
  | (_, None) => None
  | (a, Some body) => Some (words a, words body)
  end.

Definition apply_field (d : docstring) (args : list pystr) (desc : pystr) : docstring :=
  match args with
  | [kw; name] =>
      if pystr_eqb kw (str "param")
      then Docstring (short_description d) (long_description d)
                 (dict_set (params d) name (name, desc)) (returns d) (raises d) (see_also d)
      else if pystr_eqb kw (str "raise") || pystr_eqb kw (str "raises")
      then Docstring (short_description d) (long_description d) (params d) (returns d)
                 (dict_set (raises d) name (name, desc)) (see_also d)
      else d
  | [kw] =>
      if pystr_eqb kw (str "return") || pystr_eqb kw (str "returns")
      then Docstring (short_description d) (long_description d) (params d) (Some desc)
                 (raises d) (see_also d)
      else if pystr_eqb kw (str "see") || pystr_eqb kw (str "seealso")
      then Docstring (short_description d) (long_description d) (params d) (returns d)
                 (raises d) (see_also d ++ [desc])
      else d
  | _ => d
  end.

Lemma parse_chunk_view : forall d f, parse_chunk d f =
  match view f with None => Err EValue | Some (args, ws) => Ok (apply_field d args (spaced ws)) end.
Proof.
  intros. unfold parse_chunk, view, apply_field.
  destruct (partition COLON (lstrip (N.eqb COLON) f)) as [a [body|]]; [|reflexivity].
  rewrite collapse_trim. destruct (words a) as [|kw [|name [|x l]]]; try reflexivity.
  - destruct (pystr_eqb kw (str "return") || pystr_eqb kw (str "returns")); [reflexivity|].
    destruct (pystr_eqb kw (str "see") || pystr_eqb kw (str "seealso")); reflexivity.
  - destruct (pystr_eqb kw (str "param")); [reflexivity|].
    destruct (pystr_eqb kw (str "raise") || pystr_eqb kw (str "raises")); reflexivity.
Qed.

Lemma partition_cases : forall c s a b, partition c s = (a, b) ->
  ~ In c a /\ match b with Some r => s = a ++ c :: r | None => s = a end.
Proof.
  induction s as [|d s IH]; intros a b H; cbn in H.
  - injection H as <- <-. split; [intros []|reflexivity].
  - destruct (N.eqb_spec d c) as [E|E].
    + injection H as <- <-. subst. split; [intros []|reflexivity].
    + destruct (partition c s) as [a' b'] eqn:P. injection H as <- <-.
      destruct (IH _ _ eq_refl) as [H1 H2]. split; [intros [X|X]; auto|].
      destruct b'; cbn; now rewrite H2 at 1.
Qed.

Lemma colons : forall p, Forall (fun c => N.eqb COLON c = true) p -> p = repeat COLON (length p).
Proof.
  induction p as [|c p IH]; intros H; [reflexivity|]. inversion H; subst. apply N.eqb_eq in H2. subst.
  cbn. now rewrite <- IH.
Qed.

Lemma says_view : forall r args ws, says (COLON :: r) args ws <-> view (COLON :: r) = Some (args, ws).
Proof.
  intros r args ws. unfold says, field, view. split.
  - intros [body [[k [a [E [N [NC S]]]]] W]]. rewrite E.
    rewrite lstrip_all.
    2:{ apply Forall_forall. intros x X. apply repeat_spec in X. subst. reflexivity. }
    destruct a as [|x a]; [congruence|]. cbn [app lstrip].
    destruct (N.eqb_spec COLON x) as [X|X]; [exfalso; apply NC; now left|].
    change (x :: a ++ COLON :: body) with ((x :: a) ++ COLON :: body).
    rewrite partition_some by assumption. apply spelled_iff in S, W. now rewrite S, W.
  - destruct (lstrip_split (N.eqb COLON) (COLON :: r)) as [p [E P]].
    destruct (partition COLON (lstrip (N.eqb COLON) (COLON :: r))) as [a [body|]] eqn:Q; [|discriminate].
    intros X. injection X as <- <-. apply partition_cases in Q. destruct Q as [NC Q].
    exists body. split; [|apply words_spelled].
    rewrite (colons p P) in E. destruct p as [|c p].
    { exfalso. cbn [app length repeat] in E. cbn [lstrip] in E. rewrite N.eqb_refl in E.
      destruct (lstrip_split (N.eqb COLON) r) as [q [F _]].
      apply (f_equal (@length N)) in E. apply (f_equal (@length N)) in F.
      rewrite app_length in F. cbn in E. lia. }
    exists (length p), a. rewrite <- Q. split; [exact E|]. split; [|split; [exact NC|apply words_spelled]].
    intros ->. cbn [app] in Q. apply lstrip_head in Q. now rewrite N.eqb_refl in Q.
Qed.

Lemma not_field_view : forall r, (forall args body, ~ field (COLON :: r) args body) <-> view (COLON :: r) = None.
Proof.
  intros r. split.
  - intros H. destruct (view (COLON :: r)) as [[args ws]|] eqn:V; [|reflexivity].
    apply says_view in V. destruct V as [body [F _]]. exfalso. exact (H _ _ F).
  - intros V args body F. assert (X : says (COLON :: r) args (words body)).
    { exists body. split; [exact F|apply words_spelled]. }
    apply says_view in X. congruence.
Qed.

(** ** Runs over the fields *)

Lemma parse_chunks_app : forall fs gs d,
  parse_chunks d (fs ++ gs) = do d' <- parse_chunks d fs; parse_chunks d' gs.
Proof.
  induction fs as [|f fs IH]; intros gs d; [reflexivity|]. cbn [app parse_chunks].
  destruct (parse_chunk d f); [apply IH|reflexivity].
Qed.

Lemma parse_chunks_ext : forall fs gs, Forall2 (fun f g => view f = view g) fs gs ->
  forall d, parse_chunks d fs = parse_chunks d gs.
Proof.
  induction 1 as [|f g fs gs E H IH]; intros d; [reflexivity|]. cbn [parse_chunks].
  rewrite !parse_chunk_view, E. destruct (view g) as [[args ws]|]; [apply IH|reflexivity].
Qed.

Lemma parse_chunks_err : forall fs d e, parse_chunks d fs = Err e <->
  e = EValue /\ exists f, In f fs /\ view f = None.
Proof.
  induction fs as [|f fs IH]; intros d e; cbn [parse_chunks].
  - split; [discriminate|]. intros [_ [f [[] _]]].
  - rewrite parse_chunk_view. destruct (view f) as [[args ws]|] eqn:V; cbn [bind].
    + rewrite IH. split; intros [-> [g [G1 G2]]]; split; try reflexivity.
      * exists g. split; [now right|assumption].
      * destruct G1 as [->|G1]; [congruence|]. eauto.
    + split.
      * intros H. injection H as <-. split; [reflexivity|]. exists f. split; [now left|assumption].
      * now intros [-> _].
Qed.

Section LastWins.
  Context {X : Type}.
  Variable proj : docstring -> option X.
  Variable mark : pystr -> option X.
  Hypothesis step : forall d f d', parse_chunk d f = Ok d' ->
    proj d' = match mark f with Some x => Some x | None => proj d end.

  Lemma last_wins : forall fs d d', parse_chunks d fs = Ok d' -> forall x, proj d' = Some x <->
    (exists pre f post, fs = pre ++ f :: post /\ mark f = Some x /\ forall f', In f' post -> mark f' = None)
    \/ ((forall f, In f fs -> mark f = None) /\ proj d = Some x).
  Proof.
    induction fs as [|f fs IH]; intros d d' H x; cbn [parse_chunks] in H.
    - injection H as <-. split.
      + intros E. right. split; [intros f []|exact E].
      + intros [[pre [f [post [E _]]]]|[_ E]]; [destruct pre; discriminate|exact E].
    - destruct (parse_chunk d f) as [d1|e] eqn:P; [|discriminate]. cbn [bind] in H.
      rewrite (IH _ _ H x). rewrite (step _ _ _ P). split.
      + intros [[pre [g [post [-> [M L]]]]]|[A E]].
        * left. exists (f :: pre), g, post. auto.
        * destruct (mark f) as [y|] eqn:M.
          -- left. exists [], f, fs. repeat split; [congruence|exact A].
          -- right. split; [intros g [<-|G]; auto|exact E].
      + intros [[pre [g [post [E [M L]]]]]|[A E]].
        * destruct pre as [|y pre]; cbn in E; injection E as -> ->.
          -- right. rewrite M. auto.
          -- left. exists pre, g, post. auto.
        * right. split; [intros g G; apply A; now right|]. rewrite (A f) by (now left). exact E.
  Qed.
End LastWins.

(** what a field sets *)
Definition mark2 (is_kw : pystr -> bool) (n : pystr) (f : pystr) : option (pystr * pystr) :=
  match view f with
  | Some ([kw; name], ws) => if is_kw kw && pystr_eqb name n then Some (n, spaced ws) else None
  | _ => None
  end.
Definition mark1 (is_kw : pystr -> bool) (f : pystr) : option pystr :=
  match view f with
  | Some ([kw], ws) => if is_kw kw then Some (spaced ws) else None
  | _ => None
  end.

Definition is_param (k : pystr) := pystr_eqb k (str "param").
Definition is_raise (k : pystr) := pystr_eqb k (str "raise") || pystr_eqb k (str "raises").
Definition is_return (k : pystr) := pystr_eqb k (str "return") || pystr_eqb k (str "returns").
Definition is_see (k : pystr) := pystr_eqb k (str "see") || pystr_eqb k (str "seealso").

Lemma dict_get_set : forall V (d : list (pystr * V)) k v k',
  dict_get (dict_set d k v) k' = if pystr_eqb k k' then Some v else dict_get d k'.
Proof.
  intros V d k v k'. induction d as [|[k0 v0] d IH]; cbn [dict_set dict_get]; [reflexivity|].
  destruct (pystr_eqb k0 k) eqn:E.
  - apply pystr_eqb_eq in E. subst. cbn [dict_get]. destruct (pystr_eqb k k'); reflexivity.
  - cbn [dict_get]. rewrite IH. destruct (pystr_eqb k0 k') eqn:E'; [|reflexivity].
    apply pystr_eqb_eq in E'. subst. destruct (pystr_eqb k k') eqn:E''; [|reflexivity].
    apply pystr_eqb_eq in E''. subst. now rewrite pystr_eqb_refl in E.
Qed.

Ltac field_cases d f P :=
  rewrite parse_chunk_view in P; destruct (view f) as [[args ws]|]; [|discriminate];
  injection P as <-; unfold apply_field;
  destruct args as [|kw [|name [|? ?]]]; try reflexivity.

Lemma step_params : forall n d f d', parse_chunk d f = Ok d' ->
  dict_get (params d') n = match mark2 is_param n f with Some x => Some x | None => dict_get (params d) n end.
Proof.
  intros n d f d' P. unfold mark2, is_param. field_cases d f P.
  - destruct (pystr_eqb kw (str "return") || pystr_eqb kw (str "returns")); [reflexivity|].
    destruct (pystr_eqb kw (str "see") || pystr_eqb kw (str "seealso")); reflexivity.
  - destruct (pystr_eqb kw (str "param")); cbn [andb params].
    + rewrite dict_get_set. destruct (pystr_eqb name n) eqn:E; [|reflexivity].
      apply pystr_eqb_eq in E. now subst.
    + destruct (pystr_eqb kw (str "raise") || pystr_eqb kw (str "raises")); reflexivity.
Qed.

Lemma step_raises : forall n d f d', parse_chunk d f = Ok d' ->
  dict_get (raises d') n = match mark2 is_raise n f with Some x => Some x | None => dict_get (raises d) n end.
Proof.
  intros n d f d' P. unfold mark2, is_raise. field_cases d f P.
  - destruct (pystr_eqb kw (str "return") || pystr_eqb kw (str "returns")); [reflexivity|].
    destruct (pystr_eqb kw (str "see") || pystr_eqb kw (str "seealso")); reflexivity.
  - destruct (pystr_eqb kw (str "param")) eqn:K.
    + apply pystr_eqb_eq in K. subst kw. reflexivity.
    + destruct (pystr_eqb kw (str "raise") || pystr_eqb kw (str "raises")); cbn [andb raises]; [|reflexivity].
      rewrite dict_get_set. destruct (pystr_eqb name n) eqn:E; [|reflexivity].
      apply pystr_eqb_eq in E. now subst.
Qed.

Lemma step_returns : forall d f d', parse_chunk d f = Ok d' ->
  returns d' = match mark1 is_return f with Some x => Some x | None => returns d end.
Proof.
  intros d f d' P. unfold mark1, is_return. field_cases d f P.
  - destruct (pystr_eqb kw (str "return") || pystr_eqb kw (str "returns")); [reflexivity|].
    destruct (pystr_eqb kw (str "see") || pystr_eqb kw (str "seealso")); reflexivity.
  - destruct (pystr_eqb kw (str "param")); [reflexivity|].
    destruct (pystr_eqb kw (str "raise") || pystr_eqb kw (str "raises")); reflexivity.
Qed.

Lemma step_see : forall d f d', parse_chunk d f = Ok d' ->
  see_also d' = see_also d ++ match mark1 is_see f with Some x => [x] | None => [] end.
Proof.
  intros d f d' P. unfold mark1, is_see. field_cases d f P; try (symmetry; apply app_nil_r).
  - destruct (pystr_eqb kw (str "return") || pystr_eqb kw (str "returns")) eqn:R.
    + apply orb_true_iff in R. destruct R as [R|R]; apply pystr_eqb_eq in R; subst; symmetry; apply app_nil_r.
    + destruct (pystr_eqb kw (str "see") || pystr_eqb kw (str "seealso")); [reflexivity|symmetry; apply app_nil_r].
  - destruct (pystr_eqb kw (str "param")); [symmetry; apply app_nil_r|].
    destruct (pystr_eqb kw (str "raise") || pystr_eqb kw (str "raises")); symmetry; apply app_nil_r.
Qed.

Lemma step_descriptions : forall d f d', parse_chunk d f = Ok d' ->
  short_description d' = short_description d /\ long_description d' = long_description d.
Proof.
  intros d f d' P. field_cases d f P; try (split; reflexivity).
  - destruct (pystr_eqb kw (str "return") || pystr_eqb kw (str "returns")); [split; reflexivity|].
    destruct (pystr_eqb kw (str "see") || pystr_eqb kw (str "seealso")); split; reflexivity.
  - destruct (pystr_eqb kw (str "param")); [split; reflexivity|].
    destruct (pystr_eqb kw (str "raise") || pystr_eqb kw (str "raises")); split; reflexivity.
Qed.

Lemma chunks_descriptions : forall fs d d', parse_chunks d fs = Ok d' ->
  short_description d' = short_description d /\ long_description d' = long_description d.
Proof.
  induction fs as [|f fs IH]; intros d d' H; cbn [parse_chunks] in H.
  - injection H as <-. auto.
  - destruct (parse_chunk d f) as [d1|e] eqn:P; [|discriminate]. cbn [bind] in H.
    apply step_descriptions in P. destruct P as [<- <-]. now apply IH.
Qed.

(** ** The shape of what is parsed *)

Lemma words_chars : forall s cur w c, In w (words_from cur s) -> In c w -> In c cur \/ In c s.
Proof.
  induction s as [|d s IH]; intros cur w c W C; cbn [words_from] in W.
  - left. destruct cur as [|x cur]; [destruct W|]. destruct W as [<-|[]]. exact C.
  - destruct (space d).
    + apply in_app_iff in W. destruct W as [W|W].
      * left. destruct cur as [|x cur]; [destruct W|]. destruct W as [<-|[]]. exact C.
      * right. right. destruct (IH _ _ _ W C) as [[]|X]. exact X.
    + destruct (IH _ _ _ W C) as [X|X]; [|right; now right].
      apply in_app_iff in X. destruct X as [X|[X|[]]]; [now left|]. right. now left.
Qed.

Lemma view_args : forall f args ws, view f = Some (args, ws) ->
  Forall (fun a => word a /\ ~ In COLON a) args /\ Forall word ws.
Proof.
  unfold view. intros f args ws H.
  destruct (partition COLON (lstrip (N.eqb COLON) f)) as [a [body|]] eqn:P; [|discriminate].
  injection H as <- <-. split; [|apply words_word]. apply Forall_forall. intros w W. split.
  - exact (proj1 (Forall_forall _ _) (words_word a) w W).
  - intros C. apply partition_cases in P. destruct (words_chars _ _ _ _ W C) as [[]|X]. apply P. exact X.
Qed.

Lemma dict_set_NoDup : forall V (d : list (pystr * V)) k v, NoDup (map fst d) -> NoDup (map fst (dict_set d k v)).
Proof.
  intros V d k v. induction d as [|[k0 v0] d IH]; cbn [dict_set map fst]; intros H.
  - constructor; [intros []|constructor].
  - inversion H as [|? ? N H']; subst. destruct (pystr_eqb k0 k) eqn:E; cbn [map fst]; [now constructor|].
    constructor; [|auto]. intros X. apply N.
    clear - X E. induction d as [|[k1 v1] d IH]; cbn [dict_set map fst] in *.
    + destruct X as [->|[]]. now rewrite pystr_eqb_refl in E.
    + destruct (pystr_eqb k1 k); cbn [map fst] in X; [exact X|]. destruct X as [X|X]; [now left|right; auto].
Qed.

Lemma dict_set_Forall : forall V (P : pystr * V -> Prop) (d : list (pystr * V)) k v,
  (forall k', k' = k -> P (k', v)) -> Forall P d -> Forall P (dict_set d k v).
Proof.
  intros V P d k v H F. induction F as [|[k0 v0] d Hd F IH]; cbn [dict_set].
  - constructor; [now apply H|constructor].
  - destruct (pystr_eqb k0 k) eqn:E; constructor; auto. apply H. now apply pystr_eqb_eq.
Qed.

Definition fields_ok (d : docstring) : Prop :=
  (NoDup (map fst (params d)) /\ Forall entry_ok (params d)) /\
  opt_ok single_spaced (returns d) /\
  (NoDup (map fst (raises d)) /\ Forall entry_ok (raises d)) /\
  Forall single_spaced (see_also d).

Lemma step_ok : forall d f d', parse_chunk d f = Ok d' -> fields_ok d -> fields_ok d'.
Proof.
  intros d f d' P [[H1 H2] [H3 [[H4 H5] H6]]]. rewrite parse_chunk_view in P.
  destruct (view f) as [[args ws]|] eqn:V; [|discriminate]. injection P as <-.
  apply view_args in V. destruct V as [A W].
  assert (S : single_spaced (spaced ws)) by (exists ws; auto).
  assert (D : fields_ok d) by (repeat split; assumption).
  unfold apply_field. destruct args as [|kw [|name [|? ?]]]; try exact D.
  - destruct (pystr_eqb kw (str "return") || pystr_eqb kw (str "returns")).
    { unfold fields_ok. cbn. auto 10. }
    destruct (pystr_eqb kw (str "see") || pystr_eqb kw (str "seealso")); [|exact D].
    unfold fields_ok. cbn. repeat apply conj; try assumption. apply Forall_app. auto.
  - assert (E : forall k', k' = name -> entry_ok (k', (name, spaced ws))).
    { intros k' ->. inversion A as [|? ? _ A']; subst. inversion A' as [|? ? [A1 A2] _]; subst.
      repeat split; try assumption; apply A1. }
    destruct (pystr_eqb kw (str "param")).
    { unfold fields_ok. cbn. repeat apply conj; try assumption; [now apply dict_set_NoDup|now apply dict_set_Forall]. }
    destruct (pystr_eqb kw (str "raise") || pystr_eqb kw (str "raises")); [|exact D].
    unfold fields_ok. cbn. repeat apply conj; try assumption; [now apply dict_set_NoDup|now apply dict_set_Forall].
Qed.

Lemma chunks_ok : forall fs d d', parse_chunks d fs = Ok d' -> fields_ok d -> fields_ok d'.
Proof.
  induction fs as [|f fs IH]; intros d d' H D; cbn [parse_chunks] in H.
  - injection H as <-. exact D.
  - destruct (parse_chunk d f) as [d1|e] eqn:P; [|discriminate]. cbn [bind] in H.
    eapply IH; [exact H|]. eapply step_ok; eassumption.
Qed.

(** ** Cleaning *)

Lemma expandtabs_words : forall s col cur, words_from cur (expandtabs col s) = words_from cur s.
Proof.
  induction s as [|c s IH]; intros col cur; [reflexivity|]. cbn [expandtabs].
  destruct (N.eqb_spec c 9) as [->|N].
  - cbn [words_from]. change (space 9) with true. cbv iota.
    assert (L : 8 - col mod 8 <> 0) by (pose proof (Nat.mod_upper_bound col 8); lia).
    destruct (8 - col mod 8) as [|k]; [congruence|]. cbn [repeat app words_from].
    change (space 32) with true. cbv iota. f_equal.
    fold (words (repeat 32%N k ++ expandtabs (col + S k) s)). rewrite words_blanks; [apply IH|].
    apply Forall_forall. intros x X. apply repeat_spec in X. now subst.
  - destruct ((c =? NL)%N || (c =? 13)%N); cbn [words_from]; destruct (space c); rewrite ?IH; reflexivity.
Qed.

Lemma expandtabs_no_tab : forall s col, no_tab (expandtabs col s).
Proof.
  unfold no_tab. induction s as [|c s IH]; intros col H; [destruct H|]. cbn [expandtabs] in H.
  destruct (N.eqb_spec c 9) as [->|N].
  - apply in_app_iff in H. destruct H as [H|H]; [apply repeat_spec in H; discriminate|exact (IH _ H)].
  - destruct ((c =? NL)%N || (c =? 13)%N); destruct H as [H|H]; (congruence || exact (IH _ H)).
Qed.

Lemma expandtabs_id : forall s col, no_tab s -> expandtabs col s = s.
Proof.
  induction s as [|c s IH]; intros col H; [reflexivity|]. cbn [expandtabs].
  assert (H' : no_tab s) by (intros X; apply H; now right).
  destruct (N.eqb_spec c 9) as [->|N]; [exfalso; apply H; now left|].
  destruct ((c =? NL)%N || (c =? 13)%N); now rewrite IH.
Qed.

Lemma words_join : forall ls, words (join [NL] ls) = concat (map words ls).
Proof.
  induction ls as [|l ls IH]; [reflexivity|]. destruct ls as [|l' ls].
  - cbn. now rewrite app_nil_r.
  - change (join [NL] (l :: l' :: ls)) with (l ++ NL :: join [NL] (l' :: ls)).
    rewrite words_app by reflexivity. rewrite IH. reflexivity.
Qed.

Lemma words_lines : forall s, words s = concat (map words (split_on NL s)).
Proof. intros. rewrite <- words_join, join_split. reflexivity. Qed.

Lemma blank_words : forall l, blank l = true -> blanks l.
Proof.
  intros l H. unfold blank in H. destruct (lstrip_split space l) as [p [E P]].
  destruct (lstrip space l); [|discriminate]. rewrite app_nil_r in E. now subst.
Qed.

Lemma words_lstrip : forall l, words (lstrip space l) = words l.
Proof.
  intros. destruct (lstrip_split space l) as [p [E P]]. rewrite E at 2. now rewrite words_blanks.
Qed.

Lemma words_skip_blanks : forall n l, blanks l -> words (skipn n l) = words l.
Proof.
  intros n l H. rewrite !words_blank; [reflexivity|assumption|].
  rewrite <- (firstn_skipn n l) in H. apply Forall_app in H. apply H.
Qed.

Lemma words_skip_indent : forall n l, n <= indent l -> words (skipn n l) = words l.
Proof.
  intros n l H. unfold indent in H. destruct (lstrip_split space l) as [p [E P]].
  assert (L : n <= length p).
  { rewrite E in H at 1. rewrite app_length in H. lia. }
  rewrite E. rewrite skipn_app. replace (n - length p) with 0 by lia. cbn [skipn].
  assert (P' : blanks (skipn n p)).
  { rewrite <- (firstn_skipn n p) in P. apply Forall_app in P. apply P. }
  rewrite !words_blanks by assumption. reflexivity.
Qed.

Lemma margin_le : forall ls m l, margin ls = Some m -> In l ls -> blank l = true \/ m <= indent l.
Proof.
  induction ls as [|x ls IH]; intros m l M L; [destruct L|]. cbn [margin] in M.
  destruct (blank x) eqn:B.
  - destruct L as [->|L]; [now left|eauto].
  - destruct L as [->|L].
    + right. injection M as <-. destruct (margin ls); lia.
    + destruct (margin ls) as [m'|] eqn:M'.
      * destruct (IH _ _ eq_refl L); [now left|]. right. injection M as <-. lia.
      * left. clear - M' L. induction ls as [|y ls IH]; [destruct L|]. cbn [margin] in M'.
        destruct (blank y) eqn:B; [|discriminate]. destruct L as [->|L]; auto.
Qed.

Lemma drop_empty_words : forall ls, concat (map words (drop_empty ls)) = concat (map words ls).
Proof. induction ls as [|[|c l] ls IH]; [reflexivity|exact IH|reflexivity]. Qed.

Lemma drop_empty_split : forall ls, exists p, ls = p ++ drop_empty ls /\ Forall (fun l => l = []) p.
Proof.
  induction ls as [|[|c l] ls [p [E H]]].
  - exists []. auto.
  - exists ([] :: p). cbn. split; [congruence|now constructor].
  - exists []. auto.
Qed.

Lemma concat_words_nil : forall p, Forall (fun l : pystr => l = []) p -> concat (map words p) = [].
Proof. induction 1 as [|l p -> H IH]; [reflexivity|exact IH]. Qed.

Lemma cleandoc_words : forall s, words (cleandoc s) = words s.
Proof.
  intros s. transitivity (words (expandtabs 0 s)); [|apply expandtabs_words].
  rewrite (words_lines (expandtabs 0 s)). unfold cleandoc.
  destruct (split_on NL (expandtabs 0 s)) as [|first rest]; [reflexivity|].
  rewrite words_join, drop_empty_words.
  set (rest' := match margin rest with Some m => map (skipn m) rest | None => rest end).
  assert (R : map words rest' = map words rest).
  { unfold rest'. destruct (margin rest) as [m|] eqn:M; [|reflexivity]. rewrite map_map.
    apply map_ext_in. intros l L. destruct (margin_le _ _ _ M L) as [B|B].
    - apply words_skip_blanks. now apply blank_words.
    - now apply words_skip_indent. }
  destruct (drop_empty_split (rev (lstrip space first :: rest'))) as [p [E P]].
  assert (X : concat (map words (rev (drop_empty (rev (lstrip space first :: rest'))))) =
              concat (map words (lstrip space first :: rest'))).
  { rewrite <- (rev_involutive (lstrip space first :: rest')) at 2. rewrite E at 2.
    rewrite rev_app_distr, map_app, concat_app. rewrite (concat_words_nil (rev p)).
    - now rewrite app_nil_r.
    - now apply Forall_rev. }
  rewrite X. cbn [map concat]. now rewrite words_lstrip, R.
Qed.

Lemma join_chars : forall ls c, In c (join [NL] ls) -> c = NL \/ exists l, In l ls /\ In c l.
Proof.
  induction ls as [|l ls IH]; intros c H; [destruct H|]. destruct ls as [|l' ls].
  - right. exists l. split; [now left|exact H].
  - change (join [NL] (l :: l' :: ls)) with (l ++ NL :: join [NL] (l' :: ls)) in H.
    apply in_app_iff in H. destruct H as [H|[H|H]].
    + right. exists l. split; [now left|exact H].
    + left. congruence.
    + destruct (IH _ H) as [->|[x [X1 X2]]]; [now left|]. right. exists x. split; [now right|exact X2].
Qed.

Lemma lines_chars : forall s l c, In l (split_on NL s) -> In c l -> In c s.
Proof.
  intros s l c L C. rewrite <- (join_split NL s). revert L. generalize (split_on NL s) as ls.
  induction ls as [|x ls IH]; intros L; [destruct L|]. destruct ls as [|y ls].
  - destruct L as [->|[]]. exact C.
  - change (join [NL] (x :: y :: ls)) with (x ++ NL :: join [NL] (y :: ls)). apply in_app_iff.
    destruct L as [->|L]; [now left|]. right. right. now apply IH.
Qed.

Lemma drop_empty_in : forall ls l, In l (drop_empty ls) -> In l ls.
Proof. intros ls l H. destruct (drop_empty_split ls) as [p [E _]]. rewrite E. apply in_app_iff. now right. Qed.

Lemma lstrip_in : forall f s c, In c (lstrip f s) -> In c s.
Proof. intros f s c H. destruct (lstrip_split f s) as [p [E _]]. rewrite E. apply in_app_iff. now right. Qed.

Lemma cleandoc_no_tab : forall s, no_tab (cleandoc s).
Proof.
  intros s H. unfold cleandoc in H. destruct (split_on NL (expandtabs 0 s)) as [|first rest] eqn:E; [destruct H|].
  apply join_chars in H. destruct H as [H|[l [L C]]]; [discriminate|].
  apply drop_empty_in in L. apply in_rev in L. apply drop_empty_in in L. apply in_rev in L.
  apply (expandtabs_no_tab s 0).
  destruct L as [<-|L].
  - apply lstrip_in in C. apply (lines_chars _ first); [rewrite E; now left|exact C].
  - destruct (margin rest) as [m|].
    + apply in_map_iff in L. destruct L as [l' [<- L]].
      apply (lines_chars _ l'); [rewrite E; now right|]. rewrite <- (firstn_skipn m l'). apply in_app_iff. now right.
    + apply (lines_chars _ l); [rewrite E; now right|exact C].
Qed.

(** ** Fields and their marks *)

Lemma last_marks : forall A (P : pystr -> list pystr -> Prop) (mark : pystr -> option A) (g : list pystr -> A) fs,
  (forall f x, In f fs -> (mark f = Some x <-> exists ws, P f ws /\ x = g ws)) ->
  forall x,
  (exists pre f post, fs = pre ++ f :: post /\ mark f = Some x /\ forall f', In f' post -> mark f' = None)
  <-> exists ws, last_words P fs ws /\ x = g ws.
Proof.
  intros A P mark g fs H x. split.
  - intros [pre [f [post [E [M L]]]]]. apply H in M; [|rewrite E; apply in_app_iff; right; now left].
    destruct M as [ws [W ->]]. exists ws. split; [|reflexivity]. exists f. split; [|exact W].
    exists pre, post. split; [exact E|]. split; [eauto|]. intros f' F' [ws' W'].
    assert (X : mark f' = Some (g ws')).
    { apply H; [rewrite E; apply in_app_iff; right; now right|]. eauto. }
    rewrite (L f' F') in X. discriminate.
  - intros [ws [[f [[pre [post [E [_ L]]]] W]] ->]]. exists pre, f, post. split; [exact E|]. split.
    + apply H; [rewrite E; apply in_app_iff; right; now left|]. eauto.
    + intros f' F'. destruct (mark f') as [y|] eqn:M; [|reflexivity]. exfalso.
      apply H in M; [|rewrite E; apply in_app_iff; right; now right]. destruct M as [ws' [W' _]].
      apply (L f' F'). eauto.
Qed.

Lemma mark_param : forall r n x, mark2 is_param n (COLON :: r) = Some x <->
  exists ws, param_field n (COLON :: r) ws /\ x = (n, spaced ws).
Proof.
  intros r n x. unfold mark2, param_field, is_param. split.
  - destruct (view (COLON :: r)) as [[[|kw [|m [|? ?]]] ws]|] eqn:V; try discriminate.
    destruct (pystr_eqb kw (str "param") && pystr_eqb m n) eqn:E; [|discriminate].
    apply andb_true_iff in E. destruct E as [E1 E2]. apply pystr_eqb_eq in E1, E2. subst.
    intros X. injection X as <-. exists ws. split; [now apply says_view|reflexivity].
  - intros [ws [S ->]]. apply says_view in S. rewrite S. now rewrite !pystr_eqb_refl.
Qed.

Lemma mark_raise : forall r n x, mark2 is_raise n (COLON :: r) = Some x <->
  exists ws, raises_field n (COLON :: r) ws /\ x = (n, spaced ws).
Proof.
  intros r n x. unfold mark2, raises_field, is_raise. split.
  - destruct (view (COLON :: r)) as [[[|kw [|m [|? ?]]] ws]|] eqn:V; try discriminate.
    destruct ((pystr_eqb kw (str "raise") || pystr_eqb kw (str "raises")) && pystr_eqb m n) eqn:E; [|discriminate].
    apply andb_true_iff in E. destruct E as [E1 E2]. apply pystr_eqb_eq in E2. subst.
    intros X. injection X as <-. exists ws. split; [|reflexivity].
    apply orb_true_iff in E1. destruct E1 as [E1|E1]; apply pystr_eqb_eq in E1; subst; [left|right]; now apply says_view.
  - intros [ws [[S|S] ->]]; apply says_view in S; rewrite S; rewrite !pystr_eqb_refl, ?orb_true_r; reflexivity.
Qed.

Lemma mark_one : forall k1 k2 r x,
  mark1 (fun k => pystr_eqb k k1 || pystr_eqb k k2) (COLON :: r) = Some x <->
  exists ws, (says (COLON :: r) [k1] ws \/ says (COLON :: r) [k2] ws) /\ x = spaced ws.
Proof.
  intros k1 k2 r x. unfold mark1. split.
  - destruct (view (COLON :: r)) as [[[|kw [|? ?]] ws]|] eqn:V; try discriminate.
    destruct (pystr_eqb kw k1 || pystr_eqb kw k2) eqn:E; [|discriminate].
    intros X. injection X as <-. exists ws. split; [|reflexivity].
    apply orb_true_iff in E. destruct E as [E1|E1]; apply pystr_eqb_eq in E1; subst; [left|right]; now apply says_view.
  - intros [ws [[S|S] ->]]; apply says_view in S; rewrite S; rewrite !pystr_eqb_refl, ?orb_true_r; reflexivity.
Qed.

(** ** The result in terms of the layout *)

Lemma parse_text_layout : forall t desc fs d, layout (cleandoc t) desc fs -> parse_text t = Ok d ->
  exists s l, descriptions desc = (s, l) /\ parse_chunks (Docstring s l [] None [] []) fs = Ok d.
Proof.
  intros t desc fs d LY H. apply layout_pieces in LY. unfold parse_text in H. destruct t as [|c t].
  - injection LY as <- <-. exists None, None. split; [reflexivity|]. exact H.
  - rewrite LY in H. destruct (descriptions desc) as [s l]. eauto.
Qed.

Lemma layout_colon : forall text desc fs f, layout text desc fs -> In f fs -> exists r, f = COLON :: r.
Proof.
  intros text desc fs f [_ _ F _ _] H. apply (proj1 (Forall_forall _ _) F) in H. destruct H as [r [-> _]]. eauto.
Qed.

Lemma params_char : forall t desc fs d n v, layout (cleandoc t) desc fs -> parse_text t = Ok d ->
  (dict_get (params d) n = Some v <-> exists ws, last_words (param_field n) fs ws /\ v = (n, spaced ws)).
Proof.
  intros t desc fs d n v LY H. destruct (parse_text_layout _ _ _ _ LY H) as [s [l [_ P]]].
  rewrite (last_wins (fun d => dict_get (params d) n) (mark2 is_param n) (step_params n) fs _ _ P v).
  rewrite (last_marks _ (param_field n) _ (fun ws => (n, spaced ws))).
  - split; [|auto]. intros [X|[_ X]]; [exact X|discriminate].
  - intros f x F. destruct (layout_colon _ _ _ _ LY F) as [r ->]. apply mark_param.
Qed.

Lemma raises_char : forall t desc fs d n v, layout (cleandoc t) desc fs -> parse_text t = Ok d ->
  (dict_get (raises d) n = Some v <-> exists ws, last_words (raises_field n) fs ws /\ v = (n, spaced ws)).
Proof.
  intros t desc fs d n v LY H. destruct (parse_text_layout _ _ _ _ LY H) as [s [l [_ P]]].
  rewrite (last_wins (fun d => dict_get (raises d) n) (mark2 is_raise n) (step_raises n) fs _ _ P v).
  rewrite (last_marks _ (raises_field n) _ (fun ws => (n, spaced ws))).
  - split; [|auto]. intros [X|[_ X]]; [exact X|discriminate].
  - intros f x F. destruct (layout_colon _ _ _ _ LY F) as [r ->]. apply mark_raise.
Qed.

Lemma returns_char : forall t desc fs d v, layout (cleandoc t) desc fs -> parse_text t = Ok d ->
  (returns d = Some v <-> exists ws, last_words returns_field fs ws /\ v = spaced ws).
Proof.
  intros t desc fs d v LY H. destruct (parse_text_layout _ _ _ _ LY H) as [s [l [_ P]]].
  rewrite (last_wins returns (mark1 is_return) step_returns fs _ _ P v).
  rewrite (last_marks _ returns_field _ spaced).
  - split; [|auto]. intros [X|[_ X]]; [exact X|discriminate].
  - intros f x F. destruct (layout_colon _ _ _ _ LY F) as [r ->]. apply mark_one.
Qed.

Lemma see_collected : forall fs, Forall (fun f => exists r, f = COLON :: r) fs ->
  forall d d', parse_chunks d fs = Ok d' -> exists out, collected see_field fs out /\ see_also d' = see_also d ++ out.
Proof.
  induction 1 as [|f fs [r ->] F IH]; intros d d' H; cbn [parse_chunks] in H.
  - injection H as <-. exists []. split; [constructor|]. now rewrite app_nil_r.
  - destruct (parse_chunk d (COLON :: r)) as [d1|e] eqn:P; [|discriminate]. cbn [bind] in H.
    destruct (IH _ _ H) as [out [C E]]. rewrite (step_see _ _ _ P) in E.
    destruct (mark1 is_see (COLON :: r)) as [x|] eqn:M.
    + exists (x :: out). rewrite <- app_assoc in E. split; [|exact E].
      apply mark_one in M. destruct M as [ws [W ->]]. now constructor.
    + exists out. rewrite app_nil_r in E. split; [|exact E]. apply collected_skip; [|exact C].
      intros ws W. assert (X : mark1 is_see (COLON :: r) = Some (spaced ws)) by (apply mark_one; eauto). congruence.
Qed.

Lemma see_char : forall t desc fs d, layout (cleandoc t) desc fs -> parse_text t = Ok d ->
  collected see_field fs (see_also d).
Proof.
  intros t desc fs d LY H. destruct (parse_text_layout _ _ _ _ LY H) as [s [l [_ P]]].
  assert (F : Forall (fun f => exists r, f = COLON :: r) fs).
  { apply Forall_forall. intros f F. eapply layout_colon; eassumption. }
  destruct (see_collected fs F _ _ P) as [out [C E]]. cbn in E. now subst.
Qed.

Lemma description_char : forall t desc fs d ws, layout (cleandoc t) desc fs -> parse_text t = Ok d ->
  spelled ws desc -> exists ws1 ws2, ws = ws1 ++ ws2 /\
    spelled_opt ws1 (short_description d) /\ spelled_opt ws2 (long_description d).
Proof.
  intros t desc fs d ws LY H W. destruct (parse_text_layout _ _ _ _ LY H) as [s [l [D P]]].
  apply chunks_descriptions in P. cbn in P. destruct P as [-> ->]. apply spelled_iff in W. subst ws.
  unfold descriptions in D. destruct (paragraph desc) as [a b] eqn:PA. apply paragraph_split in PA.
  apply pair_equal_spec in D. destruct D as [<- <-].
  assert (O : forall x y, words x = words y -> spelled_opt (words y) (or_none x)).
  { intros x y E. destruct x as [|c x]; cbn; [now rewrite <- E|]. now apply spelled_iff. }
  exists (words a), (match b with Some r => words r | None => [] end). split; [|split].
  - rewrite PA. destruct b as [r|]; [|now rewrite !app_nil_r]. rewrite words_app by reflexivity.
    reflexivity.
  - apply O. unfold words at 1. rewrite unbreak_words by (intros []). apply words_trim.
  - destruct b as [r|]; [|reflexivity]. apply O. apply words_trim.
Qed.

Lemma long_verbatim : forall t desc fs d l, layout (cleandoc t) desc fs -> parse_text t = Ok d ->
  long_description d = Some l -> exists a b, desc = a ++ NL :: NL :: b /\
    (forall a1 a2, a <> a1 ++ NL :: NL :: a2) /\ exists p q, b = p ++ l ++ q /\ blanks p /\ blanks q /\ trimmed l.
Proof.
  intros t desc fs d l LY H L. destruct (parse_text_layout _ _ _ _ LY H) as [s [l' [D P]]].
  apply chunks_descriptions in P. cbn in P. destruct P as [_ E]. rewrite L in E. subst l'.
  unfold descriptions in D. destruct (paragraph desc) as [a b] eqn:PA.
  apply pair_equal_spec in D. destruct D as [_ D]. destruct b as [r|]; [|discriminate].
  exists a, r. split; [exact (paragraph_split _ _ _ PA)|]. split.
  - clear -PA. revert a PA. induction desc as [|c s IH]; intros a PA; [discriminate|].
    cbn in PA. destruct s as [|d s]; [discriminate|].
    destruct ((c =? NL)%N && (d =? NL)%N) eqn:E.
    + injection PA as <- _. intros [|x a1] a2; discriminate.
    + fold (paragraph (d :: s)) in PA. destruct (paragraph (d :: s)) as [a' b'] eqn:Q.
      injection PA as <- ->. intros [|x a1] a2 X; cbn in X; injection X as -> X.
      * subst a'. apply paragraph_split in Q. cbn in Q. injection Q as -> _.
        rewrite N.eqb_refl in E. discriminate.
      * exact (IH a' eq_refl a1 a2 X).
  - destruct (trim_split r) as [p [q [E [Hp Hq]]]]. exists p, q.
    destruct (trim r) as [|x u] eqn:T; [discriminate|]. cbn in D. injection D as <-.
    repeat split; try assumption; destruct (trim_trimmed r) as [X|X]; rewrite T in X; try discriminate; apply X.
Qed.

Lemma error_char : forall t desc fs e, layout (cleandoc t) desc fs ->
  (parse_text t = Err e <-> e = EValue /\ exists f, In f fs /\ forall args body, ~ field f args body).
Proof.
  intros t desc fs e LY. pose proof (layout_pieces _ _ _ LY) as LP.
  assert (X : parse_text t = Err e <-> e = EValue /\ exists f, In f fs /\ view f = None).
  { unfold parse_text. destruct t as [|c t].
    - injection LP as <- <-. split; [discriminate|]. intros [_ [f [[] _]]].
    - rewrite LP. destruct (descriptions desc) as [s l]. apply parse_chunks_err. }
  rewrite X. split; intros [-> [f [F V]]]; split; try reflexivity; exists f; (split; [exact F|]);
    destruct (layout_colon _ _ _ _ LY F) as [r ->]; now apply not_field_view.
Qed.

(** ** Checks *)

Lemma existsb_false : forall A (f : A -> bool) l, existsb f l = false <-> forall x, In x l -> f x = false.
Proof.
  intros A f l. split.
  - intros H x X. destruct (f x) eqn:E; [|reflexivity].
    assert (existsb f l = true) by (apply existsb_exists; eauto). congruence.
  - intros H. destruct (existsb f l) eqn:E; [|reflexivity]. apply existsb_exists in E.
    destruct E as [x [X1 X2]]. now rewrite H in X2.
Qed.

Lemma mem_str_In : forall k l, mem_str k l = true <-> In k l.
Proof.
  intros. unfold mem_str. rewrite existsb_exists. split.
  - intros [x [X E]]. apply pystr_eqb_eq in E. now subst.
  - intros H. exists k. split; [exact H|apply pystr_eqb_refl].
Qed.

Lemma dict_mem_In : forall V (d : list (pystr * V)) k, dict_mem d k = true <-> In k (map fst d).
Proof.
  intros V d k. unfold dict_mem. induction d as [|[k0 v0] d IH]; cbn [dict_get map fst].
  - split; [discriminate|intros []].
  - destruct (pystr_eqb k0 k) eqn:E.
    + apply pystr_eqb_eq in E. subst. split; [intros _; now left|reflexivity].
    + rewrite IH. split; [intros H; now right|]. intros [->|H]; [now rewrite pystr_eqb_refl in E|exact H].
Qed.

Lemma negb_eq_false : forall b, negb b = false <-> b = true.
Proof. intros []; cbn; split; intros; congruence. Qed.

Lemma check_dataclass_char : forall props base d strict,
  (check_dataclass_docstring props base d strict = Ok tt <->
   (forall n, In n (map fst (params d)) -> In n props /\ ~ In n base) /\
   (strict = true -> forall n, In n props -> ~ In n base -> In n (map fst (params d)))) /\
  (check_dataclass_docstring props base d strict = Ok tt \/
   check_dataclass_docstring props base d strict = Err EType).
Proof.
  intros props base d strict. unfold check_dataclass_docstring.
  set (own := filter (fun n => negb (mem_str n base)) props).
  assert (OWN : forall n, mem_str n own = true <-> In n props /\ ~ In n base).
  { intros n. rewrite mem_str_In. unfold own. rewrite filter_In. rewrite negb_true_iff.
    rewrite <- (mem_str_In n base). destruct (mem_str n base); intuition congruence. }
  split.
  - destruct (existsb (fun e => negb (mem_str (fst e) own)) (params d)) eqn:X.
    + split; [discriminate|]. intros [H _]. exfalso. apply existsb_exists in X. destruct X as [e [E X]].
      rewrite (proj2 (OWN (fst e))) in X; [discriminate|]. apply H. now apply in_map.
    + pose proof (proj1 (existsb_false _ _ _) X) as X'.
      assert (A : forall n, In n (map fst (params d)) -> In n props /\ ~ In n base).
      { intros n N. apply in_map_iff in N. destruct N as [e [<- E]]. apply OWN. apply negb_eq_false. now apply X'. }
      destruct strict; cbn [negb]; [|split; [intros _; split; [exact A|discriminate]|reflexivity]].
      destruct (existsb (fun n => negb (dict_mem (params d) n)) own) eqn:Y.
      * split; [discriminate|]. intros [_ H]. exfalso. apply existsb_exists in Y. destruct Y as [n [N Y]].
        apply mem_str_In in N. apply OWN in N.
        rewrite (proj2 (dict_mem_In _ (params d) n)) in Y; [discriminate|]. now apply H.
      * split; [|reflexivity]. intros _. split; [exact A|]. intros _ n N1 N2.
        apply (dict_mem_In _ (params d) n). apply negb_eq_false. apply (proj1 (existsb_false _ _ _) Y).
        apply mem_str_In. apply OWN. auto.
  - destruct (existsb _ (params d)); [now right|]. destruct (negb strict); [now left|].
    destruct (existsb _ own); auto.
Qed.

Lemma check_function_char : forall sg ret d strict,
  (check_function_docstring sg ret d strict = Ok tt <->
   (forall n, In n (map fst (params d)) -> In n (map fst sg)) /\
   (returns d <> None -> ret = true) /\
   (strict = true -> (forall n, must_document sg n -> In n (map fst (params d))) /\ (ret = true -> returns d <> None))) /\
  (check_function_docstring sg ret d strict = Ok tt \/ check_function_docstring sg ret d strict = Err EType).
Proof.
  intros sg ret d strict. unfold check_function_docstring. split.
  2:{ destruct (existsb _ (params d)); [now right|].
      destruct (match returns d with Some _ => negb ret | None => false end); [now right|].
      destruct (negb strict); [now left|]. destruct (existsb _ sg); [now right|].
      destruct (ret && _); auto. }
  destruct (existsb (fun e => negb (mem_str (fst e) (map fst sg))) (params d)) eqn:X.
  { split; [discriminate|]. intros [H _]. exfalso. apply existsb_exists in X. destruct X as [e [E X]].
    rewrite (proj2 (mem_str_In _ _)) in X; [discriminate|]. apply H. now apply in_map. }
  assert (A : forall n, In n (map fst (params d)) -> In n (map fst sg)).
  { intros n N. apply in_map_iff in N. destruct N as [e [<- E]]. apply mem_str_In. apply negb_eq_false.
    now apply (proj1 (existsb_false _ _ _) X). }
  destruct (match returns d with Some _ => negb ret | None => false end) eqn:R.
  { split; [discriminate|]. intros [_ [H _]]. exfalso. destruct (returns d); [|discriminate].
    rewrite H in R by discriminate. discriminate. }
  assert (B : returns d <> None -> ret = true).
  { destruct (returns d); [intros _; now apply negb_eq_false|congruence]. }
  destruct strict; cbn [negb]; [|split; [intros _; repeat split; try assumption; discriminate|reflexivity]].
  assert (F : forall (p : pystr * bool),
    negb (pystr_eqb (fst p) (str "self") && snd p) && negb (dict_mem (params d) (fst p)) = true <->
    ~ (fst p = str "self" /\ snd p = true) /\ ~ In (fst p) (map fst (params d))).
  { intros p. rewrite andb_true_iff, !negb_true_iff. rewrite <- (dict_mem_In _ (params d) (fst p)).
    rewrite andb_false_iff. rewrite pystr_eqb_neq.
    destruct (dict_mem (params d) (fst p)); destruct (snd p);
      destruct (pystr_eq_dec (fst p) (str "self")); intuition congruence. }
  destruct (existsb _ sg) eqn:Y.
  { split; [discriminate|]. intros [_ [_ H]]. exfalso. apply existsb_exists in Y. destruct Y as [p [P Y]].
    apply F in Y. destruct Y as [Y1 Y2]. apply Y2. apply (proj1 (H eq_refl)). destruct p as [n b].
    exists b. split; [exact P|exact Y1]. }
  assert (C : forall n, must_document sg n -> In n (map fst (params d))).
  { intros n [p [P N]]. pose proof (proj1 (existsb_false _ _ _) Y (n, p) P) as Z. cbv beta in Z.
    destruct (dict_mem (params d) n) eqn:DM; [now apply (dict_mem_In _ (params d) n)|]. exfalso.
    assert (Z' : negb (pystr_eqb (fst (n, p)) (str "self") && snd (n, p)) && negb (dict_mem (params d) (fst (n, p))) = true).
    { apply F. split; [exact N|]. cbn [fst]. rewrite <- (dict_mem_In _ (params d) n). congruence. }
    congruence. }
  destruct (ret && match returns d with Some _ => false | None => true end) eqn:Z.
  - split; [discriminate|]. intros [_ [_ H]]. exfalso. apply andb_true_iff in Z. destruct Z as [-> Z].
    apply (proj2 (H eq_refl)); [reflexivity|]. destruct (returns d); [discriminate|reflexivity].
  - split; [|reflexivity]. intros _. split; [exact A|]. split; [exact B|]. intros _. split; [exact C|].
    intros ->. destruct (returns d); [discriminate|]. discriminate.
Qed.
