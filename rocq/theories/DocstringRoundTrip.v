(** The text of a documentation string is parsed back to it. *)
From Coq Require Import String List NArith Bool Lia PeanoNat.
From Verif Require Import Base Lists PyStr PyStrProofs Docstring SpecDocstring DocstringProofs.
Import ListNotations.
Open Scope list_scope.
Open Scope nat_scope.

(** ** Cleaning leaves a clean text alone *)

Lemma split_on_break : forall c a r, split_on c (a ++ c :: r) = split_on c a ++ split_on c r.
Proof.
  intros c. induction a as [|d a IH]; intros r.
  - cbn [app split_on]. rewrite N.eqb_refl. reflexivity.
  - cbn [app split_on]. rewrite IH. destruct (d =? c)%N; [reflexivity|].
    destruct (split_on c a) as [|p ps] eqn:E; [exfalso; exact (split_on_nonnil c a E)|]. reflexivity.
Qed.

Lemma split_on_first : forall c d r, d <> c -> exists l ls, split_on c (d :: r) = (d :: l) :: ls.
Proof.
  intros c d r N. cbn [split_on]. destruct (N.eqb_spec d c) as [E|_]; [congruence|].
  destruct (split_on c r); eauto.
Qed.

Lemma split_on_last : forall c s d, d <> c -> exists ls l, split_on c (s ++ [d]) = ls ++ [l ++ [d]].
Proof.
  intros c. induction s as [|x s IH]; intros d N.
  - exists [], []. cbn. destruct (N.eqb_spec d c); [congruence|reflexivity].
  - destruct (IH d N) as [ls [l E]]. cbn [app split_on]. rewrite E. destruct (x =? c)%N.
    + exists ([] :: ls), l. reflexivity.
    + destruct ls as [|p ls]; cbn [app].
      * exists [], (x :: l). reflexivity.
      * exists ((x :: p) :: ls), l. reflexivity.
Qed.

Lemma margin_zero : forall ls c l, In (c :: l) ls -> space c = false -> margin ls = Some 0.
Proof.
  induction ls as [|x ls IH]; intros c l H Hc; [destruct H|]. cbn [margin]. destruct H as [->|H].
  - unfold blank, indent. cbn [lstrip]. rewrite Hc. rewrite Nat.sub_diag. destruct (margin ls); reflexivity.
  - rewrite (IH _ _ H Hc). destruct (blank x); [reflexivity|]. now rewrite Nat.min_0_r.
Qed.

Lemma map_skip_0 : forall (ls : list pystr), map (skipn 0) ls = ls.
Proof. induction ls as [|l ls IH]; [reflexivity|]. cbn [map]. rewrite IH. reflexivity. Qed.

Lemma drop_empty_rev : forall ls l c, rev (drop_empty (rev (ls ++ [l ++ [c]]))) = ls ++ [l ++ [c]].
Proof.
  intros. rewrite rev_app_distr. cbn [rev app]. destruct l as [|x l]; cbn [app drop_empty rev];
    now rewrite rev_involutive.
Qed.

Definition anchored (ls : list pystr) : Prop :=
  ls = [] \/ exists c l, In (c :: l) ls /\ space c = false.

Lemma anchored_margin : forall ls, anchored ls ->
  match margin ls with Some m => map (skipn m) ls | None => ls end = ls.
Proof.
  intros ls [->|[c [l [H Hc]]]]; [reflexivity|]. rewrite (margin_zero _ _ _ H Hc). apply map_skip_0.
Qed.

Lemma cleandoc_id : forall c r r' c', no_tab (c :: r) -> space c = false -> c :: r = r' ++ [c'] -> c' <> NL ->
  (~ In NL (c :: r) \/ exists a d b, c :: r = a ++ NL :: d :: b /\ space d = false) ->
  cleandoc (c :: r) = c :: r.
Proof.
  intros c r r' c' T Hc E Hc' A. unfold cleandoc. rewrite expandtabs_id by assumption.
  assert (Nc : c <> NL) by (intros ->; discriminate).
  destruct (split_on_first NL c r Nc) as [l [ls S]].
  assert (AN : anchored ls).
  { destruct A as [A|[a [d [b [X Hd]]]]].
    - left. rewrite split_on_none in S by assumption. congruence.
    - right. rewrite X, split_on_break in S.
      assert (Nd : d <> NL) by (intros ->; discriminate).
      destruct (split_on_first NL d b Nd) as [m [ms M]]. rewrite M in S.
      destruct (split_on NL a) as [|p ps] eqn:Sa; [exfalso; exact (split_on_nonnil NL a Sa)|].
      cbn [app] in S. injection S as _ <-. exists d, m. split; [|exact Hd]. apply in_app_iff. right. now left. }
  rewrite S. rewrite (anchored_margin ls AN). rewrite lstrip_stop by assumption.
  destruct (split_on_last NL r' c' Hc') as [ks [k K]]. rewrite <- E, S in K. rewrite K.
  rewrite drop_empty_rev. rewrite <- K. cbn [drop_empty]. rewrite <- S. apply join_split.
Qed.

Lemma cleandoc_skip : forall c r r' c', no_tab (c :: r) -> space c = false -> c :: r = r' ++ [c'] -> c' <> NL ->
  cleandoc (NL :: c :: r) = c :: r.
Proof.
  intros c r r' c' T Hc E Hc'. unfold cleandoc.
  rewrite expandtabs_id by (intros [X|X]; [discriminate|exact (T X)]).
  assert (Nc : c <> NL) by (intros ->; discriminate).
  destruct (split_on_first NL c r Nc) as [l [ls S]].
  change (NL :: c :: r) with ([] ++ NL :: (c :: r)). rewrite split_on_break. rewrite S. change (split_on NL []) with [@nil N]. cbn [app].
  rewrite (margin_zero ((c :: l) :: ls) c l) by (now left || assumption). rewrite map_skip_0. cbn [lstrip].
  destruct (split_on_last NL r' c' Hc') as [ks [k K]]. rewrite <- E, S in K. rewrite K.
  change ([] :: ks ++ [k ++ [c']]) with (([] :: ks) ++ [k ++ [c']]). rewrite drop_empty_rev. cbn [app drop_empty].
  rewrite <- K. cbn [drop_empty]. rewrite <- S. apply join_split.
Qed.

(** ** The lines of the blocks *)

Lemma single_spaced_words : forall s, single_spaced s -> spaced (words s) = s.
Proof. intros s [ws [W ->]]. now rewrite words_spaced. Qed.

(** a block line: [head] is the text between the colons *)
Definition block (args : list pystr) (desc line : pystr) : Prop :=
  exists head, line = COLON :: head ++ COLON :: 32%N :: desc /\ words head = args /\
    (exists c r, head = c :: r /\ c <> COLON) /\ ~ In COLON head /\ ~ In NL head /\ no_tab head /\ single_spaced desc.

Lemma single_spaced_chars : forall s c, single_spaced s -> In c s -> space c = true -> c = 32%N.
Proof.
  intros s c [ws [W ->]] H Hc. unfold spaced in H. induction ws as [|w ws IH]; [destruct H|].
  inversion W as [|? ? [W1 W2] W3]; subst. rewrite Forall_forall in W2.
  destruct ws as [|w' ws].
  - cbn in H. apply W2 in H. congruence.
  - change (join [32%N] (w :: w' :: ws)) with (w ++ 32%N :: join [32%N] (w' :: ws)) in H.
    apply in_app_iff in H. destruct H as [H|[H|H]]; [apply W2 in H; congruence|congruence|auto].
Qed.

Lemma block_chars : forall args desc l, block args desc l -> ~ In NL l /\ no_tab l.
Proof.
  intros args desc l [h [-> [_ [_ [_ [N [T S]]]]]]]. split.
  - intros [X|X]; [discriminate|]. apply in_app_iff in X. destruct X as [X|[X|[X|X]]]; [auto|discriminate|discriminate|].
    apply single_spaced_chars in X; [discriminate|assumption|reflexivity].
  - intros [X|X]; [discriminate|]. apply in_app_iff in X. destruct X as [X|[X|[X|X]]]; [auto|discriminate|discriminate|].
    apply single_spaced_chars in X; [discriminate|assumption|reflexivity].
Qed.

Lemma block_view : forall args desc l q, block args desc l -> blanks q ->
  view (l ++ q) = Some (args, words desc).
Proof.
  intros args desc l q [h [-> [A [[c [r [-> Nc]]] [NC [_ [_ S]]]]]]] Q. unfold view.
  cbn [app lstrip]. rewrite N.eqb_refl. destruct (N.eqb_spec COLON c); [congruence|].
  rewrite <- app_assoc. cbn [app].
  change (c :: r ++ COLON :: 32%N :: desc ++ q) with ((c :: r) ++ COLON :: 32%N :: desc ++ q).
  rewrite partition_some by assumption. rewrite A. f_equal. f_equal.
  change (32%N :: desc ++ q) with ([32%N] ++ desc ++ q). rewrite words_blanks by (now repeat constructor).
  now apply words_trailing.
Qed.

Lemma word_chars : forall w c, word w -> space c = true -> ~ In c w.
Proof. intros w c [_ F] Hc H. rewrite Forall_forall in F. apply F in H. congruence. Qed.

Lemma block2 : forall kw n desc, word kw -> ~ In COLON kw -> word n -> ~ In COLON n -> single_spaced desc ->
  block [kw; n] desc (COLON :: kw ++ 32%N :: n ++ COLON :: 32%N :: desc).
Proof.
  intros kw n desc K KC W WC S. exists (kw ++ 32%N :: n). repeat apply conj.
  - rewrite <- app_assoc. reflexivity.
  - rewrite words_app by reflexivity. destruct K as [K1 K2], W as [W1 W2].
    unfold words. rewrite !words_from_nospace by assumption. cbn [app]. now rewrite !flush_word.
  - destruct kw as [|c r]; [destruct K; congruence|]. exists c, (r ++ 32%N :: n). split; [reflexivity|].
    intros ->. apply KC. now left.
  - intros H. apply in_app_iff in H. destruct H as [H|[H|H]]; [auto|discriminate|auto].
  - intros H. apply in_app_iff in H. destruct H as [H|[H|H]]; [|discriminate|];
      (eapply word_chars; [| |exact H]; [assumption|reflexivity]).
  - intros H. apply in_app_iff in H. destruct H as [H|[H|H]]; [|discriminate|];
      (eapply word_chars; [| |exact H]; [assumption|reflexivity]).
  - exact S.
Qed.

Lemma block1 : forall kw desc, word kw -> ~ In COLON kw -> single_spaced desc ->
  block [kw] desc (COLON :: kw ++ COLON :: 32%N :: desc).
Proof.
  intros kw desc K KC S. exists kw. repeat apply conj; try assumption; try reflexivity.
  - destruct K as [K1 K2]. unfold words. rewrite words_from_nospace by assumption. now apply flush_word.
  - destruct kw as [|c r]; [destruct K; congruence|]. exists c, r. split; [reflexivity|].
    intros ->. apply KC. now left.
  - eapply word_chars; [assumption|reflexivity].
  - eapply word_chars; [assumption|reflexivity].
Qed.

Ltac word_lit := split; [discriminate|cbv; repeat constructor].
Ltac no_colon := cbv; intuition discriminate.

Lemma param_block : forall e, entry_ok e -> block [str "param"; fst e] (snd (snd e)) (param_str (snd e)).
Proof.
  intros [k [n x]] [E [W [C S]]]. cbn [fst snd] in *. subst k.
  apply (block2 (str "param") n x); try assumption; [word_lit|no_colon].
Qed.

Lemma raises_block : forall e, entry_ok e -> block [str "raises"; fst e] (snd (snd e)) (raises_str (snd e)).
Proof.
  intros [k [n x]] [E [W [C S]]]. cbn [fst snd] in *. subst k.
  apply (block2 (str "raises") n x); try assumption; [word_lit|no_colon].
Qed.

Lemma returns_block : forall x, single_spaced x -> block [str "returns"] x (returns_str x).
Proof. intros x S. apply (block1 (str "returns") x); try assumption; [word_lit|no_colon]. Qed.

Lemma see_block : forall x, single_spaced x -> block [str "see"] x (see_str x).
Proof. intros x S. apply (block1 (str "see") x); try assumption; [word_lit|no_colon]. Qed.

Definition is_block (l : pystr) : Prop := exists args desc, block args desc l.

Lemma block_lines_blocks : forall d, doc_ok d -> Forall is_block (block_lines d).
Proof.
  intros d D. unfold block_lines. repeat (apply Forall_app; split).
  - apply Forall_forall. intros l H. apply in_map_iff in H. destruct H as [e [<- E]].
    eexists _, _. apply param_block. apply (proj1 (Forall_forall _ _) (proj2 (ok_params d D)) e E).
  - pose proof (ok_returns d D) as R. destruct (returns d) as [r|]; [|constructor].
    constructor; [|constructor]. eexists _, _. now apply returns_block.
  - apply Forall_forall. intros l H. apply in_map_iff in H. destruct H as [e [<- E]].
    eexists _, _. apply raises_block. apply (proj1 (Forall_forall _ _) (proj2 (ok_raises d D)) e E).
  - apply Forall_forall. intros l H. apply in_map_iff in H. destruct H as [e [<- E]].
    eexists _, _. apply see_block. apply (proj1 (Forall_forall _ _) (ok_see d D) e E).
Qed.

(** the fields cut from consecutive block lines *)
Fixpoint fieldize (ls : list pystr) : list pystr :=
  match ls with
  | [] => []
  | [l] => [l]
  | l :: ls => (l ++ [NL]) :: fieldize ls
  end.

Lemma fieldize_concat : forall ls, ls <> [] -> concat (map (fun l => NL :: l) ls) = NL :: concat (fieldize ls).
Proof.
  induction ls as [|l ls IH]; intros H; [congruence|]. destruct ls as [|l' ls]; [reflexivity|].
  change (concat (map (fun l => NL :: l) (l :: l' :: ls))) with
    (NL :: l ++ concat (map (fun l => NL :: l) (l' :: ls))).
  rewrite IH by discriminate. change (fieldize (l :: l' :: ls)) with ((l ++ [NL]) :: fieldize (l' :: ls)).
  cbn [concat]. rewrite <- app_assoc. reflexivity.
Qed.

Lemma fieldize_nonnil : forall l ls, fieldize (l :: ls) <> [].
Proof. intros l [|l' ls]; discriminate. Qed.

Lemma no_NL_no_inner : forall s, ~ In NL s -> no_inner_marker s.
Proof. intros s H a b ->. apply H. apply in_app_iff. right. now left. Qed.

Lemma no_inner_snoc : forall s, ~ In NL s -> no_inner_marker (s ++ [NL]).
Proof.
  intros s H a b E. destruct (@exists_last _ (COLON :: b)) as [q [x X]]; [discriminate|].
  rewrite X in E. change (NL :: q ++ [x]) with ((NL :: q) ++ [x]) in E. rewrite app_assoc in E.
  apply app_inj_tail in E. destruct E as [E _]. apply H. rewrite E. apply in_app_iff. right. now left.
Qed.

Lemma fieldize_fields : forall ls, Forall is_block ls ->
  Forall (fun f => exists r, f = COLON :: r /\ no_inner_marker f) (fieldize ls).
Proof.
  induction ls as [|l ls IH]; intros H; [constructor|]. inversion H as [|? ? [args [desc B]] H']; subst.
  destruct (block_chars _ _ _ B) as [N _]. destruct B as [h [E _]].
  destruct ls as [|l' ls]; constructor; try constructor; try (now apply IH).
  - rewrite E in N |- *. eexists. split; [reflexivity|]. now apply no_NL_no_inner.
  - exists ((h ++ COLON :: 32%N :: desc) ++ [NL]). split; [now rewrite E|]. now apply no_inner_snoc.
Qed.

Lemma fieldize_ends : forall ls pre f f' post, fieldize ls = pre ++ f :: f' :: post -> ends_line f.
Proof.
  induction ls as [|l ls IH]; intros pre f f' post E; [destruct pre; discriminate|].
  destruct ls as [|l' ls].
  - destruct pre as [|x [|y pre]]; discriminate.
  - change (fieldize (l :: l' :: ls)) with ((l ++ [NL]) :: fieldize (l' :: ls)) in E.
    destruct pre as [|x pre]; cbn [app] in E; injection E as E1 E2.
    + exists l. congruence.
    + exact (IH _ _ _ _ E2).
Qed.

Lemma fieldize_views : forall ls, Forall is_block ls -> Forall2 (fun f g => view f = view g) (fieldize ls) ls.
Proof.
  induction ls as [|l ls IH]; intros H; [constructor|]. inversion H as [|? ? [args [desc B]] H']; subst.
  destruct ls as [|l' ls]; [constructor; [reflexivity|constructor]|].
  change (fieldize (l :: l' :: ls)) with ((l ++ [NL]) :: fieldize (l' :: ls)).
  constructor; [|now apply IH]. rewrite (block_view _ _ _ [NL] B) by (now repeat constructor).
  rewrite <- (app_nil_r l). now rewrite (block_view _ _ _ [] B) by constructor.
Qed.

(** ** Replaying the blocks *)

Lemma dict_set_new : forall V (d : list (pystr * V)) k v, ~ In k (map fst d) -> dict_set d k v = d ++ [(k, v)].
Proof.
  induction d as [|[k0 v0] d IH]; intros k v H; [reflexivity|]. cbn [dict_set].
  destruct (pystr_eqb k0 k) eqn:E.
  - apply pystr_eqb_eq in E. exfalso. apply H. now left.
  - cbn [app]. rewrite IH; [reflexivity|]. intros X. apply H. now right.
Qed.

Lemma chunk_of_block : forall d args desc l, block args desc l ->
  parse_chunk d l = Ok (apply_field d args desc).
Proof.
  intros d args desc l B. rewrite parse_chunk_view. rewrite <- (app_nil_r l).
  rewrite (block_view _ _ _ [] B) by constructor. destruct B as [h [_ [_ [_ [_ [_ [_ S]]]]]]].
  now rewrite single_spaced_words.
Qed.

Lemma replay_params : forall es s l p r x a, NoDup (map fst p ++ map fst es) -> Forall entry_ok es ->
  parse_chunks (Docstring s l p r x a) (map (fun e => param_str (snd e)) es) = Ok (Docstring s l (p ++ es) r x a).
Proof.
  induction es as [|e es IH]; intros s l p r x a N F; [cbn; now rewrite app_nil_r|].
  inversion F as [|? ? E F']; subst. cbn [map parse_chunks].
  rewrite (chunk_of_block _ _ _ _ (param_block e E)). cbn [bind apply_field].
  rewrite pystr_eqb_refl. cbn [params short_description long_description returns raises see_also].
  rewrite dict_set_new.
  - rewrite IH; [|now rewrite map_app, <- app_assoc|assumption].
    destruct e as [k [n y]]. destruct E as [E _]. cbn [fst snd] in *. subst. now rewrite <- app_assoc.
  - cbn [map] in N. intros H. apply NoDup_remove_2 in N. apply N. apply in_app_iff. now left.
Qed.

Lemma replay_raises : forall es s l p r x a, NoDup (map fst x ++ map fst es) -> Forall entry_ok es ->
  parse_chunks (Docstring s l p r x a) (map (fun e => raises_str (snd e)) es) = Ok (Docstring s l p r (x ++ es) a).
Proof.
  induction es as [|e es IH]; intros s l p r x a N F; [cbn; now rewrite app_nil_r|].
  inversion F as [|? ? E F']; subst. cbn [map parse_chunks].
  rewrite (chunk_of_block _ _ _ _ (raises_block e E)). cbn [bind apply_field].
  change (pystr_eqb (str "raises") (str "param")) with false. rewrite pystr_eqb_refl, orb_true_r.
  cbn [params short_description long_description returns raises see_also].
  rewrite dict_set_new.
  - rewrite IH; [|now rewrite map_app, <- app_assoc|assumption].
    destruct e as [k [n y]]. destruct E as [E _]. cbn [fst snd] in *. subst. now rewrite <- app_assoc.
  - cbn [map] in N. intros H. apply NoDup_remove_2 in N. apply N. apply in_app_iff. now left.
Qed.

Lemma replay_see : forall ts s l p r x a, Forall single_spaced ts ->
  parse_chunks (Docstring s l p r x a) (map see_str ts) = Ok (Docstring s l p r x (a ++ ts)).
Proof.
  induction ts as [|t ts IH]; intros s l p r x a F; [cbn; now rewrite app_nil_r|].
  inversion F as [|? ? E F']; subst. cbn [map parse_chunks].
  rewrite (chunk_of_block _ _ _ _ (see_block t E)). cbn [bind apply_field].
  change (pystr_eqb (str "see") (str "return") || pystr_eqb (str "see") (str "returns")) with false.
  rewrite pystr_eqb_refl. cbn [orb params short_description long_description returns raises see_also].
  rewrite IH by assumption. now rewrite <- app_assoc.
Qed.

Lemma replay : forall d, doc_ok d ->
  parse_chunks (Docstring (short_description d) (long_description d) [] None [] []) (block_lines d) = Ok d.
Proof.
  intros d D. unfold block_lines. rewrite parse_chunks_app, replay_params; [|apply (ok_params d D)|apply (ok_params d D)].
  cbn [bind app]. rewrite parse_chunks_app.
  assert (R : parse_chunks (Docstring (short_description d) (long_description d) (params d) None [] [])
                match returns d with Some r => [returns_str r] | None => [] end =
              Ok (Docstring (short_description d) (long_description d) (params d) (returns d) [] [])).
  { pose proof (ok_returns d D) as R. destruct (returns d) as [r|]; [|reflexivity]. cbn [parse_chunks].
    rewrite (chunk_of_block _ _ _ _ (returns_block r R)). reflexivity. }
  rewrite R. cbn [bind]. rewrite parse_chunks_app, replay_raises; [|apply (ok_raises d D)|apply (ok_raises d D)].
  cbn [bind app]. rewrite replay_see by (apply (ok_see d D)). destruct d; reflexivity.
Qed.

(** ** The description *)

Lemma pieces_quiet_app : forall a bol b, pieces bol a = (a, []) ->
  pieces bol (a ++ b) = let (p, ps) := pieces (line_start bol a) b in (a ++ p, ps).
Proof.
  induction a as [|c a IH]; intros bol b H.
  - cbn [app line_start]. now destruct (pieces bol b).
  - cbn [pieces] in H. destruct (pieces (c =? NL)%N a) as [p ps] eqn:P.
    destruct (bol && (c =? COLON)%N) eqn:C; [discriminate|]. injection H as -> ->.
    cbn [app pieces line_start]. rewrite (IH _ b P). destruct (pieces (line_start (c =? NL)%N a) b). now rewrite C.
Qed.

Lemma marker_pieces : forall s, no_marker s -> pieces true s = (s, []).
Proof. intros s [H1 H2]. apply pieces_quiet; [intros _; exact H1|exact H2]. Qed.

Lemma ends_char : forall s r c, trimmed (s ++ [c]) -> s ++ [c] = r -> space c = false.
Proof. intros s r c [_ [r' [c' [E H]]]] _. apply app_inj_tail in E. destruct E as [_ ->]. exact H. Qed.

(** the description text and what parse_text makes of it *)
Definition description (d : docstring) : pystr :=
  match short_description d, long_description d with
  | Some s, Some l => s ++ NL :: NL :: l
  | Some s, None => s
  | None, _ => []
  end.

Lemma trimmed_truthy : forall s, trimmed s -> truthy (Some s) = true.
Proof. intros s [[c [r [-> _]]] _]. reflexivity. Qed.

Lemma docstring_str_eq : forall d, doc_ok d -> docstring_str d =
  description d ++ match short_description d, block_lines d with Some _, _ :: _ => [NL] | _, _ => [] end
  ++ concat (map (fun l => NL :: l) (block_lines d)).
Proof.
  intros d D. unfold docstring_str, description. pose proof (ok_short d D) as S. pose proof (ok_long d D) as L.
  pose proof (ok_only d D) as O. destruct (short_description d) as [s|].
  - destruct S as [S _]. rewrite (trimmed_truthy s S). destruct (long_description d) as [l|].
    + destruct L as [L _]. rewrite (trimmed_truthy l L). cbn [orb andb text_of app].
      destruct (block_lines d); reflexivity.
    + cbn [truthy orb andb text_of]. destruct (block_lines d); reflexivity.
  - destruct (long_description d) as [l|]; [exfalso; apply O; [discriminate|reflexivity]|]. reflexivity.
Qed.

Lemma trim_id : forall s, trimmed s -> trim s = s.
Proof.
  intros s H. rewrite <- (trim_trimmed_id [] s [] ) at 2; [|constructor|exact H|constructor].
  cbn [app]. now rewrite app_nil_r.
Qed.

Lemma trim_after : forall s q, trimmed s -> blanks q -> trim (s ++ q) = s.
Proof. intros s q H Q. exact (trim_trimmed_id [] s q (Forall_nil _) H Q). Qed.

Lemma or_none_trimmed : forall s, trimmed s -> or_none s = Some s.
Proof. intros s [[c [r [-> _]]] _]. reflexivity. Qed.

(** [q] is empty or two line ends *)
Lemma descriptions_eq : forall d q, doc_ok d -> short_description d <> None -> q = [] \/ q = [NL; NL] ->
  descriptions (description d ++ q) = (short_description d, long_description d).
Proof.
  intros d q D N Q. unfold descriptions, description. pose proof (ok_short d D) as S. pose proof (ok_long d D) as L.
  destruct (short_description d) as [s|]; [|congruence]. destruct S as [S1 [S2 [S3 S4]]].
  assert (SS : or_none (unbreak (trim s)) = Some s).
  { rewrite trim_id, unbreak_id by assumption. now apply or_none_trimmed. }
  assert (B : blanks q) by (destruct Q as [->| ->]; repeat constructor).
  destruct (long_description d) as [l|].
  - destruct L as [L1 [L2 L3]]. rewrite <- app_assoc. cbn [app]. rewrite paragraph_break by assumption.
    rewrite SS. rewrite (trim_after l q L1 B). now rewrite or_none_trimmed.
  - destruct Q as [->| ->].
    + rewrite app_nil_r, paragraph_line by assumption. now rewrite SS.
    + rewrite paragraph_break by assumption. now rewrite SS.
Qed.

Lemma description_quiet : forall d, doc_ok d -> pieces true (description d) = (description d, []).
Proof.
  intros d D. unfold description. pose proof (ok_short d D) as S. pose proof (ok_long d D) as L.
  destruct (short_description d) as [s|]; [|reflexivity]. destruct S as [_ [_ [_ S]]].
  destruct (long_description d) as [l|].
  - destruct L as [_ [_ L]]. rewrite (pieces_quiet_app s true _ (marker_pieces s S)).
    cbn [pieces]. change ((NL =? NL)%N) with true. rewrite (marker_pieces l L).
    rewrite andb_false_r. destruct (line_start true s); reflexivity.
  - now apply marker_pieces.
Qed.

Lemma description_ends : forall d, doc_ok d -> short_description d <> None ->
  exists c r, description d = c :: r /\ space c = false /\ exists r' c', c :: r = r' ++ [c'] /\ space c' = false.
Proof.
  intros d D N. unfold description. pose proof (ok_short d D) as S. pose proof (ok_long d D) as L.
  destruct (short_description d) as [s|]; [|congruence]. destruct S as [[[c [r [-> Hc]]] E] _].
  destruct (long_description d) as [l|].
  - destruct L as [[_ [r' [c' [-> Hc']]]] _]. exists c, (r ++ NL :: NL :: r' ++ [c']).
    split; [reflexivity|]. split; [exact Hc|]. exists (c :: r ++ NL :: NL :: r'), c'. split; [|exact Hc'].
    cbn [app]. rewrite <- app_assoc. reflexivity.
  - exists c, r. split; [reflexivity|]. split; [exact Hc|exact E].
Qed.

Lemma description_no_tab : forall d, doc_ok d -> no_tab (description d).
Proof.
  intros d D. unfold description, no_tab. pose proof (ok_short d D) as S. pose proof (ok_long d D) as L.
  destruct (short_description d) as [s|]; [|intros []]. destruct S as [_ [S _]].
  destruct (long_description d) as [l|]; [|exact S]. destruct L as [_ [L _]].
  intros H. apply in_app_iff in H. destruct H as [H|[H|[H|H]]]; [auto|discriminate|discriminate|auto].
Qed.

Lemma description_anchor : forall d, doc_ok d -> short_description d <> None ->
  ~ In NL (description d) \/ exists a x b, description d = a ++ NL :: x :: b /\ space x = false.
Proof.
  intros d D N. unfold description. pose proof (ok_short d D) as S. pose proof (ok_long d D) as L.
  destruct (short_description d) as [s|]; [|congruence]. destruct S as [_ [_ [S _]]].
  destruct (long_description d) as [l|]; [|now left]. right.
  destruct L as [[[c [r [-> Hc]]] _] _]. exists (s ++ [NL]), c, r. split; [|exact Hc].
  rewrite <- app_assoc. reflexivity.
Qed.

(** ** The concatenated fields *)

Lemma fields_no_tab : forall ls, Forall is_block ls -> no_tab (concat (fieldize ls)).
Proof.
  induction ls as [|l ls IH]; intros H; [intros []|]. inversion H as [|? ? [args [desc B]] H']; subst.
  destruct (block_chars _ _ _ B) as [_ T]. destruct ls as [|l' ls].
  - cbn. rewrite app_nil_r. exact T.
  - change (fieldize (l :: l' :: ls)) with ((l ++ [NL]) :: fieldize (l' :: ls)). cbn [concat].
    intros X. apply in_app_iff in X. destruct X as [X|X]; [|exact (IH H' X)].
    apply in_app_iff in X. destruct X as [X|[X|[]]]; [exact (T X)|discriminate].
Qed.

Lemma fields_end : forall ls l, Forall is_block (l :: ls) ->
  exists r c, concat (fieldize (l :: ls)) = r ++ [c] /\ c <> NL.
Proof.
  induction ls as [|l' ls IH]; intros l H; inversion H as [|? ? [args [desc B]] H']; subst.
  - destruct (block_chars _ _ _ B) as [N _]. destruct B as [h [E _]].
    cbn [fieldize concat]. rewrite app_nil_r. destruct (@exists_last _ l) as [r [c X]]; [rewrite E; discriminate|].
    exists r, c. split; [exact X|]. intros ->. apply N. rewrite X. apply in_app_iff. right. now left.
  - change (fieldize (l :: l' :: ls)) with ((l ++ [NL]) :: fieldize (l' :: ls)). cbn [concat].
    destruct (IH l' H') as [r [c [E N]]]. rewrite E. exists ((l ++ [NL]) ++ r), c. split; [|exact N].
    now rewrite app_assoc.
Qed.

Lemma fields_start : forall l ls, Forall is_block (l :: ls) -> exists r, concat (fieldize (l :: ls)) = COLON :: r.
Proof.
  intros l ls H. inversion H as [|? ? [args [desc [h [E _]]]] H']; subst.
  destruct ls as [|l' ls]; eexists; reflexivity.
Qed.

Lemma pieces_of_fields : forall ls, ls <> [] -> Forall is_block ls ->
  pieces true (concat (fieldize ls)) = ([], fieldize ls).
Proof.
  intros ls N H. apply pieces_fields.
  - destruct ls; [congruence|apply fieldize_nonnil].
  - now apply fieldize_fields.
  - apply fieldize_ends.
Qed.

Theorem docstring_round_trip : forall d, doc_ok d -> parse_text (docstring_str d) = Ok d.
Proof.
  intros d D. rewrite docstring_str_eq by assumption. pose proof (block_lines_blocks d D) as B.
  pose proof (replay d D) as R.
  destruct (short_description d) as [s|] eqn:SD.
  - assert (N : short_description d <> None) by congruence.
    destruct (description_ends d D N) as [c [r [E [Hc [r' [c' [E' Hc']]]]]]].
    pose proof (description_no_tab d D) as T. pose proof (description_quiet d D) as Q.
    destruct (block_lines d) as [|l ls] eqn:BL.
    + cbn [map concat app]. rewrite app_nil_r. cbn [parse_chunks] in R. rewrite <- R.
      unfold parse_text. pose proof (description_anchor d D N) as A. rewrite E in *.
      rewrite (cleandoc_id c r r' c' T Hc E'); [|intros ->; discriminate|assumption]. rewrite Q.
      rewrite <- E. rewrite <- (app_nil_r (description d)).
      rewrite (descriptions_eq d [] D N) by (now left). rewrite SD. reflexivity.
    + rewrite fieldize_concat by discriminate. cbn [app].
      destruct (fields_start l ls B) as [q F]. destruct (fields_end ls l B) as [g [y [G Hy]]].
      set (X := concat (fieldize (l :: ls))) in *.
      assert (PX : pieces true X = ([], fieldize (l :: ls))).
      { apply pieces_of_fields; [discriminate|exact B]. }
      assert (CL : cleandoc (description d ++ NL :: NL :: X) = description d ++ NL :: NL :: X).
      { rewrite E. cbn [app]. apply (cleandoc_id c _ (c :: r ++ NL :: NL :: g) y).
        - intros H. rewrite E in T. change (c :: r ++ NL :: NL :: X) with ((c :: r) ++ NL :: NL :: X) in H.
          apply in_app_iff in H. destruct H as [H|[H|[H|H]]]; [auto|discriminate|discriminate|].
          exact (fields_no_tab _ B H).
        - exact Hc.
        - rewrite G. cbn [app]. rewrite <- app_assoc. reflexivity.
        - exact Hy.
        - right. exists (c :: r ++ [NL]), COLON, q. split; [|reflexivity]. rewrite F. cbn [app].
          rewrite <- app_assoc. reflexivity. }
      unfold parse_text.
      assert (NE : exists z zs, description d ++ NL :: NL :: X = z :: zs) by (rewrite E; eexists _, _; reflexivity).
      destruct NE as [z [zs Z]]. rewrite Z. rewrite <- Z. rewrite CL.
      rewrite (pieces_quiet_app _ true _ Q).
      change (NL :: NL :: X) with ([NL; NL] ++ X).
      assert (P2 : pieces (line_start true (description d)) ([NL; NL] ++ X) = ([NL; NL], fieldize (l :: ls))).
      { rewrite pieces_quiet_app; [|destruct (line_start true (description d)); reflexivity].
        change (line_start (line_start true (description d)) [NL; NL]) with true. rewrite PX. reflexivity. }
      rewrite P2. rewrite (descriptions_eq d [NL; NL] D N) by (now right). rewrite SD.
      rewrite (parse_chunks_ext _ _ (fieldize_views _ B)). exact R.
  - assert (LD : long_description d = None).
    { pose proof (ok_only d D) as O. destruct (long_description d); [|reflexivity].
      exfalso. apply O; [discriminate|exact SD]. }
    unfold description. rewrite SD. cbn [app].
    destruct (block_lines d) as [|l ls] eqn:BL.
    + cbn [map concat]. cbn [parse_chunks] in R. rewrite <- R, LD. reflexivity.
    + rewrite fieldize_concat by discriminate. cbn [app].
      destruct (fields_start l ls B) as [q F]. destruct (fields_end ls l B) as [g [y [G Hy]]].
      pose proof (pieces_of_fields (l :: ls) ltac:(discriminate) B) as PX.
      pose proof (fields_no_tab _ B) as FT.
      unfold parse_text. rewrite F in PX, G, FT |- *. rewrite (cleandoc_skip COLON q g y FT eq_refl G Hy).
      rewrite PX. cbn [descriptions paragraph or_none]. rewrite LD in R.
      rewrite (parse_chunks_ext _ _ (fieldize_views _ B)). exact R.
Qed.

(** ** What is parsed can be written, almost always *)

Lemma trim_substring : forall s c, In c (trim s) -> In c s.
Proof.
  intros s c H. destruct (trim_split s) as [p [q [E _]]]. rewrite E. apply in_app_iff. right. apply in_app_iff. now left.
Qed.

Lemma no_inner_sub : forall a s b, no_inner_marker (a ++ s ++ b) -> no_inner_marker s.
Proof.
  intros a s b H x y ->. apply (H (a ++ x) (y ++ b)). rewrite <- !app_assoc. cbn [app]. reflexivity.
Qed.

Lemma unbreak_trimmed : forall s, trimmed s -> trimmed (unbreak s).
Proof.
  intros s [[c [r [E Hc]]] [r' [c' [E' Hc']]]]. split.
  - rewrite E. unfold unbreak. cbn [map]. eexists _, _. split; [reflexivity|]. now rewrite unbreak_space.
  - rewrite E'. unfold unbreak. rewrite map_app. cbn [map]. eexists _, _. split; [reflexivity|]. now rewrite unbreak_space.
Qed.

Lemma unbreak_tab : forall s, no_tab s -> no_tab (unbreak s).
Proof.
  intros s H X. unfold unbreak in X. apply in_map_iff in X. destruct X as [c [E C]].
  destruct (N.eqb_spec c NL); [discriminate|]. subst. auto.
Qed.

Theorem parse_doc_ok : forall t d, parse_text t = Ok d ->
  (long_description d <> None -> short_description d <> None) ->
  opt_ok (fun s => forall r, s <> COLON :: r) (short_description d) ->
  opt_ok (fun s => forall r, s <> COLON :: r) (long_description d) -> doc_ok d.
Proof.
  intros t d H O S L. unfold parse_text in H.
  destruct t as [|c0 t0]; [injection H as <-; constructor; cbn; auto; try (split; constructor); constructor|].
  set (t := c0 :: t0) in *. clearbody t.
  pose proof (cleandoc_no_tab t) as T. pose proof (pieces_layout (cleandoc t)) as LY.
  destruct (pieces true (cleandoc t)) as [dc fs]. cbn [fst snd] in LY. destruct LY as [E [Q1 Q2] _ _ _].
  destruct (descriptions dc) as [s l] eqn:DD.
  pose proof (chunks_descriptions _ _ _ H) as [ES EL]. cbn [short_description long_description] in ES, EL.
  assert (F : fields_ok d).
  { eapply chunks_ok; [exact H|]. unfold fields_ok. cbn. repeat apply conj; constructor. }
  destruct F as [F1 [F2 [F3 F4]]].
  assert (Tdc : no_tab dc) by (intros X; apply T; rewrite E; apply in_app_iff; now left).
  unfold descriptions in DD. destruct (paragraph dc) as [a b] eqn:P. apply paragraph_split in P.
  apply pair_equal_spec in DD. destruct DD as [DS DL].
  constructor; try assumption.
  - rewrite ES in S |- *. subst s.
    destruct (unbreak (trim a)) as [|x u] eqn:U; [exact Logic.I|]. cbn [or_none opt_ok] in S |- *.
    assert (TR : trimmed (trim a)).
    { destruct (trim_trimmed a) as [X|X]; [rewrite X in U; discriminate|exact X]. }
    rewrite <- U in *. split; [|split; [|split]].
    + now apply unbreak_trimmed.
    + apply unbreak_tab. intros X. apply trim_substring in X. apply Tdc. rewrite P. apply in_app_iff. now left.
    + apply unbreak_no_NL.
    + split; [exact S|]. apply no_NL_no_inner. apply unbreak_no_NL.
  - rewrite EL in L |- *. subst l. destruct b as [r|]; [|exact Logic.I].
    destruct (trim r) as [|x u] eqn:U; [exact Logic.I|]. cbn [or_none opt_ok] in L |- *.
    destruct (trim_trimmed r) as [X|TR]; [rewrite X in U; discriminate|]. rewrite <- U in *.
    split; [|split].
    + exact TR.
    + intros X. apply trim_substring in X. apply Tdc. rewrite P. apply in_app_iff. right. right. now right.
    + split; [exact L|]. destruct (trim_split r) as [p [q [Er _]]].
      apply (no_inner_sub (a ++ NL :: NL :: p) _ q). rewrite P in Q2. rewrite Er in Q2.
      rewrite <- app_assoc. cbn [app]. exact Q2.
Qed.
