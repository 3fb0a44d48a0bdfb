(** C37, C38, C42: integer widths and enumerations. *)
From Coq Require Import String List NArith ZArith Bool Lia.
From Verif Require Import Base Json PyTypes SpecNumbers NumbersProofs ClassDef SpecClassDef SpecLabels ClassDefProofs.
Import ListNotations.
Open Scope list_scope.

(** C37.  The type chosen for a range of integers is the narrowest one that
    contains the range, if any of the three does. *)
Theorem C37_smallest : forall lo hi, (lo <= hi)%Z -> (exists t, t <> PlainInt /\ fits t lo /\ fits t hi) ->
  integer_range_to_type lo hi <> PlainInt /\
  (forall x, (lo <= x <= hi)%Z -> fits (integer_range_to_type lo hi) x) /\
  forall t, narrower t (integer_range_to_type lo hi) -> exists x, (lo <= x <= hi)%Z /\ ~ fits t x.
Proof.
  intros lo hi H (t & NT & F1 & F2).
  assert (B : (- 2 ^ 63 <= lo)%Z /\ (hi < 2 ^ 63)%Z) by (destruct t; try contradiction; powers; lia). destruct B as [B1 B2].
  split; [|split].
  - unfold integer_range_to_type. destruct ((- 2 ^ 15 <=? lo)%Z && (hi <? 2 ^ 15)%Z); [discriminate|].
    destruct ((- 2 ^ 31 <=? lo)%Z && (hi <? 2 ^ 31)%Z); discriminate.
  - intros x X. exact (range_fits lo hi x X B1 B2).
  - intros u N. pose proof (range_least lo hi u H N) as L.
    assert (D : fits u lo \/ ~ fits u lo) by (destruct u; powers; lia). destruct D as [D|D]; [|exists lo; split; [lia | exact D]].
    exists hi. split; [lia|]. intros D'. apply L. split; assumption.
Qed.
Print Assumptions C37_smallest.

(** ... and [int64] otherwise, which then does not contain the range. *)
Theorem C37_beyond : forall lo hi, (lo <= hi)%Z -> ~ (exists t, t <> PlainInt /\ fits t lo /\ fits t hi) ->
  integer_range_to_type lo hi = Int64 /\ exists x, (lo <= x <= hi)%Z /\ ~ fits Int64 x.
Proof.
  intros lo hi H N.
  assert (D : ~ (fits Int64 lo /\ fits Int64 hi)) by (intros D; apply N; exists Int64; split; [discriminate | exact D]).
  split.
  - unfold integer_range_to_type. destruct ((- 2 ^ 15 <=? lo)%Z && (hi <? 2 ^ 15)%Z) eqn:Q1; [exfalso; apply D; powers; lia|].
    destruct ((- 2 ^ 31 <=? lo)%Z && (hi <? 2 ^ 31)%Z) eqn:Q2; [exfalso; apply D; powers; lia|]. reflexivity.
  - assert (X : fits Int64 lo \/ ~ fits Int64 lo) by (powers; lia). destruct X as [X|X]; [|exists lo; split; [lia | exact X]].
    exists hi. split; [lia|]. intros Y. apply D. split; assumption.
Qed.
Print Assumptions C37_beyond.

(** C37.  The ranges that the types declare are those of two's complement
    integers. *)
Theorem C37_declared : forall t lo hi, declared_range t = Some (lo, hi) -> forall x, (lo <= x <= hi)%Z <-> fits t x.
Proof. intros t lo hi Q x. symmetry. exact (declared_fits t lo hi Q x). Qed.
Print Assumptions C37_declared.

(** C37.  The type of an enumeration of integers in a schema is the narrowest one
    with all of them, whatever other keywords there are. *)
Theorem C37_enum : forall vs minimum maximum, vs <> [] -> Forall (fits Int64) vs ->
  exists t, integer_node_type None (Some vs) minimum maximum = Ok t /\ Forall (fits t) vs /\
    forall u, narrower u t -> ~ Forall (fits u) vs.
Proof. exact enum_width. Qed.
Print Assumptions C37_enum.

(** C37.  A format that names a width decides alone. *)
Definition width_name (t : int_type) (s : pystr) : Prop :=
  t = Int16 /\ s = str "int16" \/ t = Int32 /\ s = str "int32" \/ t = Int64 /\ s = str "int64".

Theorem C37_format : forall t s enum minimum maximum, width_name t s ->
  integer_node_type (Some s) enum minimum maximum = Ok t.
Proof. intros t s enum minimum maximum [[-> ->]|[[-> ->]|[-> ->]]]; reflexivity. Qed.
Print Assumptions C37_format.

(** C37.  Otherwise bounds count only together, and every other node is a plain
    integer; formats of other names are ignored. *)
Theorem C37_bounds : forall format minimum maximum,
  (forall s, format = Some s -> forall t, ~ width_name t s) ->
  (forall lo hi, minimum = Some lo -> maximum = Some hi -> (lo <= hi)%Z -> fits Int64 lo -> fits Int64 hi ->
    exists t, integer_node_type format None minimum maximum = Ok t /\ (forall x, (lo <= x <= hi)%Z -> fits t x) /\
      forall u, narrower u t -> exists x, (lo <= x <= hi)%Z /\ ~ fits u x) /\
  (minimum = None \/ maximum = None -> integer_node_type format None minimum maximum = Ok PlainInt) /\
  (forall vs, integer_node_type format (Some vs) minimum maximum = integer_node_type None (Some vs) None None).
Proof.
  intros format minimum maximum NW.
  assert (K : forall enum, integer_node_type format enum minimum maximum = integer_node_type None enum minimum maximum).
  { intros enum. destruct format as [s|]; [|reflexivity]. specialize (NW s eq_refl). unfold integer_node_type.
    destruct (pystr_eqb s (str "int16")) eqn:Q1; [apply pystr_eqb_eq in Q1; exfalso; apply (NW Int16); left; split; [reflexivity|exact Q1]|].
    destruct (pystr_eqb s (str "int32")) eqn:Q2; [apply pystr_eqb_eq in Q2; exfalso; apply (NW Int32); right; left; split; [reflexivity|exact Q2]|].
    destruct (pystr_eqb s (str "int64")) eqn:Q3; [apply pystr_eqb_eq in Q3; exfalso; apply (NW Int64); right; right; split; [reflexivity|exact Q3]|].
    reflexivity. }
  split; [|split].
  - intros lo hi -> -> H F1 F2. exists (integer_range_to_type lo hi). rewrite K. split; [reflexivity|].
    apply C37_smallest; [exact H|]. exists Int64. split; [discriminate|]. split; assumption.
  - intros H. rewrite K. destruct minimum, maximum; try reflexivity. destruct H; discriminate.
  - intros vs. rewrite K. reflexivity.
Qed.
Print Assumptions C37_bounds.

Example C37_witness_node :
  integer_node_type (Some (str "int64")) (Some [1]%Z) None None = Ok Int64 /\
  integer_node_type (Some (str "uint8")) None (Some 0%Z) (Some 70000%Z) = Ok Int32 /\
  integer_node_type (Some (str "uint8")) None (Some 0%Z) None = Ok PlainInt.
Proof. repeat split. Qed.

Example C37_witness :
  integer_range_to_type (-32768) 32767 = Int16 /\ integer_range_to_type (-32769) 0 = Int32 /\
  integer_range_to_type 0 2147483648 = Int64 /\
  integer_node_type None (Some [70000; -5; 3]%Z) None None = Ok Int32 /\
  integer_range_to_type 0 9223372036854775808 = Int64.
Proof. repeat split. Qed.

Lemma word_char_spec : forall uni c, word_char uni c = true <-> word uni c.
Proof.
  intros uni c. unfold word_char, word. destruct (N.ltb_spec c 128) as [L|L].
  - assert (A : (N.leb 48 c && N.leb c 57) || (N.leb 65 c && N.leb c 90) || (N.leb 97 c && N.leb c 122) || N.eqb c 95 = true <-> In c ascii_word).
    { rewrite <- (N2Nat.id c) in *. assert (X : (N.to_nat c < 128)%nat) by lia. revert X. generalize (N.to_nat c). clear. intros n X.
      transitivity (existsb (N.eqb (N.of_nat n)) ascii_word = true).
      - assert (Y : forallb (fun n => Bool.eqb ((N.leb 48 (N.of_nat n) && N.leb (N.of_nat n) 57) || (N.leb 65 (N.of_nat n) && N.leb (N.of_nat n) 90)
            || (N.leb 97 (N.of_nat n) && N.leb (N.of_nat n) 122) || N.eqb (N.of_nat n) 95) (existsb (N.eqb (N.of_nat n)) ascii_word)) (seq 0 128) = true) by reflexivity.
        rewrite forallb_forall in Y. specialize (Y n). rewrite in_seq in Y. specialize (Y (conj (Nat.le_0_l n) X)).
        apply Bool.eqb_prop in Y. rewrite Y. reflexivity.
      - rewrite existsb_exists. split; [intros (d & D & Q); apply N.eqb_eq in Q; rewrite Q; exact D | intros D; exists (N.of_nat n); split; [exact D | apply N.eqb_refl]]. }
    rewrite A. split; [auto | intros [H|[H _]]; [exact H | lia]].
  - split; [auto|]. intros [H|[_ H]]; [|exact H]. exfalso. revert L. apply N.lt_nge.
    revert c H. apply (proj1 (Forall_forall (fun c => (c < 128)%N) ascii_word)).
    repeat (constructor; [reflexivity|]). constructor.
Qed.

(** C38.  The label is the value with an underscore for each character that is no letter,
    digit or underscore, and a [v] in front if it would otherwise begin with two
    underscores or begin and end with one. *)
Theorem C38_label : forall uni s n, enum_safe_name uni s = n <-> label uni s n.
Proof.
  intros uni s n.
  assert (F : Forall2 (stands uni) s (clean uni s)).
  { unfold clean. induction s as [|c s IH]; cbn [map]; constructor; [|exact IH]. unfold stands.
    destruct (word_char uni c) eqn:W; [left; split; [apply word_char_spec; exact W | reflexivity]|].
    right. split; [|reflexivity]. intros X. apply word_char_spec in X. congruence. }
  assert (U : forall w, Forall2 (stands uni) s w -> w = clean uni s).
  { intros w H. revert F. generalize (clean uni s). induction H as [|c d s w H1 H2 IH]; intros v G; inversion G; subst; [reflexivity|].
    f_equal; [|apply IH; assumption]. unfold stands in *. intuition congruence. }
  assert (D : starts_with (str "__") (clean uni s) || starts_with (str "_") (clean uni s) && ends_with (str "_") (clean uni s) = true <-> underscored (clean uni s)).
  { rewrite orb_true_iff, andb_true_iff, !starts_with_iff, ends_with_iff. reflexivity. }
  unfold enum_safe_name. fold (clean uni s). cbv zeta. unfold label. split.
  - intros <-. exists (clean uni s). split; [exact F|]. destruct (_ || _).
    + left. split; [apply D|]; reflexivity.
    + right. split; [|reflexivity]. intros X. apply D in X. discriminate X.
  - intros (w & W & H). apply U in W. subst w. destruct (_ || _).
    + destruct H as [[_ ->]|[X _]]; [reflexivity|]. destruct (X (proj1 D eq_refl)).
    + destruct H as [[X _]|[_ ->]]; [apply D in X; discriminate X | reflexivity].
Qed.
Print Assumptions C38_label.

Example C38_witness_label : label (fun _ => true) (str "a-b c") (str "a_b_c") /\ label (fun _ => true) (str "-x-") (str "v_x_")
  /\ ~ label (fun _ => true) (str "R2D2") (str "R_D_").
Proof.
  split; [apply C38_label; reflexivity|]. split; [apply C38_label; reflexivity|]. intros H. apply C38_label in H. discriminate H.
Qed.

(** C38.  A label consists of the characters of identifiers, and does not begin
    with two underscores, nor begin and end with one; so it is none of the names
    that [enum] treats specially. *)
Theorem C38_safe_name : forall uni s,
  (forall c, In c (enum_safe_name uni s) -> word uni c) /\
  (forall r, enum_safe_name uni s <> str "__" ++ r) /\
  ~ ((exists r, enum_safe_name uni s = str "_" ++ r) /\ exists r, enum_safe_name uni s = r ++ str "_") /\
  ~ sunder (enum_safe_name uni s) /\ ~ dunder (enum_safe_name uni s).
Proof.
  intros uni s. destruct (safe_frame uni s) as [A B]. destruct (safe_ordinary uni s) as [C D].
  split; [intros c I; apply word_char_spec; exact (safe_word uni s c I)|]. auto.
Qed.
Print Assumptions C38_safe_name.

(** ... and a string that is such a name already is its own label. *)
Theorem C38_stable : forall uni s, (forall c, In c s -> word uni c) -> (forall r, s <> str "__" ++ r) ->
  ~ ((exists r, s = str "_" ++ r) /\ exists r, s = r ++ str "_") -> enum_safe_name uni s = s.
Proof. intros uni s W. apply safe_stable. intros c I. apply word_char_spec, W, I. Qed.
Print Assumptions C38_stable.

(** C38.  Strings with distinct labels make an enumeration with those strings as
    values, in order, when none is empty, none is "mro", and no label has the form
    of a private name of the class (it fails otherwise, see below). *)
Theorem C38_enum_partial : forall uni context values,
  NoDup (map (enum_safe_name uni) values) ->
  (forall v, In v values -> v <> str "mro" /\ v <> [] /\ ~ private context (enum_safe_name uni v)) ->
  enum_values_to_type uni context values = Ok (map (fun v => (enum_safe_name uni v, JStr v)) values).
Proof. exact enum_from_strings_all. Qed.
Print Assumptions C38_enum_partial.

(** C38.  What holds in all cases: the empty string and "mro" make the conversion
    fail; otherwise, each label stands for the last string that has it, unless it
    has the form of a private name, and is lost. *)
Theorem C38_enum_members : forall uni context values, ~ In (str "mro") values -> ~ In [] values ->
  exists ms, enum_values_to_type uni context values = Ok ms /\ NoDup (map fst ms) /\
    forall n j, In (n, j) ms <-> exists v, j = JStr v /\ last_labelled (enum_safe_name uni) values n v /\ ~ private context n.
Proof. exact enum_from_strings. Qed.
Print Assumptions C38_enum_members.

Theorem C38_enum_rejected : forall uni context values, In (str "mro") values \/ In [] values ->
  enum_values_to_type uni context values = Err EValue.
Proof. exact enum_from_strings_fails. Qed.
Print Assumptions C38_enum_rejected.

Definition no_uni (c : N) : bool := false.

Example C38_witness :
  enum_safe_name no_uni (str "_a b_") = str "v_a_b_" /\ enum_safe_name no_uni (str "--x") = str "v__x" /\
  enum_values_to_type no_uni (str "Kind") [str "a-1"; str "_x_"; str "ok"] =
    Ok [(str "a_1", JStr (str "a-1")); (str "v_x_", JStr (str "_x_")); (str "ok", JStr (str "ok"))].
Proof. repeat split. Qed.

(** C38 fails: distinct strings, one of which has a unique label and is lost. *)
Theorem C38_private_refuted : exists uni context values v, NoDup (map (enum_safe_name uni) values) /\ In v values /\
  exists ms, enum_values_to_type uni context values = Ok ms /\ forall n, ~ In (n, JStr v) ms.
Proof.
  exists no_uni, (str "Kind"), [str "a"; str "_Kind__b"], (str "_Kind__b"). split; [|split].
  - repeat constructor; cbn; intros X; repeat destruct X as [X|X]; try discriminate X; contradiction.
  - right. left. reflexivity.
  - exists [(str "a", JStr (str "a"))]. split; [reflexivity|]. intros n [X|[]]. apply pair_equal_spec in X. destruct X. discriminate.
Qed.
Print Assumptions C38_private_refuted.

Theorem C38_mro_refuted : exists uni context values, NoDup (map (enum_safe_name uni) values) /\
  enum_values_to_type uni context values = Err EValue.
Proof.
  exists no_uni, (str "Kind"), [str "mro"]. split; [|reflexivity]. repeat constructor. intros [].
Qed.
Print Assumptions C38_mro_refuted.

(** C42.  The members of the source, in order and with their values, are followed
    by the new ones, when names and values are new and no name has the form of a
    private name of the new class; a value that occurs in both is an error. *)
Theorem C42_members_partial : forall source name extend, members source -> members extend ->
  (forall x v, In (x, v) (source ++ extend) -> ~ private name x) ->
  (forall x, In x (map fst source) -> ~ In x (map fst extend)) ->
  ((forall a b, In a source -> In b extend -> ~ json_equal (snd a) (snd b)) ->
     extend_enum source name extend = Ok (source ++ extend)) /\
  ((exists a b, In a source /\ In b extend /\ json_equal (snd a) (snd b)) -> extend_enum source name extend = Err EValue).
Proof. exact extend_enum_new. Qed.
Print Assumptions C42_members_partial.

(** C42.  What happens when a name occurs in both: the new value takes the place
    of the old one, provided values are still distinct. *)
Theorem C42_overridden : forall source name extend, members source -> members extend ->
  (forall x v, In (x, v) (source ++ extend) -> ~ private name x) ->
  (ForallOrdPairs (fun a b => ~ json_equal (snd a) (snd b)) (merged source extend) ->
     extend_enum source name extend = Ok (merged source extend)) /\
  (~ ForallOrdPairs (fun a b => ~ json_equal (snd a) (snd b)) (merged source extend) ->
     extend_enum source name extend = Err EValue).
Proof. exact extend_enum_merged. Qed.
Print Assumptions C42_overridden.

Lemma plain_members : forall ms, alias_free [] ms = true -> NoDup (map fst ms) ->
  forallb (fun m => negb (is_sunder (fst m) || is_dunder (fst m) || mem_str (fst m) [str "mro"; []])) ms = true -> members ms.
Proof.
  intros ms A N F. constructor; [exact N | apply alias_free_spec in A; apply A|].
  intros x v I. rewrite forallb_forall in F. specialize (F _ I). cbn [fst] in F. apply negb_true_iff in F.
  apply orb_false_iff in F. destruct F as [F M]. apply orb_false_iff in F. destruct F as [S D].
  split; [intros X; apply is_sunder_spec in X; congruence|]. split; [intros X; apply is_dunder_spec in X; congruence|].
  split; intros ->; discriminate M.
Qed.

Definition colors : list (pystr * json) := [(str "RED", JStr (str "r")); (str "GREEN", JInt 2)].
Definition more : list (pystr * json) := [(str "BLUE", JInt 3)].

Lemma colors_members : members colors.
Proof. apply plain_members; try reflexivity. repeat constructor; cbn; intros X; repeat destruct X as [X|X]; try discriminate X; contradiction. Qed.

Lemma more_members : members more.
Proof. apply plain_members; try reflexivity. repeat constructor; cbn; intros X; repeat destruct X as [X|X]; try discriminate X; contradiction. Qed.

Example C42_witness : extend_enum colors (str "Wide") more = Ok (colors ++ more).
Proof.
  apply (proj1 (C42_members_partial colors (str "Wide") more colors_members more_members
    ltac:(intros x v I P; apply is_private_spec in P; repeat destruct I as [I|I]; try contradiction; apply pair_equal_spec in I; destruct I as [<- _]; discriminate P)
    ltac:(intros x I J; destruct J as [<-|[]]; repeat destruct I as [I|I]; try discriminate I; contradiction))).
  intros a b I J X. apply scalar_eqb_spec in X. destruct J as [<-|[]]. repeat destruct I as [<-|I]; try contradiction; discriminate X.
Qed.

(** C42 fails: a clash of names does not raise, and changes the value of a member. *)
Theorem C42_name_clash_refuted : exists source name extend x v, members source /\ members extend /\
  In x (map fst source) /\ In x (map fst extend) /\ In (x, v) source /\
  exists ms, extend_enum source name extend = Ok ms /\ ~ In (x, v) ms.
Proof.
  exists colors, (str "Wide"), [(str "RED", JInt 7)], (str "RED"), (JStr (str "r")).
  split; [exact colors_members|]. split; [apply plain_members; try reflexivity; repeat constructor; intros []|].
  split; [left; reflexivity|]. split; [left; reflexivity|]. split; [left; reflexivity|].
  exists [(str "RED", JInt 7); (str "GREEN", JInt 2)]. split; [reflexivity|].
  intros X; repeat destruct X as [X|X]; try contradiction; apply pair_equal_spec in X; destruct X; discriminate.
Qed.
Print Assumptions C42_name_clash_refuted.

(** C42 fails: a member whose name has the form of a private name of the new class
    is lost. *)
Theorem C42_private_refuted : exists source name extend x v, members source /\ members extend /\ In (x, v) source /\
  (forall x, In x (map fst source) -> ~ In x (map fst extend)) /\
  exists ms, extend_enum source name extend = Ok ms /\ ~ In x (map fst ms).
Proof.
  exists [(str "_Wide__a", JInt 1)], (str "Wide"), more, (str "_Wide__a"), (JInt 1).
  split; [apply plain_members; try reflexivity; repeat constructor; intros []|]. split; [exact more_members|].
  split; [left; reflexivity|]. split.
  - intros x [<-|[]] [X|[]]. discriminate X.
  - exists more. split; [reflexivity|]. intros [X|[]]. discriminate X.
Qed.
Print Assumptions C42_private_refuted.
