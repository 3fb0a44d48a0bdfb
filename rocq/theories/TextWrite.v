(** What is written is a text of the grammar. *)
From Coq Require Import String List NArith ZArith Bool Lia.
From Verif Require Import Base Json Digits DigitsProofs Ser Lists SpecSer SerFacts Text SpecText TextProofs TextRead.
Import ListNotations.
Open Scope list_scope.
Open Scope nat_scope.

Lemma hex_control : forall c, (c < 32)%N -> exists x y z w, hex_pad 4 c = [x; y; z; w] /\ hex4 x y z w = Some c.
Proof.
  intros c L. assert (K : In c (map N.of_nat (seq 0 32))).
  { apply in_map_iff. exists (N.to_nat c). split; [apply N2Nat.id|]. apply in_seq. lia. }
  cbn [seq map N.of_nat Pos.of_succ_nat Pos.succ In] in K.
  repeat match type of K with _ \/ _ => destruct K as [<-|K] end; try contradiction;
    (eexists _, _, _, _; split; [reflexivity|reflexivity]).
Qed.

Lemma quote_chars : forall s, exists t, quote s = 34%N :: t ++ [34%N] /\ chars s t.
Proof.
  intros s. exists (flat_map escape_char s). split; [reflexivity|].
  induction s as [|c s IH]; [constructor|]. cbn [flat_map]. unfold escape_char at 1.
  repeat match goal with
  | |- context [(if (c =? ?x)%N then _ else _)] =>
      destruct (N.eqb_spec c x) as [->|]; [apply ch_short; [unfold short_escapes; cbn [In]; tauto|exact IH]|]
  end.
  destruct (N.ltb_spec c 32) as [L|L].
  - destruct (hex_control c L) as (x & y & z & w & -> & H). apply (ch_unit (str "\u" ++ [x; y; z; w]) c).
    + apply unit_hex4. exists x, y, z, w. split; [reflexivity|exact H].
    + exact IH.
    + unfold leading. lia.
  - apply ch_plain; assumption.
Qed.

Section Writing.
  Variable F : floats.

  Lemma part_arr : forall l j, In j l -> forall i, json_part i j -> json_part i (JArr l).
  Proof. intros. eapply in_arr; eassumption. Qed.
  Lemma part_obj : forall o k j, In (k, j) o -> forall i, json_part i j -> json_part i (JObj o).
  Proof. intros. eapply in_obj; eassumption. Qed.

  (** ** When there is a text *)

  Lemma dump_some : forall j, (exists s, json_dump_string F j = Ok s) <-> short_numbers j.
  Proof.
    assert (LF : forall j, (forall l, j <> JArr l) -> (forall o, j <> JObj o) -> forall i, json_part i j -> i = j).
    { intros j A O i H. destruct H as [|i j l I H|i k j o I H]; [reflexivity|exfalso; eapply A; reflexivity|exfalso; eapply O; reflexivity]. }
    induction j as [|b|z|f|s|l IH|o IH] using json_induct.
    - split; [|intros; eexists; reflexivity]. intros _ z H. apply LF in H; discriminate.
    - split; [|intros; destruct b; eexists; reflexivity]. intros _ z H. apply LF in H; discriminate.
    - cbn [json_dump_string]. split.
      + intros [s Q] x H. apply LF in H; try discriminate. injection H as ->. apply int_repr_ok in Q. apply Q.
      + intros H. exists (int_str z). apply int_repr_ok. split; [apply H; constructor|reflexivity].
    - split; [|intros; eexists; reflexivity]. intros _ z H. apply LF in H; discriminate.
    - split; [|intros; eexists; reflexivity]. intros _ z H. apply LF in H; discriminate.
    - cbn [json_dump_string]. split.
      + intros [s Q] z H. inversion H as [|i j l' I H'|]; subst. rewrite Forall_forall in IH. apply (IH j I); [|exact H'].
        apply bind_ok in Q. destruct Q as (ts & Q & _). apply mapM_ok in Q.
        destruct (Forall2_in_l _ _ _ _ _ _ Q I) as (t & _ & Ht). exists t. exact Ht.
      + intros H. destruct (mapM_total _ _ (json_dump_string F) l) as [ts Q].
        { intros j I. rewrite Forall_forall in IH. destruct (proj2 (IH j I)) as [s Q]; [|exists s; exact Q].
          intros z Hz. apply H. eapply part_arr; eassumption. }
        rewrite Q. eexists. reflexivity.
    - cbn [json_dump_string]. split.
      + intros [s Q] z H. inversion H as [| |i k j o' I H']; subst. rewrite Forall_forall in IH. apply (IH (k, j) I); [|exact H'].
        apply bind_ok in Q. destruct Q as (ts & Q & _). apply mapM_ok in Q.
        destruct (Forall2_in_l _ _ _ _ _ _ Q I) as (t & _ & Ht). cbn [fst snd] in Ht.
        apply bind_ok in Ht. destruct Ht as (u & Ht & _). exists u. exact Ht.
      + intros H.
        destruct (mapM_total _ _ (fun kv => do t <- json_dump_string F (snd kv); Ok (quote (fst kv) ++ str ":" ++ t)) o) as [ts Q].
        { intros [k j] I. rewrite Forall_forall in IH. destruct (proj2 (IH (k, j) I)) as [s Q].
          - intros z Hz. apply H. eapply part_obj; eassumption.
          - cbn [fst snd] in *. rewrite Q. eexists. reflexivity. }
        rewrite Q. eexists. reflexivity.
  Qed.

  Lemma dump_error : forall j e, json_dump_string F j = Err e -> e = EValue.
  Proof.
    induction j as [|b|z|f|s|l IH|o IH] using json_induct; intros e Q; cbn [json_dump_string] in Q; try discriminate.
    - destruct b; discriminate.
    - unfold int_repr in Q. destruct (_ <? _)%N; [injection Q as <-; reflexivity|discriminate].
    - destruct (mapM (json_dump_string F) l) as [ts|e'] eqn:M; [discriminate|]. cbn [bind] in Q. injection Q as <-.
      apply mapM_err in M. destruct M as (j & I & M). rewrite Forall_forall in IH. exact (IH j I _ M).
    - destruct (mapM _ o) as [ts|e'] eqn:M; [discriminate|]. cbn [bind] in Q. injection Q as <-.
      apply mapM_err in M. destruct M as (j & I & M). rewrite Forall_forall in IH.
      destruct (json_dump_string F (snd j)) eqn:D; [discriminate|]. cbn [bind] in M. injection M as ->. exact (IH j I _ D).
  Qed.

  (** ** The text *)

  Variable python : Prop.

  Lemma pad0 : forall big j t, text (f_read F) python big j t -> padded (f_read F) python big j t.
  Proof. intros big j t H. rewrite <- (app_nil_r t). apply (pd _ _ _ j [] t []); [constructor|exact H|constructor]. Qed.

  Lemma join_elements : forall big l ts, l <> [] -> Forall2 (text (f_read F) python big) l ts ->
    elements (f_read F) python big l (join (str ",") ts).
  Proof.
    intros big l ts NE H. induction H as [|j t l ts Hj H IH]; [contradiction|].
    destruct H as [|j' t' l ts Hj' H].
    - apply el_one. apply pad0. exact Hj.
    - change (join (str ",") (t :: t' :: ts)) with (t ++ 44%N :: join (str ",") (t' :: ts)).
      apply el_more; [apply pad0; exact Hj|]. apply IH. discriminate.
  Qed.

  Lemma join_members : forall big o ts, o <> [] ->
    Forall2 (fun kv s => exists t, s = quote (fst kv) ++ str ":" ++ t /\ text (f_read F) python big (snd kv) t) o ts ->
    members (f_read F) python big o (join (str ",") ts).
  Proof.
    intros big o ts NE H. induction H as [|[k j] s o ts (t & -> & Hj) H IH]; [contradiction|]. cbn [fst snd] in *.
    destruct (quote_chars k) as (q & -> & Hk). assert (B0 : blank []) by constructor. apply pad0 in Hj.
    destruct H as [|kv' s' o ts Hj' H].
    - change (join (str ",") [(34%N :: q ++ [34%N]) ++ str ":" ++ t]) with ((34%N :: q ++ [34%N]) ++ str ":" ++ t).
      replace ((34%N :: q ++ [34%N]) ++ str ":" ++ t) with ([] ++ 34%N :: q ++ 34%N :: [] ++ 58%N :: t).
      + apply ms_one; assumption.
      + cbn [app]. rewrite <- app_assoc. reflexivity.
    - change (join (str ",") (((34%N :: q ++ [34%N]) ++ str ":" ++ t) :: s' :: ts))
        with (((34%N :: q ++ [34%N]) ++ str ":" ++ t) ++ 44%N :: join (str ",") (s' :: ts)).
      replace (((34%N :: q ++ [34%N]) ++ str ":" ++ t) ++ 44%N :: join (str ",") (s' :: ts))
        with ([] ++ 34%N :: q ++ 34%N :: [] ++ 58%N :: t ++ 44%N :: join (str ",") (s' :: ts)).
      + apply ms_more; try assumption. apply IH. discriminate.
      + repeat (rewrite <- app_assoc; cbn [app]). reflexivity.
  Qed.

  Lemma dump_text : forall j s, json_wf j -> exact_floats (f_repr F) (f_read F) j ->
    (python \/ finite_floats j) -> json_dump_string F j = Ok s -> text (f_read F) python False j s.
  Proof.
    induction j as [|b|z|f|x|l IH|o IH] using json_induct; intros s W FF PF Q; cbn [json_dump_string] in Q.
    - injection Q as <-. constructor.
    - destruct b; injection Q as <-; constructor.
    - apply int_repr_ok in Q. destruct Q as [SH ->]. apply tx_int; [apply int_str_text|right; exact SH].
    - injection Q as <-.
      assert (FI : python \/ exists s m e, f = FFin s m e) by (destruct PF as [PF|PF]; [left; exact PF|right; apply PF; constructor]).
      destruct f as [|neg|s m e].
      + apply tx_nan. destruct FI as [FI|(? & ? & ? & FI)]; [exact FI|discriminate].
      + destruct neg; [apply tx_minus_inf|apply tx_inf]; (destruct FI as [FI|(? & ? & ? & FI)]; [exact FI|discriminate]).
      + destruct (FF (FFin s m e) (in_self _) s m e eq_refl) as [RT RD]. cbn [float_repr]. rewrite <- RD at 1. apply tx_float. exact RT.
    - injection Q as <-. destruct (quote_chars x) as (t & -> & H). apply tx_str. exact H.
    - apply bind_ok in Q. destruct Q as (ts & Q & E). injection E as <-. apply mapM_ok in Q.
      inversion W as [| | | | |l' WL|]; subst.
      assert (K : Forall2 (text (f_read F) python False) l ts).
      { eapply Forall2_impl_in; [|exact Q]. intros j t I _ H. rewrite Forall_forall in IH, WL. apply (IH j I); [exact (WL j I)| | |exact H].
        - intros f G. apply FF. eapply part_arr; eassumption.
        - destruct PF as [PF|PF]; [left; exact PF|right]. intros f G. apply PF. eapply part_arr; eassumption. }
      destruct l as [|j l].
      + inversion K; subst. apply (tx_arr_nil _ _ _ []). constructor.
      + apply tx_arr. apply join_elements; [discriminate|exact K].
    - apply bind_ok in Q. destruct Q as (ts & Q & E). injection E as <-. apply mapM_ok in Q.
      inversion W as [| | | | | |o' ND WO]; subst.
      assert (K : Forall2 (fun kv s => exists t, s = quote (fst kv) ++ str ":" ++ t /\ text (f_read F) python False (snd kv) t) o ts).
      { eapply Forall2_impl_in; [|exact Q]. intros [k j] u I _ H. cbn [fst snd] in *. apply bind_ok in H. destruct H as (t & H & E).
        injection E as <-. exists t. split; [reflexivity|]. rewrite Forall_forall in IH, WO.
        apply (IH (k, j) I); [exact (WO (k, j) I)| | |exact H].
        - intros f G. apply FF. eapply part_obj; eassumption.
        - destruct PF as [PF|PF]; [left; exact PF|right]. intros f G. apply PF. eapply part_obj; eassumption. }
      destruct o as [|kv o].
      + inversion K; subst. apply (tx_obj_nil _ _ _ []). constructor.
      + apply (tx_obj _ _ _ (kv :: o)); [apply join_members; [discriminate|exact K]|].
        pose proof (merged_dict_of (kv :: o)) as MG. rewrite (merged_distinct _ ND) in MG. exact MG.
  Qed.
End Writing.

(** ** Larger grammars *)

Lemma grammar_mono : forall read (p q b c : Prop), (p -> q) -> (b -> c) ->
  (forall j t, text read p b j t -> text read q c j t) /\
  (forall j t, padded read p b j t -> padded read q c j t) /\
  (forall l t, elements read p b l t -> elements read q c l t) /\
  (forall o t, members read p b o t -> members read q c o t).
Proof.
  intros read p q b c PQ BC. apply grammar_ind; intros; try (econstructor; eauto; fail).
  apply tx_int; [assumption|tauto].
Qed.

(** ** One line *)

Lemma numeral_printable : forall s n, numeral s n -> Forall (fun c => (32 <= c)%N) s.
Proof.
  intros s n H. destruct (numeral_digits _ _ H) as (A & _). eapply Forall_impl; [|exact A].
  intros c D. apply is_digit_spec in D. lia.
Qed.

Lemma integer_printable : forall s z, integer_text s z -> Forall (fun c => (32 <= c)%N) s.
Proof.
  intros s z (ds & n & H & _ & [[-> _]|[-> _]]); apply numeral_printable in H; [exact H|]. constructor; [lia|exact H].
Qed.

Lemma real_printable : forall s, real_text s -> Forall (fun c => (32 <= c)%N) s.
Proof.
  intros s (i & z & f & e & -> & Hi & Hf & He & _). apply Forall_app. split; [eapply integer_printable; exact Hi|]. apply Forall_app. split.
  - destruct Hf as [->|(ds & n & -> & H)]; [constructor|]. constructor; [lia|]. eapply numeral_printable. exact H.
  - destruct He as [->|(c & sg & ds & n & -> & C & G & H)]; [constructor|]. constructor.
    + destruct C as [<-|[<-|[]]]; lia.
    + apply Forall_app. split; [|eapply numeral_printable; exact H].
      destruct G as [<-|[<-|[<-|[]]]]; repeat constructor; lia.
Qed.

Lemma chars_printable : forall s t, chars s t -> Forall (fun c => (32 <= c)%N) t.
Proof.
  assert (U : forall x u, unit_text x u -> Forall (fun c => (32 <= c)%N) x).
  { intros x u (a & b & c & d & p & q & r & w & -> & A & B & C & D & _). unfold hex_digit in *. repeat (constructor; [lia|]). constructor. }
  intros s t H. induction H as [|c s t L N1 N2 H IH|e c s t E H IH|x u s t X H IH NP|x u y v s t X Y LU TV H IH].
  - constructor.
  - constructor; assumption.
  - constructor; [lia|]. constructor; [|exact IH]. unfold short_escapes in E. cbn [In] in E.
    repeat match type of E with _ \/ _ => destruct E as [E|E] end; try contradiction; injection E as <- <-; lia.
  - apply Forall_app. split; [eapply U; exact X|exact IH].
  - apply Forall_app. split; [eapply U; exact X|]. apply Forall_app. split; [eapply U; exact Y|exact IH].
Qed.

Lemma join_printable : forall ts, Forall (Forall (fun c => (32 <= c)%N)) ts -> Forall (fun c => (32 <= c)%N) (join (str ",") ts).
Proof.
  intros ts H. induction H as [|t ts Ht H IH]; [constructor|]. destruct ts as [|t' ts]; [exact Ht|].
  change (join (str ",") (t :: t' :: ts)) with (t ++ 44%N :: join (str ",") (t' :: ts)).
  apply Forall_app. split; [exact Ht|]. constructor; [lia|exact IH].
Qed.

Lemma quote_printable : forall s, Forall (fun c => (32 <= c)%N) (quote s).
Proof.
  intros s. destruct (quote_chars s) as (t & -> & H). constructor; [lia|]. apply Forall_app.
  split; [eapply chars_printable; exact H|]. constructor; [lia|constructor].
Qed.

Lemma dump_printable : forall F j s, exact_floats (f_repr F) (f_read F) j -> json_dump_string F j = Ok s ->
  Forall (fun c => (32 <= c)%N) s.
Proof.
  intros F. induction j as [|b|z|f|x|l IH|o IH] using json_induct; intros s FF Q; cbn [json_dump_string] in Q.
  - injection Q as <-. cbv. repeat (constructor; [discriminate|]). constructor.
  - destruct b; injection Q as <-; cbv; repeat (constructor; [discriminate|]); constructor.
  - apply int_repr_ok in Q. destruct Q as [_ ->]. eapply integer_printable. apply int_str_text.
  - injection Q as <-. destruct f as [|[|]|a m e]; cbn [float_repr]; try (cbv; repeat (constructor; [discriminate|]); constructor).
    apply real_printable. exact (proj1 (FF _ (in_self _) a m e eq_refl)).
  - injection Q as <-. apply quote_printable.
  - apply bind_ok in Q. destruct Q as (ts & Q & E). injection E as <-. apply mapM_ok in Q.
    constructor; [vm_compute; discriminate|]. apply Forall_app. split; [|constructor; [vm_compute; discriminate|constructor]]. apply join_printable.
    apply Forall_forall. intros t I. destruct (Forall2_in_r _ _ _ _ _ _ Q I) as (j & J & H). rewrite Forall_forall in IH.
    apply (IH j J); [|exact H]. intros f G. apply FF. eapply part_arr; eassumption.
  - apply bind_ok in Q. destruct Q as (ts & Q & E). injection E as <-. apply mapM_ok in Q.
    constructor; [vm_compute; discriminate|]. apply Forall_app. split; [|constructor; [vm_compute; discriminate|constructor]]. apply join_printable.
    apply Forall_forall. intros t I. destruct (Forall2_in_r _ _ _ _ _ _ Q I) as ([k j] & J & H). rewrite Forall_forall in IH.
    cbn [fst snd] in H. apply bind_ok in H. destruct H as (u & H & E).
    assert (ET : t = quote k ++ str ":" ++ u) by congruence. rewrite ET.
    apply Forall_app. split; [apply quote_printable|]. constructor; [vm_compute; discriminate|].
    apply (IH (k, j) J); [|exact H]. intros f G. apply FF. eapply part_obj; eassumption.
Qed.
