(** Proofs about [topological_sort]. *)
From Coq Require Import List Bool Relations Permutation Lia.
From Verif Require Import Base Topological SpecTopological.
Import ListNotations.

Section Proofs.
  Context {A : Type}.
  Variable eqb : A -> A -> bool.
  Hypothesis eqb_spec : forall a b, eqb a b = true <-> a = b.

  Notation graph := (@graph A).
  Notation marks_get := (marks_get eqb).
  Notation graph_get := (graph_get eqb).
  Notation visit := (visit eqb).

  Lemma eqb_refl' : forall a, eqb a a = true.
  Proof. intros. apply eqb_spec. reflexivity. Qed.

  Lemma eqb_false : forall a b, eqb a b = false <-> a <> b.
  Proof.
    intros. split; intros H.
    - intros ->. rewrite eqb_refl' in H. discriminate.
    - destruct (eqb a b) eqn:E; [|reflexivity]. apply eqb_spec in E. contradiction.
  Qed.

  Lemma dec : forall a b : A, {a = b} + {a <> b}.
  Proof.
    intros. destruct (eqb a b) eqn:E.
    - left. apply eqb_spec; assumption.
    - right. apply eqb_false; assumption.
  Qed.

  Lemma marks_get_set : forall s n b m,
    marks_get (marks_set s n b) m = if eqb n m then Some b else marks_get s m.
  Proof. reflexivity. Qed.

  Lemma graph_get_in : forall (g : graph) n ms, graph_get g n = Some ms -> In (n, ms) g.
  Proof.
    induction g as [|[k ms'] g IH]; simpl; intros n ms H; [discriminate|].
    destruct (eqb k n) eqn:E.
    - apply eqb_spec in E. injection H as ->. subst. left. reflexivity.
    - right. apply IH. assumption.
  Qed.

  Lemma graph_get_none : forall (g : graph) n, graph_get g n = None -> ~ In n (map fst g).
  Proof.
    induction g as [|[k ms'] g IH]; simpl; intros n H; [tauto|].
    destruct (eqb k n) eqn:E; [discriminate|].
    apply eqb_false in E. intros [H1|H1]; [contradiction|].
    exact (IH _ H H1).
  Qed.

  Lemma graph_get_unique : forall (g : graph) n ms,
    NoDup (map fst g) -> In (n, ms) g -> graph_get g n = Some ms.
  Proof.
    induction g as [|[k ms'] g IH]; simpl; intros n ms Hnd H; [tauto|].
    inversion Hnd; subst. destruct H as [H|H].
    - injection H as -> ->. rewrite eqb_refl'. reflexivity.
    - destruct (eqb k n) eqn:E.
      + apply eqb_spec in E. subst. exfalso. apply H2.
        apply in_map_iff. exists (n, ms). split; auto.
      + apply IH; assumption.
  Qed.

  Section WithGraph.
    Variable g : graph.
    Hypothesis Hnd : NoDup (map fst g).

    (** Number of keys without a mark. *)
    Definition unmarked (s : @marks A) : nat :=
      length (filter (fun k => match marks_get s k with None => true | _ => false end)
                     (map fst g)).

    Record inv (st : @tstate A) : Prop := {
      inv_done : forall n, marks_get (fst st) n = Some true <-> In n (snd st);
      inv_nd : NoDup (snd st);
      inv_key : forall n, In n (snd st) -> In n (map fst g);
      inv_ord : forall l1 n l2, snd st = l1 ++ n :: l2 -> forall m, edge g n m -> In m l1
    }.

    Definition temp (st : @tstate A) (t : A) := marks_get (fst st) t = Some false.

    Definition good_result (n : A) (st : @tstate A) (r : res (@tstate A)) : Prop :=
      match r with
      | Ok st' =>
          inv st' /\ (forall t, temp st' t <-> temp st t) /\
          In n (snd st') /\ (exists ext, snd st' = snd st ++ ext) /\
          (forall k, marks_get (fst st') k = None -> marks_get (fst st) k = None)
      | Err ERuntime => cyclic g
      | Err EKey => ~ In n (map fst g) \/ exists a b, edge g a b /\ ~ In b (map fst g)
      | Err _ => False
      end.

    Lemma filter_length_mono : forall (f h : A -> bool) l,
      (forall x, In x l -> f x = true -> h x = true) ->
      length (filter f l) <= length (filter h l).
    Proof.
      induction l as [|x l IH]; simpl; intros H; [lia|].
      assert (IH' : length (filter f l) <= length (filter h l))
        by (apply IH; intros; apply H; auto).
      destruct (f x) eqn:E.
      - rewrite (H x (or_introl eq_refl) E). simpl. lia.
      - destruct (h x); simpl; lia.
    Qed.

    Lemma unmarked_mono : forall s s',
      (forall k, marks_get s' k = None -> marks_get s k = None) ->
      unmarked s' <= unmarked s.
    Proof.
      intros s s' H. apply filter_length_mono. intros x _ Hx.
      destruct (marks_get s' x) eqn:E; [discriminate|].
      rewrite (H _ E). reflexivity.
    Qed.

    Lemma filter_length_strict : forall (f h : A -> bool) l x,
      (forall x, In x l -> f x = true -> h x = true) ->
      In x l -> f x = false -> h x = true ->
      length (filter f l) < length (filter h l).
    Proof.
      induction l as [|y l IH]; simpl; intros x H Hin Hf Hh; [tauto|].
      destruct Hin as [->|Hin].
      - rewrite Hf, Hh. simpl.
        pose proof (filter_length_mono f h l (fun z Hz => H z (or_intror Hz))). lia.
      - assert (length (filter f l) < length (filter h l))
          by (apply (IH x); auto; intros; apply H; auto).
        destruct (f y) eqn:E.
        + rewrite (H y (or_introl eq_refl) E). simpl. lia.
        + destruct (h y); simpl; lia.
    Qed.

    Lemma unmarked_mark : forall s n b,
      marks_get s n = None -> In n (map fst g) ->
      unmarked (marks_set s n b) < unmarked s.
    Proof.
      intros s n b Hn Hin. apply filter_length_strict with (x := n); auto.
      - intros x _. rewrite ?marks_get_set. destruct (eqb n x); [discriminate|auto].
      - rewrite ?marks_get_set, eqb_refl'. reflexivity.
      - rewrite Hn. reflexivity.
    Qed.

    Lemma app_split_in : forall (l1 : list A) n l2 l a,
      l1 ++ n :: l2 = l ++ [a] ->
      (l2 = [] /\ n = a /\ l1 = l) \/ (exists l2', l2 = l2' ++ [a] /\ l = l1 ++ n :: l2').
    Proof.
      intros l1 n l2 l a H.
      destruct (exists_last (l := n :: l2)) as [l2' [z Hz]]; [discriminate|].
      destruct l2' as [|y l2'].
      - injection Hz as -> ->. apply app_inj_tail in H. destruct H; subst. left; auto.
      - simpl in Hz. injection Hz as -> ->. right. exists l2'.
        rewrite app_comm_cons, app_assoc in H.
        apply app_inj_tail in H. destruct H; subst. split; reflexivity.
    Qed.

    Lemma visit_good : forall fuel n st,
      inv st ->
      (forall t, temp st t -> clos_trans A (edge g) t n) ->
      fuel > unmarked (fst st) ->
      good_result n st (visit fuel g n st).
    Proof.
      induction fuel as [|fuel IH]; intros n st Hinv Htemp Hfuel; [lia|].
      simpl. destruct (marks_get (fst st) n) as [[|]|] eqn:Em.
      - simpl. repeat split; try tauto; try apply Hinv; auto.
        exists []. rewrite app_nil_r. reflexivity.
      - simpl. exists n. apply Htemp. exact Em.
      - destruct (graph_get g n) as [ms|] eqn:Eg.
        2:{ simpl. left. apply graph_get_none. assumption. }
        pose proof (graph_get_in _ _ _ Eg) as Hgin.
        assert (Hkey : In n (map fst g))
          by (apply in_map_iff; exists (n, ms); auto).
        set (st1 := (marks_set (fst st) n false, snd st)).
        assert (Hu1 : fuel > unmarked (fst st1)).
        { pose proof (unmarked_mark (fst st) n false Em Hkey). simpl. lia. }
        assert (Hinv1 : inv st1).
        { constructor; simpl; try apply Hinv.
          intros m. rewrite ?marks_get_set. destruct (eqb n m) eqn:E.
          - apply eqb_spec in E. subst m. split; [discriminate|].
            intros Hin. apply Hinv in Hin. congruence.
          - apply Hinv. }
        assert (Htemp1 : forall t, temp st1 t <-> (t = n \/ temp st t)).
        { intros t. unfold temp. simpl. rewrite ?marks_get_set.
          destruct (eqb n t) eqn:E.
          - apply eqb_spec in E. subst. tauto.
          - apply eqb_false in E. split; [auto|]. intros [->|]; [congruence|assumption]. }
        (* loop over the neighbours *)
        assert (Hloop : forall rest st2,
          (forall m, In m rest -> In m ms) ->
          inv st2 -> (forall t, temp st2 t <-> (t = n \/ temp st t)) ->
          fuel > unmarked (fst st2) ->
          match visit_all eqb (visit fuel g) n rest st2 with
          | Ok st' =>
              inv st' /\ (forall t, temp st' t <-> temp st2 t) /\
              (forall m, In m rest -> m <> n -> In m (snd st')) /\
              (exists ext, snd st' = snd st2 ++ ext) /\
              (forall k, marks_get (fst st') k = None -> marks_get (fst st2) k = None)
          | Err ERuntime => cyclic g
          | Err EKey => exists a b, edge g a b /\ ~ In b (map fst g)
          | Err _ => False
          end).
        { induction rest as [|m rest IHr]; intros st2 Hsub Hi2 Ht2 Hu2.
          - simpl. repeat split; auto; try apply Hi2; try tauto.
            exists []. rewrite app_nil_r. reflexivity.
          - simpl. destruct (eqb m n) eqn:Emn.
            + apply eqb_spec in Emn. subst m.
              specialize (IHr st2 (fun x H => Hsub x (or_intror H)) Hi2 Ht2 Hu2).
              destruct (visit_all eqb (visit fuel g) n rest st2) as [st'|e]; [|exact IHr].
              destruct IHr as (a & b & c & d & e). repeat split; try apply b; auto; try apply a.
              intros m [->|Hm]; [congruence|auto].
            + apply eqb_false in Emn.
              assert (Hedge : edge g n m).
              { exists ms. split; [assumption|]. split; [apply Hsub; left; reflexivity|congruence]. }
              assert (Ht : forall t, temp st2 t -> clos_trans A (edge g) t m).
              { intros t Htt. apply Ht2 in Htt. destruct Htt as [->|Htt].
                - apply t_step. assumption.
                - apply t_trans with n; [apply Htemp; assumption|apply t_step; assumption]. }
              specialize (IH m st2 Hi2 Ht Hu2).
              destruct (visit fuel g m st2) as [st3|e].
              * destruct IH as (Hi3 & Ht3 & Hin3 & [ext3 Hext3] & Hm3).
                assert (Hu3 : fuel > unmarked (fst st3))
                  by (pose proof (unmarked_mono _ _ Hm3); lia).
                assert (Ht3' : forall t, temp st3 t <-> (t = n \/ temp st t))
                  by (intros t; rewrite Ht3; apply Ht2).
                specialize (IHr st3 (fun x H => Hsub x (or_intror H)) Hi3 Ht3' Hu3).
                destruct (visit_all eqb (visit fuel g) n rest st3) as [st'|e]; [|exact IHr].
                destruct IHr as (a & b & c & [ext Hext] & e).
                split; [exact a|]. split; [intros t; rewrite b; apply Ht3|].
                split.
                { intros x [->|Hx] Hne; [|auto]. rewrite Hext. apply in_or_app. auto. }
                split; [exists (ext3 ++ ext); rewrite Hext, Hext3, app_assoc; reflexivity|].
                intros k Hk. apply Hm3, e, Hk.
              * destruct e; try exact IH. destruct IH as [Hk|Hk]; [|exact Hk].
                exists n, m. split; assumption. }
        specialize (Hloop ms st1 (fun m H => H) Hinv1 Htemp1 Hu1).
        fold st1.
        destruct (visit_all eqb (visit fuel g) n ms st1) as [st2|e].
        2:{ destruct e; simpl in *; auto. }
        destruct Hloop as (Hi2 & Ht2 & Hall & [ext Hext] & Hm2).
        assert (Hn2 : temp st2 n) by (apply Ht2, Htemp1; left; reflexivity).
        assert (Hnin : ~ In n (snd st2)).
        { intros Hin. apply Hi2 in Hin. unfold temp in Hn2. congruence. }
        simpl. repeat split.
        + intros Hd. simpl in Hd. destruct (eqb n n0) eqn:E.
          * apply eqb_spec in E. subst. apply in_or_app. right. left. reflexivity.
          * apply in_or_app. left. apply Hi2. assumption.
        + intros Hd. simpl in Hd |- *. destruct (eqb n n0) eqn:E; [reflexivity|].
          apply eqb_false in E. apply in_app_or in Hd. destruct Hd as [Hd|[->|[]]]; [|congruence].
          apply Hi2. assumption.
        + simpl.
          apply (Permutation_NoDup (l := n :: snd st2)).
          * apply Permutation_cons_append.
          * constructor; [assumption|apply Hi2].
        + intros k Hk. simpl in Hk. apply in_app_or in Hk. destruct Hk as [Hk|[->|[]]]; [|assumption].
          apply (inv_key _ Hi2). assumption.
        + simpl. intros l1 k l2 Heq m Hm. symmetry in Heq. apply app_split_in in Heq.
          destruct Heq as [(-> & -> & ->)|[l2' [-> Heq]]].
          * destruct Hm as [ms' [Hin' [Hm' Hne]]].
            pose proof (graph_get_unique _ _ _ Hnd Hin') as Hu.
            rewrite Eg in Hu. injection Hu as <-. apply Hall; congruence.
          * exact (inv_ord _ Hi2 _ _ _ Heq _ Hm).
        + intros Htt. unfold temp in Htt. simpl in Htt. rewrite ?marks_get_set in Htt.
          destruct (eqb n t) eqn:E; [discriminate|]. apply eqb_false in E.
          apply Ht2, Htemp1 in Htt. destruct Htt as [->|Htt]; [congruence|assumption].
        + intros Htt. unfold temp. simpl. rewrite ?marks_get_set. destruct (eqb n t) eqn:E.
          * apply eqb_spec in E. subst. unfold temp in Htt. congruence.
          * apply Ht2, Htemp1. right. assumption.
        + apply in_or_app. right. left. reflexivity.
        + exists (ext ++ [n]). rewrite Hext. simpl. rewrite app_assoc. reflexivity.
        + intros k Hk. simpl in Hk.
          destruct (eqb n k) eqn:E; [discriminate|].
          apply Hm2 in Hk. simpl in Hk. rewrite ?marks_get_set, E in Hk. assumption.
    Qed.

    Lemma visit_keys_good : forall fuel ks st,
      (forall k, In k ks -> In k (map fst g)) ->
      inv st -> (forall t, ~ temp st t) -> fuel > unmarked (fst st) ->
      match visit_keys eqb fuel g ks st with
      | Ok st' => inv st' /\ (forall k, In k ks \/ In k (snd st) -> In k (snd st'))
      | Err ERuntime => cyclic g
      | Err EKey => exists a b, edge g a b /\ ~ In b (map fst g)
      | Err _ => False
      end.
    Proof.
      induction ks as [|n ks IH]; intros st Hks Hinv Ht Hu.
      - simpl. split; [assumption|]. intros k [[]|H]; assumption.
      - simpl.
        pose proof (visit_good fuel n st Hinv (fun t H => False_ind _ (Ht t H)) Hu) as Hv.
        destruct (visit fuel g n st) as [st1|e].
        + destruct Hv as (Hi & Htt & Hin & [ext Hext] & Hm).
          assert (Hu1 : fuel > unmarked (fst st1)) by (pose proof (unmarked_mono _ _ Hm); lia).
          specialize (IH st1 (fun k H => Hks k (or_intror H)) Hi
                         (fun t H => Ht t (proj1 (Htt t) H)) Hu1).
          destruct (visit_keys eqb fuel g ks st1); [|exact IH].
          destruct IH as [Hia Hall]. split; [assumption|].
          intros k [[->|Hk]|Hk]; apply Hall; auto.
          right. rewrite Hext. apply in_or_app. auto.
        + destruct e; try exact Hv. destruct Hv as [Hv|Hv]; [|exact Hv].
          exfalso. apply Hv. apply Hks. left. reflexivity.
    Qed.

    Lemma inv_init : inv ([], []).
    Proof.
      constructor; simpl.
      - intros. split; [discriminate|tauto].
      - constructor.
      - tauto.
      - intros [|] ? ? H; discriminate.
    Qed.

    Lemma unmarked_init : unmarked [] = length g.
    Proof.
      clear Hnd. unfold unmarked. rewrite <- (map_length fst g).
      induction (map fst g) as [|x l IHl]; [reflexivity|]. cbn. f_equal. exact IHl.
    Qed.

    Lemma sort_good :
      match topological_sort eqb g with
      | Ok l => inv ([], []) /\ NoDup l /\ (forall k, In k l <-> In k (map fst g)) /\
                (forall l1 n l2, l = l1 ++ n :: l2 -> forall m, edge g n m -> In m l1)
      | Err ERuntime => cyclic g
      | Err EKey => exists a b, edge g a b /\ ~ In b (map fst g)
      | Err _ => False
      end.
    Proof.
      unfold topological_sort.
      assert (Hu : S (S (length g)) > unmarked (fst (([], []) : @tstate A)))
        by (simpl; rewrite unmarked_init; lia).
      assert (Ht : forall t, ~ temp ([], []) t) by (intros t; unfold temp; simpl; discriminate).
      pose proof (visit_keys_good _ (map fst g) ([], []) (fun k H => H) inv_init Ht Hu) as H.
      destruct (visit_keys eqb (S (S (length g))) g (map fst g) ([], [])) as [st|e]; [|exact H].
      destruct H as [Hi Hall]. split; [apply inv_init|]. split; [apply Hi|]. split.
      - intros k. split; intros Hk; [apply (inv_key _ Hi); assumption|apply Hall; left; assumption].
      - apply Hi.
    Qed.

    Theorem sort_sound : forall l,
      topological_sort eqb g = Ok l ->
      Permutation l (map fst g) /\ (forall a b, edge g a b -> before b a l).
    Proof.
      intros l H. pose proof sort_good as G. rewrite H in G.
      destruct G as (_ & Hn & Hk & Ho). split.
      - apply NoDup_Permutation; assumption.
      - intros a b He. assert (Hin : In a l).
        { apply Hk. destruct He as [ms [Hin _]]. apply in_map_iff. exists (a, ms). auto. }
        apply in_split in Hin. destruct Hin as [l1 [l2 ->]].
        pose proof (Ho l1 a l2 eq_refl b He) as Hb.
        apply in_split in Hb. destruct Hb as [l3 [l4 ->]].
        exists l3, l4, l2. rewrite <- app_assoc. reflexivity.
    Qed.

    Theorem sort_errors : forall e,
      topological_sort eqb g = Err e ->
      (e = ERuntime /\ cyclic g) \/ (e = EKey /\ ~ closed g).
    Proof.
      intros e H. pose proof sort_good as G. rewrite H in G.
      destruct e; try contradiction.
      - right. split; [reflexivity|]. destruct G as [a [b [He Hn]]].
        intros Hc. apply Hn. exact (Hc a b He).
      - left. split; [reflexivity|assumption].
    Qed.

    Lemma before_irrefl : forall (x : A) l, NoDup l -> ~ before x x l.
    Proof.
      intros x l Hn (l1 & l2 & l3 & ->). apply NoDup_remove_2 in Hn.
      apply Hn. apply in_or_app. right. apply in_or_app. right. left. reflexivity.
    Qed.

    Lemma nodup_split_unique : forall (y : A) p q m r,
      NoDup (p ++ y :: q) -> p ++ y :: q = m ++ y :: r -> p = m /\ q = r.
    Proof.
      induction p as [|a p IH]; intros q [|b m] r Hn E; simpl in *.
      - injection E as ->. auto.
      - injection E as <- E. inversion Hn as [|? ? Hni _]; subst. exfalso. apply Hni.
        apply in_or_app. right. left. reflexivity.
      - injection E as -> E. inversion Hn as [|? ? Hni _]; subst. exfalso. apply Hni.
        apply in_or_app. right. left. reflexivity.
      - injection E as -> E. inversion Hn; subst.
        destruct (IH q m r) as [-> ->]; auto.
    Qed.

    Lemma before_trans : forall (x y z : A) l, NoDup l -> before x y l -> before y z l -> before x z l.
    Proof.
      intros x y z l Hn (l1 & l2 & l3 & E1) (m1 & m2 & m3 & E2).
      assert (E3 : l = (l1 ++ x :: l2) ++ y :: l3) by (rewrite <- app_assoc; exact E1).
      assert (Hs : l1 ++ x :: l2 = m1 /\ l3 = m2 ++ z :: m3).
      { apply nodup_split_unique with y; congruence. }
      destruct Hs as [<- ->].
      exists l1, (l2 ++ y :: m2), m3. rewrite E1. rewrite <- app_assoc. reflexivity.
    Qed.

    Theorem sort_not_cyclic : forall l, topological_sort eqb g = Ok l -> ~ cyclic g.
    Proof.
      intros l H [a Ha]. destruct (sort_sound l H) as [Hp Hb].
      assert (Hn : NoDup l) by (eapply Permutation_NoDup; [symmetry; exact Hp|exact Hnd]).
      assert (Hall : forall x y, clos_trans A (edge g) x y -> before y x l).
      { intros x y Hxy. induction Hxy as [x y Hxy|x y z _ IH1 _ IH2].
        - apply Hb; assumption.
        - eapply before_trans; eassumption. }
      exact (before_irrefl a l Hn (Hall a a Ha)).
    Qed.

    Theorem sort_closed : forall l, topological_sort eqb g = Ok l -> closed g.
    Proof.
      intros l H a b He. destruct (sort_sound l H) as [Hp Hb].
      apply (Permutation_in b Hp). destruct (Hb a b He) as (l1 & l2 & l3 & ->).
      apply in_or_app. right. left. reflexivity.
    Qed.

    Theorem sort_complete : closed g -> ~ cyclic g -> exists l, topological_sort eqb g = Ok l.
    Proof.
      intros Hc Hn. destruct (topological_sort eqb g) as [l|e] eqn:E; [exists l; reflexivity|].
      destruct (sort_errors e E) as [[_ H]|[_ H]]; contradiction.
    Qed.
  End WithGraph.
End Proofs.
