(** The names of the classes made from a schema do not clash, if the properties
    have neat names. *)
From Coq Require Import String List NArith ZArith Bool Lia.
From Verif Require Import Base Json PyTypes Mapping ClassDef TypeDef Lists SpecClassDef SpecTypeDef SpecMake MakeRead MakeProofs MakeAll.
Import ListNotations.
Open Scope list_scope.
Open Scope nat_scope.

Definition suffix (r : pystr) : Prop := r = [] \/ exists q, r = str "__" ++ q.
Definition rooted (ctx n : pystr) : Prop := exists r, n = ctx ++ r /\ suffix r.

Lemma neat_half : forall x y l r r', neat x -> suffix r' -> x = y ++ l -> r' = l ++ r -> x = y.
Proof.
  intros x y l r r' [N1 N2] S Q R. destruct l as [|c l]; [rewrite app_nil_r in Q; exact Q|]. exfalso. destruct S as [-> | (q & ->)]; [discriminate R|].
  injection R as <- R. destruct l as [|d l]; [exact (N2 y Q)|]. injection R as <- R. exact (N1 y l Q).
Qed.

Lemma neat_prefix : forall x y r r', neat x -> neat y -> suffix r -> suffix r' -> x ++ r = y ++ r' -> x = y.
Proof.
  intros x y r r' Nx Ny S S' Q. apply app_eq_app in Q. destruct Q as (l & [[Q R] | [Q R]]).
  - exact (neat_half x y l r r' Nx S' Q R).
  - symmetry. exact (neat_half y x l r' r Ny S Q R).
Qed.

Lemma rooted_below : forall ctx x n, rooted (below ctx x) n -> rooted ctx n /\ n <> ctx.
Proof.
  intros ctx x n (r & -> & S). unfold below. split.
  - exists (str "__" ++ x ++ r). rewrite <- !app_assoc. split; [reflexivity|]. right. eexists. reflexivity.
  - intros Q. apply (f_equal (@length _)) in Q. rewrite !app_length in Q. cbn [str length] in Q. cbn in Q. lia.
Qed.

Lemma below_apart : forall ctx x y n, neat x -> neat y -> rooted (below ctx x) n -> rooted (below ctx y) n -> x = y.
Proof.
  intros ctx x y n Nx Ny (r & -> & S) (r' & Q & S'). unfold below in Q. rewrite <- !app_assoc in Q. apply app_inv_head in Q. apply app_inv_head in Q.
  exact (neat_prefix x y r r' Nx Ny S S' Q).
Qed.

Lemma nodup_both : forall A (a b : list A), NoDup a -> NoDup b -> (forall x, In x a -> In x b -> False) -> NoDup (a ++ b).
Proof.
  intros A a b Na Nb D. induction a as [|x a IH]; [exact Nb|]. cbn [app]. inversion Na as [|? ? N1 N2]; subst. constructor.
  - intros I. apply in_app_or in I. destruct I as [I | I]; [exact (N1 I) | exact (D x (or_introl eq_refl) I)].
  - apply IH; [exact N2|]. intros y I J. apply (D y); [right; exact I | exact J].
Qed.

(** Tidy schemas *)
Definition apart (ss : list json) : Prop := forall a b c p q, ss = a ++ p :: b ++ q :: c -> inline p -> inline q -> False.

Record tidy (s : json) : Prop := {
  td_properties : forall p ps x q, inside s p -> has p "properties" (JObj ps) -> In (x, q) ps -> neat x;
  td_members : forall p ss, inside s p -> has p "oneOf" (JArr ss) -> apart ss
}.

Lemma tidy_part : forall s p, tidy s -> (forall q, inside p q -> inside s q) -> tidy p.
Proof. intros s p [T1 T2] H. split; [intros q ps x r I | intros q ss I]; [apply (T1 q ps x r) | apply (T2 q ss)]; apply H; exact I. Qed.

Section Names.
  Variable U : unicode.
  Variable D : list pystr.

  Definition node_names (ctx : pystr) (s : json) (names : list pystr) : Prop :=
    (forall n, In n names -> rooted ctx n) /\ (names <> [] -> inline s) /\ (json_wf s -> tidy s -> NoDup names).
  Definition property_names (ctx : pystr) (ps : list (pystr * json)) (names : list pystr) : Prop :=
    (forall n, In n names -> exists x q, In (x, q) ps /\ rooted (below ctx x) n) /\
    (NoDup (map fst ps) -> (forall x q, In (x, q) ps -> neat x /\ json_wf q /\ tidy q) -> NoDup names).
  Definition member_names (ctx : pystr) (ss : list json) (names : list pystr) : Prop :=
    (forall n, In n names -> rooted ctx n) /\ (names <> [] -> exists p, In p ss /\ inline p) /\
    ((forall p, In p ss -> json_wf p /\ tidy p) -> apart ss -> NoDup names).

  Lemma no_names : forall ctx s, node_names ctx s [].
  Proof. intros ctx s. split; [intros n []|]. split; [intros N; destruct (N eq_refl) | constructor]. Qed.

  Lemma rooted_self : forall ctx, rooted ctx ctx.
  Proof. intros ctx. exists []. rewrite app_nil_r. split; [reflexivity | left; reflexivity]. Qed.

  Lemma all_names :
    (forall context s names, makes U D context s names -> node_names context s names) /\
    (forall context s names, makes_class U D context s names -> node_names context s names) /\
    (forall context ps names, makes_properties U D context ps names -> property_names context ps names) /\
    (forall context ss names, makes_members U D context ss names -> member_names context ss names).
  Proof.
    apply makes_all; try (intros; apply no_names).
    - intros context s i names O _ HI _ _ (R & IL & N). split; [exact R|]. split; [intros Q; eapply il_array; eauto|].
      intros W T. apply N.
      + destruct HI as (kws & -> & I). exact (TypeDefGrow.wf_value _ _ _ W I).
      + apply (tidy_part s _ T). intros q I. eapply in_items; eassumption.
    - intros context s ss names O _ HO NS _ (R & IL & N). split; [exact R|]. split.
      + intros Q. destruct (IL Q) as (p & I & L). eapply il_member; eassumption.
      + intros W T. apply N; [|exact (td_members _ T s ss (in_self _) HO)]. intros p I. split.
        * destruct HO as (kws & -> & J). exact (TypeDefGrow.wf_element _ _ (TypeDefGrow.wf_value _ _ _ W J) I).
        * apply (tidy_part s _ T). intros q J. eapply in_member; eassumption.
    - auto.
    - intros context s values O (_ & TY & _) V HE _ _ _ _. split; [intros n [<- | []]; apply rooted_self|]. split; [intros _; eapply il_enum; eassumption|].
      intros _ _. constructor; [intros [] | constructor].
    - intros context s ps names O _ HP _ _ _ (R & N). split.
      + intros n I. apply in_app_or in I. destruct I as [I | [<- | []]]; [|apply rooted_self]. destruct (R n I) as (x & q & _ & RX). exact (proj1 (rooted_below _ _ _ RX)).
      + split; [intros _; eapply il_object; eassumption|]. intros W T. apply nodup_both.
        * destruct HP as (kws & -> & I). pose proof (TypeDefGrow.wf_value _ _ _ W I) as WP. apply N.
          -- inversion WP; assumption.
          -- intros x q J. assert (HP : has (JObj kws) "properties" (JObj ps)) by (exists kws; auto). split; [exact (td_properties _ T _ ps x q (in_self _) HP J)|].
             split; [exact (TypeDefGrow.wf_value _ _ _ WP J)|]. apply (tidy_part (JObj kws) _ T). intros r K. eapply in_property; eassumption.
        * constructor; [intros [] | constructor].
        * intros n I [<- | []]. destruct (R _ I) as (x & q & _ & RX). exact (proj2 (rooted_below _ _ _ RX) eq_refl).
    - intros context. split; [intros n [] | constructor].
    - intros context x s ps n1 n2 _ _ (R1 & _ & N1) _ (R2 & N2). split.
      + intros n I. apply in_app_or in I. destruct I as [I | I]; [exists x, s; split; [left; reflexivity | exact (R1 n I)]|].
        destruct (R2 n I) as (y & q & J & RY). exists y, q. split; [right; exact J | exact RY].
      + intros ND B. cbn [map fst] in ND. inversion ND as [|? ? ND1 ND2]; subst. destruct (B x s (or_introl eq_refl)) as (NX & W & T). apply nodup_both.
        * exact (N1 W T).
        * apply N2; [exact ND2|]. intros y q I. apply B. right. exact I.
        * intros n I J. destruct (R2 n J) as (y & q & K & RY). apply ND1. rewrite (below_apart context x y n NX (proj1 (B y q (or_intror K))) (R1 n I) RY).
          apply (in_map fst) in K. exact K.
    - intros context. split; [intros n []|]. split; [intros N; destruct (N eq_refl) | constructor].
    - intros context s ss n1 n2 _ (R1 & I1 & N1) _ _ (R2 & I2 & N2). split; [intros n I; apply in_app_or in I; destruct I as [I | I]; [exact (R1 n I) | exact (R2 n I)]|]. split.
      + intros Q. destruct n1 as [|n n1]; [|exists s; split; [left; reflexivity | apply I1; discriminate]]. destruct (I2 Q) as (p & I & L). exists p. split; [right; exact I | exact L].
      + intros B A. assert (A' : apart ss) by (intros a b c p q Q; apply (A (s :: a) b c p q); rewrite Q; reflexivity).
        assert (X1 : NoDup n1) by (destruct (B s (or_introl eq_refl)) as [W T]; exact (N1 W T)).
        assert (X2 : NoDup n2) by (apply N2; [intros p I; apply B; right; exact I | exact A']).
        destruct n1 as [|n n1]; [exact X2|]. destruct n2 as [|k n2]; [rewrite app_nil_r; exact X1|]. exfalso.
        destruct (I2 ltac:(discriminate)) as (p & I & L). apply in_split in I. destruct I as (b & c & ->).
        apply (A [] b c s p eq_refl); [apply I1; discriminate | exact L].
  Qed.
End Names.

Section Documents.
  Variable U : unicode.

  Lemma definition_names : forall D ds names, makes_definitions U D ds names ->
    (forall n, In n names -> exists x, In x (map fst ds) /\ rooted x n) /\
    (NoDup (map fst ds) -> (forall x s, In (x, s) ds -> neat x /\ json_wf s /\ tidy s) -> NoDup names).
  Proof.
    intros D ds names H. induction H as [D|D x s ds n1 n2 MC LD _ (R2 & N2)].
    - split; [intros n [] | constructor].
    - destruct (proj1 (proj2 (all_names U D)) _ _ _ MC) as (R1 & _ & N1). split.
      + intros n I. apply in_app_or in I. destruct I as [I | I]; [exists x; split; [left; reflexivity | exact (R1 n I)]|].
        destruct (R2 n I) as (y & J & RY). exists y. split; [right; exact J | exact RY].
      + intros ND B. cbn [map fst] in ND. inversion ND as [|? ? ND1 ND2]; subst. destruct (B x s (or_introl eq_refl)) as (NX & W & T). apply nodup_both.
        * exact (N1 W T).
        * apply N2; [exact ND2|]. intros y q I. apply B. right. exact I.
        * intros n I J. destruct (R2 n J) as (y & K & (r' & Q' & S')). destruct (R1 n I) as (r & Q & S). apply ND1.
          assert (NY : neat y) by (apply in_map_iff in K; destruct K as ([y' q] & <- & K); exact (proj1 (B _ _ (or_intror K)))).
          rewrite Q in Q'. rewrite (neat_prefix x y r r' NX NY S S' Q'). exact K.
  Qed.

  Lemma schema_names : forall name doc ds ps n1 n2, json_wf doc -> makes_schema U name doc ds ps n1 n2 -> neatly doc -> neat name -> (forall x, In x (map fst ds) -> neat x) ->
    ~ In name (map fst ds) -> NoDup (n1 ++ n2 ++ [name]).
  Proof.
    intros name doc ds ps n1 n2 W [O _ _ HD HP _ _ MD MP] [NP NM] NN ND NI.
    destruct (definition_names _ _ _ MD) as (RD & XD). destruct (proj1 (proj2 (proj2 (all_names U _))) _ _ _ MP) as (RP & XP).
    open_schema O. assert (TD : tidy (JObj kws)).
    { split; [intros p qs x q I; apply (NP p qs x q); left; exact I|]. intros p ss I H a b c u v Q. apply (NM p a b c u v); [left; exact I | rewrite <- Q; exact H]. }
    assert (DD : forall x s, In (x, s) ds -> definition (JObj kws) x s /\ json_wf s /\ NoDup (map fst ds)).
    { intros x s I. destruct HD as [HD | [-> _]]; [|destruct I]. split; [exists ds; split; assumption|]. destruct HD as (kws' & Q & J). injection Q as <-.
      pose proof (TypeDefGrow.wf_value _ _ _ W J) as WD. split; [exact (TypeDefGrow.wf_value _ _ _ WD I)|]. inversion WD; assumption. }
    assert (HP' := HP). destruct HP' as (kws' & Q & IP). injection Q as <-. pose proof (TypeDefGrow.wf_value _ _ _ W IP) as WP.
    apply nodup_both; [| apply nodup_both|].
    - apply XD.
      + destruct ds as [|[x s] ds]; [constructor | exact (proj2 (proj2 (DD x s (or_introl eq_refl))))].
      + intros x s I. destruct (DD x s I) as (DF & WS & _). split; [apply ND; apply (in_map fst) in I; exact I|]. split; [exact WS|].
        split; [intros p qs y q J; apply (NP p qs y q); right; eauto|]. intros p ss J H a b c u v Q. apply (NM p a b c u v); [right; eauto | rewrite <- Q; exact H].
    - apply XP; [inversion WP; assumption|]. intros x q I. split; [exact (td_properties _ TD _ ps x q (in_self _) HP I)|].
      split; [exact (TypeDefGrow.wf_value _ _ _ WP I)|]. apply (tidy_part _ _ TD). intros r K. eapply in_property; eassumption.
    - constructor; [intros [] | constructor].
    - intros n I [<- | []]. destruct (RP _ I) as (x & q & _ & RX). exact (proj2 (rooted_below _ _ _ RX) eq_refl).
    - intros n I J. destruct (RD n I) as (x & K & (r & Q & S)). assert (RN : rooted name n).
      { apply in_app_or in J. destruct J as [J | [<- | []]]; [|exists []; rewrite app_nil_r; split; [reflexivity | left; reflexivity]].
        destruct (RP n J) as (y & q & _ & RY). exact (proj1 (rooted_below _ _ _ RY)). }
      destruct RN as (r' & Q' & S'). rewrite Q in Q'. apply NI. rewrite <- (neat_prefix x name r r' (ND x K) NN S S' Q'). exact K.
  Qed.
End Documents.
