(** Schemas as in SpecMake.v whose objects list their properties. *)
From Coq Require Import String List NArith ZArith Bool Lia.
From Verif Require Import Base Json PyTypes Deser Lists Mapping ClassDef TypeDef SpecClassDef SpecTypeDef SpecMake SpecSend.
From Verif Require SpecTypeShape MirrorProofs.
Import ListNotations.
Open Scope list_scope.
Open Scope nat_scope.

(** As [makes], without [mk_free]. *)
Inductive builds (U : unicode) (D : list pystr) : pystr -> json -> list pystr -> Prop :=
| bd_ref : forall context s x, only s ["title"; "description"; "$ref"]%string -> labelled s ->
    has s "$ref" (JStr (path x)) -> x <> [] -> (forall c, In c x -> word_char (u_word U) c = true) -> In x D -> builds U D context s []
| bd_boolean : forall context s, only s ["title"; "description"; "type"; "format"; "const"; "default"; "examples"]%string -> headed s "boolean" ->
    valued s truth -> builds U D context s []
| bd_integer : forall context s, only s ["title"; "description"; "type"; "format"; "const"; "default"; "examples"; "enum"; "minimum"; "maximum"]%string ->
    headed s "integer" -> valued s whole -> may s "minimum" whole -> may s "maximum" whole ->
    may s "enum" (fun j => each whole j /\ j <> JArr []) -> builds U D context s []
| bd_number : forall context s, only s ["title"; "description"; "type"; "format"; "default"; "examples"; "minimum"; "maximum"]%string ->
    headed s "number" -> valued s real -> may s "minimum" real -> may s "maximum" real -> builds U D context s []
| bd_text : forall context s, only s ["title"; "description"; "type"; "format"; "const"; "default"; "examples"; "minLength"; "maxLength"]%string ->
    headed s "string" -> valued s text -> may s "minLength" whole -> may s "maxLength" natural ->
    timely s -> builds U D context s []
| bd_array : forall context s i names, only s ["title"; "description"; "type"; "format"; "items"]%string -> headed s "array" ->
    has s "items" i -> lacks i "default" -> builds U D context i names -> builds U D context s names
| bd_one_of : forall context s ss names, only s ["title"; "description"; "oneOf"]%string -> labelled s -> has s "oneOf" (JArr ss) -> ss <> [] ->
    builds_members U D context ss names -> builds U D context s names
| bd_class : forall context s names, builds_class U D context s names -> builds U D context s names
with builds_class (U : unicode) (D : list pystr) : pystr -> json -> list pystr -> Prop :=
| bc_enum : forall context s values, only s ["title"; "description"; "type"; "default"; "examples"; "enum"; "minLength"; "maxLength"]%string ->
    headed s "string" -> valued s text -> has s "enum" (JArr (map JStr values)) -> members_for U context values ->
    may s "default" (fun j => exists v, j = JStr v /\ In v values) -> may s "minLength" whole -> may s "maxLength" whole ->
    builds_class U D context s [context]
| bc_object : forall context s ps names,
    only s ["title"; "description"; "type"; "format"; "properties"; "additionalProperties"; "required"]%string -> headed s "object" ->
    has s "properties" (JObj ps) -> has s "additionalProperties" (JBool false) -> may s "required" (each text) ->
    builds_properties U D context ps names -> builds_class U D context s (names ++ [context])
with builds_properties (U : unicode) (D : list pystr) : pystr -> list (pystr * json) -> list pystr -> Prop :=
| bp_nil : forall context, builds_properties U D context [] []
| bp_cons : forall context x s ps n1 n2, field_name U x -> builds U D (below context x) s n1 -> builds_properties U D context ps n2 ->
    builds_properties U D context ((x, s) :: ps) (n1 ++ n2)
with builds_members (U : unicode) (D : list pystr) : pystr -> list json -> list pystr -> Prop :=
| bm_nil : forall context, builds_members U D context [] []
| bm_cons : forall context s ss n1 n2, builds U D context s n1 -> lacks s "default" -> builds_members U D context ss n2 ->
    builds_members U D context (s :: ss) (n1 ++ n2).

Inductive builds_definitions (U : unicode) : list pystr -> list (pystr * json) -> list pystr -> Prop :=
| bn_nil : forall D, builds_definitions U D [] []
| bn_cons : forall D x s ds n1 n2, builds_class U D x s n1 -> lacks s "default" -> builds_definitions U (x :: D) ds n2 ->
    builds_definitions U D ((x, s) :: ds) (n1 ++ n2).


Scheme builds_mut := Minimality for builds Sort Prop
with builds_class_mut := Minimality for builds_class Sort Prop
with builds_properties_mut := Minimality for builds_properties Sort Prop
with builds_members_mut := Minimality for builds_members Sort Prop.
Combined Scheme builds_all from builds_mut, builds_class_mut, builds_properties_mut, builds_members_mut.

Lemma builds_make : forall U D,
  (forall c s n, builds U D c s n -> makes U D c s n) /\ (forall c s n, builds_class U D c s n -> makes_class U D c s n) /\
  (forall c s n, builds_properties U D c s n -> makes_properties U D c s n) /\ (forall c s n, builds_members U D c s n -> makes_members U D c s n).
Proof.
  intros U D. apply builds_all; intros.
  all: first [eapply mk_ref; eassumption | apply mk_boolean; assumption | apply mk_integer; assumption | apply mk_number; assumption | apply mk_text; assumption
    | eapply mk_array; eassumption | eapply mk_one_of; eassumption | apply mk_class; assumption | eapply mc_enum; eassumption | eapply mc_object; eassumption
    | apply mp_nil | apply mp_cons; assumption | apply mm_nil | apply mm_cons; assumption].
Qed.

Lemma builds_definitions_make : forall U D ds n, builds_definitions U D ds n -> makes_definitions U D ds n.
Proof. intros U D ds n H. induction H; [apply md_nil | apply md_cons; [apply builds_make; assumption | assumption | assumption]]. Qed.

(** ** Parts *)

Definition listed_part (U : unicode) (D : list pystr) (p : json) : Prop :=
  (of_type p "object" -> exists ps, has p "properties" (JObj ps)) /\
  (forall vs, of_type p "string" -> has p "enum" (JArr vs) -> exists values, vs = map JStr values /\ NoDup (map (enum_safe_name (u_word U)) values)) /\
  (forall r, has p "$ref" (JStr r) -> exists x, r = path x /\ In x D /\ forall c, In c x -> word_char (u_word U) c = true).

Definition listed_in (U : unicode) (D : list pystr) (s : json) : Prop := forall p, inside s p -> listed_part U D p.

Lemma only_has : forall s ks k x, only s ks -> has s k x -> exists y, In y ks /\ str k = str y.
Proof. intros s ks k x (kws & -> & H) (o & Q & I). injection Q as <-. exact (H _ _ I). Qed.

Lemma wf_part : forall s k x, json_wf s -> has s k x -> json_wf x.
Proof. intros s k x W (o & -> & I). inversion W as [| | | | | |? _ F]; subst. rewrite Forall_forall in F. exact (F _ I). Qed.

Lemma str_inj : forall a b, str a = str b -> a = b.
Proof.
  induction a as [|c a IH]; intros [|d b] H; cbn in H; try discriminate H; [reflexivity|]. injection H as H1 H2. f_equal; [|apply IH; exact H2].
  apply (f_equal Ascii.ascii_of_N) in H1. rewrite !Ascii.ascii_N_embedding in H1. exact H1.
Qed.

Lemma only_no : forall s ks k x, only s ks -> has s k x -> In k ks.
Proof. intros s ks k x O H. destruct (only_has _ _ _ _ O H) as (y & I & Q). rewrite (str_inj _ _ Q). exact I. Qed.

Ltac absent O H := exfalso; apply (only_no _ _ _ _ O) in H; cbn [In] in H; repeat (destruct H as [H|H]; [discriminate H|]); exact H.

Lemma headed_type : forall s a b, json_wf s -> headed s a -> of_type s b -> a = b.
Proof. intros s a b W (_ & T & _) H. pose proof (MirrorProofs.has_once _ _ _ _ W T H) as Q. injection Q as Q. apply str_inj. exact Q. Qed.

Ltac itself O I := let H := fresh in inversion I as [|? ? ? ? ? H|? ? ? H|? ? ? ? H]; subst; [| absent O H | absent O H | absent O H].

Lemma builds_listed : forall U D,
  (forall c s n, builds U D c s n -> json_wf s -> listed_in U D s) /\ (forall c s n, builds_class U D c s n -> json_wf s -> listed_in U D s) /\
  (forall c ps n, builds_properties U D c ps n -> forall x q, In (x, q) ps -> json_wf q -> listed_in U D q) /\
  (forall c ss n, builds_members U D c ss n -> forall q, In q ss -> json_wf q -> listed_in U D q).
Proof.
  intros U D. apply builds_all.
  - intros context s x O _ R _ C I W p J. itself O J. split; [intros H; absent O H|]. split; [intros vs _ H; absent O H|]. intros r H. pose proof (MirrorProofs.has_once _ _ _ _ W R H) as Q. injection Q as <-. eauto.
  - intros context s O HD _ W p J. itself O J. split; [intros H; discriminate (headed_type _ _ _ W HD H)|]. split; [intros vs H _; discriminate (headed_type _ _ _ W HD H) | intros r H; absent O H].
  - intros context s O HD _ _ _ _ W p J. itself O J. split; [intros H; discriminate (headed_type _ _ _ W HD H)|]. split; [intros vs H _; discriminate (headed_type _ _ _ W HD H) | intros r H; absent O H].
  - intros context s O HD _ _ _ W p J. itself O J. split; [intros H; discriminate (headed_type _ _ _ W HD H)|]. split; [intros vs H _; discriminate (headed_type _ _ _ W HD H) | intros r H; absent O H].
  - intros context s O HD _ _ _ _ W p J. itself O J. split; [intros H; discriminate (headed_type _ _ _ W HD H)|]. split; [intros vs _ H; absent O H | intros r H; absent O H].
  - intros context s i names O HD I _ _ IH W p J. inversion J as [|? ? ? ? ? H|? q ? H K|? ? ? ? H]; subst; [ | absent O H | | absent O H].
    + split; [intros H; discriminate (headed_type _ _ _ W HD H)|]. split; [intros vs H _; discriminate (headed_type _ _ _ W HD H) | intros r H; absent O H].
    + rewrite <- (MirrorProofs.has_once _ _ _ _ W I H) in K. exact (IH (wf_part _ _ _ W I) p K).
  - intros context s ss names O _ H _ _ IH W p J. inversion J as [|? ? ? ? ? G|? q ? G K|? ss' q ? G Iq K]; subst; [ | absent O G | absent O G|].
    + split; [intros G; absent O G|]. split; [intros vs G; absent O G | intros r G; absent O G].
    + pose proof (MirrorProofs.has_once _ _ _ _ W H G) as Q. injection Q as <-. pose proof (wf_part _ _ _ W H) as WS. inversion WS as [| | | | |? F|]; subst.
      rewrite Forall_forall in F. exact (IH q Iq (F q Iq) p K).
  - intros context s names _ IH. exact IH.
  - intros context s vs O HD _ EN MF _ _ _ W p J. itself O J. split; [intros H; discriminate (headed_type _ _ _ W HD H)|]. split; [|intros r H; absent O H].
    intros js _ H. pose proof (MirrorProofs.has_once _ _ _ _ W EN H) as Q. injection Q as <-. exists vs. split; [reflexivity | apply MF].
  - intros context s ps names O HD H _ _ _ IH W p J. inversion J as [|? ps' x q ? G Iq K|? q ? G K|? ss' q ? G Iq K]; subst; [ | | absent O G | absent O G].
    + split; [intros _; exists ps; exact H|]. split; [intros vs G; discriminate (headed_type _ _ _ W HD G) | intros r G; absent O G].
    + pose proof (MirrorProofs.has_once _ _ _ _ W H G) as Q. injection Q as <-. pose proof (wf_part _ _ _ W H) as WS. inversion WS as [| | | | | |? _ F]; subst.
      rewrite Forall_forall in F. exact (IH x q Iq (F _ Iq) p K).
  - intros context x q [].
  - intros context x s ps n1 n2 _ _ IH1 _ IH2 y q [Q|I] W; [injection Q as <- <-; exact (IH1 W) | exact (IH2 y q I W)].
  - intros context q [].
  - intros context s ss n1 n2 _ IH1 _ _ IH2 q [<-|I] W; [exact (IH1 W) | exact (IH2 q I W)].
Qed.

(** ** Documents *)

Lemma definitions_listed : forall U D ds n, builds_definitions U D ds n -> forall x d, In (x, d) ds -> json_wf d ->
  exists D', (forall y, In y D' -> In y D \/ In y (map fst ds)) /\ listed_in U D' d /\ (NoDup (map fst ds) -> (forall y, In y D -> ~ In y (map fst ds)) -> ~ In x D').
Proof.
  intros U D ds n H. induction H as [D|D x s ds n1 n2 B _ _ IH]; intros y d I W; [destruct I|]. cbn [map fst In]. destruct I as [Q|I].
  - injection Q as <- <-. exists D. split; [auto|]. split; [apply (proj1 (proj2 (builds_listed U D)) x s n1 B W)|]. intros _ X J. exact (X x J (or_introl eq_refl)).
  - destruct (IH y d I W) as (D' & A & L & N). exists D'. split; [intros z J; destruct (A z J) as [[->|K]|K]; auto|]. split; [exact L|].
    intros ND X. inversion ND as [|? ? N1 N2]; subst. apply N; [exact N2|]. intros z [<-|J] K; [exact (N1 K) | exact (X z J (or_intror K))].
Qed.

Lemma no_newline : forall U x, (forall c, In c x -> word_char (u_word U) c = true) -> ~ In 10%N (path x).
Proof.
  intros U x C I. unfold path in I. apply in_app_iff in I. destruct I as [I|I]; [|discriminate (C _ I)].
  cbn in I. repeat (destruct I as [I|I]; [discriminate I|]). exact I.
Qed.

(** The documents of SendProofs.v. *)
Record orderly (U : unicode) (doc : json) : Prop := {
  od_listed : forall s, part doc s -> of_type s "object" -> exists ps, has s "properties" (JObj ps);
  od_labels : forall s vs, part doc s -> of_type s "string" -> has s "enum" (JArr vs) -> exists values, vs = map JStr values /\ NoDup (map (enum_safe_name (u_word U)) values);
  od_refs : forall s r, part doc s -> has s "$ref" (JStr r) -> exists x d, r = path x /\ definition doc x d /\ forall c, In c x -> word_char (u_word U) c = true;
  od_self : forall x d s, definition doc x d -> inside d s -> ~ has s "$ref" (JStr (path x))
}.

Lemma builds_orderly : forall U name doc ds ps n1 n2, makes_schema U name doc ds ps n1 n2 -> builds_definitions U [] ds n1 ->
  builds_properties U (rev (map fst ds)) name ps n2 -> json_wf doc -> orderly U doc.
Proof.
  intros U name doc ds ps n1 n2 MS BD BP W. destruct MS as [O HD _ DS PS _ _ _ _].
  assert (DD : forall x d, definition doc x d -> In (x, d) ds /\ json_wf d /\ NoDup (map fst ds)).
  { intros x d (o & H & I). destruct DS as [H'|(_ & L)]; [|destruct (L _ H)]. pose proof (MirrorProofs.has_once _ _ _ _ W H' H) as Q. injection Q as <-.
    pose proof (wf_part _ _ _ W H) as WS. inversion WS as [| | | | | |? N F]; subst. rewrite Forall_forall in F. split; [exact I|]. split; [exact (F _ I) | exact N]. }
  assert (P : forall p, part doc p -> exists D, (forall y, In y D -> In y (map fst ds)) /\ listed_part U D p).
  { intros p [J|(x & d & Dx & J)].
    - exists (rev (map fst ds)). split; [intros y I; apply in_rev; exact I|]. inversion J as [|? ps' x q ? G Iq K|? q ? G K|? ss' q ? G Iq K]; subst; [ | | absent O G | absent O G].
      + split; [intros _; exists ps; exact PS|]. split; [intros vs G; discriminate (headed_type _ _ _ W HD G) | intros r G; absent O G].
      + pose proof (MirrorProofs.has_once _ _ _ _ W PS G) as Q. injection Q as <-. pose proof (wf_part _ _ _ W PS) as WS. inversion WS as [| | | | | |? _ F]; subst.
        rewrite Forall_forall in F. exact (proj1 (proj2 (proj2 (builds_listed U _))) _ _ _ BP x q Iq (F _ Iq) p K).
    - destruct (DD x d Dx) as (I & Wd & _). destruct (definitions_listed U [] ds n1 BD x d I Wd) as (D' & S & L & _). exists D'.
      split; [intros y Y; destruct (S y Y) as [[]|Z]; exact Z | exact (L p J)]. }
  split.
  - intros s J. destruct (P s J) as (D & _ & A & _). exact A.
  - intros s vs J. destruct (P s J) as (D & _ & _ & A & _). exact (A vs).
  - intros s r J H. destruct (P s J) as (D & S & _ & _ & B). destruct (B r H) as (x & -> & I & C). apply S in I. apply in_map_iff in I. destruct I as ([y d] & <- & I).
    exists y, d. split; [reflexivity|]. split; [|exact C]. exists ds. split; [|exact I]. destruct DS as [H'|(-> & _)]; [exact H' | destruct I].
  - intros x d s Dx J H. destruct (DD x d Dx) as (I & Wd & ND). destruct (definitions_listed U [] ds n1 BD x d I Wd) as (D' & _ & L & N).
    destruct (proj2 (proj2 (L s J)) _ H) as (y & Q & Iy & _). unfold path in Q. apply app_inv_head in Q. subst y. apply N; [exact ND | intros z [] | exact Iy].
Qed.

Lemma orderly_regular : forall U doc, orderly U doc -> SpecTypeShape.regular doc.
Proof.
  intros U doc [A _ B C]. split; [exact A | | exact C]. intros s r J H. destruct (B s r J H) as (x & d & -> & _ & N). eapply no_newline. exact N.
Qed.

Lemma orderly_importable : forall U doc, orderly U doc -> told_apart U doc -> importable U doc.
Proof.
  intros U doc [A L B C] [H1 H2 H3]. split; [exact A | exact H1 | | exact H2 | exact H3 | | exact C].
  - intros s vs a b J T EN Ia Ib Q. destruct (L s vs J T EN) as (values & -> & ND). apply in_map_iff in Ia. destruct Ia as (a' & X & Ia). injection X as ->.
    apply in_map_iff in Ib. destruct Ib as (b' & X & Ib). injection X as ->. clear - ND Ia Ib Q.
    induction values as [|v values IH]; [destruct Ia|]. cbn [map] in ND. inversion ND as [|? ? N1 N2]; subst.
    destruct Ia as [->|Ia], Ib as [->|Ib]; [reflexivity | | | exact (IH Ib Ia N2)]; exfalso; apply N1; [rewrite Q | rewrite <- Q]; apply in_map; assumption.
  - intros s r J H. destruct (B s r J H) as (x & d & -> & Dx & N). exists x, d. split; [reflexivity|]. split; [exact Dx|]. intros I. discriminate (N _ I).
Qed.
