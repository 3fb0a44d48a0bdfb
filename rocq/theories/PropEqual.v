(** C24: which items of a set are the same. *)
From Coq Require Import String List NArith ZArith QArith Bool.
From Verif Require Import Base Json IsoTime SpecIsoTime PyTypes Deser SpecTyping SpecRecursion DeserUnfold SpecNumbers SpecEqual EqualProofs Samples PropDeser.
Import ListNotations.
Open Scope list_scope.
Open Scope nat_scope.

(** C24.  Items are the same if they are the same number, text, instant and so on; tuples
    and instances of frozen data classes if their parts are. *)
Theorem C24_equality : forall E a b, calendar_dates a -> calendar_dates b -> (py_eq E a b = true <-> equal E a b).
Proof. intros E a b A B. apply py_eq_spec; assumption. Qed.
Print Assumptions C24_equality.

(** C24.  No two items of a set are equal, and each item read is in the set or equal to one
    that is. *)
Theorem C24_distinct : forall E skip m t js v,
  guarded_env E -> calm E -> ready E m (TSet t) -> json_to_object E skip m (TSet t) (JArr js) = Ok v ->
  exists vs us, v = VSet us /\ Forall2 (fun j v => json_to_object E skip m t j = Ok v) js vs /\ incl us vs /\
    ((forall w, In w vs -> calendar_dates w) ->
     ForallOrdPairs (fun a b => ~ equal E a b) us /\ (forall w, In w vs -> exists u, In u us /\ (u = w \/ equal E u w))).
Proof.
  intros E skip m t js v GE C R H. destruct (C24_set E skip m t js v GE C R H) as (vs & us & Q & F & _ & I & D & X).
  exists vs, us. split; [exact Q|]. split; [exact F|]. split; [exact I|]. intros W. split.
  - assert (W' : forall u, In u us -> calendar_dates u) by (intros u U; apply W, I, U). clear - D W'.
    induction D as [|a us A D IH]; constructor.
    + rewrite Forall_forall in *. intros b B Q. apply C24_equality in Q; [|apply W'; left; reflexivity | apply W'; right; exact B].
      rewrite (A b B) in Q. discriminate Q.
    + apply IH. intros u U. apply W'. right. exact U.
  - intros w J. destruct (X w J) as (u & U & [Y|Y]); exists u; (split; [exact U|]); [left; exact Y|]. right.
    apply C24_equality; [apply W, I, U | apply W, J | exact Y].
Qed.
Print Assumptions C24_distinct.

(** New Year's Eve at half past eleven, one hour behind UTC, is half past midnight in UTC;
    one, true and 1.0 are the same number. *)
Example C24_witness_equality :
  let a := VDateTime (mkDT (mkDate 2023 12 31) (mkTime 23 30 0 0 (Some (-3600000000)%Z))) in
  let b := VDateTime (mkDT (mkDate 2024 1 1) (mkTime 0 30 0 0 (Some 0%Z))) in
  calendar_dates a /\ calendar_dates b /\ equal Zoo a b /\ equal Zoo (VInt 1) (VBool true) /\ ~ equal Zoo (VInt 1) (VStr (str "1"))
  /\ equal Zoo (VTuple [VInt 1]) (VTuple [VFloat (FFin false 1 0)]).
Proof.
  cbv zeta.
  assert (A : forall d, date_wf (dt_date d) -> calendar_dates (VDateTime d)) by (intros d W e H; inversion H; subst; exact W).
  assert (N : forall v, (forall d, ~ inside (VDateTime d) v) -> calendar_dates v) by (intros v H d D; destruct (H d D)).
  assert (WA : date_wf (mkDate 2023 12 31)).
  { split; [split; discriminate|]. exists 31%N. split; [left; split; [do 6 right; left; reflexivity | reflexivity] | split; discriminate]. }
  assert (WB : date_wf (mkDate 2024 1 1)).
  { split; [split; discriminate|]. exists 31%N. split; [left; split; [left; reflexivity | reflexivity] | split; discriminate]. }
  split; [apply A; exact WA|]. split; [apply A; exact WB|].
  split; [apply C24_equality; [apply A; exact WA | apply A; exact WB | reflexivity]|].
  split; [eapply eq_number; [constructor | constructor | reflexivity]|].
  split; [intros H; apply C24_equality in H; [discriminate H | |]; apply N; intros d D; inversion D|].
  eapply eq_items; [constructor | constructor|]. constructor; [|constructor]. eapply eq_number; [constructor | constructor; reflexivity | reflexivity].
Qed.
