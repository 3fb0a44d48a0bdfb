(** C13: recursive types parse to completion. *)
From Coq Require Import String List NArith ZArith Bool.
From Verif Require Import Base Json PyTypes Deser SpecRecursion DeserFuel Samples.
Import ListNotations.
Open Scope list_scope.
Open Scope nat_scope.

(** C13.  If every chain of aliases and unions in the program reaches a
    container, class or scalar, json_to_object ends on every document: it does
    not raise RecursionError, either while building the deserializer ... *)
Theorem C13_build_terminates :
  forall E m t, guarded_env E -> create_deserializer E m t <> Err ERecursion.
Proof. intros E m t GE. exact (create_deserializer_ends E GE m t). Qed.
Print Assumptions C13_build_terminates.

(** ... or while parsing. *)
Theorem C13_parse_terminates :
  forall E skip m t j, guarded_env E -> calm E -> every_part (guarded E m) t ->
  json_to_object E skip m t j <> Err ERecursion.
Proof. intros E skip m t j GE C. exact (json_to_object_ends E GE C skip m t j). Qed.
Print Assumptions C13_parse_terminates.

(** C13.  The recursion budget of the model is immaterial: every larger budget
    gives the same outcome. *)
Theorem C13_budget_immaterial :
  forall E skip m t j n, guarded_env E -> calm E -> every_part (guarded E m) t ->
  parse_fuel E t j <= n ->
  json_to_object E skip m t j = (do _ <- create_deserializer E m t; parse E skip n m t j).
Proof. intros E skip m t j n GE C. exact (json_to_object_budget E GE C skip m t j n). Qed.
Print Assumptions C13_budget_immaterial.

(** The hypotheses hold of the sample program, whose class [Node] and alias
    [Json] are recursive. *)
Example C13_witness_env : guarded_env Zoo /\ calm Zoo.
Proof. split; [exact zoo_guarded | exact zoo_calm]. Qed.

Example C13_witness_type : every_part (guarded Zoo 0) (TList (TRef (str "Json"))).
Proof.
  assert (G : guarded Zoo 0 (TRef (str "Json"))).
  { apply g_ref. intros a t L. apply zoo_refs in L. destruct L as [->|[->|[_ ->]]]; prove_guarded. }
  cbn; prove_guarded.
Qed.

(** The condition is needed: an alias that is a member of itself is not
    accepted by any budget (X = Union["X", int] on the document "a"). *)
Definition LoopEnv : env :=
  mkEnv [] [(0, str "X", (true, TUnion false [TRef (str "X"); tint]))] (fun ps => ps).

Theorem C13_unguarded_diverges :
  forall n, parse LoopEnv false n 0 (TRef (str "X")) (jstr "a") = Err ERecursion.
Proof.
  induction n as [n IH] using lt_wf_ind. destruct n as [|[|n]]; try reflexivity.
  change (parse LoopEnv false (S (S n)) 0 (TRef (str "X")) (jstr "a"))
    with (union_try (fun u => parse LoopEnv false n 0 u (jstr "a")) [TRef (str "X"); tint]).
  cbn [union_try]. rewrite (IH n) by (apply PeanoNat.Nat.lt_lt_succ_r, PeanoNat.Nat.lt_succ_diag_r). reflexivity.
Qed.
Print Assumptions C13_unguarded_diverges.
