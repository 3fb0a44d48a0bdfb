(** C43: the memoisation of serializers. *)
From Coq Require Import String List NArith ZArith Bool.
From Verif Require Import Base Json PyTypes Deser Ser SerCache SerCacheProofs Samples.
Import ListNotations.
Open Scope list_scope.
Open Scope nat_scope.

(** C43.  After any sequence of serializations and creations of serializers,
    successful or not, a serialization has the outcome that it has without a
    table at all; likewise the creation of a serializer. *)
Theorem C43_transparent : forall E within calls v,
  fst (object_to_json_in E within v (after_calls E within calls)) = object_to_json E v.
Proof. intros E within calls v. apply (object_inert E within v). apply after_valid. Qed.
Print Assumptions C43_transparent.

Theorem C43_create : forall E within calls t,
  fst (create_serializer_in E None t (after_calls E within calls)) = serializer_of E t.
Proof. intros E within calls t. apply (create_inert E None t). apply after_valid. Qed.
Print Assumptions C43_create.

Definition a_point : value := VObj 1 [(str "x", VInt 3); (str "y", VNone); (str "class_", vstr "q")].
Definition a_plain : value := VObj 7 [(str "name", vstr "n"); (str "link", VNone)].
Definition a_version : value := VObj 6 [(str "text", vstr "1.0")].

Definition hook_types (v : value) : list typ := match v with VObj 6 _ => [TClass 4] | _ => [] end.

(** Earlier calls, of which the first and third failed, did fill the table, and
    the call below finds it filled. *)
Example C43_witness :
  let within := fun v => match v with VObj 6 _ => [TClass 4] | _ => [] end in
  let C := after_calls Zoo within [Serialize tree_value; Serialize (VList [a_point; a_version]); Create None (TRef (str "Node"))] in
  map fst C = [4; 6; 1] /\
  fst (object_to_json_in Zoo within (VList [a_point; a_plain; a_version]) C) =
    Ok (JArr [JObj [(str "x", JInt 3); (str "class", jstr "q")]; JObj [(str "name", jstr "n")]; jstr "1.0"]).
Proof.
  cbv zeta. split.
  - vm_compute. reflexivity.
  - rewrite C43_transparent. vm_compute. reflexivity.
Qed.
