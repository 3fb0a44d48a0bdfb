(** C02: type soundness of deserialization. *)
From Coq Require Import String List NArith ZArith Bool.
From Verif Require Import Base Json PyTypes Deser SpecTyping DeserSound Samples.
Import ListNotations.
Open Scope list_scope.

(** C02.  In a program with well-formed classes, whatever json_to_object
    returns is a value of the requested type. *)
Theorem C02_type_soundness :
  forall E skip m t j v, env_ok E -> json_wf j ->
  json_to_object E skip m t j = Ok v -> has_type E m t v.
Proof. intros E skip m t j v OK. exact (json_to_object_sound E skip OK m t j v). Qed.
Print Assumptions C02_type_soundness.

(** The hypotheses hold of a program with enumerations, recursive classes,
    named tuples, tagged unions, hooks and recursive aliases. *)
Example C02_witness_env : env_ok Zoo.
Proof. exact zoo_ok. Qed.

Example C02_witness_wf : json_wf tree_json.
Proof. repeat constructor; cbn; intuition discriminate. Qed.

Example C02_witness_tree : json_to_object Zoo false 0 (TClass 2) tree_json = Ok tree_value.
Proof. vm_compute. reflexivity. Qed.

Example C02_witness_union :
  json_to_object Zoo false 0 (TList (TUnion false [TClass 4; TClass 5]))
    (JArr [JObj [(str "kind", jstr "cat"); (str "lives", JObj [(str "a", JInt 9)])];
           JObj [(str "age", JInt 3); (str "kind", jstr "dog")]])
  = Ok (VList [VObj 5 [(str "kind", vstr "cat"); (str "lives", VDict [(vstr "a", VInt 9)])];
               VObj 4 [(str "kind", vstr "dog"); (str "age", VInt 3)]]).
Proof. vm_compute. reflexivity. Qed.

Example C02_witness_rest :
  json_to_object Zoo false 0 (TTuple [TClass 3; TClass 1; TClass 6; TRef (str "Json"); TClass 7])
    (JArr [JObj [(str "first", jstr "green"); (str "second", JArr [JInt 1; JBool true; JInt 2])];
           JObj [(str "x", JInt 4); (str "y", JNull); (str "class", jstr "q")];
           jstr "1.2";
           JObj [(str "k", JArr [JNull; JInt 5])];
           JObj [(str "name", jstr "n")]])
  = Ok (VTuple [VObj 3 [(str "first", VEnum 0 (str "GREEN")); (str "second", VSet [VInt 1; VInt 2])];
                VObj 1 [(str "x", VInt 4); (str "y", VNone); (str "class_", vstr "q")];
                VObj 6 [(str "text", vstr "1.2")];
                VDict [(vstr "k", VList [VNone; VInt 5])];
                VObj 7 [(str "name", vstr "n"); (str "link", VNone)]]).
Proof. vm_compute. reflexivity. Qed.
