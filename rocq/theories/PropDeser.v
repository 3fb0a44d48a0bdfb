(** C05, C22, C23, C24, C45, C46: deserialization type by type. *)
From Coq Require Import String List NArith ZArith QArith Bool.
From Verif Require Import Base Json PyTypes Deser Ser Lists SpecTyping SpecRecursion DeserUnfold SpecNumbers SpecDeser
  DeserFacts Samples.
Import ListNotations.
Open Scope list_scope.
Open Scope nat_scope.

(** * C46: numbers *)

(** C46.  int accepts JSON integers as they are and booleans as 0 and 1, and
    rejects everything else with JsonTypeError. *)
Theorem C46_int : forall E skip m j,
  json_to_object E skip m (TScalar KInt) j =
  match j with
  | JInt z => Ok (VInt z)
  | JBool true => Ok (VInt 1)
  | JBool false => Ok (VInt 0)
  | _ => Err EJsonType
  end.
Proof. intros E skip m [|[]|z|f|s|l|o]; reflexivity. Qed.
Print Assumptions C46_int.

(** C46.  bool accepts booleans only. *)
Theorem C46_bool : forall E skip m j v,
  json_to_object E skip m (TScalar KBool) j = Ok v <-> exists b, j = JBool b /\ v = VBool b.
Proof.
  intros E skip m j v. split.
  - intros H. destruct j; try discriminate. injection H as <-. eauto.
  - intros (b & -> & ->). reflexivity.
Qed.
Print Assumptions C46_bool.

(** C46.  float keeps floats, converts integers (booleans as 0 and 1) to the
    nearest double with ties to even, raises OverflowError from 2^1024 - 2^970
    on, and rejects everything else with JsonTypeError. *)
Theorem C46_float : forall E skip m j,
  match json_to_object E skip m (TScalar KFloat) j with
  | Ok (VFloat f) =>
      j = JFloat f \/ exists z, (j = JInt z \/ exists b, j = JBool b /\ z = (if b then 1 else 0)%Z) /\
      exists q, flt_q f = Some q /\ nearest_double z q
  | Ok _ => False
  | Err e =>
      (e = EOverflow /\ exists z, j = JInt z /\ (2 ^ 1024 - 2 ^ 970 <= Z.abs z)%Z) \/
      (e = EJsonType /\ kind_of j <> NumberKind /\ kind_of j <> BoolKind)
  end.
Proof. exact jto_float_total. Qed.
Print Assumptions C46_float.

Theorem C46_float_overflow : forall E skip m z e,
  json_to_object E skip m (TScalar KFloat) (JInt z) = Err e <->
  e = EOverflow /\ (2 ^ 1024 - 2 ^ 970 <= Z.abs z)%Z.
Proof. exact jto_float_overflow. Qed.
Print Assumptions C46_float_overflow.

(** 2^53 + 1 is half way between two doubles, the even one is chosen. *)
Example C46_witness_tie :
  json_to_object Zoo false 0 (TScalar KFloat) (JInt (2 ^ 53 + 1)) = Ok (VFloat (FFin false 1 53)).
Proof. vm_compute. reflexivity. Qed.

Example C46_witness_overflow :
  json_to_object Zoo false 0 (TScalar KFloat) (JInt (- 2 ^ 1024)) = Err EOverflow.
Proof. vm_compute. reflexivity. Qed.

(** * C22: enumerations *)

(** C22.  The result is the member whose value equals the document. *)
Theorem C22_enum_accepts : forall E skip m c cl ms j v,
  env_ok E -> get_class E c = Some cl -> c_kind cl = CEnum ms ->
  (json_to_object E skip m (TClass c) j = Ok v <->
   exists x w, v = VEnum c x /\ In (x, w) ms /\ json_equal w j).
Proof. exact jto_enum_spec. Qed.
Print Assumptions C22_enum_accepts.

(** C22.  Otherwise ValueError is raised. *)
Theorem C22_enum_rejects : forall E skip m c cl ms j,
  get_class E c = Some cl -> c_kind cl = CEnum ms ->
  (forall x w, In (x, w) ms -> ~ json_equal w j) ->
  json_to_object E skip m (TClass c) j = Err EValue.
Proof. exact jto_enum_reject. Qed.
Print Assumptions C22_enum_rejects.

(** C22.  Serializing the member gives back an equal document. *)
Theorem C22_enum_roundtrip : forall E skip m c cl ms j v,
  env_ok E -> get_class E c = Some cl -> c_kind cl = CEnum ms -> c_to_json cl = None ->
  json_to_object E skip m (TClass c) j = Ok v ->
  exists w, object_to_json E v = Ok w /\ json_equal w j.
Proof.
  intros E skip m c cl ms j v OK G K TJ H. apply (jto_enum_spec E skip m c cl ms j v OK G K) in H.
  destruct H as (x & w & -> & I & S). exists w. split; [|exact S].
  unfold object_to_json, serializer_of, ser_fuel, build_fuel, level_bound, gen_fuel.
  cbn [typeof plus Nat.mul mkser vdepth]. rewrite G, TJ, K. cbn [bind gen enum_value]. rewrite G, K.
  destruct (ok_members _ _ _ (OK _ _ G) _ K) as (N & _ & _). rewrite (dict_get_nodup _ _ _ N I). reflexivity.
Qed.
Print Assumptions C22_enum_roundtrip.

Example C22_witness : json_to_object Zoo false 0 (TClass 0) (jstr "green") = Ok (VEnum 0 (str "GREEN")) /\
  object_to_json Zoo (VEnum 0 (str "GREEN")) = Ok (jstr "green") /\
  json_to_object Zoo false 0 (TClass 0) (jstr "blue") = Err EValue.
Proof. repeat split. Qed.

(** * C24: containers *)

(** C24.  Lists keep length and order. *)
Theorem C24_list : forall E skip m t js v,
  guarded_env E -> calm E -> ready E m (TList t) ->
  (json_to_object E skip m (TList t) (JArr js) = Ok v <->
   exists vs, v = VList vs /\ Forall2 (fun j v => json_to_object E skip m t j = Ok v) js vs).
Proof. intros E skip m t js v GE C. exact (jto_list_spec E GE C skip m t js v). Qed.
Print Assumptions C24_list.

(** C24.  Tuples keep every slot; a wrong length raises JsonValueError. *)
Theorem C24_tuple : forall E skip m ts js v,
  guarded_env E -> calm E -> ready E m (TTuple ts) ->
  (json_to_object E skip m (TTuple ts) (JArr js) = Ok v <->
   exists vs, v = VTuple vs /\ length js = length ts /\ length vs = length ts /\
     forall i t j w, nth_error ts i = Some t -> nth_error js i = Some j -> nth_error vs i = Some w ->
       json_to_object E skip m t j = Ok w).
Proof. intros E skip m ts js v GE C. exact (jto_tuple_spec E GE C skip m ts js v). Qed.
Print Assumptions C24_tuple.

Theorem C24_tuple_mismatch : forall E skip m ts js,
  guarded_env E -> calm E -> ready E m (TTuple ts) -> length js <> length ts ->
  json_to_object E skip m (TTuple ts) (JArr js) = Err EJsonValue.
Proof. intros E skip m ts js GE C. exact (jto_tuple_mismatch E GE C skip m ts js). Qed.
Print Assumptions C24_tuple_mismatch.

(** C24.  Dictionaries have exactly the keys of the object, in its order. *)
Theorem C24_dict : forall E skip m k t o v,
  env_ok E -> guarded_env E -> calm E -> ready E m (TDict k t) ->
  (json_to_object E skip m (TDict k t) (JObj o) = Ok v <->
   exists kvs, v = VDict kvs /\
     Forall2 (fun sx kv => key_of E k (fst sx) (fst kv) /\
                           json_to_object E skip m t (snd sx) = Ok (snd kv)) o kvs).
Proof. intros E skip m k t o v OK GE C. exact (jto_dict_spec E GE C skip m k t o v OK). Qed.
Print Assumptions C24_dict.

(** C24.  Sets have exactly the distinct items. *)
Theorem C24_set : forall E skip m t js v,
  guarded_env E -> calm E -> ready E m (TSet t) ->
  json_to_object E skip m (TSet t) (JArr js) = Ok v ->
  exists vs us, v = VSet us /\ Forall2 (fun j v => json_to_object E skip m t j = Ok v) js vs /\ Forall (fun v => ~ unhashable E v) vs /\
    incl us vs /\ ForallOrdPairs (fun a b => py_eq E a b = false) us /\
    (forall w, In w vs -> exists u, In u us /\ (u = w \/ py_eq E u w = true)).
Proof. intros E skip m t js v GE C. exact (jto_set_spec E GE C skip m t js v). Qed.
Print Assumptions C24_set.

Theorem C24_set_accepts : forall E skip m t js vs,
  guarded_env E -> calm E -> ready E m (TSet t) ->
  Forall2 (fun j v => json_to_object E skip m t j = Ok v) js vs ->
  Forall (fun v => ~ unhashable E v) vs ->
  exists us, json_to_object E skip m (TSet t) (JArr js) = Ok (VSet us).
Proof. intros E skip m t js vs GE C. exact (jto_set_accepts E GE C skip m t js vs). Qed.
Print Assumptions C24_set_accepts.

(** An item that is not hashable, such as an instance of a data class that is not
    frozen, is reported as TypeError. *)
Theorem C24_set_unhashable : forall E skip m t js vs j v js',
  guarded_env E -> calm E -> ready E m (TSet t) ->
  Forall2 (fun j v => json_to_object E skip m t j = Ok v) js vs ->
  json_to_object E skip m t j = Ok v -> unhashable E v ->
  json_to_object E skip m (TSet t) (JArr (js ++ j :: js')) = Err EType.
Proof. intros E skip m t js vs j v js' GE C. exact (jto_set_unhashable E GE C skip m t js vs j v js'). Qed.
Print Assumptions C24_set_unhashable.

Ltac prove_ready := split; [cbn; prove_guarded | eexists; vm_compute; reflexivity].

Example C24_witness_ready :
  ready Zoo 0 (TList (TClass 0)) /\ ready Zoo 0 (TTuple [tint; TClass 3]) /\
  ready Zoo 0 (TDict (TClass 0) (TClass 1)) /\ ready Zoo 0 (TSet tint).
Proof. repeat split; try (cbn; prove_guarded); eexists; vm_compute; reflexivity. Qed.

Example C24_witness_set :
  json_to_object Zoo false 0 (TSet tint) (JArr [JInt 2; JBool true; JInt 1; JInt 2]) = Ok (VSet [VInt 2; VInt 1]).
Proof. vm_compute. reflexivity. Qed.

Example C24_witness_unhashable :
  ready Zoo 0 (TSet (TClass 1)) /\ unhashable Zoo (VObj 1 [(str "x", VInt 1); (str "y", VNone); (str "class_", vstr "p")]) /\
  json_to_object Zoo false 0 (TClass 1) (JObj [(str "x", JInt 1)]) = Ok (VObj 1 [(str "x", VInt 1); (str "y", VNone); (str "class_", vstr "p")]) /\
  json_to_object Zoo false 0 (TSet (TClass 1)) (JArr [JObj [(str "x", JInt 1)]]) = Err EType.
Proof.
  split; [prove_ready|]. split; [|split; vm_compute; reflexivity].
  apply (uh_mutable Zoo 1 Point [mkField (str "x") tint None; mkField (str "y") (TUnion false [tint; tnone]) (Some (Ok VNone));
    mkField (str "class_") tstr (Some (Ok (vstr "p")))]); reflexivity.
Qed.

(** * C23: literals *)

(** C23.  A literal type accepts a document exactly if it denotes one of the
    listed values (at the type of that value), and returns that value. *)
Theorem C23_literal_accepts : forall E skip m ls j v,
  env_ok E -> guarded_env E -> calm E -> json_wf j -> ready E m (TLiteral ls) ->
  (json_to_object E skip m (TLiteral ls) j = Ok v <->
   exists l, In l ls /\ v = lit_value l /\ json_to_object E skip m (lit_type l) j = Ok (lit_value l)).
Proof. intros E skip m ls j v OK GE C. exact (jto_literal_spec E GE C skip m ls j v OK). Qed.
Print Assumptions C23_literal_accepts.

Example C23_witness : ready Zoo 0 (TLiteral [LEnum 0 (str "RED"); LEnum 0 (str "GREEN")]) /\
  json_to_object Zoo false 0 (TLiteral [LEnum 0 (str "RED")]) (jstr "red") = Ok (VEnum 0 (str "RED")) /\
  json_to_object Zoo false 0 (TLiteral [LEnum 0 (str "RED")]) (jstr "green") = Err EJsonType.
Proof. split; [prove_ready | split; vm_compute; reflexivity]. Qed.

(** Serialization does not check literals: a data class instance whose field
    holds an unlisted value is serialized. *)
Theorem C47_literal_checked_refuted :
  exists E v j c attrs, env_ok E /\ v = VObj c attrs /\ ~ has_type E 0 (TClass c) v /\
  object_to_json E v = Ok j.
Proof.
  exists Zoo, (VObj 4 [(str "kind", vstr "cat"); (str "age", VInt 1)]),
    (JObj [(str "kind", jstr "cat"); (str "age", JInt 1)]), 4, [(str "kind", vstr "cat"); (str "age", VInt 1)].
  split; [exact zoo_ok|]. split; [reflexivity|]. split; [|vm_compute; reflexivity].
  intros H. inversion H as [| | | | | | | | | |? ? cl attrs G K F T| |]; subst.
  - injection G as <-. cbn in T. inversion T as [|? ? ? ? T1 _]; subst. inversion T1 as [| | | | | |? ? l I Q| | | | | |]; subst.
    destruct I as [<-|[]]. discriminate.
  - match goal with X : get_class Zoo 4 = Some _ |- _ => injection X as <- end. discriminate.
  - match goal with X : get_class Zoo 4 = Some _ |- _ => injection X as <- end. discriminate.
Qed.
Print Assumptions C47_literal_checked_refuted.

(** * C45: kinds of JSON data *)

(** C45.  A type is only ever read from the kinds of data it admits: scalar
    types from scalars, lists, sets and tuples from arrays, dictionaries and
    classes from objects. *)
Theorem C45_kinds : forall E skip m t j v,
  json_to_object E skip m t j = Ok v -> admits E m t (kind_of j).
Proof. exact jto_admits. Qed.
Print Assumptions C45_kinds.

(** What this says of the basic types. *)
Theorem C45_no_confusion : forall E skip m j v,
  (forall k, json_to_object E skip m (TScalar k) j = Ok v -> kind_of j <> ArrayKind /\ kind_of j <> ObjectKind) /\
  (forall t, json_to_object E skip m (TList t) j = Ok v -> exists js, j = JArr js) /\
  (forall t, json_to_object E skip m (TSet t) j = Ok v -> exists js, j = JArr js) /\
  (forall ts, json_to_object E skip m (TTuple ts) j = Ok v -> exists js, j = JArr js) /\
  (forall k t, json_to_object E skip m (TDict k t) j = Ok v -> exists o, j = JObj o) /\
  (forall c cl, get_class E c = Some cl -> c_from_json cl = None ->
     (match c_kind cl with CEnum _ => False | _ => True end) ->
     json_to_object E skip m (TClass c) j = Ok v -> exists o, j = JObj o).
Proof.
  intros E skip m j v. repeat split; intros; apply jto_admits in H || (match goal with X : json_to_object _ _ _ _ _ = _ |- _ => apply jto_admits in X end).
  - inversion H as [k' jk S| | | | | | | | | | |]; subst. destruct k, j; cbn in S |- *; try discriminate; intuition discriminate.
  - inversion H as [k' jk S| | | | | | | | | | |]; subst. destruct k, j; cbn in S |- *; try discriminate; intuition discriminate.
  - destruct j; try (inversion H; fail); eauto.
  - destruct j; try (inversion H; fail); eauto.
  - destruct j; try (inversion H; fail); eauto.
  - destruct j; try (inversion H; fail); eauto.
  - match goal with X : admits _ _ _ _ |- _ => inversion X; subst end.
    + congruence || (match goal with A : get_class E c = Some ?x, B : get_class E c = Some ?y |- _ =>
        rewrite A in B; injection B as ->; match goal with K : c_kind _ = CEnum _, L : match c_kind _ with CEnum _ => _ | _ => _ end |- _ => rewrite K in L; contradiction end end).
    + destruct j; try discriminate. eauto.
    + congruence.
Qed.
Print Assumptions C45_no_confusion.

Example C45_witness : json_to_object Zoo false 0 (TScalar KIPv4) (JArr [JInt 1]) = Err EJsonType /\
  admits Zoo 0 (TUnion false [TScalar KInt; TClass 6]) ObjectKind.
Proof.
  split; [reflexivity|]. apply ad_union with (t := TClass 6); [right; left; reflexivity|].
  eapply ad_hook; reflexivity || exact I.
Qed.

(** * C05: untagged unions *)

(** C05, in part.  An untagged union returns the result of the first member
    that does not reject the document with JsonKeyError or JsonTypeError ... *)
Theorem C05_union_first_partial : forall E skip m op ts j v,
  guarded_env E -> calm E -> ready E m (TUnion op ts) -> untagged E ts ->
  (json_to_object E skip m (TUnion op ts) j = Ok v <->
   exists ts1 t ts2, ts = ts1 ++ t :: ts2 /\ json_to_object E skip m t j = Ok v /\
     Forall (fun u => exists e, json_to_object E skip m u j = Err e /\ soft e) ts1).
Proof.
  intros E skip m op ts j v GE C R U. rewrite (jto_untagged E GE C skip m op ts j R U).
  exact (union_try_spec (fun u => json_to_object E skip m u j) ts v).
Qed.
Print Assumptions C05_union_first_partial.

(** ... and raises JsonKeyError if all members reject it in that way; any
    other exception of a member is passed on at once. *)
Theorem C05_union_fails_partial : forall E skip m op ts j e,
  guarded_env E -> calm E -> ready E m (TUnion op ts) -> untagged E ts ->
  (json_to_object E skip m (TUnion op ts) j = Err e <->
   (e = EJsonKey /\ Forall (fun u => exists e', json_to_object E skip m u j = Err e' /\ soft e') ts) \/
   (~ soft e /\ exists ts1 t ts2, ts = ts1 ++ t :: ts2 /\ json_to_object E skip m t j = Err e /\
      Forall (fun u => exists e', json_to_object E skip m u j = Err e' /\ soft e') ts1)).
Proof.
  intros E skip m op ts j e GE C R U. rewrite (jto_untagged E GE C skip m op ts j R U).
  exact (union_try_fail (fun u => json_to_object E skip m u j) ts e).
Qed.
Print Assumptions C05_union_fails_partial.

(** The full property (a union fails only if every member rejects the document)
    does not hold: Union[date, str] on the document "hello". *)
Theorem C05_union_first_refuted :
  exists E skip m op ts t j v, guarded_env E /\ calm E /\ ready E m (TUnion op ts) /\ untagged E ts /\
  In t ts /\ json_to_object E skip m t j = Ok v /\
  json_to_object E skip m (TUnion op ts) j = Err EValue.
Proof.
  exists Zoo, false, 0, false, [TScalar KDate; tstr], tstr, (jstr "hello"), (vstr "hello").
  split; [exact zoo_guarded|]. split; [exact zoo_calm|]. split; [prove_ready|].
  split; [|split; [right; left; reflexivity | split; vm_compute; reflexivity]].
  intros p [_ T]. inversion T as [|? ? (c & ls & Q & _) _]; subst. discriminate.
Qed.
Print Assumptions C05_union_first_refuted.

Example C05_witness : ready Zoo 0 (TUnion false [tint; TClass 1; TList tint]) /\
  untagged Zoo [tint; TClass 1; TList tint] /\
  json_to_object Zoo false 0 (TUnion false [tint; TClass 1; TList tint]) (JArr [JInt 3]) = Ok (VList [VInt 3]).
Proof.
  split; [prove_ready|]. split; [|vm_compute; reflexivity].
  intros p [_ T]. inversion T as [|? ? (c & ls & Q & _) _]; subst. discriminate.
Qed.
