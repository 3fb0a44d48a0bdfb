(** C03: which values can be serialized, and how serialization fails. *)
From Coq Require Import String List NArith ZArith Bool Lia.
From Verif Require Import Base Json IsoTime PyTypes Mapping Deser Ser Lists SpecTyping SpecSer SpecSerTotal SerTotal
  Samples PropRoundTrip.
Import ListNotations.
Open Scope list_scope.
Open Scope nat_scope.

(** C03.  A storable value is serialized, unless some value that has to be
    written on the way is a datetime without time zone or has a [to_json] that
    raises. *)
Theorem C03_total : forall E v, env_ok E -> storable E v ->
  ((exists j, object_to_json E v = Ok j) <-> forall u e, written E u v -> ~ unwritable E u e).
Proof. intros E v OK. exact (object_to_json_total E OK v). Qed.
Print Assumptions C03_total.

(** C03.  The exception is the one of the value that cannot be written:
    JsonValueError for a datetime without time zone, or what [to_json] raised. *)
Theorem C03_error : forall E v e, env_ok E -> storable E v -> object_to_json E v = Err e ->
  exists u, written E u v /\ unwritable E u e.
Proof. intros E v e OK. exact (object_to_json_error E OK v e). Qed.
Print Assumptions C03_error.

(** C03.  A serializer is made for every type whose unfolding comes to an end
    within types that can be written. *)
Theorem C03_serializer : forall E t, writable E None t -> exists s, serializer_of E t = Ok s.
Proof. exact serializer_exists. Qed.
Print Assumptions C03_serializer.

(** * Witnesses *)

Ltac wr :=
  repeat first
  [ apply wr_scalar | apply wr_bare | apply wr_union | apply wr_list | apply wr_set | apply wr_str_dict | apply wr_annot
  | apply wr_tuple
  | eapply wr_literal; [left; reflexivity | intros ? [<-|[]]; reflexivity|]
  | match goal with
    | |- writable _ _ (TClass 0) => eapply wr_plain; [reflexivity | cbn; tauto]
    | |- writable _ _ (TClass 6) => eapply wr_hook; reflexivity
    | |- writable _ _ (TClass _) => eapply wr_fields; [reflexivity | vm_compute; reflexivity |]
    | |- writable _ (Some _) (TRef _) => eapply wr_ref; [reflexivity | discriminate |]
    | |- forall x t, In (x, t) _ -> _ =>
        let J := fresh "J" in intros ? ? J; cbn [In c_module] in *;
        repeat (destruct J as [J|J]; [apply pair_equal_spec in J; destruct J as [<- <-]|]); try contradiction
    | |- forall t, In t _ -> _ =>
        let J := fresh "J" in intros ? J; cbn [In] in *; repeat (destruct J as [<-|J]; [|]); try contradiction
    end ].

Ltac sv :=
  repeat first
  [ apply sv_scalar; exact Logic.I
  | apply sv_list | apply sv_tuple | apply sv_set
  | apply sv_dict
  | match goal with
    | |- storable _ (VEnum _ _) => eapply sv_enum; reflexivity
    | |- storable _ (VObj 6 _) => eapply sv_hook; reflexivity
    | |- storable _ (VObj _ _) => eapply sv_fields; [reflexivity | first [exact Logic.I | discriminate] | wr; fail | reflexivity | cbn; typed; apply ht_scalar; exact Logic.I |]
    | |- forall x t, In (x, t) _ -> _ =>
        let J := fresh "J" in intros ? ? J; cbn [In] in *;
        repeat (destruct J as [J|J]; [apply pair_equal_spec in J; destruct J as [<- <-]|]); try contradiction
    | |- forall t, In t _ -> _ =>
        let J := fresh "J" in intros ? J; cbn [In] in *; repeat (destruct J as [<-|J]; [|]); try contradiction
    end ].

Lemma v0_storable : storable Zoo v0.
Proof.
  unfold v0, v_plain, v_point, v_pair, vstr. sv.
  - right. intros k v J. cbn [In] in J. destruct J as [J|[J|[]]]; injection J as <- _;
      do 5 eexists; (split; [reflexivity|]); repeat split; reflexivity.
  - left. intros k v [J|[]]. injection J as <- _. eexists. reflexivity.
Qed.

Definition noon : time := mkTime 12 0 0 0 None.
Definition naive0 : value := VDateTime (mkDT (mkDate 2024 2 29) noon).

(** The conditions are met by a value with typed dicts, tagged unions, named
    tuples, optional fields and a class with [to_json], which is serialized, and
    by a list in which it is followed by a datetime without time zone, which is
    not. *)
Example C03_witness :
  env_ok Zoo /\ storable Zoo v0 /\ object_to_json Zoo v0 = Ok j0 /\
  storable Zoo (VList [v0; naive0]) /\ written Zoo naive0 (VList [v0; naive0]) /\
  unwritable Zoo naive0 EJsonValue /\ object_to_json Zoo (VList [v0; naive0]) = Err EJsonValue.
Proof.
  split; [exact zoo_ok|]. split; [exact v0_storable|]. split; [vm_compute; reflexivity|]. split.
  { apply sv_list. intros v [<-|[<-|[]]]; [exact v0_storable | apply sv_scalar; exact Logic.I]. }
  split.
  { eapply wt_list; [right; left; reflexivity | apply wt_self]. }
  split.
  { left. split; [|reflexivity]. eexists. split; reflexivity. }
  vm_compute. reflexivity.
Qed.

(** * Values outside *)

Lemma node_diverges : forall n k ctx, k <= n -> mkser Zoo k ctx (TClass 2) = Err ERecursion.
Proof.
  induction n as [|n IH]; intros k ctx LE.
  - destruct k; [reflexivity | lia].
  - destruct k as [|[|[|[|k]]]]; try reflexivity.
    assert (Q : mkser Zoo (S k) (Some 0) (TClass 2) = Err ERecursion) by (apply IH; lia).
    revert Q. generalize (S k) as k1. intros k1 Q.
    assert (R : mkser Zoo (S (S k1)) (Some 0) (TList (TRef (str "Node"))) = Err ERecursion).
    { cbn [mkser]. change (lookup Zoo 0 (str "Node")) with (Some (true, TClass 2)). cbv iota beta. rewrite Q. reflexivity. }
    change (mkser Zoo (S (S (S k1))) ctx (TClass 2)) with
      (do fs <- mapM (fun '(x, u) => do s <- mkser Zoo (S (S k1)) (Some 0) u; Ok (x, json_property x (Some u), s))
         [(str "value", TAnnot tint [AAlias (str "val")]); (str "children", TList (TRef (str "Node")))];
       Ok (GClass fs)).
    cbn [mapM]. rewrite R. reflexivity.
Qed.

(** C03 fails for values of classes that contain themselves by way of a typed
    container: the tree that the deserializer builds from a document cannot be
    written; with any recursion limit the limit is exceeded. *)
Theorem C03_recursive_refuted : exists E m t v j, env_ok E /\ has_type E m t v /\
  json_to_object E false m t j = Ok v /\ forall n, mkser E n None (typeof v) = Err ERecursion.
Proof.
  exists Zoo, 0, (TClass 2), tree_value, tree_json. split; [exact zoo_ok|]. split; [|split; [vm_compute; reflexivity|]].
  - unfold tree_value. assert (L : has_type Zoo 0 (TClass 2) (VObj 2 [(str "value", VInt 2); (str "children", VList [])])).
    { eapply ht_obj; [reflexivity | reflexivity | reflexivity | cbn].
      constructor; [apply ht_annot, ht_scalar; exact Logic.I|]. constructor; [apply ht_list; constructor | constructor]. }
    eapply ht_obj; [reflexivity | reflexivity | reflexivity | cbn].
    constructor; [apply ht_annot, ht_scalar; exact Logic.I|]. constructor; [|constructor].
    apply ht_list. constructor; [|constructor]. eapply ht_ref; [reflexivity | exact L].
  - intros n. exact (node_diverges n n None (le_n n)).
Qed.
Print Assumptions C03_recursive_refuted.

(** @dataclass class Box: item: Annotated["Point", MaxLength(3)]
    @dataclass class Point: x: int *)
Definition Box := mkClass 0 (str "Box") (CData false [mkField (str "item") (TAnnot (TRef (str "Point")) [AMaxLength 3]) None]) None None.
Definition Dot := mkClass 0 (str "Point") (CData false [mkField (str "x") tint None]) None None.
Definition Boxes : env := mkEnv [Box; Dot] [(0, str "Point", (true, TClass 1))] (fun ps => ps).

(** C03 fails for annotated forward references: the module in which to look up
    the name is forgotten, and TypeError is raised. *)
Theorem C03_annotated_refuted : exists E m t v j, env_ok E /\ has_type E m t v /\
  json_to_object E false m t j = Ok v /\ object_to_json E v = Err EType.
Proof.
  exists Boxes, 0, (TClass 0), (VObj 0 [(str "item", VObj 1 [(str "x", VInt 1)])]),
    (JObj [(str "item", JObj [(str "x", JInt 1)])]).
  split.
  { intros c cl H. unfold get_class, Boxes in H. cbn [e_classes] in H. destruct c as [|[|[|c]]]; cbn [nth_error] in H; try discriminate;
      injection H as <-; (split; cbn; try discriminate; try (nodup; fail));
      intros fr fs f v Q I D; injection Q as <- <-; destruct I as [<-|[]]; discriminate. }
  split.
  { eapply ht_obj; [reflexivity | reflexivity | reflexivity | cbn]. constructor; [|constructor].
    apply ht_annot. eapply ht_ref; [reflexivity|].
    eapply ht_obj; [reflexivity | reflexivity | reflexivity | cbn]. constructor; [|constructor]. apply ht_scalar. exact Logic.I. }
  split; vm_compute; reflexivity.
Qed.
Print Assumptions C03_annotated_refuted.
