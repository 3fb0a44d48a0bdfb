(** A sample program, used to show that the hypotheses of theorems are met. *)
From Coq Require Import String List NArith ZArith Bool Lia.
From Verif Require Import Base Json PyTypes Mapping Deser Ser Lists SpecTyping SpecRecursion.
Import ListNotations.
Open Scope list_scope.
Open Scope nat_scope.

Definition jstr (s : string) : json := JStr (str s).
Definition vstr (s : string) : value := VStr (str s).
Arguments jstr s%string.
Arguments vstr s%string.
Definition tint := TScalar KInt.
Definition tstr := TScalar KStr.
Definition tnone := TScalar KNone.

(** class Color(enum.Enum): RED = "red"; GREEN = "green" *)
Definition Color := mkClass 0 (str "Color")
  (CEnum [(str "RED", jstr "red"); (str "GREEN", jstr "green")]) None None.

(** @dataclass class Point: x: int; y: Optional[int] = None; class_: str = "p" *)
Definition Point := mkClass 0 (str "Point")
  (CData false [mkField (str "x") tint None;
                mkField (str "y") (TUnion false [tint; tnone]) (Some (Ok VNone));
                mkField (str "class_") tstr (Some (Ok (vstr "p")))]) None None.

(** @dataclass class Node: value: Annotated[int, Alias("val")]; children: list["Node"] *)
Definition Node := mkClass 0 (str "Node")
  (CData false [mkField (str "value") (TAnnot tint [AAlias (str "val")]) None;
                mkField (str "children") (TList (TRef (str "Node"))) None]) None None.

(** class Pair(NamedTuple): first: Color; second: set[int] *)
Definition Pair := mkClass 0 (str "Pair")
  (CTuple [(str "first", TClass 0); (str "second", TSet tint)]) None None.

(** @dataclass class Dog: kind: Literal["dog"]; age: int *)
Definition Dog := mkClass 0 (str "Dog")
  (CData false [mkField (str "kind") (TLiteral [LStr (str "dog")]) None;
                mkField (str "age") tint None]) None None.

(** @dataclass class Cat: kind: Literal["cat"]; lives: dict[str, int] *)
Definition Cat := mkClass 0 (str "Cat")
  (CData false [mkField (str "kind") (TLiteral [LStr (str "cat")]) None;
                mkField (str "lives") (TDict tstr tint) None]) None None.

(** class Version with from_json / to_json: a string on the wire. *)
Definition Version := mkClass 0 (str "Version") (CPlain [])
  (Some (fun j => match j with JStr s => Ok (VObj 6 [(str "text", VStr s)]) | _ => Err EJsonType end))
  (Some (fun v => match v with
                  | VObj 6 [(a, VStr s)] => if pystr_eqb a (str "text") then Ok (JStr s) else Err EUnmodelled
                  | _ => Err EUnmodelled
                  end)).

(** class Plain: name: str; link: "Optional[Pair]" *)
Definition Plain := mkClass 0 (str "Plain")
  (CPlain [(str "name", tstr); (str "link", TRef (str "Optional[Pair]"))]) None None.

(** Json = Union[None, bool, int, str, list["Json"], dict[str, "Json"]] *)
Definition JsonAlias : typ :=
  TUnion false [tnone; TScalar KBool; tint; tstr; TList (TRef (str "Json")); TDict tstr (TRef (str "Json"))].

Definition Zoo : env := mkEnv
  [Color; Point; Node; Pair; Dog; Cat; Version; Plain]
  [(0, str "Node", (true, TClass 2));
   (0, str "Json", (true, JsonAlias));
   (0, str "Optional[Pair]", (false, TUnion false [TClass 3; tnone]))]
  (fun ps => ps).

Ltac zoo_class c H :=
  unfold get_class, Zoo in H; cbn [e_classes] in H;
  destruct c as [|[|[|[|[|[|[|[|?c]]]]]]]]; cbn [nth_error] in H;
  [injection H as <-..|destruct c; discriminate H].

Ltac zoo_ref H :=
  unfold lookup, Zoo in H; cbn [e_refs find_ref] in H;
  repeat match type of H with
  | (if ?b then _ else _) = _ =>
      let Q := fresh "Q" in destruct b eqn:Q;
      [injection H as <- <-; apply andb_true_iff in Q; destruct Q as [Q ?]; apply Nat.eqb_eq in Q; subst|]
  end; try discriminate H.

Ltac nodup := repeat constructor; cbn [In]; intros ?; repeat (match goal with H : _ \/ _ |- _ => destruct H as [H|H] end); try discriminate; try contradiction.

Lemma zoo_ok : env_ok Zoo.
Proof.
  intros c cl H. zoo_class c H; split; cbn; try discriminate; try (intros; discriminate).
  all: try (nodup; fail).
  all: try (intros ? Q; injection Q as <-; repeat split; try (nodup; fail);
            repeat constructor; cbn; try reflexivity; intros; discriminate).
  all: try (intros fr fs f v Q I D; injection Q as <- <-; cbn [In] in I;
            repeat destruct I as [<-|I]; try contradiction; cbn [f_default f_type] in *; try discriminate D;
            injection D as <-;
            first [ apply ht_scalar; exact Logic.I
                  | apply (ht_union _ _ _ _ tnone); [cbn [In]; auto | apply ht_scalar; exact Logic.I] ]).
  intros h j v Q. injection Q as <-. destruct j; try discriminate. intros Q. injection Q as <-. eexists. reflexivity.
Qed.

Ltac prove_guarded :=
  repeat first [assumption | apply g_leaf; exact Logic.I | apply g_union | apply g_annot
               | apply Forall_cons | apply Forall_nil | exact Logic.I | split].

Lemma zoo_refs : forall m s a t, lookup Zoo m s = Some (a, t) ->
  t = TClass 2 \/ t = JsonAlias \/ (a = false /\ t = TUnion false [TClass 3; tnone]).
Proof. intros m s a t H. zoo_ref H; auto. Qed.

Lemma zoo_guarded : guarded_env Zoo.
Proof.
  assert (RR : forall m s, guarded Zoo m (TRef s)).
  { intros m s. apply g_ref. intros a t L. apply zoo_refs in L. destruct L as [->|[->|[_ ->]]]; prove_guarded. }
  split.
  - intros c cl x t H I. zoo_class c H; cbn [raw_fields c_kind map f_name f_type In Color Point Node Pair Dog Cat Version Plain] in I;
      repeat (destruct I as [I|I]; [injection I as <- <-|]); try contradiction; cbn [every_part fold_right tint tstr tnone]; prove_guarded; apply RR.
  - intros m s a t L. apply zoo_refs in L. destruct L as [->|[->|[_ ->]]]; unfold JsonAlias; cbn [every_part fold_right tint tstr tnone];
      prove_guarded; apply RR.
  - intros m s t L. unfold lookup, Zoo in L; cbn [e_refs find_ref] in L.
    repeat match type of L with (if ?b then _ else _) = _ => destruct b; [try discriminate L|] end; try discriminate L.
    injection L as <-. cbn. tauto.
Qed.

Lemma zoo_calm : calm Zoo.
Proof.
  split.
  - intros c cl h j H. zoo_class c H; cbn; try discriminate. intros Q. injection Q as <-. destruct j; discriminate.
  - intros c cl fr fs f H. zoo_class c H; cbn; try discriminate; intros Q; injection Q as <- <-; cbn [In];
      intros I; repeat destruct I as [<-|I]; try contradiction; discriminate.
Qed.

(** A document and the value it deserializes to. *)
Definition tree_json : json :=
  JObj [(str "val", JInt 1);
        (str "children", JArr [JObj [(str "children", JArr []); (str "val", JInt 2)]])].

Definition tree_value : value :=
  VObj 2 [(str "value", VInt 1);
          (str "children", VList [VObj 2 [(str "value", VInt 2); (str "children", VList [])]])].
