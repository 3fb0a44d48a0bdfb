(** Common vocabulary of the model: exceptions as values, Python strings. *)
From Coq Require Import String Ascii List NArith ZArith Bool Lia.
Import ListNotations.
Open Scope list_scope.

(** Exception classes that the modelled code can raise.
    - [EJsonKey], [EJsonType], [EJsonValue]: strong_typing/exception.py 8-17.
    - [EType] .. [EName]: Python built-ins raised by the code or by the library
      functions it calls; [binascii.Error] and [ipaddress.AddressValueError]
      are subclasses of [ValueError] and appear as [EValue].
    - [ERecursion]: unbounded recursion of the Python code (RecursionError).
    - [EUser]: an exception raised by a user-supplied hook.
    - [EUnmodelled]: the Python code produces something the model has no
      representation for; theorems never use it as a success. *)
Inductive exn :=
| EJsonKey | EJsonType | EJsonValue
| EType | EValue | EKey | EAttribute | EIndex | EOverflow | ERuntime
| ERecursion | EName
| EUser (n : N)
| EUnmodelled.

(** Outcome of a Python call: it returns a value or raises. *)
Inductive res (A : Type) :=
| Ok (a : A)
| Err (e : exn).
Arguments Ok {A} a.
Arguments Err {A} e.

Definition bind {A B} (x : res A) (f : A -> res B) : res B :=
  match x with Ok a => f a | Err e => Err e end.

Notation "'do' x <- e ; f" := (bind e (fun x => f))
  (at level 200, x name, e at level 100, f at level 200, right associativity).
Notation "'do' ' p <- e ; f" := (bind e (fun p => f))
  (at level 200, p strict pattern, e at level 100, f at level 200, right associativity).

(** Python list comprehension [[f(x) for x in l]] where [f] may raise. *)
Section MapM.
  Context {A B : Type}.
  Variable f : A -> res B.
  Fixpoint mapM (l : list A) : res (list B) :=
    match l with
    | [] => Ok []
    | x :: r =>
        match f x with
        | Err e => Err e
        | Ok y => match mapM r with Err e => Err e | Ok ys => Ok (y :: ys) end
        end
    end.
End MapM.

(** Python [str]: a sequence of Unicode code points. *)
Notation pystr := (list N) (only parsing).

(** ASCII literals. *)
Definition str (s : string) : pystr := map N_of_ascii (list_ascii_of_string s).

Arguments str s%string.

Fixpoint pystr_eqb (a b : pystr) : bool :=
  match a, b with
  | [], [] => true
  | x :: a', y :: b' => N.eqb x y && pystr_eqb a' b'
  | _, _ => false
  end.

Lemma pystr_eqb_eq : forall a b, pystr_eqb a b = true <-> a = b.
Proof.
  induction a as [|x a IH]; destruct b as [|y b]; simpl; split; intros H;
    try reflexivity; try discriminate.
  - apply andb_true_iff in H. destruct H as [H1 H2].
    apply N.eqb_eq in H1. apply IH in H2. congruence.
  - injection H as -> ->. rewrite N.eqb_refl. apply IH. reflexivity.
Qed.

Lemma pystr_eqb_refl : forall a, pystr_eqb a a = true.
Proof. intros. apply pystr_eqb_eq. reflexivity. Qed.

Lemma pystr_eqb_neq : forall a b, pystr_eqb a b = false <-> a <> b.
Proof.
  intros. split; intros H.
  - intros ->. rewrite pystr_eqb_refl in H. discriminate.
  - destruct (pystr_eqb a b) eqn:E; [|reflexivity].
    apply pystr_eqb_eq in E. contradiction.
Qed.

Lemma pystr_eq_dec : forall a b : pystr, {a = b} + {a <> b}.
Proof. apply list_eq_dec. apply N.eq_dec. Defined.

(** Python [dict] with string keys: association list in insertion order. *)
Section Dict.
  Context {V : Type}.

  (** [d.get(k)] *)
  Fixpoint dict_get (d : list (pystr * V)) (k : pystr) : option V :=
    match d with
    | [] => None
    | (k', v) :: r => if pystr_eqb k' k then Some v else dict_get r k
    end.

  (** [d[k] = v]: replaces in place or appends. *)
  Fixpoint dict_set (d : list (pystr * V)) (k : pystr) (v : V) : list (pystr * V) :=
    match d with
    | [] => [(k, v)]
    | (k', v') :: r => if pystr_eqb k' k then (k', v) :: r else (k', v') :: dict_set r k v
    end.

  Definition dict_mem (d : list (pystr * V)) (k : pystr) : bool :=
    match dict_get d k with Some _ => true | None => false end.
End Dict.

Definition mem_str (k : pystr) (l : list pystr) : bool := existsb (pystr_eqb k) l.
