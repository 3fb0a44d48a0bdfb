(** How the label of an enumeration member is made of its value. *)
From Coq Require Import String List NArith Bool.
From Verif Require Import Base.
Import ListNotations.
Open Scope list_scope.

(** Letters, digits and the underscore; [uni]: those beyond ASCII. *)
Definition ascii_word : pystr := str "ABCDEFGHIJKLMNOPQRSTUVWXYZabcdefghijklmnopqrstuvwxyz0123456789_".
Definition word (uni : N -> bool) (c : N) : Prop := In c ascii_word \/ (128 <= c)%N /\ uni c = true.

(** [d] stands for [c] in a label. *)
Definition stands (uni : N -> bool) (c d : N) : Prop := word uni c /\ d = c \/ ~ word uni c /\ d = 95%N.

(** Texts that begin with two underscores, or begin and end with one. *)
Definition underscored (s : pystr) : Prop :=
  (exists r, s = str "__" ++ r) \/ (exists r, s = str "_" ++ r) /\ exists r, s = r ++ str "_".

Definition label (uni : N -> bool) (s n : pystr) : Prop :=
  exists w, Forall2 (stands uni) s w /\ (underscored w /\ n = str "v" ++ w \/ ~ underscored w /\ n = w).
