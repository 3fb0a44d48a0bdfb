(** Vocabulary for integer widths and enumerations. *)
From Coq Require Import String List NArith ZArith Bool.
From Verif Require Import Base Json PyTypes SpecNumbers ClassDef.
Import ListNotations.
Open Scope list_scope.

(** A two's complement integer of so many bits. *)
Definition bits (t : int_type) : option Z :=
  match t with Int16 => Some 16 | Int32 => Some 32 | Int64 => Some 64 | PlainInt => None end%Z.

Definition fits (t : int_type) (x : Z) : Prop :=
  match bits t with Some b => (- 2 ^ (b - 1) <= x < 2 ^ (b - 1))%Z | None => True end.

Definition narrower (a b : int_type) : Prop :=
  match bits a, bits b with Some x, Some y => (x < y)%Z | Some _, None => True | None, _ => False end.

(** Names that [enum] treats specially: [_x_], [__x__] and [_Class__x]. *)
Definition trim (a : pystr) : Prop := (exists c r, a = c :: r /\ c <> 95%N) /\ exists c r, a = r ++ [c] /\ c <> 95%N.

Definition sunder (s : pystr) : Prop := exists a, trim a /\ s = str "_" ++ a ++ str "_".
Definition dunder (s : pystr) : Prop := exists a, trim a /\ s = str "__" ++ a ++ str "__".
Definition private (cls s : pystr) : Prop :=
  (exists a, a <> [] /\ s = str "_" ++ cls ++ str "__" ++ a) /\ ~ exists a, s = a ++ str "__".

Definition ordinary (s : pystr) : Prop := ~ sunder s /\ ~ dunder s /\ s <> str "mro" /\ s <> [].

(** The members of an enumeration that exists. *)
Record members (ms : list (pystr * json)) : Prop := {
  me_names : NoDup (map fst ms);
  me_values : ForallOrdPairs (fun a b => ~ json_equal (snd a) (snd b)) ms;
  me_ordinary : forall x v, In (x, v) ms -> ordinary x
}.

(** [v] is the last of [values] to be labelled [n]. *)
Definition last_labelled (label : pystr -> pystr) (values : list pystr) (n v : pystr) : Prop :=
  label v = n /\ exists pre post, values = pre ++ v :: post /\ forall w, In w post -> label w <> n.

(** Old members keep their places, taking the value of a new member of that name
    if there is one; the new names follow. *)
Definition merged (source extend : list (pystr * json)) : list (pystr * json) :=
  map (fun m => match find (fun e => pystr_eqb (fst e) (fst m)) extend with Some e => e | None => m end) source ++
  filter (fun e => negb (existsb (fun m => pystr_eqb (fst m) (fst e)) source)) extend.
