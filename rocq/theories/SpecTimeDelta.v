(** What ISO 8601 duration texts mean, independently of the parser. *)
From Coq Require Import String List NArith ZArith.
From Verif Require Import Base TimeDelta.
Import ListNotations.
Open Scope list_scope.
Open Scope N_scope.

(** A non-empty run of ASCII decimal digits and its value. *)
Inductive number : pystr -> N -> Prop :=
| number_one : forall c, 48 <= c <= 57 -> number [c] (c - 48)
| number_snoc : forall s n c, number s n -> 48 <= c <= 57 -> number (s ++ [c]) (10 * n + (c - 48)).

(** An optional component such as [12H]; absent components count as zero. *)
Inductive component (letter : string) : pystr -> N -> Prop :=
| component_absent : component letter [] 0
| component_present : forall s n, number s n -> component letter (s ++ str letter) n.

(** The seconds component, in nanoseconds. *)
Inductive seconds_component : pystr -> N -> Prop :=
| seconds_absent : seconds_component [] 0
| seconds_whole : forall s n, number s n ->
    seconds_component (s ++ str "S") (n * 1000000000)
| seconds_fraction : forall s n f k, number s n -> number f k -> (length f <= 9)%nat ->
    seconds_component (s ++ str "." ++ f ++ str "S")
                      (n * 1000000000 + k * 10 ^ (9 - N.of_nat (length f))).

(** The part after [T], in nanoseconds. *)
Inductive time_part : pystr -> N -> Prop :=
| time_absent : time_part [] 0
| time_present : forall h hn m mn s ns,
    component "H" h hn -> component "M" m mn -> seconds_component s ns ->
    time_part (str "T" ++ h ++ m ++ s) ((hn * 3600 + mn * 60) * 1000000000 + ns).

(** Python's [$] also matches before one final newline. *)
Definition line_end (s : pystr) : Prop := s = [] \/ s = [10].

(** [duration_text s ns]: [s] denotes a duration of [ns] nanoseconds. *)
Inductive duration_text : pystr -> N -> Prop :=
| duration_text_intro : forall w wn d dn t tn e,
    component "W" w wn -> component "D" d dn -> time_part t tn -> line_end e ->
    duration_text (str "P" ++ w ++ d ++ t ++ e)
                  ((wn * 7 + dn) * 86400 * 1000000000 + tn).

(** A [timedelta] object as Python guarantees it. *)
Definition td_wf (t : timedelta) : Prop :=
  (-999999999 <= td_days t <= 999999999)%Z /\
  (0 <= td_secs t < 86400)%Z /\ (0 <= td_us t < 1000000)%Z.

(** Length of a duration in microseconds. *)
Definition td_total (t : timedelta) : Z :=
  ((td_days t * 86400 + td_secs t) * 1000000 + td_us t)%Z.
