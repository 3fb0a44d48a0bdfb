(** Calendar dates, times of day and the texts ISO 8601 assigns to them. *)
From Coq Require Import String List NArith ZArith.
From Verif Require Import Base IsoTime.
Import ListNotations.
Open Scope list_scope.
Open Scope N_scope.

(** Gregorian leap years and month lengths. *)
Definition leap (y : N) : Prop := N.divide 4 y /\ (~ N.divide 100 y \/ N.divide 400 y).
Definition month_length (y m n : N) : Prop :=
  (In m [1; 3; 5; 7; 8; 10; 12] /\ n = 31) \/ (In m [4; 6; 9; 11] /\ n = 30) \/
  (m = 2 /\ leap y /\ n = 29) \/ (m = 2 /\ ~ leap y /\ n = 28).

(** Objects as Python guarantees them. *)
Definition date_wf (d : date) : Prop :=
  1 <= d_year d <= 9999 /\
  exists n, month_length (d_year d) (d_month d) n /\ 1 <= d_day d <= n.

(** UTC offsets lie strictly between -24 and 24 hours (in microseconds). *)
Definition offset_wf (o : option Z) : Prop :=
  match o with Some z => (Z.abs z < 24 * 3600 * 1000000)%Z | None => True end.

Definition time_wf (t : time) : Prop :=
  t_hour t < 24 /\ t_min t < 60 /\ t_sec t < 60 /\ t_us t < 1000000 /\ offset_wf (t_off t).

Definition datetime_wf (d : datetime) : Prop := date_wf (dt_date d) /\ time_wf (dt_time d).

(** An offset that is not zero but shorter than one second. *)
Definition subsecond (o : option Z) : Prop :=
  match o with Some z => (0 < Z.abs z < 1000000)%Z | None => False end.

(** Fixed-width decimal numeral, [two v s]: [s] is [v] written with two digits. *)
Inductive two : N -> pystr -> Prop :=
| two_intro : forall a b, a < 10 -> b < 10 -> two (10 * a + b) [48 + a; 48 + b].

(** ISO 8601 extended format. *)
Inductive iso_date : date -> pystr -> Prop :=
| iso_date_intro : forall c y m d sc sy sm sd,
    two c sc -> two y sy -> two m sm -> two d sd ->
    iso_date (mkDate (100 * c + y) m d) (sc ++ sy ++ str "-" ++ sm ++ str "-" ++ sd).

(** Six decimals, present only when not zero. *)
Inductive iso_micros : N -> pystr -> Prop :=
| iso_micros_zero : iso_micros 0 []
| iso_micros_six : forall a b c sa sb sc, two a sa -> two b sb -> two c sc ->
    10000 * a + 100 * b + c <> 0 ->
    iso_micros (10000 * a + 100 * b + c) (str "." ++ sa ++ sb ++ sc).

(** UTC designators: none, [+hh:mm] / [-hh:mm] with optional seconds. *)
Inductive iso_offset : option Z -> pystr -> Prop :=
| iso_offset_none : iso_offset None []
| iso_offset_minutes : forall neg h m sh sm, two h sh -> two m sm -> m < 60 ->
    (neg = true -> h + m <> 0) ->
    iso_offset (Some ((if neg : bool then -1 else 1) * Z.of_N (h * 60 + m) * 60000000)%Z)
               (str (if neg then "-" else "+") ++ sh ++ str ":" ++ sm)
| iso_offset_seconds : forall neg h m s us sh sm ss sus,
    two h sh -> two m sm -> two s ss -> iso_micros us sus ->
    m < 60 -> s < 60 -> s + us <> 0 ->
    iso_offset (Some ((if neg : bool then -1 else 1) * Z.of_N ((h * 3600 + m * 60 + s) * 1000000 + us))%Z)
               (str (if neg then "-" else "+") ++ sh ++ str ":" ++ sm ++ str ":" ++ ss ++ sus).

Inductive iso_time : time -> pystr -> Prop :=
| iso_time_intro : forall h m s us o sh sm ss sus so,
    two h sh -> two m sm -> two s ss -> iso_micros us sus -> iso_offset o so ->
    iso_time (mkTime h m s us o) (sh ++ str ":" ++ sm ++ str ":" ++ ss ++ sus ++ so).

(** Date-times in the repository's format: [Z] stands for offset zero. *)
Inductive iso_datetime : datetime -> pystr -> Prop :=
| iso_datetime_utc : forall d h m s us sd st,
    iso_date d sd -> iso_time (mkTime h m s us None) st ->
    iso_datetime (mkDT d (mkTime h m s us (Some 0%Z))) (sd ++ str "T" ++ st ++ str "Z")
| iso_datetime_offset : forall d h m s us z sd st,
    z <> 0%Z -> iso_date d sd -> iso_time (mkTime h m s us (Some z)) st ->
    iso_datetime (mkDT d (mkTime h m s us (Some z))) (sd ++ str "T" ++ st).
