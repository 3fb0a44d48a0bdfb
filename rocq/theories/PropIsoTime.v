(** C19, C20: dates, times and date-times. *)
From Coq Require Import String List NArith ZArith Lia.
From Verif Require Import Base IsoTime SpecIsoTime IsoTimeProofs.
Import ListNotations.
Open Scope N_scope.

(** C19.  A date-time without time zone is refused with JsonValueError ... *)
Theorem C19_datetime_naive_rejected :
  forall d, t_off (dt_time d) = None -> datetime_generate d = Err EJsonValue.
Proof. exact generate_naive. Qed.
Print Assumptions C19_datetime_naive_rejected.

(** ... and every other one is serialized. *)
Theorem C19_datetime_aware_accepted :
  forall d, (exists s, datetime_generate d = Ok s) <-> t_off (dt_time d) <> None.
Proof. exact generate_total. Qed.
Print Assumptions C19_datetime_aware_accepted.

(** C19.  The text is the ISO 8601 text with a UTC designator, [Z] exactly for
    offset zero. *)
Theorem C19_datetime_text :
  forall d s, datetime_wf d -> datetime_generate d = Ok s -> iso_datetime d s.
Proof. exact datetime_text. Qed.
Print Assumptions C19_datetime_text.

(** C19.  Round trip: same wall clock and same offset. *)
Theorem C19_datetime_roundtrip :
  forall d s, datetime_wf d -> ~ subsecond (t_off (dt_time d)) ->
    datetime_generate d = Ok s -> datetime_parse s = Ok d.
Proof. exact datetime_roundtrip. Qed.
Print Assumptions C19_datetime_roundtrip.

(** Finding: offsets shorter than one second are silently replaced by zero. *)
Theorem C19_subsecond_offset_lost :
  forall d s, datetime_wf d -> subsecond (t_off (dt_time d)) -> datetime_generate d = Ok s ->
    exists d', datetime_parse s = Ok d' /\ d' <> d /\ t_off (dt_time d') = Some 0%Z.
Proof. exact datetime_subsecond. Qed.
Print Assumptions C19_subsecond_offset_lost.

(** C19.  No text yields a naive date-time; what is accepted is a proper date-time. *)
Theorem C19_datetime_parse_aware :
  forall s d, datetime_parse s = Ok d -> datetime_wf d /\ t_off (dt_time d) <> None.
Proof. exact datetime_parse_aware. Qed.
Print Assumptions C19_datetime_parse_aware.

(** C19.  Rejection is ValueError or JsonValueError. *)
Theorem C19_datetime_errors :
  forall s e, datetime_parse s = Err e -> e = EValue \/ e = EJsonValue.
Proof. exact datetime_errors. Qed.
Print Assumptions C19_datetime_errors.

(** C20.  Dates. *)
Theorem C20_date_roundtrip : forall d, date_wf d -> date_parse (date_generate d) = Ok d.
Proof. exact date_roundtrip. Qed.
Print Assumptions C20_date_roundtrip.

Theorem C20_date_text : forall d, date_wf d -> iso_date d (date_generate d).
Proof. exact date_text. Qed.
Print Assumptions C20_date_text.

Theorem C20_date_parse_wf : forall s d, date_parse s = Ok d -> date_wf d.
Proof. exact date_parse_wf. Qed.
Print Assumptions C20_date_parse_wf.

Theorem C20_date_errors : forall s e, date_parse s = Err e -> e = EValue.
Proof. exact date_errors. Qed.
Print Assumptions C20_date_errors.

(** C20.  Times, naive or with an offset. *)
Theorem C20_time_roundtrip :
  forall t, time_wf t -> ~ subsecond (t_off t) -> time_parse (time_generate t) = Ok t.
Proof. exact time_roundtrip. Qed.
Print Assumptions C20_time_roundtrip.

Theorem C20_time_text : forall t, time_wf t -> iso_time t (time_generate t).
Proof. exact time_text. Qed.
Print Assumptions C20_time_text.

Theorem C20_time_parse_wf : forall s t, time_parse s = Ok t -> time_wf t.
Proof. exact time_parse_wf. Qed.
Print Assumptions C20_time_parse_wf.

Theorem C20_time_errors : forall s e, time_parse s = Err e -> e = EValue.
Proof. exact time_errors. Qed.
Print Assumptions C20_time_errors.

(** Finding: as for date-times. *)
Theorem C20_subsecond_offset_lost :
  forall t, time_wf t -> subsecond (t_off t) ->
    time_parse (time_generate t) = Ok (mkTime (t_hour t) (t_min t) (t_sec t) (t_us t) (Some 0%Z)).
Proof. exact time_subsecond. Qed.
Print Assumptions C20_subsecond_offset_lost.

(** Finding, as a counterexample to the unrestricted round trips: an offset of
    one microsecond. *)
Theorem C19_datetime_roundtrip_refuted :
  exists d s, datetime_wf d /\ datetime_generate d = Ok s /\ datetime_parse s <> Ok d.
Proof. exact datetime_roundtrip_fails. Qed.
Print Assumptions C19_datetime_roundtrip_refuted.

Theorem C20_time_roundtrip_refuted :
  exists t, time_wf t /\ time_parse (time_generate t) <> Ok t.
Proof. exact time_roundtrip_fails. Qed.
Print Assumptions C20_time_roundtrip_refuted.

Definition sample_date := mkDate 2024 2 29.
Definition sample_time := mkTime 23 5 0 70 (Some (-5400000000)%Z).

Example C19_witness :
  datetime_wf (mkDT sample_date sample_time) /\ ~ subsecond (t_off sample_time) /\
  datetime_generate (mkDT sample_date sample_time) = Ok (str "2024-02-29T23:05:00.000070-01:30") /\
  datetime_generate (mkDT sample_date (mkTime 1 2 3 0 (Some 0%Z))) = Ok (str "2024-02-29T01:02:03Z") /\
  datetime_parse (str "2024-02-29T01:02:03") = Err EJsonValue /\
  datetime_parse (str "2023-02-29T01:02:03Z") = Err EValue /\
  subsecond (Some 1%Z) /\ time_wf (mkTime 1 2 3 0 (Some 1%Z)).
Proof.
  repeat split; try (vm_compute; congruence).
  - exists 29. split; [|vm_compute; split; congruence]. right; right; left. repeat split.
    + exists 506. reflexivity.
    + left. intros [k Hk]. change (2024 = k * 100) in Hk. lia.
  - intros [H1 H2]. vm_compute in H2. discriminate.
Qed.

Example C20_witness :
  date_generate sample_date = str "2024-02-29" /\
  time_generate sample_time = str "23:05:00.000070-01:30" /\
  date_parse (str "2024-W09-4") = Ok sample_date /\
  date_parse (str "2023-02-29") = Err EValue /\
  time_parse (str "12:30") = Ok (mkTime 12 30 0 0 None).
Proof. repeat split; vm_compute; reflexivity. Qed.
