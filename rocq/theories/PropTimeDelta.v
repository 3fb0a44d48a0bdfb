(** C16, C17: textual durations. *)
From Coq Require Import String List NArith ZArith.
From Verif Require Import Base TimeDelta SpecTimeDelta TimeDeltaProofs.
Import ListNotations.

(** C16.  Round trip for every non-negative duration. *)
Theorem C16_timedelta_roundtrip :
  forall t, td_wf t -> (0 <= td_days t)%Z -> timedelta_parse (timedelta_generate t) = Ok t.
Proof. exact roundtrip. Qed.
Print Assumptions C16_timedelta_roundtrip.

(** C16.  Different durations (negative ones included) have different texts. *)
Theorem C16_timedelta_injective :
  forall a b, td_wf a -> td_wf b -> timedelta_generate a = timedelta_generate b -> a = b.
Proof. exact generate_injective. Qed.
Print Assumptions C16_timedelta_injective.

(** C16.  The text denotes exactly the duration. *)
Theorem C16_timedelta_text_meaning :
  forall t, td_wf t -> (0 <= td_days t)%Z ->
    duration_text (timedelta_generate t) (Z.to_N (td_total t) * 1000).
Proof. exact generate_text. Qed.
Print Assumptions C16_timedelta_text_meaning.

(** Finding: no negative duration survives the round trip. *)
Theorem C16_negative_rejected :
  forall t, td_wf t -> (td_days t < 0)%Z ->
    timedelta_parse (timedelta_generate t) = Err EJsonValue.
Proof. exact negative_rejected. Qed.
Print Assumptions C16_negative_rejected.

(** Finding, as a counterexample to the unrestricted round trip: one second
    before zero. *)
Theorem C16_timedelta_roundtrip_refuted :
  exists t, td_wf t /\ timedelta_parse (timedelta_generate t) <> Ok t.
Proof. exact roundtrip_fails. Qed.
Print Assumptions C16_timedelta_roundtrip_refuted.

(** C17.  Accepted texts are ISO durations and have exactly the stated value. *)
Theorem C17_timedelta_parse_sound :
  forall s t, timedelta_parse s = Ok t ->
    exists ns, duration_text s ns /\ (ns mod 1000 = 0)%N /\ td_wf t /\
               td_total t = Z.of_N (ns / 1000).
Proof. exact parse_sound. Qed.
Print Assumptions C17_timedelta_parse_sound.

(** C17.  All ISO durations of representable value and precision are accepted
    (texts within CPython's 4300 digit limit for [int]). *)
Theorem C17_timedelta_parse_complete :
  forall s ns t, duration_text s ns -> (ns mod 1000 = 0)%N ->
    (N.of_nat (length s) <= 4300)%N ->
    td_wf t -> td_total t = Z.of_N (ns / 1000) -> timedelta_parse s = Ok t.
Proof. exact parse_complete. Qed.
Print Assumptions C17_timedelta_parse_complete.

(** C17.  Everything else raises JsonValueError, ValueError or OverflowError. *)
Theorem C17_timedelta_parse_errors :
  forall s e, timedelta_parse s = Err e -> e = EJsonValue \/ e = EValue \/ e = EOverflow.
Proof. exact parse_errors. Qed.
Print Assumptions C17_timedelta_parse_errors.

Example C16_witness :
  td_wf (mkTD 3 4000 123456) /\
  timedelta_generate (mkTD 3 4000 123456) = str "P3DT1H6M40.123456S" /\
  td_wf (mkTD (-1) 86399 999999) /\
  timedelta_generate (mkTD (-1) 86399 999999) = str "P-1DT23H59M59.999999S".
Proof. repeat split; vm_compute; congruence. Qed.
Example C17_witness :
  timedelta_parse (str "P1W2DT3H4M5.678S") = Ok (mkTD 9 11045 678000) /\
  timedelta_parse (str "P1Y") = Err EJsonValue /\
  timedelta_parse (str "PT0.0000001S") = Err EJsonValue /\
  timedelta_parse (str "P1000000000D") = Err EOverflow.
Proof. repeat split; vm_compute; reflexivity. Qed.
