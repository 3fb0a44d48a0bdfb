(** Model of the [datetime.timedelta] serializer and deserializer. *)
From Coq Require Import String List NArith ZArith Bool.
From Verif Require Import Base Digits.
Import ListNotations.
Open Scope list_scope.
Open Scope Z_scope.

(** [datetime.timedelta]: the three stored attributes. *)
Record timedelta := mkTD { td_days : Z; td_secs : Z; td_us : Z }.

(** [datetime.timedelta(days=d, seconds=s, microseconds=u)] for integers:
    normalisation and range check of the standard library
    (_pydatetime.py, timedelta.__new__). *)
Definition timedelta_new (d s u : Z) : res timedelta :=
  let s1 := s + u / 1000000 in
  let u1 := u mod 1000000 in
  let d1 := d + s1 / 86400 in
  let s2 := s1 mod 86400 in
  if Z.abs d1 <=? 999999999 then Ok (mkTD d1 s2 u1) else Err EOverflow.

(** serializer.py 125-149: [iso8601_time_duration].  Arguments are the
    normalised attributes of a timedelta, hence non-negative. *)
Definition iso8601_time_duration (total_seconds microseconds : Z) : pystr :=
  let hours := total_seconds / 3600 in
  let remaining := total_seconds mod 3600 in
  let minutes := remaining / 60 in
  let seconds := remaining mod 60 in
  let fractional :=
    if negb (microseconds mod 1000 =? 0) then
      str "." ++ dec_pad 6 (Z.to_N microseconds)
    else
      let millis := microseconds / 1000 in
      if negb (millis =? 0) then str "." ++ dec_pad 3 (Z.to_N millis)
      else [] in
  if negb (hours =? 0) then
    str "T" ++ int_str hours ++ str "H" ++ int_str minutes ++ str "M"
      ++ int_str seconds ++ fractional ++ str "S"
  else if negb (minutes =? 0) then
    str "T" ++ int_str minutes ++ str "M" ++ int_str seconds ++ fractional ++ str "S"
  else
    str "T" ++ int_str seconds ++ fractional ++ str "S".

(** serializer.py 103-118: [TimeDeltaSerializer.generate]. *)
Definition timedelta_generate (t : timedelta) : pystr :=
  let day_component :=
    if negb (td_days t =? 0) then int_str (td_days t) ++ str "D" else [] in
  let time_component :=
    if negb (td_secs t =? 0) || negb (td_us t =? 0)
    then iso8601_time_duration (td_secs t) (td_us t) else [] in
  match day_component ++ time_component with
  | [] => str "PT0S"
  | c => str "P" ++ c
  end.

(** One optional component [(?:(\d+)L)?] of the pattern, deserializer.py
    200-206.  The scanner is deterministic: a run of digits is followed by at
    most one letter, so regular-expression backtracking cannot help
    (see TimeDeltaProofs for the equivalence with the declarative grammar). *)
Definition scan_comp (letter : N) (s : pystr) : option pystr * pystr :=
  match span_digits s with
  | (c :: ds, l :: r) => if N.eqb l letter then (Some (c :: ds), r) else (None, s)
  | _ => (None, s)
  end.

(** The seconds component, deserializer.py 206: integer part, optional fraction
    of one to nine digits, letter [S]. *)
Definition scan_secs (s : pystr) : option (pystr * option pystr) * pystr :=
  match span_digits s with
  | (c :: ds, l :: r) =>
      if N.eqb l 83 (* S *) then (Some (c :: ds, None), r)
      else if N.eqb l 46 (* . *) then
        match span_digits r with
        | (c' :: fs, l' :: r') =>
            if N.eqb l' 83 && (length (c' :: fs) <=? 9)%nat
            then (Some (c :: ds, Some (c' :: fs)), r')
            else (None, s)
        | _ => (None, s)
        end
      else (None, s)
  | _ => (None, s)
  end.

(** [$] of the pattern: end of text, or before a final newline. *)
Definition at_end (s : pystr) : bool :=
  match s with
  | [] => true
  | [c] => N.eqb c 10
  | _ => false
  end.

Record duration_groups := mkDG {
  g_weeks : option pystr; g_days : option pystr; g_hours : option pystr;
  g_minutes : option pystr; g_seconds : option pystr; g_fractional : option pystr }.

(** deserializer.py 199-211: [pattern.match(data)] and [match.groupdict()]. *)
Definition duration_match (s : pystr) : option duration_groups :=
  match s with
  | [] => None
  | c :: s0 =>
      if N.eqb c 80 (* P *) then
        let (w, s1) := scan_comp 87 s0 in
        let (d, s2) := scan_comp 68 s1 in
        let date_only :=
          if at_end s2 then Some (mkDG w d None None None None) else None in
        match s2 with
        | [] => date_only
        | t :: s3 =>
            if N.eqb t 84 (* T *) then
              let (h, s4) := scan_comp 72 s3 in
              let (m, s5) := scan_comp 77 s4 in
              let (sf, s6) := scan_secs s5 in
              if at_end s6 then
                Some (mkDG w d h m (option_map fst sf)
                           (match sf with Some (_, f) => f | None => None end))
              else None
            else date_only
        end
      else None
  end.

(** [int(parts[k]) if parts[k] else 0] *)
Definition int_or_zero (o : option pystr) : res N :=
  match o with
  | Some (c :: r) => int_of_ascii_digits (c :: r)
  | _ => Ok 0%N
  end.

(** deserializer.py 195-238: [TimeDeltaDeserializer.parse] on a string. *)
Definition timedelta_parse (s : pystr) : res timedelta :=
  match duration_match s with
  | None => Err EJsonValue
  | Some g =>
      do weeks <- int_or_zero (g_weeks g);
      do days <- int_or_zero (g_days g);
      do hours <- int_or_zero (g_hours g);
      do minutes <- int_or_zero (g_minutes g);
      do seconds <- int_or_zero (g_seconds g);
      do nanoseconds <- int_or_zero (option_map (pad_right 9) (g_fractional g));
      if negb (N.eqb (nanoseconds mod 1000) 0) then Err EJsonValue
      else
        timedelta_new (Z.of_N (7 * weeks + days))
                      (Z.of_N (3600 * hours + 60 * minutes + seconds))
                      (Z.of_N (nanoseconds / 1000))
  end.
