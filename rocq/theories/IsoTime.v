(** Model of the [datetime.date], [datetime.time] and [datetime.datetime]
    serializers and deserializers.  The repository delegates to [isoformat] and
    [fromisoformat]; both are modelled after CPython 3.11
    (Modules/_datetimemodule.c), including the texts [fromisoformat] accepts
    beyond its documentation. *)
From Coq Require Import String List NArith ZArith Bool.
From Verif Require Import Base Digits.
Import ListNotations.
Open Scope list_scope.
Open Scope N_scope.

(** [datetime.date] *)
Record date := mkDate { d_year : N; d_month : N; d_day : N }.

(** [datetime.time]; [t_off] is the UTC offset in microseconds, [None] for a
    naive object.  Time zone objects are represented by their offset only: the
    names of time zones and the [fold] attribute are not modelled. *)
Record time := mkTime { t_hour : N; t_min : N; t_sec : N; t_us : N; t_off : option Z }.

(** [datetime.datetime] *)
Record datetime := mkDT { dt_date : date; dt_time : time }.

(** ** Calendar (Lib/datetime.py: _is_leap, _days_in_month, _days_before_year) *)
Definition is_leap (y : N) : bool :=
  (y mod 4 =? 0) && (negb (y mod 100 =? 0) || (y mod 400 =? 0)).

Definition days_in_month (y m : N) : N :=
  if m =? 2 then (if is_leap y then 29 else 28)
  else if (m =? 4) || (m =? 6) || (m =? 9) || (m =? 11) then 30 else 31.

Definition days_in_year (y : N) : N := if is_leap y then 366 else 365.

(** Days before January 1st of year [y >= 1]. *)
Definition days_before_year (y : N) : N :=
  (y - 1) * 365 + (y - 1) / 4 - (y - 1) / 100 + (y - 1) / 400.

(** [date(y, m, d)], range check *)
Definition date_new (y m d : N) : res date :=
  if (1 <=? y) && (y <=? 9999) && (1 <=? m) && (m <=? 12) && (1 <=? d) && (d <=? days_in_month y m)
  then Ok (mkDate y m d) else Err EValue.

(** [time(h, m, s, us, tzinfo)], range check *)
Definition time_new (h m s us : N) (off : option Z) : res time :=
  if (h <? 24) && (m <? 60) && (s <? 60) && (us <? 1000000)
  then Ok (mkTime h m s us off) else Err EValue.

(** ** Text generation *)

(** [date.isoformat()] *)
Definition date_isoformat (d : date) : pystr :=
  dec_pad 4 (d_year d) ++ str "-" ++ dec_pad 2 (d_month d) ++ str "-" ++ dec_pad 2 (d_day d).

(** [format_utcoffset]: sign, hours, minutes, then seconds and microseconds when
    they are not zero. *)
Definition offset_isoformat (off : option Z) : pystr :=
  match off with
  | None => []
  | Some z =>
      let a := Z.to_N (Z.abs z) in
      let us := a mod 1000000 in
      let secs := a / 1000000 in
      (if (z <? 0)%Z then str "-" else str "+")
        ++ dec_pad 2 (secs / 3600) ++ str ":" ++ dec_pad 2 (secs / 60 mod 60)
        ++ (if (secs mod 60 =? 0) && (us =? 0) then []
            else str ":" ++ dec_pad 2 (secs mod 60)
                   ++ (if us =? 0 then [] else str "." ++ dec_pad 6 us))
  end.

(** [time.isoformat()] *)
Definition time_isoformat (t : time) : pystr :=
  dec_pad 2 (t_hour t) ++ str ":" ++ dec_pad 2 (t_min t) ++ str ":" ++ dec_pad 2 (t_sec t)
    ++ (if t_us t =? 0 then [] else str "." ++ dec_pad 6 (t_us t))
    ++ offset_isoformat (t_off t).

(** [datetime.isoformat()] *)
Definition datetime_isoformat (d : datetime) : pystr :=
  date_isoformat (dt_date d) ++ str "T" ++ time_isoformat (dt_time d).

(** [s.endswith(suffix)] and [s[:-len(suffix)]] *)
Definition drop_suffix (suffix s : pystr) : option pystr :=
  let n := (length s - length suffix)%nat in
  if pystr_eqb (skipn n s) suffix then Some (firstn n s) else None.

(** serializer.py 94-96: [DateSerializer.generate] *)
Definition date_generate (d : date) : pystr := date_isoformat d.

(** serializer.py 99-101: [TimeSerializer.generate] *)
Definition time_generate (t : time) : pystr := time_isoformat t.

(** serializer.py 83-91: [DateTimeSerializer.generate] *)
Definition datetime_generate (d : datetime) : res pystr :=
  match t_off (dt_time d) with
  | None => Err EJsonValue
  | Some _ =>
      let fmt := datetime_isoformat d in
      match drop_suffix (str "+00:00") fmt with
      | Some f => Ok (f ++ str "Z")
      | None => Ok fmt
      end
  end.

(** ** Text parsing.  The C code works on the NUL-terminated UTF-8 form. *)

Definition is_surrogate (c : N) : bool := (55296 <=? c) && (c <=? 57343).

Definition utf8_char (c : N) : list N :=
  if c <? 128 then [c]
  else if c <? 2048 then [192 + c / 64; 128 + c mod 64]
  else if c <? 65536 then [224 + c / 4096; 128 + c / 64 mod 64; 128 + c mod 64]
  else [240 + c / 262144; 128 + c / 4096 mod 64; 128 + c / 64 mod 64; 128 + c mod 64].

(** [PyUnicode_AsUTF8AndSize]; UnicodeEncodeError is reported as ValueError. *)
Definition utf8 (s : pystr) : res (list N) :=
  if existsb is_surrogate s then Err EValue else Ok (flat_map utf8_char s).

(** The byte at the read position; NUL at the end. *)
Definition peek (s : list N) : N := hd 0 s.

(** [parse_digits]: exactly [n] decimal digits. *)
Fixpoint parse_digits (n : nat) (acc : N) (s : list N) : res (N * list N) :=
  match n with
  | O => Ok (acc, s)
  | S n' =>
      match s with
      | c :: r => if is_digit c then parse_digits n' (acc * 10 + (c - 48)) r else Err EValue
      | [] => Err EValue
      end
  end.

(** Walk to the month containing the zero-based day of the year. *)
Fixpoint month_of (y : N) (k : nat) (m off : N) : N * N :=
  match k with
  | O => (m, off + 1)
  | S k' =>
      if off <? days_in_month y m then (m, off + 1)
      else month_of y k' (m + 1) (off - days_in_month y m)
  end.

(** [iso_to_ymd]: year, month and day of ISO week [w], week day [d].  The C code
    converts the ordinal with [ord_to_ymd]; here the day is located relative to
    January 1st of [y], as the result lies within a week of that year. *)
Definition iso_to_ymd (y w d : N) : res (N * N * N) :=
  if negb ((1 <=? y) && (y <=? 9999)) then Err EValue else
  let first := days_before_year y + 1 in
  let weekday := (first + 6) mod 7 in
  let week_ok :=
    ((1 <=? w) && (w <=? 52)) ||
    ((w =? 53) && ((weekday =? 3) || ((weekday =? 2) && is_leap y))) in
  if negb week_ok then Err EValue else
  if negb ((1 <=? d) && (d <=? 7)) then Err EValue else
  (* offset of the requested day from January 1st *)
  let monday := ((if (3 <? weekday)%N then 7 else 0) - Z.of_N weekday)%Z in
  let off := (monday + (Z.of_N w - 1) * 7 + Z.of_N d - 1)%Z in
  if (off <? 0)%Z then
    if y =? 1 then Err EValue
    else let '(m, dd) := month_of (y - 1) 11 1 (Z.to_N (Z.of_N (days_in_year (y - 1)) + off)) in
         Ok (y - 1, m, dd)
  else if (Z.of_N (days_in_year y) <=? off)%Z then
    if y =? 9999 then Err EValue
    else let '(m, dd) := month_of (y + 1) 11 1 (Z.to_N off - days_in_year y) in Ok (y + 1, m, dd)
  else let '(m, dd) := month_of y 11 1 (Z.to_N off) in Ok (y, m, dd).

(** [parse_isoformat_date]: [len] is the length of the date part; the separator
    and the length are examined as in C, trailing characters are not. *)
Definition parse_date_part (s : list N) (len : N) : res (N * N * N) :=
  do '(y, s) <- parse_digits 4 0 s;
  let sep := peek s =? 45 in
  let s := if sep then tl s else s in
  let pos := if sep then 5 else 4 in
  if peek s =? 87 (* W *) then
    do '(w, s) <- parse_digits 2 0 (tl s);
    if pos + 3 <? len then
      do s <- (if sep then if peek s =? 45 then Ok (tl s) else Err EValue else Ok s);
      do '(d, s) <- parse_digits 1 0 s;
      iso_to_ymd y w d
    else iso_to_ymd y w 1
  else
    do '(m, s) <- parse_digits 2 0 s;
    do s <- (if sep then if peek s =? 45 then Ok (tl s) else Err EValue else Ok s);
    do '(d, s) <- parse_digits 2 0 s;
    Ok (y, m, d).

(** Result of the loop over hours, minutes, seconds in [parse_hh_mm_ss_ff]:
    either the end of the part was reached (the flag tells whether a byte other
    than NUL follows), or a fraction starts. *)
Inductive hms_result :=
| HmsDone (vals : list N) (extra : bool)
| HmsFrac (vals : list N) (rest : list N) (remain : Z).

(** [remain] is [p_end - p]. *)
Fixpoint hms_loop (n : nat) (first sep : bool) (vals : list N) (s : list N) (remain : Z)
  : res hms_result :=
  match n with
  | O => Ok (HmsFrac vals s remain)
  | S n' =>
      do '(v, s1) <- parse_digits 2 0 s;
      let vals := vals ++ [v] in
      let c := peek s1 in
      let sep := if first then c =? 58 else sep in
      if (remain - 3 <=? 0)%Z then Ok (HmsDone vals (negb (c =? 0)))
      else if sep && (c =? 58) then hms_loop n' false sep vals (tl s1) (remain - 3)
      else if (c =? 46) || (c =? 44) then Ok (HmsFrac vals (tl s1) (remain - 3))
      else if negb sep then hms_loop n' false sep vals s1 (remain - 2)
      else Err EValue
  end.

(** Digits beyond microseconds are skipped. *)
Fixpoint skip_digits (s : list N) : list N :=
  match s with
  | c :: r => if is_digit c then skip_digits r else s
  | [] => []
  end.

(** [parse_hh_mm_ss_ff]: hour, minute, second, microsecond and whether a byte
    other than NUL follows. *)
Definition parse_hms (s : list N) (remain : Z) : res (N * N * N * N * bool) :=
  do r <- hms_loop 3 true true [] s remain;
  let get vals k := nth k vals 0 in
  match r with
  | HmsDone vals extra => Ok (get vals 0%nat, get vals 1%nat, get vals 2%nat, 0, extra)
  | HmsFrac vals rest remain =>
      let n := Z.to_nat (Z.min remain 6) in
      do '(f, rest) <- parse_digits n 0 rest;
      let us := f * 10 ^ N.of_nat (6 - n) in
      Ok (get vals 0%nat, get vals 1%nat, get vals 2%nat, us, negb (peek (skip_digits rest) =? 0))
  end.

(** Split before the first of [+], [-], [Z]. *)
Fixpoint split_tz (s : list N) : list N * list N :=
  match s with
  | [] => ([], [])
  | c :: r =>
      if (c =? 43) || (c =? 45) || (c =? 90) then ([], s)
      else let (a, b) := split_tz r in (c :: a, b)
  end.

(** [parse_isoformat_time] and [tzinfo_from_isoformat_results]: an offset of
    zero whole seconds is UTC, whatever its microseconds; an offset of 24 hours
    or more is refused. *)
Definition parse_time_part (s : list N) : res (N * N * N * N * option Z) :=
  let (pre, rest) := split_tz s in
  do '(h, m, sec, us, extra) <- parse_hms s (Z.of_nat (length pre));
  match rest with
  | [] => if extra then Err EValue else Ok (h, m, sec, us, None)
  | c :: r =>
      if c =? 90 then
        if peek r =? 0 then Ok (h, m, sec, us, Some 0%Z) else Err EValue
      else
        do '(oh, om, os, ous, extra) <- parse_hms r (Z.of_nat (length r));
        if extra then Err EValue
        else
          let a := oh * 3600 + om * 60 + os in
          if a =? 0 then Ok (h, m, sec, us, Some 0%Z)
          else if 86400 <=? a then Err EValue
          else
            let z := Z.of_N (a * 1000000 + ous) in
            Ok (h, m, sec, us, Some (if c =? 45 then (- z)%Z else z))
  end.

(** [date.fromisoformat] *)
Definition date_fromisoformat (s : pystr) : res date :=
  do b <- utf8 s;
  let n := N.of_nat (length b) in
  if (n =? 7) || (n =? 8) || (n =? 10) then
    do '(y, m, d) <- parse_date_part b n;
    date_new y m d
  else Err EValue.

(** [time.fromisoformat]: one leading [T] is skipped. *)
Definition time_fromisoformat (s : pystr) : res time :=
  do b <- utf8 s;
  let b := if peek b =? 84 then tl b else b in
  do '(h, m, sec, us, off) <- parse_time_part b;
  time_new h m sec us off.

(** [_find_isoformat_datetime_separator] *)
Definition find_separator (b : list N) : res N :=
  let n := N.of_nat (length b) in
  let at_ k := nth k b 0 in
  if n =? 7 then Ok 7
  else if at_ 4%nat =? 45 then
    if at_ 5%nat =? 87 then
      if n <? 8 then Err EValue
      else if (8 <? n) && (at_ 8%nat =? 45) then
        if n =? 9 then Err EValue
        else if (10 <? n) && is_digit (at_ 10%nat) then Ok 8
        else Ok 10
      else Ok 8
    else Ok 10
  else if at_ 4%nat =? 87 then
    let p := 7 + N.of_nat (length (fst (span_digits (skipn 7 b)))) in
    if p <? 9 then Ok p
    else if p mod 2 =? 0 then Ok 7 else Ok 8
  else Ok 8.

(** [_sanitize_isoformat_str]: a surrogate in a possible separator position is
    replaced with [T]. *)
Fixpoint sanitize (ks : list nat) (s : pystr) : pystr :=
  match ks with
  | [] => s
  | k :: r =>
      match nth_error s k with
      | Some c => if is_surrogate c then firstn k s ++ str "T" ++ skipn (S k) s else sanitize r s
      | None => s
      end
  end.

(** Number of bytes of the UTF-8 sequence starting with byte [c]. *)
Definition utf8_width (c : N) : nat :=
  if c <? 128 then 1%nat else if c <? 224 then 2%nat else if c <? 240 then 3%nat else 4%nat.

(** [datetime.fromisoformat] *)
Definition datetime_fromisoformat (s : pystr) : res datetime :=
  if N.of_nat (length s) <? 7 then Err EValue else
  do b <- utf8 (sanitize [7; 8; 10]%nat s);
  do sep <- find_separator b;
  do '(y, m, d) <- parse_date_part b sep;
  do '(h, mi, sec, us, off) <-
    match skipn (N.to_nat sep) b with
    | [] => Ok (0, 0, 0, 0, None)
    | c :: _ => parse_time_part (skipn (N.to_nat sep + utf8_width c) b)
    end;
  do dd <- date_new y m d;
  do t <- time_new h mi sec us off;
  Ok (mkDT dd t).

(** deserializer.py 167-174: [DateDeserializer.parse] on a string *)
Definition date_parse (s : pystr) : res date := date_fromisoformat s.

(** deserializer.py 177-184: [TimeDeserializer.parse] on a string *)
Definition time_parse (s : pystr) : res time := time_fromisoformat s.

(** deserializer.py 152-164: [DateTimeDeserializer.parse] on a string *)
Definition datetime_parse (s : pystr) : res datetime :=
  let s := match drop_suffix (str "Z") s with Some f => f ++ str "+00:00" | None => s end in
  do d <- datetime_fromisoformat s;
  match t_off (dt_time d) with
  | None => Err EJsonValue
  | Some _ => Ok d
  end.
