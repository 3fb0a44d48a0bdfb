(** Positional numerals as used by Python's [str(int)], [int(str, base)] and
    the [%d] / [%x] format directives.  Library behaviour, not repository code. *)
From Coq Require Import String List NArith ZArith Bool.
From Verif Require Import Base.
Import ListNotations.
Open Scope list_scope.
Open Scope N_scope.

(** Digits of [n] in base [b], most significant first, without leading zeros
    ([[0]] for zero).  The fuel (binary size of [n]) always suffices. *)
Fixpoint digits_aux (b : N) (fuel : nat) (n : N) (acc : list N) : list N :=
  match fuel with
  | O => acc
  | S f =>
      if N.ltb n b then n :: acc
      else digits_aux b f (n / b) (n mod b :: acc)
  end.
Definition digits (b n : N) : list N := digits_aux b (S (N.size_nat n)) n [].

(** Value of a digit sequence in base [b]. *)
Definition undigits (b : N) (ds : list N) : N := fold_left (fun a d => a * b + d) ds 0.

(** Character of a digit, lower-case hexadecimal. *)
Definition digit_char (d : N) : N := if d <? 10 then 48 + d else 87 + d.

(** Value of a hexadecimal digit character (both cases). *)
Definition char_digit (c : N) : option N :=
  if (48 <=? c) && (c <=? 57) then Some (c - 48)
  else if (97 <=? c) && (c <=? 102) then Some (c - 87)
  else if (65 <=? c) && (c <=? 70) then Some (c - 55)
  else None.

Definition is_digit (c : N) : bool := (48 <=? c) && (c <=? 57).

(** [str.rjust(w, '0')] *)
Definition pad_left (w : nat) (s : pystr) : pystr := repeat 48 (w - length s) ++ s.
(** [str.ljust(w, '0')] *)
Definition pad_right (w : nat) (s : pystr) : pystr := s ++ repeat 48 (w - length s).

(** [str(n)] / ['%x' % n] for a non-negative integer. *)
Definition dec_str (n : N) : pystr := map digit_char (digits 10 n).
Definition hex_str (n : N) : pystr := map digit_char (digits 16 n).

(** [str(z)] for an arbitrary integer. *)
Definition int_str (z : Z) : pystr :=
  match z with
  | Z0 => [48]
  | Zpos p => dec_str (Npos p)
  | Zneg p => 45 :: dec_str (Npos p)
  end.

(** ['%0wd' % n] / ['%0wx' % n] for a non-negative integer. *)
Definition dec_pad (w : nat) (n : N) : pystr := pad_left w (dec_str n).
Definition hex_pad (w : nat) (n : N) : pystr := pad_left w (hex_str n).

(** Value of an ASCII decimal string; [int(s)] for a non-empty string of ASCII
    digits, without the length limit. *)
Definition dec_val (s : pystr) : N := undigits 10 (map (fun c => c - 48) s).

(** [int(s)] for a non-empty string of ASCII digits.  CPython refuses strings of
    more than 4300 digits with ValueError (sys.int_info.default_max_str_digits). *)
Definition int_of_ascii_digits (s : pystr) : res N :=
  if 4300 <? N.of_nat (length s) then Err EValue else Ok (dec_val s).

(** Longest prefix of decimal digits: [re] [\d+] under [re.ASCII]. *)
Fixpoint span_digits (s : pystr) : pystr * pystr :=
  match s with
  | [] => ([], [])
  | c :: r => if is_digit c then let (a, b) := span_digits r in (c :: a, b) else ([], s)
  end.
