(** String operations of Python used by several parts of the model
    (library behaviour, not repository code). *)
From Coq Require Import String List NArith ZArith Bool.
From Verif Require Import Base Digits.
Import ListNotations.
Open Scope list_scope.
Open Scope N_scope.

(** [s.startswith(p)] *)
Fixpoint starts_with (p s : pystr) : bool :=
  match p, s with
  | [], _ => true
  | c :: p', d :: s' => N.eqb c d && starts_with p' s'
  | _ :: _, [] => false
  end.

(** [s.replace(pat, "")] for a non-empty pattern: removal from left to right;
    [skip] counts the characters of a match still to be dropped. *)
Fixpoint remove_pat (pat s : pystr) (skip : nat) : pystr :=
  match s with
  | [] => []
  | c :: r =>
      match skip with
      | S k => remove_pat pat r k
      | O => if starts_with pat s then remove_pat pat r (length pat - 1)
             else c :: remove_pat pat r 0
      end
  end.

(** [s.lstrip(chars)] and [s.strip(chars)], the set given as a predicate *)
Fixpoint lstrip (f : N -> bool) (s : pystr) : pystr :=
  match s with
  | c :: r => if f c then lstrip f r else s
  | [] => []
  end.
Definition rstrip (f : N -> bool) (s : pystr) : pystr := rev (lstrip f (rev s)).
Definition strip (f : N -> bool) (s : pystr) : pystr := rstrip f (lstrip f s).

(** [s.split(c)] for a one-character separator *)
Fixpoint split_on (c : N) (s : pystr) : list pystr :=
  match s with
  | [] => [[]]
  | d :: r =>
      if d =? c then [] :: split_on c r
      else match split_on c r with
           | p :: ps => (d :: p) :: ps
           | [] => [[d]]
           end
  end.

(** [sep.join(parts)] *)
Fixpoint join (sep : pystr) (parts : list pystr) : pystr :=
  match parts with
  | [] => []
  | [p] => p
  | p :: ps => p ++ sep ++ join sep ps
  end.

(** [s.partition(c)]: text before the first [c]; text after it, if any *)
Fixpoint partition (c : N) (s : pystr) : pystr * option pystr :=
  match s with
  | [] => ([], None)
  | d :: r => if d =? c then ([], Some r) else let (a, b) := partition c r in (d :: a, b)
  end.

Definition mem_char (c : N) (s : pystr) : bool := existsb (N.eqb c) s.

(** White space outside ASCII and the first code points of the decimal digit
    runs outside ASCII, Unicode 14 (CPython 3.11). *)
Definition unicode_spaces : list N :=
  [133; 160; 5760; 8192; 8193; 8194; 8195; 8196; 8197; 8198; 8199; 8200; 8201; 8202;
   8232; 8233; 8239; 8287; 12288].
Definition unicode_zeros : list N :=
  [1632; 1776; 1984; 2406; 2534; 2662; 2790; 2918; 3046; 3174; 3302; 3430; 3558; 3664;
   3792; 3872; 4160; 4240; 6112; 6160; 6470; 6608; 6784; 6800; 6992; 7088; 7232; 7248;
   42528; 43216; 43264; 43472; 43504; 43600; 44016; 65296; 66720; 68912; 69734; 69872;
   69942; 70096; 70384; 70736; 70864; 71248; 71360; 71472; 71904; 72016; 72784; 73040;
   73120; 92768; 92864; 93008; 120782; 120792; 120802; 120812; 120822; 123200; 123632;
   125264; 130032].

(** _PyUnicode_TransformDecimalAndSpaceToASCII: non-ASCII spaces become blanks,
    non-ASCII decimal digits become ASCII digits, anything else becomes [?]. *)
Definition to_ascii_char (c : N) : N :=
  if c <? 127 then c
  else if existsb (N.eqb c) unicode_spaces then 32
  else match find (fun z => (z <=? c) && (c <? z + 10)) unicode_zeros with
       | Some z => 48 + (c - z)
       | None => 63
       end.

Definition is_space_ascii (c : N) : bool := ((9 <=? c) && (c <=? 13)) || (c =? 32).

(** Digits of a hexadecimal literal with single underscores between them:
    value and remaining text; [None] for a doubled or trailing underscore. *)
Fixpoint scan_hex (s : pystr) (after_underscore : bool) (acc : N) : option (N * pystr) :=
  match s with
  | [] => if after_underscore then None else Some (acc, [])
  | c :: r =>
      if c =? 95 then if after_underscore then None else scan_hex r true acc
      else match char_digit c with
           | Some d => scan_hex r false (acc * 16 + d)
           | None => if after_underscore then None else Some (acc, s)
           end
  end.

(** The prefix [0x] and one underscore after it *)
Definition drop_0x (s : pystr) : pystr :=
  match s with
  | z :: x :: r =>
      if (z =? 48) && ((x =? 120) || (x =? 88)) then
        match r with c :: r' => if c =? 95 then r' else r | [] => r end
      else s
  | _ => s
  end.

(** [int(s, 16)]: blanks around, sign, optional prefix [0x] (which one
    underscore may follow), digits.  The limit on the number of digits does not
    apply to base 16. *)
Definition int_base16 (s : pystr) : res Z :=
  let s := lstrip is_space_ascii (map to_ascii_char s) in
  let '(neg, s) :=
    match s with
    | c :: r => if c =? 43 then (false, r) else if c =? 45 then (true, r) else (false, s)
    | [] => (false, s)
    end in
  let s := drop_0x s in
  match s with
  | [] => Err EValue
  | c :: _ =>
      match char_digit c with
      | None => Err EValue
      | Some _ =>
          match scan_hex s false 0 with
          | Some (v, rest) =>
              if forallb is_space_ascii rest
              then Ok (if neg : bool then (- Z.of_N v)%Z else Z.of_N v)
              else Err EValue
          | None => Err EValue
          end
      end
  end.
