(** Model of the [bytes] serializer and deserializer (Base64 text). *)
From Coq Require Import String List NArith Bool.
From Verif Require Import Base.
Import ListNotations.
Open Scope list_scope.
Open Scope N_scope.

(** Alphabet of binascii: A-Z a-z 0-9 + / (argument below 64). *)
Definition b64_char (v : N) : N :=
  if v <? 26 then 65 + v
  else if v <? 52 then 71 + v
  else if v <? 62 then v - 4
  else if v =? 62 then 43 else 47.

(** Inverse table [table_a2b_base64] of binascii. *)
Definition b64_val (c : N) : option N :=
  if (65 <=? c) && (c <=? 90) then Some (c - 65)
  else if (97 <=? c) && (c <=? 122) then Some (c - 71)
  else if (48 <=? c) && (c <=? 57) then Some (c + 4)
  else if c =? 43 then Some 62
  else if c =? 47 then Some 63
  else None.

(** The pad character [=]. *)
Definition b64_pad : N := 61.

(** serializer.py 78-80: [base64.b64encode(data).decode("ascii")]; binascii
    consumes the input in groups of three bytes.  Bit operations on bytes are
    written as division and remainder. *)
Fixpoint b64_encode (bs : list N) : pystr :=
  match bs with
  | a :: b :: c :: r =>
      b64_char (a / 4) :: b64_char (a mod 4 * 16 + b / 16)
        :: b64_char (b mod 16 * 4 + c / 64) :: b64_char (c mod 64) :: b64_encode r
  | [a; b] =>
      [b64_char (a / 4); b64_char (a mod 4 * 16 + b / 16); b64_char (b mod 16 * 4); b64_pad]
  | [a] => [b64_char (a / 4); b64_char (a mod 4 * 16); b64_pad; b64_pad]
  | [] => []
  end.
Definition bytes_generate := b64_encode.

(** binascii.a2b_base64 in strict mode (CPython 3.11, Modules/binascii.c), the
    loop over the input: [quad] is [quad_pos], [left] is [leftchar], [pads] the
    pad counter, [started] is [padding_started].  Every failure is
    [binascii.Error], a subclass of ValueError. *)
Fixpoint b64_loop (s : pystr) (quad left pads : N) (started : bool) : res (list N) :=
  match s with
  | [] => if quad =? 0 then Ok [] else Err EValue
  | c :: r =>
      if c =? b64_pad then
        if (2 <=? quad) && (4 <=? quad + (pads + 1)) then
          match r with [] => Ok [] | _ => Err EValue end
        else b64_loop r quad left (if 2 <=? quad then pads + 1 else pads) true
      else
        match b64_val c with
        | None => Err EValue
        | Some v =>
            if started then Err EValue
            else if quad =? 0 then b64_loop r 1 v 0 started
            else if quad =? 1 then
              do o <- b64_loop r 2 (v mod 16) 0 started; Ok (left * 4 + v / 16 :: o)
            else if quad =? 2 then
              do o <- b64_loop r 3 (v mod 4) 0 started; Ok (left * 16 + v / 4 :: o)
            else
              do o <- b64_loop r 0 0 0 started; Ok (left * 64 + v :: o)
        end
  end.

(** deserializer.py 143-149: [base64.b64decode(data, validate=True)].  A string
    with non-ASCII characters is refused by base64.py with ValueError before
    binascii sees it; strict mode refuses a leading pad character. *)
Definition bytes_parse (s : pystr) : res (list N) :=
  if forallb (fun c => c <? 128) s then
    match s with
    | c :: _ => if c =? b64_pad then Err EValue else b64_loop s 0 0 0 false
    | [] => Ok []
    end
  else Err EValue.
