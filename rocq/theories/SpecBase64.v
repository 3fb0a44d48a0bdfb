(** RFC 4648 Base64 read as numerals: a text denotes bytes when, as numbers, the
    base-64 reading of its characters and the base-256 reading of the bytes
    agree up to the filler bits at the end. *)
From Coq Require Import String List NArith.
From Verif Require Import Base Digits.
Import ListNotations.
Open Scope list_scope.
Open Scope N_scope.

(** The alphabet, in the order of RFC 4648, table 1. *)
Definition alphabet : pystr :=
  str "ABCDEFGHIJKLMNOPQRSTUVWXYZabcdefghijklmnopqrstuvwxyz0123456789+/".

(** [c] is the alphabet character with index [v]. *)
Definition symbol (c v : N) : Prop := nth_error alphabet (N.to_nat v) = Some c.

Definition is_byte (b : N) : Prop := b < 256.

(** [b64_text s bs filler]: [s] is a data part followed by pad characters;
    [filler] is the number formed by the unused trailing bits. *)
Inductive b64_text : pystr -> list N -> N -> Prop :=
| b64_text_intro : forall cs vs npads bs r filler,
    Forall2 symbol cs vs -> Forall is_byte bs ->
    6 * N.of_nat (length cs) = 8 * N.of_nat (length bs) + r -> r < 6 -> filler < 2 ^ r ->
    undigits 64 vs = undigits 256 bs * 2 ^ r + filler ->
    b64_text (cs ++ repeat 61 npads) bs filler.

(** The canonical texts of RFC 4648: padded to a multiple of four characters
    with fewer than three pads, filler bits zero. *)
Definition canonical (s : pystr) (bs : list N) : Prop :=
  b64_text s bs 0 /\ Nat.modulo (length s) 4 = 0%nat /\
  (N.of_nat (length s) < N.of_nat (length bs) * 4 / 3 + 4).

(** The texts Python's strict decoder accepts, by shape: alphabet characters,
    then pads.  A complete group of four needs no pads but tolerates any number
    of them; an incomplete group of two (three) needs exactly two (one). *)
Definition accepted_shape (s : pystr) : Prop :=
  exists cs vs n, s = cs ++ repeat 61 n /\ Forall2 symbol cs vs /\
    ((Nat.modulo (length cs) 4 = 0%nat /\ (n = 0%nat \/ cs <> [])) \/
     (Nat.modulo (length cs) 4 = 2%nat /\ n = 2%nat) \/
     (Nat.modulo (length cs) 4 = 3%nat /\ n = 1%nat)).
