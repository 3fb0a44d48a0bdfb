(** The standard texts of UUIDs and internet addresses. *)
From Coq Require Import String List NArith ZArith.
From Verif Require Import Base Addresses.
Import ListNotations.
Open Scope list_scope.
Open Scope N_scope.

(** Lower-case hexadecimal numerals of a given number of digits. *)
Inductive hex_digit : N -> N -> Prop :=
| hex_digit_dec : forall d, d < 10 -> hex_digit d (48 + d)
| hex_digit_alpha : forall d, 10 <= d < 16 -> hex_digit d (97 + (d - 10)).
Inductive hex_numeral : nat -> N -> pystr -> Prop :=
| hex_numeral_nil : hex_numeral 0 0 []
| hex_numeral_snoc : forall w n s d c, hex_numeral w n s -> hex_digit d c ->
    hex_numeral (S w) (16 * n + d) (s ++ [c]).

(** RFC 4122: 8-4-4-4-12 hexadecimal digits. *)
Inductive uuid_text : N -> pystr -> Prop :=
| uuid_text_intro : forall a b c d e sa sb sc sd se,
    hex_numeral 8 a sa -> hex_numeral 4 b sb -> hex_numeral 4 c sc -> hex_numeral 4 d sd ->
    hex_numeral 12 e se ->
    uuid_text ((((a * 2 ^ 16 + b) * 2 ^ 16 + c) * 2 ^ 16 + d) * 2 ^ 48 + e)
              (sa ++ str "-" ++ sb ++ str "-" ++ sc ++ str "-" ++ sd ++ str "-" ++ se).

(** Decimal octets without leading zeros. *)
Inductive octet : N -> pystr -> Prop :=
| octet_1 : forall a, a < 10 -> octet a [48 + a]
| octet_2 : forall a b, 0 < a < 10 -> b < 10 -> octet (10 * a + b) [48 + a; 48 + b]
| octet_3 : forall a b c, 0 < a < 10 -> b < 10 -> c < 10 -> 100 * a + 10 * b + c < 256 ->
    octet (100 * a + 10 * b + c) [48 + a; 48 + b; 48 + c].

(** Dotted quad. *)
Inductive ipv4_text : N -> pystr -> Prop :=
| ipv4_text_intro : forall a b c d sa sb sc sd,
    octet a sa -> octet b sb -> octet c sc -> octet d sd ->
    ipv4_text (a * 2 ^ 24 + b * 2 ^ 16 + c * 2 ^ 8 + d)
              (sa ++ str "." ++ sb ++ str "." ++ sc ++ str "." ++ sd).

(** Scope identifiers that an [IPv6Address] object can carry. *)
Definition scope_wf (s : option pystr) : Prop :=
  match s with
  | Some sc => sc <> [] /\ ~ In 37 sc /\ ~ In 47 sc
  | None => True
  end.
Definition ipv6_wf (a : ipv6) : Prop := ip6_addr a < 2 ^ 128 /\ scope_wf (ip6_scope a).
