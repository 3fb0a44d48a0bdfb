(** C21: UUIDs and internet addresses survive the trip through their text. *)
From Coq Require Import String List NArith ZArith.
From Verif Require Import Base Addresses SpecAddresses AddressesProofs.
Import ListNotations.
Open Scope list_scope.
Open Scope N_scope.

Theorem C21_uuid_roundtrip : forall u, u < 2 ^ 128 -> uuid_parse (uuid_generate u) = Ok u.
Proof. exact uuid_roundtrip. Qed.
Print Assumptions C21_uuid_roundtrip.

(** The text of a UUID is the standard one (8-4-4-4-12 lower-case digits). *)
Theorem C21_uuid_text : forall u, u < 2 ^ 128 -> uuid_text u (uuid_generate u).
Proof. exact uuid_generate_text. Qed.
Print Assumptions C21_uuid_text.

Theorem C21_uuid_parse_total : forall s,
  (exists u, uuid_parse s = Ok u /\ u < 2 ^ 128) \/ uuid_parse s = Err EValue.
Proof.
  intros s. destruct (uuid_parse s) as [u|e] eqn:E.
  - left. exists u. split; [reflexivity|]. exact (uuid_parse_bound s u E).
  - right. rewrite (uuid_errors s e E). reflexivity.
Qed.
Print Assumptions C21_uuid_parse_total.

Example C21_uuid_witness :
  uuid_generate 0x12345678123456781234567812345678 = str "12345678-1234-5678-1234-567812345678"
  /\ 0x12345678123456781234567812345678 < 2 ^ 128
  /\ uuid_parse (str "{12345678123456781234567812345678}") = Ok 0x12345678123456781234567812345678
  /\ uuid_parse (str "1234") = Err EValue.
Proof. repeat split; reflexivity. Qed.

Theorem C21_ipv4_roundtrip : forall a, a < 2 ^ 32 -> ipv4_parse (ipv4_generate a) = Ok a.
Proof. exact ipv4_roundtrip. Qed.
Print Assumptions C21_ipv4_roundtrip.

(** A text is accepted as an IPv4 address exactly when it is a dotted quad
    without leading zeros, and it then denotes the address it spells. *)
Theorem C21_ipv4_exact : forall s a, ipv4_parse s = Ok a <-> ipv4_text a s.
Proof. exact ipv4_parse_iff. Qed.
Print Assumptions C21_ipv4_exact.

Theorem C21_ipv4_parse_total : forall s,
  (exists a, ipv4_parse s = Ok a /\ a < 2 ^ 32) \/ ipv4_parse s = Err EValue.
Proof.
  intros s. destruct (ipv4_parse s) as [u|e] eqn:E.
  - left. exists u. split; [reflexivity|]. exact (ipv4_bound s u E).
  - right. rewrite (ipv4_errors s e E). reflexivity.
Qed.
Print Assumptions C21_ipv4_parse_total.

Example C21_ipv4_witness :
  ipv4_generate 3232235777 = str "192.168.1.1" /\ 3232235777 < 2 ^ 32
  /\ ipv4_parse (str "192.168.01.1") = Err EValue /\ ipv4_parse (str "256.0.0.1") = Err EValue.
Proof. repeat split; reflexivity. Qed.

Theorem C21_ipv6_roundtrip : forall a, ipv6_wf a -> ipv6_parse (ipv6_generate a) = Ok a.
Proof. exact ipv6_roundtrip. Qed.
Print Assumptions C21_ipv6_roundtrip.

Theorem C21_ipv6_parse_total : forall s,
  (exists a, ipv6_parse s = Ok a /\ ipv6_wf a) \/ ipv6_parse s = Err EValue.
Proof.
  intros s. destruct (ipv6_parse s) as [u|e] eqn:E.
  - left. exists u. split; [reflexivity|]. exact (ipv6_parse_wf s u E).
  - right. rewrite (ipv6_errors s e E). reflexivity.
Qed.
Print Assumptions C21_ipv6_parse_total.

(** Consequently distinct addresses have distinct texts. *)
Theorem C21_texts_distinct :
  (forall u v, u < 2 ^ 128 -> v < 2 ^ 128 -> uuid_generate u = uuid_generate v -> u = v) /\
  (forall a b, a < 2 ^ 32 -> b < 2 ^ 32 -> ipv4_generate a = ipv4_generate b -> a = b) /\
  (forall a b, ipv6_wf a -> ipv6_wf b -> ipv6_generate a = ipv6_generate b -> a = b).
Proof.
  repeat split; intros a b Ha Hb E.
  - apply uuid_roundtrip in Ha, Hb. congruence.
  - apply ipv4_roundtrip in Ha, Hb. congruence.
  - apply ipv6_roundtrip in Ha, Hb. congruence.
Qed.
Print Assumptions C21_texts_distinct.

Example C21_ipv6_witness :
  ipv6_generate (mkIP6 0x20010db8000000000000ff0000428329 None) = str "2001:db8::ff00:42:8329"
  /\ ipv6_generate (mkIP6 0 None) = str "::" /\ ipv6_generate (mkIP6 1 (Some (str "eth0"))) = str "::1%eth0"
  /\ ipv6_wf (mkIP6 1 (Some (str "eth0")))
  /\ ipv6_parse (str "1:2:3:4:5:6:7::") = Ok (mkIP6 0x00010002000300040005000600070000 None)
  /\ ipv6_parse (str "::ffff:1.2.3.4") = Ok (mkIP6 0xffff01020304 None)
  /\ ipv6_parse (str "1::2::3") = Err EValue.
Proof.
  repeat split; try reflexivity; try discriminate; cbn; intros H;
    repeat destruct H as [H|H]; try discriminate; exact H.
Qed.
