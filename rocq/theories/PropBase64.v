(** C18: bytes and Base64 text. *)
From Coq Require Import String List NArith.
From Verif Require Import Base Base64 SpecBase64 Base64Proofs.
Import ListNotations.
Open Scope N_scope.

(** C18.  Round trip for every byte string. *)
Theorem C18_bytes_roundtrip :
  forall bs, Forall is_byte bs -> bytes_parse (bytes_generate bs) = Ok bs.
Proof. exact roundtrip. Qed.
Print Assumptions C18_bytes_roundtrip.

(** C18.  The generated text is the canonical RFC 4648 text of the bytes. *)
Theorem C18_bytes_canonical :
  forall bs, Forall is_byte bs -> canonical (bytes_generate bs) bs.
Proof. exact generate_canonical. Qed.
Print Assumptions C18_bytes_canonical.

(** C18.  An accepted text denotes the returned bytes ... *)
Theorem C18_bytes_parse_sound :
  forall s bs, bytes_parse s = Ok bs -> exists filler, b64_text s bs filler.
Proof. exact parse_sound. Qed.
Print Assumptions C18_bytes_parse_sound.

(** ... and no other bytes. *)
Theorem C18_bytes_meaning_unique :
  forall s bs f bs' f', b64_text s bs f -> b64_text s bs' f' -> bs = bs' /\ f = f'.
Proof. exact text_unique. Qed.
Print Assumptions C18_bytes_meaning_unique.

(** C18.  Exactly the texts of this shape are accepted; in particular none with
    a character outside the alphabet. *)
Theorem C18_bytes_accepted :
  forall s, (exists bs, bytes_parse s = Ok bs) <-> accepted_shape s.
Proof. exact parse_shape. Qed.
Print Assumptions C18_bytes_accepted.

(** C18.  Rejection is ValueError. *)
Theorem C18_bytes_errors : forall s e, bytes_parse s = Err e -> e = EValue.
Proof. exact parse_errors. Qed.
Print Assumptions C18_bytes_errors.

Example C18_witness :
  bytes_generate [0; 255; 16; 128] = str "AP8QgA==" /\
  bytes_parse (str "AP8QgA==") = Ok [0; 255; 16; 128] /\
  bytes_parse (str "QUFB====") = Ok [65; 65; 65] /\
  bytes_parse (str "AP8QgB==") = Ok [0; 255; 16; 128] /\
  bytes_parse (str "AP8QgA=") = Err EValue /\
  bytes_parse (str "AP8 QgA=") = Err EValue /\
  Forall is_byte [0; 255; 16; 128].
Proof. repeat split; try (vm_compute; reflexivity). repeat constructor. Qed.
