(** * SpecText: text in UTF-8 (RFC 3629), independently of the model: sequences of
    Unicode scalar values, each encoded in one to four bytes. *)
From Verif Require Import Base.

(** Unicode scalar values: all code points but the surrogates *)
Definition scalar (c : N) : Prop := c < 0xd800 \/ 0xe000 <= c < 0x110000.

(** the encoding of a code point *)
Definition encode_char (c : N) : bytes :=
  if c <? 0x80 then [n2b c]
  else if c <? 0x800 then [n2b (0xc0 + c / 64); n2b (0x80 + c mod 64)]
  else if c <? 0x10000 then [n2b (0xe0 + c / 4096); n2b (0x80 + c / 64 mod 64); n2b (0x80 + c mod 64)]
  else [n2b (0xf0 + c / 262144); n2b (0x80 + c / 4096 mod 64); n2b (0x80 + c / 64 mod 64); n2b (0x80 + c mod 64)].
Definition encode_text (cs : list N) : bytes := concat (map encode_char cs).

Definition text (l : bytes) : Prop := exists cs, Forall scalar cs /\ l = encode_text cs.

(** [i] is between two characters of [s], at its start or at its end *)
Definition between_chars (s : bytes) (i : nat) : Prop :=
  (i <= length s)%nat /\ text (firstn i s) /\ text (skipn i s).
