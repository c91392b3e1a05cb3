(** * SpecTrust: block stores filled by others. *)
From Verif Require Import Base Wire Cid.

Section trust.
Context (X : ext).

(** every block has been checked against its Cid, which is a SHA-256 one *)
Definition checked (get : cid -> option bytes) : Prop :=
  forall c b, get c = Some b -> cid_code c = 0x12 /\ cid_digest c = ext_sha256 X b.

(** no block of one store collides with a different block of the other *)
Definition no_collision (get get' : cid -> option bytes) : Prop :=
  forall c c' b b', get c = Some b -> get' c' = Some b' -> ext_sha256 X b = ext_sha256 X b' -> b = b'.

End trust.
