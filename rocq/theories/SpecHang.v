(** * SpecHang: the blocks on which a parser built without overflow checks stays
    for ever (C04).  There a position beyond 2^64 wraps around: the end of an
    ignored field may lie before its beginning.
    Vocabulary: SpecWire.v (varints), SpecOverflow.v ([stands]). *)
From Verif Require Import Base Utf8 Pb SpecWire SpecOverflow.

(** a varint of value [v] stands at [p] and ends at [q] *)
Definition number_at (b : bytes) (p v q : N) : Prop := exists x, varint x v /\ stands b p x /\ q = p + blen x.
(** a length and as many bytes, from [p] to [q] *)
Definition bytes_at (b : bytes) (p : N) (x : bytes) (q : N) : Prop :=
  exists v m, number_at b p v m /\ stands b m x /\ blen x = v mod two32 /\ q = m + blen x.

(** where reading goes on after the contents, at [p], of an ignored field of
    wire type [w]; these need not be in the block *)
Definition ignored (b : bytes) (p w q : N) : Prop :=
  (w = 0 /\ exists v, number_at b p v q)
  \/ (w = 1 /\ q = (p + 8) mod two64)
  \/ (w = 2 /\ exists v m, number_at b p v m /\ q = (m + v) mod two64)
  \/ (w = 5 /\ q = (p + 4) mod two64).

(** A message is read from position to position until its end [e]: [reaches
    move e p q], reading goes from [p] to [q]. *)
Inductive reaches (move : N -> N -> Prop) (e : N) : N -> N -> Prop :=
| here : forall p, reaches move e p p
| onward : forall p q r, p <> e -> move p q -> reaches move e q r -> reaches move e p r.
(** reading from [s] comes to a position and back to it *)
Definition circles (move : N -> N -> Prop) (e s : N) : Prop :=
  exists p q, reaches move e s p /\ p <> e /\ move p q /\ reaches move e q p.

(** one field, the contents of a field with the tag [t] going from [p] to [q] by
    [contents t p q] *)
Definition field (b : bytes) (contents : N -> N -> N -> Prop) (p q : N) : Prop :=
  exists t m, number_at b p t m /\ contents (t mod two32) m q.
(** an embedded message, its own fields going by [move] *)
Definition message_at (b : bytes) (move : N -> N -> Prop) (p q : N) : Prop :=
  exists v m, number_at b p v m /\ q = m + v mod two32 /\ reaches move q m q.

(** the fields of a link: Hash (1), Name (2), Tsize (3); a tag is eight times the
    number of the field and its wire type *)
Definition link_contents (b : bytes) (t p q : N) : Prop :=
  if t =? 1 * 8 + 2 then exists x, bytes_at b p x q
  else if t =? 2 * 8 + 2 then exists x, bytes_at b p x q /\ utf8_valid x = true
  else if t =? 3 * 8 + 0 then exists v, number_at b p v q
  else ignored b p (t mod 8) q.
(** of a node: Data (1), Links (2) *)
Definition node_contents (b : bytes) (t p q : N) : Prop :=
  if t =? 1 * 8 + 2 then exists x, bytes_at b p x q
  else if t =? 2 * 8 + 2 then message_at b (field b (link_contents b)) p q
  else ignored b p (t mod 8) q.
(** of an mtime: Seconds (1), FractionalNanoseconds (2) *)
Definition time_contents (b : bytes) (t p q : N) : Prop :=
  if t =? 1 * 8 + 0 then exists v, number_at b p v q
  else if t =? 2 * 8 + 5 then exists x, stands b p x /\ blen x = 4 /\ q = p + 4
  else ignored b p (t mod 8) q.
(** of a UnixFS message: Type (1), Data (2), filesize (3), blocksizes (4),
    hashType (5), fanout (6), mode (7), mtime (8) *)
Definition unixfs_contents (b : bytes) (t p q : N) : Prop :=
  if existsb (N.eqb t) [1 * 8; 3 * 8; 4 * 8; 5 * 8; 6 * 8; 7 * 8] then exists v, number_at b p v q
  else if t =? 2 * 8 + 2 then exists x, bytes_at b p x q
  else if t =? 8 * 8 + 2 then message_at b (field b (time_contents b)) p q
  else ignored b p (t mod 8) q.

(** reading the whole of [b] goes in circles, or comes to a field with the tag
    [t] holding a message in which it goes in circles *)
Definition hangs (b : bytes) (move : N -> N -> Prop) (t : N) (move' : N -> N -> Prop) : Prop :=
  circles move (blen b) 0
  \/ exists p v m n k, reaches move (blen b) 0 p /\ p <> blen b
       /\ number_at b p v m /\ v mod two32 = t /\ number_at b m n k /\ circles move' (k + n mod two32) k.
Definition node_hangs (b : bytes) : Prop := hangs b (field b (node_contents b)) (2 * 8 + 2) (field b (link_contents b)).
Definition unixfs_hangs (b : bytes) : Prop := hangs b (field b (unixfs_contents b)) (8 * 8 + 2) (field b (time_contents b)).
