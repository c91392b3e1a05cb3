(** * SpecOverflow: the blocks on which parsing overflows (C04).
    Vocabulary: SpecWire.v (varints, fields, sloppy encodings). *)
From Verif Require Import Base Utf8 Pb SpecWire.

(** the bytes [x] stand at position [pos] of [b] *)
Definition stands (b : bytes) (pos : N) (x : bytes) : Prop :=
  exists pre post, b = pre ++ x ++ post /\ blen pre = pos.

(** at [pos] a length delimited field begins whose number is not [known] and
    whose claimed length takes its end to 2^64 or beyond *)
Definition endless (known : N -> bool) (b : bytes) (pos : N) : Prop :=
  exists tb t lb w, varint tb t /\ varint lb w /\ stands b pos (tb ++ lb)
    /\ (t mod two32) mod 8 = 2 /\ known (t mod two32 / 8) = false
    /\ two64 <= pos + blen (tb ++ lb) + w mod two64.

(** A message that should occupy the positions [s, e) of [b] begins with a
    sequence of fields, all of them acceptable ([fine]) and none of them ending
    at [e]; where they end there is something [bad].  (The fields need not end
    before [e]: an ignored field may reach beyond the end of its message, and
    what follows it is then taken for further fields of the message.) *)
Definition runs_into (known : N -> bool) (fine : list wfield -> Prop) (bad : N -> Prop) (b : bytes) (s e : N) : Prop :=
  exists fs x, laxly known fs x /\ fine fs /\ stands b s x
    /\ (forall fs1 y z, x = y ++ z -> laxly known fs1 y -> s + blen y <> e)
    /\ bad (s + blen x).

(** at [pos] stands a field [num] containing a message that is [bad]; the bounds
    of the message are what the field claims, the block may end before *)
Definition within (num : N) (bad : N -> N -> Prop) (b : bytes) (pos : N) : Prop :=
  exists tb t lb w, varint tb t /\ varint lb w /\ stands b pos (tb ++ lb) /\ t mod two32 = num * 8 + 2
    /\ bad (pos + blen (tb ++ lb)) (pos + blen (tb ++ lb) + w mod two32).

Definition link_overflows (b : bytes) : N -> N -> Prop :=
  runs_into link_known (fun fs => exists l, link_sem (PBLink None None None) fs l) (endless link_known b) b.
Definition time_overflows (b : bytes) : N -> N -> Prop :=
  runs_into time_known (fun fs => exists t, time_sem (UnixTime 0 None) fs t) (endless time_known b) b.
(** a node: an endless field of its own, or one in a link *)
Definition node_overflows (b : bytes) : Prop :=
  runs_into node_known (fun fs => exists ls d, node_sem (laxly link_known) [] None fs ls d)
    (fun pos => endless node_known b pos \/ within 2 (link_overflows b) b pos) b 0 (blen b).
(** a UnixFS message: an endless field of its own, or one in an mtime *)
Definition unixfs_overflows (b : bytes) : Prop :=
  runs_into unixfs_known (fun fs => exists u, unixfs_sem (laxly time_known) (UnixFs Raw None None [] None None None None) fs u)
    (fun pos => endless unixfs_known b pos \/ within 8 (time_overflows b) b pos) b 0 (blen b).
