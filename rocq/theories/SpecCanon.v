(** * SpecCanon: the canonical encoding of a message.

    Independent of the writer model: only the message records of [Pb.v] and the
    wire format of [SpecWire.v] are used. *)
From Verif Require Import Base Utf8 Pb SpecWire.

(** the shortest varint of a value *)
Definition short_varint (bs : bytes) (v : N) : Prop :=
  is_varint bs v /\ forall bs', is_varint bs' v -> (length bs <= length bs')%nat.

(** a field whose tag, value and length are as short as they can be *)
Definition short_payload (v : wval) (bs : bytes) : Prop :=
  match v with
  | WVarint n => short_varint bs n
  | WFixed64 x => bs = x /\ length x = 8%nat
  | WLen x => exists lb, short_varint lb (blen x) /\ bs = lb ++ x
  | WFixed32 x => bs = x /\ length x = 4%nat
  end.
Definition short_field (f : wfield) (bs : bytes) : Prop :=
  exists tb pb, short_varint tb (w_num f * 8 + wire_type (w_val f))
                /\ short_payload (w_val f) pb /\ bs = tb ++ pb.
(** exactly these fields in this order *)
Inductive canon : list wfield -> bytes -> Prop :=
| canon_nil : canon [] []
| canon_cons : forall f fs a b, short_field f a -> canon fs b -> canon (f :: fs) (a ++ b).

(** an optional field *)
Definition field {A} (num : N) (val : A -> wval) (o : option A) : list wfield :=
  match o with Some a => [WField num (val a)] | None => [] end.

(** links: Hash (1), Name (2), Tsize (3) *)
Definition link_fields (l : pblink) : list wfield :=
  field 1 WLen (l_hash l) ++ field 2 WLen (l_name l) ++ field 3 WVarint (l_tsize l).

(** two's complement of 64 bits, and the four bytes of a number *)
Definition as_u64 (z : Z) : N := if (0 <=? z)%Z then Z.to_N z else Z.to_N (z + 2 ^ 64).
Definition bytes32 (v : N) : bytes :=
  [n2b (v mod 256); n2b (v / 256 mod 256); n2b (v / 65536 mod 256); n2b (v / 16777216 mod 256)].

(** mtime: seconds (1), nanoseconds (2) *)
Definition time_fields (t : unixtime) : list wfield :=
  WField 1 (WVarint (as_u64 (t_secs t))) :: field 2 (fun v => WFixed32 (bytes32 v)) (t_nanos t).

Definition type_num (t : ftype) : N :=
  match t with Raw => 0 | Directory => 1 | File => 2 | Metadata => 3 | Symlink => 4 | HAMTShard => 5 end.

(** UnixFS data: Type (1), Data (2), filesize (3), blocksizes (4), hashType (5),
    fanout (6), mode (7), mtime (8); [time] is the encoded mtime *)
Definition unixfs_fields (u : unixfs) (time : option bytes) : list wfield :=
  WField 1 (WVarint (type_num (u_type u)))
  :: field 2 WLen (u_data u) ++ field 3 WVarint (u_filesize u)
  ++ map (fun v => WField 4 (WVarint v)) (u_blocksizes u)
  ++ field 5 WVarint (u_hashtype u) ++ field 6 WVarint (u_fanout u)
  ++ field 7 WVarint (u_mode u) ++ field 8 WLen time.

Definition canon_time (o : option unixtime) (time : option bytes) : Prop :=
  match o, time with
  | Some t, Some b => canon (time_fields t) b
  | None, None => True
  | _, _ => False
  end.
Definition canon_unixfs (u : unixfs) (bs : bytes) : Prop :=
  exists time, canon_time (u_mtime u) time /\ canon (unixfs_fields u time) bs.

(** a dag-pb block: all links (2), then the data (1) *)
Definition canon_block (m : flat) (bs : bytes) : Prop :=
  exists links data,
    Forall2 (fun l b => canon (link_fields l) b) (f_links m) links
    /\ canon_unixfs (f_data m) data
    /\ canon (map (fun b => WField 2 (WLen b)) links ++ [WField 1 (WLen data)]) bs.
