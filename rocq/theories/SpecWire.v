(** * SpecWire: what protobuf / dag-pb / UnixFS encodings are.

    An independent description of the wire format, used to state what parsing
    and serialising mean.  Nothing here refers to the reader or writer models;
    only the message records of [Pb.v] and [utf8_valid] are used. *)
From Verif Require Import Base Utf8 Pb.

(** [is_varint bs v]: [bs] is a base-128 varint with value [v] (least
    significant group first, not necessarily of minimal length). *)
Inductive is_varint : bytes -> N -> Prop :=
| vi_last : forall x, b2n x < 128 -> is_varint [x] (b2n x)
| vi_more : forall x bs v,
    128 <= b2n x -> is_varint bs v -> is_varint (x :: bs) (b2n x - 128 + 128 * v).

(** A varint as allowed by protobuf: at most ten bytes. *)
Definition varint (bs : bytes) (v : N) : Prop := is_varint bs v /\ (length bs <= 10)%nat.

(** Field values by wire type. *)
Inductive wval :=
| WVarint (v : N)        (* wire type 0 *)
| WFixed64 (x : bytes)   (* wire type 1 *)
| WLen (x : bytes)       (* wire type 2 *)
| WFixed32 (x : bytes).  (* wire type 5 *)

Record wfield := WField { w_num : N; w_val : wval }.

Definition wire_type (v : wval) : N :=
  match v with WVarint _ => 0 | WFixed64 _ => 1 | WLen _ => 2 | WFixed32 _ => 5 end.

Definition payload (v : wval) (bs : bytes) : Prop :=
  match v with
  | WVarint n => varint bs n /\ n < two64
  | WFixed64 x => bs = x /\ length x = 8%nat
  | WLen x => exists lb, varint lb (blen x) /\ bs = lb ++ x
  | WFixed32 x => bs = x /\ length x = 4%nat
  end.

(** one encoded field: tag varint followed by the payload *)
Definition enc_field (f : wfield) (bs : bytes) : Prop :=
  exists tb pb, varint tb (w_num f * 8 + wire_type (w_val f))
                /\ w_num f * 8 + wire_type (w_val f) < two32
                /\ payload (w_val f) pb /\ bs = tb ++ pb.

(** an encoded message: its fields one after the other *)
Inductive encodes : list wfield -> bytes -> Prop :=
| enc_nil : encodes [] []
| enc_cons : forall f fs a b, enc_field f a -> encodes fs b -> encodes (f :: fs) (a ++ b).

(** ** Sloppy encodings.
    As above, but tags and the lengths of the fields called [known] are numbers
    modulo 2^32, other numbers modulo 2^64 (varints of ten bytes can exceed
    both). *)
Definition lax_payload (modulus : N) (v : wval) (bs : bytes) : Prop :=
  match v with
  | WVarint n => exists w, varint bs w /\ n = w mod two64
  | WFixed64 x => bs = x /\ length x = 8%nat
  | WLen x => exists lb w, varint lb w /\ blen x = w mod modulus /\ bs = lb ++ x
  | WFixed32 x => bs = x /\ length x = 4%nat
  end.
Definition lax_field (known : N -> bool) (f : wfield) (bs : bytes) : Prop :=
  exists tb t pb, varint tb t /\ w_num f * 8 + wire_type (w_val f) = t mod two32
    /\ lax_payload (if known (w_num f) then two32 else two64) (w_val f) pb /\ bs = tb ++ pb.
Inductive laxly (known : N -> bool) : list wfield -> bytes -> Prop :=
| lax_nil : laxly known [] []
| lax_cons : forall f fs a b, lax_field known f a -> laxly known fs b -> laxly known (f :: fs) (a ++ b).
(** the length delimited fields of the messages of the format: links (Hash,
    Name), nodes (Data, Links), mtimes (none), UnixFS (Data, mtime) *)
Definition link_known (n : N) : bool := (n =? 1) || (n =? 2).
Definition node_known (n : N) : bool := (n =? 1) || (n =? 2).
Definition time_known (n : N) : bool := false.
Definition unixfs_known (n : N) : bool := (n =? 2) || (n =? 8).

(** ** Meaning of a field list for each message type.
    Last one wins for singular fields, repeated fields accumulate, every field
    whose number or wire type is not in the schema is ignored. *)

Inductive link_sem : pblink -> list wfield -> pblink -> Prop :=
| ls_nil : forall m, link_sem m [] m
| ls_hash : forall h n t x fs m',
    link_sem (PBLink (Some x) n t) fs m' ->
    link_sem (PBLink h n t) (WField 1 (WLen x) :: fs) m'
| ls_name : forall h n t x fs m',
    utf8_valid x = true ->
    link_sem (PBLink h (Some x) t) fs m' ->
    link_sem (PBLink h n t) (WField 2 (WLen x) :: fs) m'
| ls_tsize : forall h n t v fs m',
    link_sem (PBLink h n (Some v)) fs m' ->
    link_sem (PBLink h n t) (WField 3 (WVarint v) :: fs) m'
| ls_other : forall m f fs m',
    (forall x, f <> WField 1 (WLen x)) -> (forall x, f <> WField 2 (WLen x)) ->
    (forall v, f <> WField 3 (WVarint v)) ->
    link_sem m fs m' -> link_sem m (f :: fs) m'.

(** [node_sem enc ls d fs ls' d']: starting with links [ls] and data [d].  [enc]
    says what the encodings of links are. *)
Inductive node_sem (enc : list wfield -> bytes -> Prop) : list pblink -> option bytes -> list wfield -> list pblink -> option bytes -> Prop :=
| ns_nil : forall ls d, node_sem enc ls d [] ls d
| ns_link : forall ls d x lfs l fs ls' d',
    enc lfs x -> link_sem (PBLink None None None) lfs l ->
    node_sem enc (ls ++ [l]) d fs ls' d' ->
    node_sem enc ls d (WField 2 (WLen x) :: fs) ls' d'
| ns_data : forall ls d x fs ls' d',
    node_sem enc ls (Some x) fs ls' d' ->
    node_sem enc ls d (WField 1 (WLen x) :: fs) ls' d'
| ns_other : forall ls d f fs ls' d',
    (forall x, f <> WField 2 (WLen x)) -> (forall x, f <> WField 1 (WLen x)) ->
    node_sem enc ls d fs ls' d' -> node_sem enc ls d (f :: fs) ls' d'.

Definition i64_value (v : N) : Z :=
  if v <? 2 ^ 63 then Z.of_N v else (Z.of_N v - 2 ^ 64)%Z.

Definition le32 (x : bytes) : N :=
  match x with
  | [a; b; c; d] => b2n a + 256 * b2n b + 65536 * b2n c + 16777216 * b2n d
  | _ => 0
  end.

Inductive time_sem : unixtime -> list wfield -> unixtime -> Prop :=
| ts_nil : forall m, time_sem m [] m
| ts_secs : forall s n v fs m',
    time_sem (UnixTime (i64_value v) n) fs m' ->
    time_sem (UnixTime s n) (WField 1 (WVarint v) :: fs) m'
| ts_nanos : forall s n x fs m',
    time_sem (UnixTime s (Some (le32 x))) fs m' ->
    time_sem (UnixTime s n) (WField 2 (WFixed32 x) :: fs) m'
| ts_other : forall m f fs m',
    (forall v, f <> WField 1 (WVarint v)) -> (forall x, f <> WField 2 (WFixed32 x)) ->
    time_sem m fs m' -> time_sem m (f :: fs) m'.

(** the meaning of an enum value; unknown values (C45) are [Raw] *)
Definition type_value (v : N) : ftype :=
  if v =? 1 then Directory else if v =? 2 then File else if v =? 3 then Metadata
  else if v =? 4 then Symlink else if v =? 5 then HAMTShard else Raw.

(** [enc]: the encodings of mtimes *)
Inductive unixfs_sem (enc : list wfield -> bytes -> Prop) : unixfs -> list wfield -> unixfs -> Prop :=
| us_nil : forall m, unixfs_sem enc m [] m
| us_type : forall ty d s bs h fa mo t v fs m',
    unixfs_sem enc (UnixFs (type_value (v mod 2 ^ 32)) d s bs h fa mo t) fs m' ->
    unixfs_sem enc (UnixFs ty d s bs h fa mo t) (WField 1 (WVarint v) :: fs) m'
| us_data : forall ty d s bs h fa mo t x fs m',
    unixfs_sem enc (UnixFs ty (Some x) s bs h fa mo t) fs m' ->
    unixfs_sem enc (UnixFs ty d s bs h fa mo t) (WField 2 (WLen x) :: fs) m'
| us_filesize : forall ty d s bs h fa mo t v fs m',
    unixfs_sem enc (UnixFs ty d (Some v) bs h fa mo t) fs m' ->
    unixfs_sem enc (UnixFs ty d s bs h fa mo t) (WField 3 (WVarint v) :: fs) m'
| us_blocksize : forall ty d s bs h fa mo t v fs m',
    unixfs_sem enc (UnixFs ty d s (bs ++ [v]) h fa mo t) fs m' ->
    unixfs_sem enc (UnixFs ty d s bs h fa mo t) (WField 4 (WVarint v) :: fs) m'
| us_hashtype : forall ty d s bs h fa mo t v fs m',
    unixfs_sem enc (UnixFs ty d s bs (Some v) fa mo t) fs m' ->
    unixfs_sem enc (UnixFs ty d s bs h fa mo t) (WField 5 (WVarint v) :: fs) m'
| us_fanout : forall ty d s bs h fa mo t v fs m',
    unixfs_sem enc (UnixFs ty d s bs h (Some v) mo t) fs m' ->
    unixfs_sem enc (UnixFs ty d s bs h fa mo t) (WField 6 (WVarint v) :: fs) m'
| us_mode : forall ty d s bs h fa mo t v fs m',
    unixfs_sem enc (UnixFs ty d s bs h fa (Some (v mod 2 ^ 32)) t) fs m' ->
    unixfs_sem enc (UnixFs ty d s bs h fa mo t) (WField 7 (WVarint v) :: fs) m'
| us_mtime : forall ty d s bs h fa mo t x tfs tm fs m',
    enc tfs x -> time_sem (UnixTime 0 None) tfs tm ->
    unixfs_sem enc (UnixFs ty d s bs h fa mo (Some tm)) fs m' ->
    unixfs_sem enc (UnixFs ty d s bs h fa mo t) (WField 8 (WLen x) :: fs) m'
| us_other : forall m f fs m',
    (forall v, f <> WField 1 (WVarint v)) -> (forall x, f <> WField 2 (WLen x)) ->
    (forall v, f <> WField 3 (WVarint v)) -> (forall v, f <> WField 4 (WVarint v)) ->
    (forall v, f <> WField 5 (WVarint v)) -> (forall v, f <> WField 6 (WVarint v)) ->
    (forall v, f <> WField 7 (WVarint v)) -> (forall x, f <> WField 8 (WLen x)) ->
    unixfs_sem enc m fs m' -> unixfs_sem enc m (f :: fs) m'.

(** ** Values that fit the Rust types *)
Definition ok_opt {A} (p : A -> Prop) (o : option A) : Prop :=
  match o with Some a => p a | None => True end.

Definition link_fits (l : pblink) : Prop :=
  ok_opt (fun n => utf8_valid n = true) (l_name l) /\ ok_opt (fun v => v < two64) (l_tsize l).

Definition time_fits (t : unixtime) : Prop :=
  (- 2 ^ 63 <= t_secs t < 2 ^ 63)%Z /\ ok_opt (fun v => v < two32) (t_nanos t).

Definition unixfs_fits (u : unixfs) : Prop :=
  ok_opt (fun v => v < two64) (u_filesize u) /\ Forall (fun v => v < two64) (u_blocksizes u)
  /\ ok_opt (fun v => v < two64) (u_hashtype u) /\ ok_opt (fun v => v < two64) (u_fanout u)
  /\ ok_opt (fun v => v < two32) (u_mode u) /\ ok_opt time_fits (u_mtime u).
