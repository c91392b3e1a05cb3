(** * Cid: content identifiers and the external functions.

    Models the parts of the crates [cid] 0.8.3 and [multihash] 0.16.3
    (dependencies pinned in /repo/Cargo.lock, source not in /repo) that
    /repo/src uses: [Cid::to_bytes], [Cid::try_from(&[u8])], [Cid::version],
    [Cid::codec], [Cid::hash().to_bytes()], [Cid::new_v1],
    [Code::Sha2_256.digest]. *)
From Verif Require Import Base Wire.

(** [v1 = false] is CIDv0.  The multihash is (code, digest). *)
Record cid := Cid { cid_v1 : bool; cid_codec : N; cid_code : N; cid_digest : bytes }.

Definition cid_eqb (a b : cid) : bool :=
  Bool.eqb (cid_v1 a) (cid_v1 b) && (cid_codec a =? cid_codec b)
  && (cid_code a =? cid_code b) && bytes_eqb (cid_digest a) (cid_digest b).

(** Multihash::to_bytes: varint code, varint length, digest *)
Definition mh_bytes (c : cid) : bytes :=
  write_varint (cid_code c) ++ write_varint (blen (cid_digest c)) ++ cid_digest c.

(** Cid::to_bytes *)
Definition cid_bytes (c : cid) : bytes :=
  if cid_v1 c then write_varint 1 ++ write_varint (cid_codec c) ++ mh_bytes c
  else mh_bytes c.

(** The values the [Cid] type can hold: CIDv0 is always (dag-pb, sha2-256,
    32 bytes), and the default multihash table has 64 byte digests. *)
Definition cid_wf (c : cid) : bool :=
  if cid_v1 c then
    (cid_codec c <? two64) && (cid_code c <? two64) && (blen (cid_digest c) <=? 64)
  else (cid_codec c =? 0x70) && (cid_code c =? 0x12) && (blen (cid_digest c) =? 32).

Definition DAG_PB : N := 0x70. (* /repo/src/pb.rs 16 *)

(** External functions, and the kind of build.
    [ext_sha256]     : Code::Sha2_256.digest
    [ext_cid_decode] : Cid::try_from(&[u8]).ok()
    [ext_dbg]        : overflow checks and debug assertions are on *)
Record ext := Ext {
  ext_sha256 : bytes -> bytes;
  ext_cid_decode : bytes -> option cid;
  ext_dbg : bool
}.

(** What the theorems assume about them. *)
Record ext_ok (X : ext) : Prop := ExtOk {
  sha_len : forall b, length (ext_sha256 X b) = 32%nat;
  decode_bytes : forall c, cid_wf c = true -> ext_cid_decode X (cid_bytes c) = Some c;
  decode_wf : forall b c, ext_cid_decode X b = Some c -> cid_wf c = true
}.

(** [Cid::new_v1(DAG_PB, Code::Sha2_256.digest(block))], as in
    /repo/src/file/adder.rs 370-375 and /repo/src/dir/builder/iter.rs 171-172 *)
Definition block_cid (X : ext) (block : bytes) : cid :=
  Cid true DAG_PB 0x12 (ext_sha256 X block).
