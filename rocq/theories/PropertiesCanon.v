(** * Property C48: everything the crate writes is in canonical form.
    The vocabulary is in SpecCanon.v, the proofs in Canon_proofs.v. *)
From Verif Require Import Base Wire Utf8 Cid Pb Dagpb SpecWire Codec_proofs SpecCanon Canon_proofs Examples_codec.

(** C48: a serialised message is its canonical encoding, and there is only one:
    links before data, every field in its place, every varint as short as
    possible.  ([2^64]: the length of any [Vec].) *)
Theorem C48_canonical : forall m bs,
  Forall link_fits (f_links m) -> unixfs_fits (f_data m) -> blen (flat_write m) < two64 ->
  (canon_block m bs <-> bs = flat_write m).
Proof.
  intros m bs HL HU Hb. pose proof (canon_flat_write m HL HU Hb) as C. split.
  - intros H. eapply canon_block_unique; eassumption.
  - intros ->. exact C.
Qed.
Print Assumptions C48_canonical.

(** C48 for the directory builder's own writer *)
Theorem C48_directories : forall links u bs,
  let m := Flat (map (fun '(name, c, ts) => PBLink (Some (cid_bytes c)) (Some name) (Some ts)) links) u in
  Forall link_fits (f_links m) -> unixfs_fits u -> blen (custom_write links u) < two64 ->
  (canon_block m bs <-> bs = custom_write links u).
Proof.
  intros links u bs m HL HU Hb. rewrite custom_write_flat in *. exact (C48_canonical m bs HL HU Hb).
Qed.
Print Assumptions C48_directories.

(** C48 for symlinks *)
Theorem C48_symlinks : forall target buf blk, blen target < 2 ^ 31 ->
  (serialize_symlink_block target buf = buf ++ blk
   <-> canon_block (Flat [] (UnixFs Symlink (Some target) None [] None None None None)) blk).
Proof.
  intros target buf blk Ht. unfold serialize_symlink_block.
  rewrite C48_canonical; [|constructor|repeat split; constructor|].
  - split; [intros H; apply app_inv_head in H; symmetry; exact H | intros ->; reflexivity].
  - unfold flat_write, write_with_tag, write_message, unixfs_write.
    cbn [f_links f_data map concat u_type u_data u_filesize u_blocksizes u_hashtype u_fanout u_mode u_mtime opt app ftype_num].
    unfold write_with_tag, write_bytes. rewrite !blen_app.
    rewrite <- !sizeof_write. pose proof (Wire_proofs.sizeof_varint_le 10). pose proof (Wire_proofs.sizeof_varint_le 8).
    pose proof (Wire_proofs.sizeof_varint_le 4). pose proof (Wire_proofs.sizeof_varint_le 18).
    pose proof (Wire_proofs.sizeof_varint_le (blen target)).
    match goal with |- context [sizeof_varint (unixfs_size ?u)] => pose proof (Wire_proofs.sizeof_varint_le (unixfs_size u)) end.
    change (blen []) with 0. unfold two64. lia.
Qed.
Print Assumptions C48_symlinks.

Example C48_nonvacuous :
  Forall link_fits (f_links ex_flat) /\ unixfs_fits (f_data ex_flat) /\ blen (flat_write ex_flat) < two64
  /\ exists bs, canon_block ex_flat bs.
Proof.
  destruct ex_flat_ok as (A & B & C).
  assert (D : blen (flat_write ex_flat) < two64) by (unfold two32, two64 in *; lia).
  split; [exact A|]. split; [exact B|]. split; [exact D|]. exists (flat_write ex_flat). apply C48_canonical; auto.
Qed.
