(** * Dagpb: model of /repo/src/dagpb.rs and /repo/src/symlink.rs *)
From Verif Require Import Base Wire Utf8 Cid Pb.

(** node_data, dagpb.rs 10-17, with the address of the slice relative to the
    block *)
Definition node_data_slice (dbg : bool) (block : bytes) : outcome perr (option (N * bytes)) :=
  do doc <- pbnode_parse dbg block; Ok (n_data doc).

Definition node_data (dbg : bool) (block : bytes) : outcome perr (option bytes) :=
  do s <- node_data_slice dbg block; Ok (option_map snd s).

(** subslice_to_range, dagpb.rs 34-55.  [off] is [sub.as_ptr() - full.as_ptr()],
    which is never negative here. *)
Definition subslice_to_range (full : bytes) (off : N) (sub : bytes) : option (N * N) :=
  let max := blen full in
  let amt := blen sub in
  if max <? amt then None
  else if max <=? off then None
  else Some (off, off + amt).

(** NodeData, dagpb.rs 58-62 *)
Record nodedata := NodeData { nd_inner : bytes; nd_range : option (N * N) }.

(** wrap_node_data, dagpb.rs 21-32 *)
Definition wrap_node_data (dbg : bool) (block : bytes) : outcome perr nodedata :=
  do s <- node_data_slice dbg block;
  match s with
  | Some (off, sub) =>
      do rg <- unwrap (subslice_to_range block off sub);
      Ok (NodeData block (Some rg))
  | None => Ok (NodeData block None)
  end.

(** NodeData::node_data, dagpb.rs 78-84; slice indexing panics out of range *)
Definition nd_node_data {E} (n : nodedata) : outcome E bytes :=
  match nd_range n with
  | Some (s, e) => unwrap (get_range (nd_inner n) s e)
  | None => Ok []
  end.

(** NodeData::get_ref / into_inner, dagpb.rs 87-96 *)
Definition nd_get_ref (n : nodedata) : bytes := nd_inner n.
Definition nd_into_inner (n : nodedata) : bytes := nd_inner n.

(** serialize_symlink_block, /repo/src/symlink.rs 13-32: appends to the buffer *)
Definition serialize_symlink_block (target : bytes) (buf : bytes) : bytes :=
  buf ++ flat_write (Flat [] (UnixFs Symlink (Some target) None [] None None None None)).
