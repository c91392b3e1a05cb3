(** * Values: Debug of the values the library hands out
    (/repo/src/{dagpb,walk}.rs, /repo/src/file/{visit,reader}.rs,
    /repo/src/dir.rs, /repo/src/dir/sharded_lookup.rs, /repo/src/dir/builder/iter.rs),
    without the alternate flag. *)
From Coq Require Import Strings.String.
From Coq Require Import Init.Byte.
From Verif Require Import Base Wire Cid Pb Dagpb Reader Visit Dir Builder Walk AdderDebug Output Messages.

(** Debug of bool, Range<u64> and Range<usize> *)
Definition bool_debug (b : bool) : bytes := if b then lit "true" else lit "false".
Definition range_debug (r : range) : bytes := numeral 10 (fst r) ++ lit ".." ++ numeral 10 (snd r).
(** of &[u8] *)
Definition slice_debug (b : bytes) : bytes := list_debug (map (fun x => numeral 10 (b2n x)) b).

(** NodeData, dagpb.rs 64-74; [ty] is the name of the type of the block *)
Definition node_data_debug (ty : bytes) (n : nodedata) : bytes :=
  lit "NodeData<" ++ ty ++ lit "> { inner.len: " ++ numeral 10 (blen (nd_inner n)) ++ lit ", range: "
  ++ some_debug (option_map range_debug (nd_range n)) ++ lit " }".

(** [shown]: Display of Cid; [t_cid F] is Debug of it *)
Section values.
Context (F : foreign) (shown : cid -> bytes).
Let str := debug_str (t_plain F).

(** derived, visit.rs 15 *)
Definition idle_debug (v : idle) : bytes := lit "IdleFileVisit { range: " ++ some_debug (option_map range_debug v) ++ lit " }".
(** derived, reader.rs 36 and 187 *)
Definition ending_debug (e : ending) : bytes :=
  match e with
  | TreeCoverage n => lit "TreeCoverage(" ++ numeral 10 n ++ lit ")"
  | Chunk n => lit "Chunk(" ++ numeral 10 n ++ lit ")"
  end.
Definition traversal_debug (t : traversal) : bytes :=
  lit "Traversal { last_ending: " ++ ending_debug (tr_last_ending t) ++ lit ", last_offset: " ++ numeral 10 (tr_last_offset t)
  ++ lit ", file_size: " ++ numeral 10 (tr_file_size t) ++ lit ", metadata: " ++ metadata_debug (tr_metadata t) ++ lit " }".
(** derived, visit.rs 121.  The Vec is the reverse of the list of the model. *)
Definition pending_debug (p : pending_link) : bytes := lit "(" ++ t_cid F (fst p) ++ lit ", " ++ range_debug (snd p) ++ lit ")".
Definition file_visit_debug (v : file_visit) : bytes :=
  lit "FileVisit { pending: "
  ++ list_debug (map pending_debug (rev (fv_pending v)))
  ++ lit ", range: " ++ some_debug (option_map range_debug (fv_range v)) ++ lit ", state: " ++ traversal_debug (fv_state v) ++ lit " }".

(** derived, walk.rs 585 and 554.  Debug of Path is that of str, see Output.v. *)
Definition segment_debug (s : segment) : bytes :=
  lit "FileSegment { bytes: " ++ slice_debug (seg_bytes s) ++ lit ", first_block: " ++ bool_debug (seg_first s)
  ++ lit ", last_block: " ++ bool_debug (seg_last s) ++ lit " }".
Definition continued_debug (it : continued) : bytes :=
  match it with
  | WBucket c p => lit "Bucket(" ++ t_cid F c ++ lit ", " ++ str p ++ lit ")"
  | WDirectory c p md => lit "Directory(" ++ t_cid F c ++ lit ", " ++ str p ++ lit ", " ++ metadata_debug md ++ lit ")"
  | WFile s c p md size =>
    lit "File(" ++ segment_debug s ++ lit ", " ++ t_cid F c ++ lit ", " ++ str p ++ lit ", " ++ metadata_debug md
    ++ lit ", " ++ numeral 10 size ++ lit ")"
  | WRootDirectory c p md => lit "RootDirectory(" ++ t_cid F c ++ lit ", " ++ str p ++ lit ", " ++ metadata_debug md ++ lit ")"
  | WSymlink target c p md =>
    lit "Symlink(" ++ slice_debug target ++ lit ", " ++ t_cid F c ++ lit ", " ++ str p ++ lit ", " ++ metadata_debug md ++ lit ")"
  end.

(** derived, walk.rs 333 *)
Definition kind_debug (k : inner_kind) : bytes :=
  match k with
  | KRootDirectory => lit "RootDirectory"
  | KBucketAtRoot => lit "BucketAtRoot"
  | KRootBucket => lit "RootBucket"
  | KBucket => lit "Bucket"
  | KDirectory => lit "Directory"
  | KFile v size => lit "File(" ++ some_debug (option_map file_visit_debug v) ++ lit ", " ++ numeral 10 size ++ lit ")"
  | KSymlink => lit "Symlink"
  end.
(** InnerEntry, walk.rs 541-551 *)
Definition inner_debug (e : inner_entry) : bytes :=
  lit "InnerEntry { depth: " ++ numeral 10 (N.of_nat (ie_depth e)) ++ lit ", kind: " ++ kind_debug (ie_kind e)
  ++ lit ", cid: " ++ shown (ie_cid e) ++ lit ", path: " ++ str (ie_path e) ++ lit ", metadata: " ++ metadata_debug (ie_metadata e) ++ lit " }".
(** Walker, derived, walk.rs 16.  [pending] as in FileVisit. *)
Definition link_debug (l : walk_link) : bytes :=
  let '(c, name, depth) := l in lit "(" ++ t_cid F c ++ lit ", " ++ str name ++ lit ", " ++ numeral 10 (N.of_nat depth) ++ lit ")".
Definition walker_debug (w : walker) : bytes :=
  lit "Walker { current: " ++ some_debug (option_map inner_debug (w_current w)) ++ lit ", next: " ++ some_debug (option_map link_debug (w_next w))
  ++ lit ", pending: " ++ list_debug (map link_debug (rev (w_pending w))) ++ lit ", should_continue: " ++ bool_debug (w_continue w) ++ lit " }".

(** ShardedLookup, sharded_lookup.rs 37-46; MaybeResolved, derived, dir.rs 85 *)
Definition lookup_debug (v : lookup) : bytes :=
  lit "ShardedLookup { links: " ++ numeral 10 (N.of_nat (length (lk_links v))) ++ lit ", needle: " ++ str (lk_needle v) ++ lit " }".
Definition resolved_debug (r : maybe_resolved) : bytes :=
  match r with
  | Found c => lit "Found(" ++ t_cid F c ++ lit ")"
  | NeedToLoadMore v => lit "NeedToLoadMore(" ++ lookup_debug v ++ lit ")"
  | NotFound => lit "NotFound"
  end.

(** TreeNode, iter.rs 325-334 *)
Definition tree_node_debug (n : tree_node) : bytes :=
  lit "TreeNode { path: " ++ str (n_path n) ++ lit ", cid: " ++ shown (n_cid n) ++ lit ", total_size: " ++ numeral 10 (n_total_size n)
  ++ lit ", size: " ++ numeral 10 (blen (n_block n)) ++ lit " }".
End values.
