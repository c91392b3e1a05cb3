(** * SpecValues: what the values of the library look like when they are
    debugged, independently of the code.  Of the model only the types of values are
    used. *)
From Coq Require Import Strings.String.
From Coq Require Import Init.Byte.
From Verif Require Import Base Wire Cid Pb Reader Visit Dir Builder Walk SpecText SpecOutput SpecMessages.

(** [Name { field: value, ... }] and [Name(value, ...)] *)
Definition record_text (name : bytes) (fields : list (bytes * bytes)) : bytes :=
  name ++ ascii " { " ++ joined (map (fun f => fst f ++ ascii ": " ++ snd f) fields) ++ ascii " }".
Definition variant_text (name : bytes) (values : list bytes) : bytes := name ++ ascii "(" ++ joined values ++ ascii ")".
Definition number (n : N) (t : bytes) : Prop := numeral_of 10 n t.
Definition span_is (r : N * N) (t : bytes) : Prop := exists a b, number (fst r) a /\ number (snd r) b /\ t = a ++ ascii ".." ++ b.
Definition truth (b : bool) : bytes := if b then ascii "true" else ascii "false".
(** bytes are shown as numbers, not as text *)
Definition octets (b : bytes) (t : bytes) : Prop := list_is (map b2n b) t.
Definition items_are {A} (is : A -> bytes -> Prop) (l : list A) (t : bytes) : Prop :=
  exists ts, Forall2 is l ts /\ t = ascii "[" ++ joined ts ++ ascii "]".

(** [debugged], [shown]: a Cid, as Debug and as Display *)
Section values.
Context (debugged shown : cid -> bytes).

(** what walks return: of files and symlinks the bytes, of directories nothing but
    where they are *)
Definition segment_is (s : segment) (t : bytes) : Prop :=
  exists a, octets (seg_bytes s) a
  /\ t = record_text (ascii "FileSegment") [(ascii "bytes", a); (ascii "first_block", truth (seg_first s)); (ascii "last_block", truth (seg_last s))].
Definition item_is (it : continued) (t : bytes) : Prop :=
  match it with
  | WBucket c p => exists q, quoted p q /\ t = variant_text (ascii "Bucket") [debugged c; q]
  | WDirectory c p md => exists q m, quoted p q /\ metadata_is md m /\ t = variant_text (ascii "Directory") [debugged c; q; m]
  | WFile s c p md size => exists g q m z, segment_is s g /\ quoted p q /\ metadata_is md m /\ number size z
      /\ t = variant_text (ascii "File") [g; debugged c; q; m; z]
  | WRootDirectory c p md => exists q m, quoted p q /\ metadata_is md m /\ t = variant_text (ascii "RootDirectory") [debugged c; q; m]
  | WSymlink target c p md => exists o q m, octets target o /\ quoted p q /\ metadata_is md m
      /\ t = variant_text (ascii "Symlink") [o; debugged c; q; m]
  end.

(** file visits; the links yet to visit stand in reverse order, the next one last *)
Definition ending_is (e : ending) (t : bytes) : Prop :=
  match e with
  | TreeCoverage n => exists a, number n a /\ t = variant_text (ascii "TreeCoverage") [a]
  | Chunk n => exists a, number n a /\ t = variant_text (ascii "Chunk") [a]
  end.
Definition traversal_is (v : traversal) (t : bytes) : Prop :=
  exists e o z m, ending_is (tr_last_ending v) e /\ number (tr_last_offset v) o /\ number (tr_file_size v) z /\ metadata_is (tr_metadata v) m
  /\ t = record_text (ascii "Traversal") [(ascii "last_ending", e); (ascii "last_offset", o); (ascii "file_size", z); (ascii "metadata", m)].
Definition pending_is (p : cid * (N * N)) (t : bytes) : Prop := exists a, span_is (snd p) a /\ t = variant_text [] [debugged (fst p); a].
Definition visit_is (v : file_visit) (t : bytes) : Prop :=
  exists p r s, items_are pending_is (rev (fv_pending v)) p /\ option_is span_is (fv_range v) r /\ traversal_is (fv_state v) s
  /\ t = record_text (ascii "FileVisit") [(ascii "pending", p); (ascii "range", r); (ascii "state", s)].

(** walkers, in the same way *)
Definition kind_is (k : inner_kind) (t : bytes) : Prop :=
  match k with
  | KRootDirectory => t = ascii "RootDirectory"
  | KBucketAtRoot => t = ascii "BucketAtRoot"
  | KRootBucket => t = ascii "RootBucket"
  | KBucket => t = ascii "Bucket"
  | KDirectory => t = ascii "Directory"
  | KFile v size => exists a z, option_is visit_is v a /\ number size z /\ t = variant_text (ascii "File") [a; z]
  | KSymlink => t = ascii "Symlink"
  end.
Definition entry_is (e : inner_entry) (t : bytes) : Prop :=
  exists d k q m, number (N.of_nat (ie_depth e)) d /\ kind_is (ie_kind e) k /\ quoted (ie_path e) q /\ metadata_is (ie_metadata e) m
  /\ t = record_text (ascii "InnerEntry") [(ascii "depth", d); (ascii "kind", k); (ascii "cid", shown (ie_cid e)); (ascii "path", q); (ascii "metadata", m)].
Definition link_is (l : cid * bytes * nat) (t : bytes) : Prop :=
  exists q d, quoted (snd (fst l)) q /\ number (N.of_nat (snd l)) d /\ t = variant_text [] [debugged (fst (fst l)); q; d].
Definition walker_is (w : walker) (t : bytes) : Prop :=
  exists c n p, option_is entry_is (w_current w) c /\ option_is link_is (w_next w) n /\ items_are link_is (rev (w_pending w)) p
  /\ t = record_text (ascii "Walker") [(ascii "current", c); (ascii "next", n); (ascii "pending", p); (ascii "should_continue", truth (w_continue w))].

(** a lookup of [needle] with so many links to follow *)
Definition lookup_is (needle : bytes) (links : N) (t : bytes) : Prop :=
  exists n q, number links n /\ quoted needle q /\ t = record_text (ascii "ShardedLookup") [(ascii "links", n); (ascii "needle", q)].

(** a node of a tree: the block only by its size *)
Definition node_is (n : tree_node) (t : bytes) : Prop :=
  exists q z s, quoted (n_path n) q /\ number (n_total_size n) z /\ number (N.of_nat (length (n_block n))) s
  /\ t = record_text (ascii "TreeNode") [(ascii "path", q); (ascii "cid", shown (n_cid n)); (ascii "total_size", z); (ascii "size", s)].
End values.
(** a block wrapped to get at its data, by the place of the data in it *)
Definition wrapped_is (ty block : bytes) (place : option (N * N)) (t : bytes) : Prop :=
  exists l r, number (N.of_nat (length block)) l /\ option_is span_is place r
  /\ t = record_text (ascii "NodeData<" ++ ty ++ ascii ">") [(ascii "inner.len", l); (ascii "range", r)].
