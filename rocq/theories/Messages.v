(** * Messages: Display of the errors
    (/repo/src/{pb,file,lib,dir,walk}.rs, /repo/src/dir/{directory,sharded_lookup,builder}.rs)
    and the Debug implementations they use. *)
From Coq Require Import Strings.String.
From Coq Require Import Init.Byte.
From Verif Require Import Base Wire Cid Pb Reader Visit Dir Builder Walk Errors AdderDebug Output.

(** what other crates and tables of core contribute: [t_plain] as in Output.v,
    Display of quick_protobuf::Error, Display and Debug of the error on decoding
    a Cid (here given by the bytes it came from), Debug of Cid *)
Record foreign := Foreign {
  t_plain : N -> bool;
  t_protobuf : perr -> bytes;
  t_cid_error : bytes -> bytes;
  t_cid_error_debug : bytes -> bytes;
  t_cid : cid -> bytes
}.

(** derived Debug of Option<u64> and of Vec<u64>, &[u8] *)
Definition some_debug (o : option bytes) : bytes :=
  match o with None => lit "None" | Some t => lit "Some(" ++ t ++ lit ")" end.
Definition opt_debug (o : option N) : bytes := some_debug (option_map (numeral 10) o).
Fixpoint commas (l : list bytes) : bytes :=
  match l with [] => [] | [t] => t | t :: l => t ++ lit ", " ++ commas l end.
Definition list_debug (l : list bytes) : bytes := lit "[" ++ commas l ++ lit "]".
(** [{:02x}] of a byte *)
Definition hex2 (x : byte) : bytes := [digit (b2n x / 16); digit (b2n x mod 16)].

(** derived Debug of Metadata, lib.rs 134-138 *)
Definition metadata_debug (m : metadata) : bytes :=
  lit "Metadata { mode: " ++ opt_debug (md_mode m) ++ lit ", mtime: "
  ++ some_debug (option_map (fun t => lit "(" ++ signed (fst t) ++ lit ", " ++ numeral 10 (snd t) ++ lit ")") (md_mtime m)) ++ lit " }".

(** FileError, file.rs 106-138 *)
Definition file_error_text (e : file_error) : bytes :=
  match e with
  | LinksAndBlocksizesMismatch => lit "different number of links and blocksizes: cannot determine subtree ranges"
  | NoLinksNoContent => lit "filesize is non-zero while there are no links or content"
  | NonRootDefinesMetadata m => lit "unsupported: non-root defines " ++ metadata_debug m
  | IntermediateNodeWithoutFileSize => lit "intermediatery node with links but no filesize"
  | TreeExpandsOnLinks => lit "total size of tree expands through links, it should only get smaller or keep size"
  | TreeOverlapsBetweenLinks => lit "unsupported: tree contains overlap"
  | EarlierLink => lit "error: earlier link given"
  | TreeJumpsBetweenLinks => lit "unsupported: tree contains holes"
  | UnexpectedRawOrFileProperties h f =>
    lit "unsupported: File or Raw with hash_type " ++ opt_debug h ++ lit " or fanount " ++ opt_debug f
  end.
(** UnexpectedDirectoryProperties, directory.rs 43-60 *)
Definition dir_props_text (p : dir_props) : bytes :=
  lit "filesize=" ++ opt_debug (dp_filesize p) ++ lit ", " ++ numeral 10 (N.of_nat (length (dp_blocksizes p)))
  ++ lit " blocksizes, hash_type=" ++ opt_debug (dp_hash_type p) ++ lit ", fanout=" ++ opt_debug (dp_fanout p)
  ++ lit ", data=[" ++ concat (map hex2 (opt (dp_data p) [] (fun d => d))) ++ lit "]".
(** ShardError, sharded_lookup.rs 243-263 *)
Definition shard_error_text (e : shard_error) : bytes :=
  match e with
  | UnsupportedProperties h f => lit "unsupported HAMTShard properties: hash_type=" ++ opt_debug h ++ lit ", fanout=" ++ opt_debug f
  | UnexpectedProperties s bs =>
    lit "unexpected HAMTShard properties: filesize=(" ++ opt_debug s ++ lit "), " ++ numeral 10 (N.of_nat (length bs)) ++ lit " blocksizes"
  end.
(** Debug of UnexpectedNodeType, lib.rs 99-109 *)
Definition type_text (t : ftype) : bytes := fmt_node_type (node_type_of t).
(** TreeConstructionFailed, builder.rs 137-146.  The model does not tell which
    protobuf error it is. *)
Definition construct_error_text (protobuf : bytes) (e : construct_error) : bytes :=
  match e with
  | ProtobufError => lit "serialization failed: " ++ protobuf
  | TooLargeBlock size => lit "attempted to create block of " ++ numeral 10 size ++ lit " bytes"
  end.

Section messages.
Context (F : foreign).
Let str := debug_str (t_plain F).

(** InvalidCidInLink, lib.rs 79-87, and its derived Debug *)
Definition invalid_cid_text (e : invalid_cid) : bytes :=
  lit "failed to convert link #" ++ numeral 10 (N.of_nat (ic_nth e)) ++ lit " (" ++ str (ic_name e) ++ lit ") to Cid: " ++ t_cid_error F (ic_hash e).
Definition invalid_cid_debug (e : invalid_cid) : bytes :=
  lit "InvalidCidInLink { nth: " ++ numeral 10 (N.of_nat (ic_nth e)) ++ lit ", hash: " ++ list_debug (map (fun x => numeral 10 (b2n x)) (ic_hash e))
  ++ lit ", name: " ++ str (ic_name e) ++ lit ", source: " ++ t_cid_error_debug F (ic_hash e) ++ lit ", hidden: () }".
(** derived Debug of MultipleMatchingLinks, dir.rs 166-183 *)
Definition found_debug (p : nat * cid) : bytes :=
  lit "(" ++ numeral 10 (N.of_nat (fst p)) ++ lit ", " ++ t_cid F (snd p) ++ lit ")".
Definition multiple_debug (m : multiple) : bytes :=
  match m with
  | Two a b => lit "Two { first: " ++ found_debug a ++ lit ", second: " ++ found_debug b ++ lit " }"
  | OneValid a e => lit "OneValid { first: " ++ found_debug a ++ lit ", second: " ++ invalid_cid_debug e ++ lit " }"
  end.
(** ParsingFailed, pb.rs 26-39 *)
Definition parse_failed_text (e : parse_failed) : bytes :=
  match e with
  | InvalidDagPb e => lit "failed to read the block as dag-pb: " ++ t_protobuf F e
  | InvalidUnixFs e _ => lit "failed to read the dag-pb PBNode::Data as UnixFS message: " ++ t_protobuf F e
  | NoData _ => lit "dag-pb PBNode::Data was missing or empty"
  end.
(** FileReadFailed, file.rs 35-47 *)
Definition read_failed_text (e : read_failed) : bytes :=
  match e with
  | FileErr e => file_error_text e
  | UnexpectedType t => lit "unexpected type for UnixFs: " ++ type_text t
  | ReadErr (Some e) => lit "reading failed: " ++ t_protobuf F e
  | ReadErr None => lit "reading failed: missing UnixFS message"
  | InvalidCid e => invalid_cid_text e
  end.
(** LookupError, sharded_lookup.rs 307-324 *)
Definition lookup_error_text (e : lookup_error) : bytes :=
  match e with
  | LInvalidCid e => lit "Invalid link: " ++ invalid_cid_debug e
  | LMultiple m => lit "Multiple matching links found: " ++ multiple_debug m
  | LUnexpectedBucketType t => lit "unexpected type for HAMT bucket: " ++ type_text t
  | LShard e => shard_error_text e
  | LRead (Some e) => lit "failed to parse the block as unixfs or dag-pb node: " ++ t_protobuf F e
  | LRead None => lit "HAMTDirectory not found in empty dag-pb node"
  end.
(** ResolveError, dir.rs 119-129 *)
Definition resolve_error_text (e : resolve_error) : bytes :=
  match e with
  | RUnexpectedType t => lit "unexpected type for UnixFs: " ++ type_text t
  | RUnexpectedDirProperties p => lit "unexpected directory properties: " ++ dir_props_text p
  | RRead e => lit "parsing failed: " ++ t_protobuf F e
  | RLookup e => lookup_error_text e
  end.
(** walk::Error, walk.rs 710-727 *)
Definition walk_error_text (e : walk_error) : bytes :=
  match e with
  | EUnsupportedType t => lit "unsupported UnixFs type: " ++ type_text t
  | EUnexpectedType t => lit "link to unexpected UnixFs type from File: " ++ type_text t
  | EDagPb e => lit "failed to parse the outer dag-pb: " ++ t_protobuf F e
  | EUnixFs e => lit "failed to parse the inner UnixFs: " ++ t_protobuf F e
  | EEmptyDagPbNode => lit "failed to parse the inner UnixFs: no data"
  | EInvalidCid e => lit "link contained an invalid Cid: " ++ invalid_cid_text e
  | EFile e => lit "invalid file: " ++ file_error_text e
  | EDirectory p => lit "unsupported directory: " ++ dir_props_text p
  | EShard e => lit "unsupported hamtshard: " ++ shard_error_text e
  end.
(** TreeBuildingFailed, builder.rs 102-123 *)
Definition build_error_text (e : build_error) : bytes :=
  match e with
  | RootedPath s => lit "path is rooted: " ++ str s
  | RepeatSlashesInPath s => lit "path contains repeat slashes: " ++ str s
  | PathEndsInSlash s => lit "path ends in a slash: " ++ str s
  | TooManyRootLevelEntries => lit "multiple root level entries while configured wrap_with_directory = false"
  | DuplicatePath s => lit "path exists already: " ++ str s
  | LeafAsDirectory s => lit "attempted to use already added leaf as a subdirectory: " ++ str s
  end.
End messages.
