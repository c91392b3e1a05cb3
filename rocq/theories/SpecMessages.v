(** * SpecMessages: what the errors say, independently of the code.  Of the model
    only the types of errors are used. *)
From Coq Require Import Strings.String.
From Coq Require Import Init.Byte.
From Verif Require Import Base Wire Cid Pb Parsed Reader Visit Dir Builder Walk SpecText SpecOutput.

(** ** Debug *)
Fixpoint joined (ts : list bytes) : bytes :=
  match ts with [] => [] | [t] => t | t :: ts => t ++ ascii ", " ++ joined ts end.
Definition list_is (ns : list N) (t : bytes) : Prop := exists ts, Forall2 (numeral_of 10) ns ts /\ t = ascii "[" ++ joined ts ++ ascii "]".
Definition option_is {A} (is : A -> bytes -> Prop) (o : option A) (t : bytes) : Prop :=
  match o with None => t = ascii "None" | Some x => exists u, is x u /\ t = ascii "Some(" ++ u ++ ascii ")" end.
Definition type_is (t : ftype) (u : bytes) : Prop :=
  u = match t with
      | Raw => ascii "0 or Raw" | Directory => ascii "1 or Directory" | File => ascii "2 or File"
      | Metadata => ascii "3 or Metadata" | Symlink => ascii "4 or Symlink" | HAMTShard => ascii "5 or HAMTShard"
      end.
Section debug.
Context (cid_text : cid -> bytes) (cid_error : bytes -> bytes).
Definition invalid_is (e : invalid_cid) (t : bytes) : Prop :=
  exists a b c, numeral_of 10 (N.of_nat (ic_nth e)) a /\ list_is (map b2n (ic_hash e)) b /\ quoted (ic_name e) c
  /\ t = ascii "InvalidCidInLink { nth: " ++ a ++ ascii ", hash: " ++ b ++ ascii ", name: " ++ c
         ++ ascii ", source: " ++ cid_error (ic_hash e) ++ ascii ", hidden: () }".
Definition match_is (p : nat * cid) (t : bytes) : Prop :=
  exists a, numeral_of 10 (N.of_nat (fst p)) a /\ t = ascii "(" ++ a ++ ascii ", " ++ cid_text (snd p) ++ ascii ")".
Definition multiple_is (m : multiple) (t : bytes) : Prop :=
  match m with
  | Two a b => exists u v, match_is a u /\ match_is b v /\ t = ascii "Two { first: " ++ u ++ ascii ", second: " ++ v ++ ascii " }"
  | OneValid a e => exists u v, match_is a u /\ invalid_is e v /\ t = ascii "OneValid { first: " ++ u ++ ascii ", second: " ++ v ++ ascii " }"
  end.
End debug.
Definition metadata_is (m : metadata) (t : bytes) : Prop :=
  exists a b, option_is (numeral_of 10) (md_mode m) a
  /\ option_is (fun m u => exists s n, integer_of (fst m) s /\ numeral_of 10 (snd m) n /\ u = ascii "(" ++ s ++ ascii ", " ++ n ++ ascii ")") (md_mtime m) b
  /\ t = ascii "Metadata { mode: " ++ a ++ ascii ", mtime: " ++ b ++ ascii " }".

(** ** Display *)
Definition file_message (e : file_error) (t : bytes) : Prop :=
  match e with
  | LinksAndBlocksizesMismatch => t = ascii "different number of links and blocksizes: cannot determine subtree ranges"
  | NoLinksNoContent => t = ascii "filesize is non-zero while there are no links or content"
  | NonRootDefinesMetadata m => exists a, metadata_is m a /\ t = ascii "unsupported: non-root defines " ++ a
  | IntermediateNodeWithoutFileSize => t = ascii "intermediatery node with links but no filesize"
  | TreeExpandsOnLinks => t = ascii "total size of tree expands through links, it should only get smaller or keep size"
  | TreeOverlapsBetweenLinks => t = ascii "unsupported: tree contains overlap"
  | EarlierLink => t = ascii "error: earlier link given"
  | TreeJumpsBetweenLinks => t = ascii "unsupported: tree contains holes"
  | UnexpectedRawOrFileProperties h f => exists a b, option_is (numeral_of 10) h a /\ option_is (numeral_of 10) f b
      /\ t = ascii "unsupported: File or Raw with hash_type " ++ a ++ ascii " or fanount " ++ b
  end.
(** two hexadecimal digits: with a 1 before them it is 256 more *)
Definition byte_of (x : byte) (t : bytes) : Prop := numeral_of 16 (256 + b2n x) (x31 :: t).
Definition props_message (p : dir_props) (t : bytes) : Prop :=
  exists a b c d es, option_is (numeral_of 10) (dp_filesize p) a /\ numeral_of 10 (N.of_nat (length (dp_blocksizes p))) b
  /\ option_is (numeral_of 10) (dp_hash_type p) c /\ option_is (numeral_of 10) (dp_fanout p) d
  /\ Forall2 byte_of (match dp_data p with Some data => data | None => [] end) es
  /\ t = ascii "filesize=" ++ a ++ ascii ", " ++ b ++ ascii " blocksizes, hash_type=" ++ c ++ ascii ", fanout=" ++ d
         ++ ascii ", data=[" ++ concat es ++ ascii "]".
Definition shard_message (e : shard_error) (t : bytes) : Prop :=
  match e with
  | UnsupportedProperties h f => exists a b, option_is (numeral_of 10) h a /\ option_is (numeral_of 10) f b
      /\ t = ascii "unsupported HAMTShard properties: hash_type=" ++ a ++ ascii ", fanout=" ++ b
  | UnexpectedProperties z bs => exists a b, option_is (numeral_of 10) z a /\ numeral_of 10 (N.of_nat (length bs)) b
      /\ t = ascii "unexpected HAMTShard properties: filesize=(" ++ a ++ ascii "), " ++ b ++ ascii " blocksizes"
  end.
(** the building errors; [path] in quotes *)
Definition build_message (e : build_error) (t : bytes) : Prop :=
  match e with
  | RootedPath path => exists q, quoted path q /\ t = ascii "path is rooted: " ++ q
  | RepeatSlashesInPath path => exists q, quoted path q /\ t = ascii "path contains repeat slashes: " ++ q
  | PathEndsInSlash path => exists q, quoted path q /\ t = ascii "path ends in a slash: " ++ q
  | TooManyRootLevelEntries => t = ascii "multiple root level entries while configured wrap_with_directory = false"
  | DuplicatePath path => exists q, quoted path q /\ t = ascii "path exists already: " ++ q
  | LeafAsDirectory path => exists q, quoted path q /\ t = ascii "attempted to use already added leaf as a subdirectory: " ++ q
  end.
Definition construct_message (protobuf : bytes) (e : construct_error) (t : bytes) : Prop :=
  match e with
  | ProtobufError => t = ascii "serialization failed: " ++ protobuf
  | TooLargeBlock n => exists a, numeral_of 10 n a /\ t = ascii "attempted to create block of " ++ a ++ ascii " bytes"
  end.

(** [cid_text]: a Cid.  [cid_error], [cid_error_debug]: why bytes are not a Cid,
    as Display and Debug.  [protobuf]: a protobuf error. *)
Section messages.
Context (cid_text : cid -> bytes) (cid_error cid_error_debug : bytes -> bytes) (protobuf : perr -> bytes).
Definition invalid_message (e : invalid_cid) (t : bytes) : Prop :=
  exists a b, numeral_of 10 (N.of_nat (ic_nth e)) a /\ quoted (ic_name e) b
  /\ t = ascii "failed to convert link #" ++ a ++ ascii " (" ++ b ++ ascii ") to Cid: " ++ cid_error (ic_hash e).
Definition parse_message (e : parse_failed) (t : bytes) : Prop :=
  match e with
  | InvalidDagPb e => t = ascii "failed to read the block as dag-pb: " ++ protobuf e
  | InvalidUnixFs e _ => t = ascii "failed to read the dag-pb PBNode::Data as UnixFS message: " ++ protobuf e
  | NoData _ => t = ascii "dag-pb PBNode::Data was missing or empty"
  end.
Definition read_message (e : read_failed) (t : bytes) : Prop :=
  match e with
  | FileErr e => file_message e t
  | UnexpectedType ty => exists a, type_is ty a /\ t = ascii "unexpected type for UnixFs: " ++ a
  | ReadErr (Some e) => t = ascii "reading failed: " ++ protobuf e
  | ReadErr None => t = ascii "reading failed: missing UnixFS message"
  | InvalidCid e => invalid_message e t
  end.
Definition lookup_message (e : lookup_error) (t : bytes) : Prop :=
  match e with
  | LInvalidCid e => exists a, invalid_is cid_error_debug e a /\ t = ascii "Invalid link: " ++ a
  | LMultiple m => exists a, multiple_is cid_text cid_error_debug m a /\ t = ascii "Multiple matching links found: " ++ a
  | LUnexpectedBucketType ty => exists a, type_is ty a /\ t = ascii "unexpected type for HAMT bucket: " ++ a
  | LShard e => shard_message e t
  | LRead (Some e) => t = ascii "failed to parse the block as unixfs or dag-pb node: " ++ protobuf e
  | LRead None => t = ascii "HAMTDirectory not found in empty dag-pb node"
  end.
Definition resolve_message (e : resolve_error) (t : bytes) : Prop :=
  match e with
  | RUnexpectedType ty => exists a, type_is ty a /\ t = ascii "unexpected type for UnixFs: " ++ a
  | RUnexpectedDirProperties p => exists a, props_message p a /\ t = ascii "unexpected directory properties: " ++ a
  | RRead e => t = ascii "parsing failed: " ++ protobuf e
  | RLookup e => lookup_message e t
  end.
Definition walk_message (e : walk_error) (t : bytes) : Prop :=
  match e with
  | EUnsupportedType ty => exists a, type_is ty a /\ t = ascii "unsupported UnixFs type: " ++ a
  | EUnexpectedType ty => exists a, type_is ty a /\ t = ascii "link to unexpected UnixFs type from File: " ++ a
  | EDagPb e => t = ascii "failed to parse the outer dag-pb: " ++ protobuf e
  | EUnixFs e => t = ascii "failed to parse the inner UnixFs: " ++ protobuf e
  | EEmptyDagPbNode => t = ascii "failed to parse the inner UnixFs: no data"
  | EInvalidCid e => exists a, invalid_message e a /\ t = ascii "link contained an invalid Cid: " ++ a
  | EFile e => exists a, file_message e a /\ t = ascii "invalid file: " ++ a
  | EDirectory p => exists a, props_message p a /\ t = ascii "unsupported directory: " ++ a
  | EShard e => exists a, shard_message e a /\ t = ascii "unsupported hamtshard: " ++ a
  end.
End messages.
