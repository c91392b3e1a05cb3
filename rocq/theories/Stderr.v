(** * Stderr: what the example programs /repo/examples/{cat,get,resolve}.rs
    write to standard error.  The message of a panic is not modelled: with
    [Panic], the lines are those before it. *)
From Coq Require Import Strings.String.
From Coq Require Import Init.Byte.
From Verif Require Import Base Wire Cid Pb Reader Visit Dir Builder Walk Errors AdderDebug Programs Output Messages.

(** what other crates and the system contribute: the name of the program, Display
    of std::io::Error, of std::env::VarError, of the error on parsing a Cid from
    an argument (given by the argument), of Cid, Debug of quick_protobuf::Error *)
Record host := Host {
  h_foreign : foreign;
  h_arg0 : bytes;
  h_io : N -> bytes;
  h_var : bytes;
  h_bad_cid : bytes -> bytes;
  h_cid : cid -> bytes;
  h_protobuf_debug : perr -> bytes
}.

Section stderr.
Context (X : ext) (H : host).
Let F := h_foreign H.
Let str := debug_str (t_plain F).

(** ** Derived Debug of ResolveError *)

(** UnexpectedDirectoryProperties, directory.rs 28-41 *)
Definition dir_props_debug (p : dir_props) : bytes :=
  lit "UnexpectedDirectoryProperties { filesize: " ++ opt_debug (dp_filesize p)
  ++ lit ", blocksizes: " ++ list_debug (map (numeral 10) (dp_blocksizes p))
  ++ lit ", hash_type: " ++ opt_debug (dp_hash_type p) ++ lit ", fanout: " ++ opt_debug (dp_fanout p)
  ++ lit ", data: " ++ some_debug (option_map (fun d => list_debug (map (fun x => numeral 10 (b2n x)) d)) (dp_data p)) ++ lit " }".
(** ShardError, sharded_lookup.rs 225-241 *)
Definition shard_error_debug (e : shard_error) : bytes :=
  match e with
  | UnsupportedProperties h f => lit "UnsupportedProperties { hash_type: " ++ opt_debug h ++ lit ", fanout: " ++ opt_debug f ++ lit " }"
  | UnexpectedProperties s bs =>
    lit "UnexpectedProperties { filesize: " ++ opt_debug s ++ lit ", blocksizes: " ++ list_debug (map (numeral 10) bs) ++ lit " }"
  end.
(** LookupError, sharded_lookup.rs 267-280 *)
Definition lookup_error_debug (e : lookup_error) : bytes :=
  match e with
  | LMultiple m => lit "Multiple(" ++ multiple_debug F m ++ lit ")"
  | LInvalidCid e => lit "InvalidCid(" ++ invalid_cid_debug F e ++ lit ")"
  | LUnexpectedBucketType t => lit "UnexpectedBucketType(" ++ type_text t ++ lit ")"
  | LShard e => lit "Shard(" ++ shard_error_debug e ++ lit ")"
  | LRead e => lit "Read(" ++ some_debug (option_map (h_protobuf_debug H) e) ++ lit ")"
  end.
(** ResolveError, dir.rs 99-111 *)
Definition resolve_error_debug (e : resolve_error) : bytes :=
  match e with
  | RUnexpectedType t => lit "UnexpectedType(" ++ type_text t ++ lit ")"
  | RUnexpectedDirProperties p => lit "UnexpectedDirProperties(" ++ dir_props_debug p ++ lit ")"
  | RRead e => lit "Read(" ++ h_protobuf_debug H e ++ lit ")"
  | RLookup e => lit "Lookup(" ++ lookup_error_debug e ++ lit ")"
  end.

(** ** main *)

(** cat.rs 15-22, get.rs 14-21, resolve.rs 18-27 *)
Definition usage (what : bytes) (purpose : bytes) : list bytes :=
  [lit "USAGE: " ++ h_arg0 H ++ lit " " ++ what; []; purpose].
(** Display of Error, cat.rs 124-133, get.rs 123-132, resolve.rs 250-259;
    [traversal] is the text of its last case *)
Record wording T := Wording { wo_opening : bytes; wo_other : bytes; wo_traversal : T -> bytes }.
Arguments Wording {T}.
Arguments wo_opening {T}.
Arguments wo_other {T}.
Arguments wo_traversal {T}.
Definition error_text {T} (w : wording T) (e : program_error T) : bytes :=
  match e with
  | OpeningFailed e => wo_opening w ++ h_io H e
  | Other e => wo_other w ++ h_io H e
  | Traversal_ e => wo_traversal w e
  end.
Definition cat_wording : wording read_failed :=
  Wording (lit "File opening failed: ") (lit "Other file related io error: ")
    (fun e => lit "Traversal failed, please report this as a bug: " ++ read_failed_text F e).
Definition get_wording : wording walk_error :=
  Wording (lit "Failed to open file: ") (lit "A file-related IO error: ")
    (fun e => lit "Walk failed, please report this as a bug: " ++ walk_error_text F e).
Definition resolve_wording : wording resolve_error :=
  Wording (lit "File opening failed: ") (lit "Other file related io error: ")
    (fun e => lit "Walking failed, please report this as a bug: " ++ resolve_error_debug e).
(** cat.rs 43-55, get.rs 39-51, resolve.rs 50-62 *)
Definition failure {T} (w : wording T) (e : program_error T) : list bytes :=
  match e with
  | OpeningFailed e =>
    [h_io H e; []; lit "This is likely caused by either:"; lit " - ipfs does not have the block";
     lit " - ipfs is configured to use non-flatfs storage"; lit " - ipfs is configured to use flatfs with different sharding"]
  | e => [lit "Failed to walk the merkle tree: " ++ error_text w e]
  end.
(** [walk] gives the result and the lines written before it, [ok] those after it *)
Definition main_err {E A B T} (what purpose invalid : bytes) (path_error : bytes -> E -> bytes) (parse : bytes -> outcome E A)
    (walk : bytes -> A -> outcome (program_error T) B * list bytes) (ok : B -> list bytes) (w : wording T)
    (arg var : option bytes) : list bytes :=
  match arg with
  | None => usage what purpose
  | Some a =>
    match parse a with
    | Err e => [invalid ++ path_error a e]
    | Ok v =>
      match var with
      | None => [lit "IPFS_PATH is not set or could not be read: " ++ h_var H]
      | Some p =>
        let '(r, lines) := walk (blocks_dir p) v in
        lines ++ match r with Ok b => ok b | Err e => failure w e | _ => [] end
      end
    | _ => []
    end
  end.

(** cat.rs 8-56 *)
Definition cat_err (cid_of_str : bytes -> option cid) (fuel : nat) (fs : disk) (arg var : option bytes) : list bytes :=
  main_err (lit "CID")
    (lit "Will walk the unixfs file pointed out by the CID from default go-ipfs 0.5 configuration flatfs blockstore and write all content to stdout.")
    (lit "Invalid cid given as argument: ") (fun a _ => h_bad_cid H a) (fun a => ok_or (cid_of_str a) PathInvalidCid)
    (fun dir c => (fst (cat_walk X fuel fs dir c), []))
    (fun '(read, content) => [lit "Content bytes: " ++ numeral 10 content; lit "Total bytes:   " ++ numeral 10 read])
    cat_wording arg var.

(** get.rs 7-52 *)
Definition get_err (cid_of_str : bytes -> option cid) (fuel : nat) (fs : disk) (arg var : option bytes) : list bytes :=
  main_err (lit "CID")
    (lit "Will walk the unixfs file pointed out by the CID from default go-ipfs 0.5 configuration flatfs blockstore and write listing to stdout.")
    (lit "Invalid cid given as argument: ") (fun a _ => h_bad_cid H a) (fun a => ok_or (cid_of_str a) PathInvalidCid)
    (fun dir c => (fst (get_walk X fuel fs dir c), []))
    (fun _ => [])
    get_wording arg var.

(** ** resolve.rs *)

(** the eprintln! of walk, resolve.rs 165, 192, 199 and 208.  The counter of
    blocks is an i32: fewer than 2^31 buckets per segment are assumed. *)
Inductive notice :=
| Reading (c : cid) (segment : bytes)
| Walking (c : cid) (segment : bytes)
| Searching (c : cid) (segment : bytes)
| Resolved (segment : bytes) (from : cid) (blocks : nat) (to : cid).
Definition notice_text (n : notice) : bytes :=
  match n with
  | Reading c s => lit "reading " ++ h_cid H c ++ lit " to resolve " ++ str s
  | Walking c s => lit "walking " ++ h_cid H c ++ lit " on " ++ str s
  | Searching c s => lit "  -> reading " ++ h_cid H c ++ lit " while searching for " ++ str s
  | Resolved s from n to =>
    lit "     resolved " ++ s ++ lit " from " ++ h_cid H from ++ lit " after " ++ numeral 10 (N.of_nat n) ++ lit " blocks to " ++ h_cid H to
  end.

(** the loop over the buckets, resolve.rs 194-219; [count] is [other_blocks] *)
Fixpoint buckets_notes (fuel : nat) (fs : disk) (root : bytes) (from : cid) (s : bytes) (count : nat) (v : lookup) (k : option dcache)
    : list notice :=
  match fuel with
  | O => []
  | S fuel =>
    match lk_pending_links v with
    | Ok (first, _) =>
      Searching first s ::
      match @read_block resolve_error fs root first with
      | Ok buf =>
        let '(r, k) := lk_continue_walk X v buf k in
        match r with
        | Ok (Found c) => [Resolved s from count c]
        | Ok (NeedToLoadMore v) => buckets_notes fuel fs root from s (count + 1) v k
        | _ => []
        end
      | _ => []
      end
    | _ => []
    end
  end.
(** walk, resolve.rs 154-223 *)
Fixpoint resolve_notes (fuel : nat) (fs : disk) (root : bytes) (c : cid) (segments : list bytes) (k : option dcache) : list notice :=
  match segments with
  | [] => []
  | s :: rest =>
    Reading c s ::
    match @read_block resolve_error fs root c with
    | Ok buf =>
      let '(r, k) := resolve X buf s k in
      match r with
      | Ok (Found d) => resolve_notes fuel fs root d rest k
      | Ok (NeedToLoadMore v) =>
        Walking c s :: buckets_notes fuel fs root c s 1 v k
        ++ (let '(r, k) := resolve_buckets X fuel fs root v k in
            match r with
            | Ok (Some d) => resolve_notes fuel fs root d rest k
            | _ => []
            end)
      | _ => []
      end
    | _ => []
    end
  end.

(** PathError, resolve.rs 71-78 *)
Definition path_error_text (a : bytes) (e : path_error) : bytes :=
  match e with PathInvalidCid => h_bad_cid H a | InvalidPath => lit "invalid path" end.
(** resolve.rs 8-63 *)
Definition resolve_err (cid_of_str : bytes -> option cid) (fuel : nat) (fs : disk) (arg var : option bytes) : list bytes :=
  main_err (lit "IPFSPATH")
    (lit "Will resolve the given IPFSPATH to a CID through any UnixFS directories or HAMT shards from default go-ipfs 0.5 configuration flatfs blockstore and write the final CID into stdout")
    (lit "Invalid path given as argument: ") path_error_text (path_try_from cid_of_str)
    (fun dir p => (resolve_walk X fuel fs dir (fst p) (snd p) None, map notice_text (resolve_notes fuel fs dir (fst p) (snd p) None)))
    (fun o => match o with Some _ => [] | None => [lit "not found"] end)
    resolve_wording arg var.
End stderr.
