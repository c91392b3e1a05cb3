(** * SpecDir: directories, sharded directories and lookups in them,
    independently of the proofs. *)
From Verif Require Import Base Wire Utf8 Cid Pb Reader Dir SpecFile.

Section spec.
Context (X : ext).

(** ** Plain directories *)

(** a Directory message with nothing but its type (and metadata) *)
Definition supported_dir (u : unixfs) : Prop :=
  u_type u = Directory /\ u_filesize u = None /\ u_blocksizes u = [] /\ u_hashtype u = None
  /\ u_fanout u = None /\ (u_data u = None \/ u_data u = Some []).
(** a HAMTShard message with fanout 256, hash type 34 (murmur3) and no file fields *)
Definition supported_shard (u : unixfs) : Prop :=
  u_type u = HAMTShard /\ u_fanout u = Some 256 /\ u_hashtype u = Some 34
  /\ u_filesize u = None /\ u_blocksizes u = [].

(** [lists block links]: the block is a supported UnixFS directory or a dag-pb
    node without readable UnixFS data, and [links] are its links *)
Inductive lists (block : bytes) : list pblink -> Prop :=
| lists_dir : forall f,
    try_parse (ext_dbg X) block = Ok f -> supported_dir (f_data f) -> lists block (f_links f)
| lists_nodata : forall n,
    try_parse (ext_dbg X) block = Err (NoData n) -> lists block (n_links n)
| lists_other : forall e n,
    try_parse (ext_dbg X) block = Err (InvalidUnixFs e n) -> lists block (n_links n).

(** the name of a link; a link without a Name field is called "" *)
Definition name_of (l : pblink) : bytes := match l_name l with Some n => n | None => [] end.

(** the links with a given name, in order *)
Definition named (links : list pblink) (n : bytes) : list pblink :=
  filter (fun l => bytes_eqb (name_of l) n) links.

(** the third byte of the name is not the first byte of a character *)
Definition splits_char (l : pblink) : Prop :=
  exists a b x rest, name_of l = a :: b :: x :: rest /\ 0x80 <= b2n x <= 0xbf.
(** the name starts with two ASCII characters, as the names of shards do *)
Definition ascii_prefix (l : pblink) : Prop :=
  exists a b rest, name_of l = a :: b :: rest /\ b2n a < 0x80 /\ b2n b < 0x80.

(** ** Lookups *)

Definition final (r : maybe_resolved) : Prop := match r with NeedToLoadMore _ => False | _ => True end.
Definition finished {E} (r : outcome E maybe_resolved) : Prop :=
  match r with Ok r => final r | _ => True end.
(** the caches that exist: none, or one left behind by an earlier operation,
    which is always empty (C24_resolve_cache) *)
Definition clean (k : option dcache) : Prop := k = None \/ k = Some [].

(** [continues_lookup get v asked r]: answering the first pending link from the
    store until [continue_walk] returns something else than NeedToLoadMore,
    [asked] were the links asked for and [r] is the last result.  The caches
    are arbitrary. *)
Inductive continues_lookup (get : cid -> option bytes)
  : lookup -> list cid -> outcome lookup_error maybe_resolved -> Prop :=
| look_last : forall v c others b k k' r,
    lk_pending_links v = Ok (c, others) -> get c = Some b ->
    lk_continue_walk X v b k = (r, k') -> finished r ->
    continues_lookup get v [c] r
| look_more : forall v c others b k k' v' asked r,
    lk_pending_links v = Ok (c, others) -> get c = Some b ->
    lk_continue_walk X v b k = (Ok (NeedToLoadMore v'), k') ->
    continues_lookup get v' asked r ->
    continues_lookup get v (c :: asked) r.

(** the same from the first call of [resolve] on the block of the directory *)
Inductive looks_up (get : cid -> option bytes) (block needle : bytes)
  : list cid -> outcome resolve_error maybe_resolved -> Prop :=
| looks_once : forall k k' r,
    clean k -> resolve X block needle k = (r, k') -> finished r ->
    looks_up get block needle [] r
| looks_more : forall k k' v asked r,
    clean k -> resolve X block needle k = (Ok (NeedToLoadMore v), k') ->
    continues_lookup get v asked r ->
    looks_up get block needle asked (map_err into_resolve_error r).

(** ** Sharded directories *)

(** What the links of a shard mean: an entry (name and Cid) or another bucket *)
Inductive item := Entry (name : bytes) (c : cid) | Bucket (c : cid) (its : list item).
Notation shard := (list item).

(** [shard_links get links its]: links with a name of two bytes lead to a block
    in the store which is a supported shard again; all others are entries,
    whose name follows a prefix of two bytes *)
Inductive shard_links (get : cid -> option bytes) : list pblink -> shard -> Prop :=
| shard_nil : shard_links get [] []
| shard_entry : forall l prefix name c ls its,
    name_of l = prefix ++ name -> length prefix = 2%nat ->
    name <> [] -> utf8_valid name = true -> link_cid X l = Some c ->
    shard_links get ls its ->
    shard_links get (l :: ls) (Entry name c :: its)
| shard_bucket : forall l c b f sub ls its,
    length (name_of l) = 2%nat -> link_cid X l = Some c ->
    get c = Some b -> try_parse (ext_dbg X) b = Ok f -> supported_shard (f_data f) ->
    shard_links get (f_links f) sub ->
    shard_links get ls its ->
    shard_links get (l :: ls) (Bucket c sub :: its).

(** the block is the root of the sharded directory [its] over the store *)
Definition sharded (get : cid -> option bytes) (block : bytes) (its : shard) : Prop :=
  exists f, try_parse (ext_dbg X) block = Ok f /\ supported_shard (f_data f)
            /\ shard_links get (f_links f) its.

(** the entries of one shard, and its buckets, in order *)
Definition own_entries (its : shard) : list (bytes * cid) :=
  flat_map (fun i => match i with Entry n c => [(n, c)] | Bucket _ _ => [] end) its.
Definition own_buckets (its : shard) : list (cid * shard) :=
  flat_map (fun i => match i with Entry _ _ => [] | Bucket c s => [(c, s)] end) its.

(** all entries below an item *)
Fixpoint entries_of (i : item) : list (bytes * cid) :=
  match i with Entry n c => [(n, c)] | Bucket _ s => flat_map entries_of s end.
Definition entries (its : shard) : list (bytes * cid) := flat_map entries_of its.

(** the number of buckets below *)
Fixpoint buckets_of (i : item) : nat :=
  match i with Entry _ _ => 0 | Bucket _ s => S (list_sum (map buckets_of s)) end.
Definition bucket_count (its : shard) : nat := list_sum (map buckets_of its).

(** the buckets at depth [d], from left to right; breadth first order *)
Fixpoint level (d : nat) (its : shard) : list (cid * shard) :=
  match d with
  | O => own_buckets its
  | S d => flat_map (fun b => own_buckets (snd b)) (level d its)
  end.
Fixpoint height_of (i : item) : nat :=
  match i with Entry _ _ => 0 | Bucket _ s => S (list_max (map height_of s)) end.
Definition height (its : shard) : nat := list_max (map height_of its).
Definition breadth_first (its : shard) : list (cid * shard) :=
  concat (map (fun d => level d its) (seq 0 (height its))).

(** the entries of one shard with a given name *)
Definition hits (needle : bytes) (its : shard) : list cid :=
  map snd (filter (fun e => bytes_eqb (fst e) needle) (own_entries its)).

(** exactly one entry has the name, and it is [c] *)
Definition only_entry (es : list (bytes * cid)) (name : bytes) (c : cid) : Prop :=
  exists pre post, es = pre ++ (name, c) :: post
    /\ ~ In name (map fst pre) /\ ~ In name (map fst post).

End spec.
Notation shard := (list item).
