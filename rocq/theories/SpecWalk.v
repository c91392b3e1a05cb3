(** * SpecWalk: trees of directories, files and symlinks in a block store, and
    what a walk over them is meant to report, independently of the proofs.
    From Walk.v only the calls [walker_new], [should_continue],
    [w_pending_links], [walk_next] and the type of their results are used. *)
From Verif Require Import Base Wire SpecText Cid Pb Reader Visit Dir Walk SpecFile SpecDir.

(** ** Trees *)

(** the metadata a message carries *)
Definition says (u : unixfs) : metadata :=
  MData (u_mode u)
        (match u_mtime u with
         | Some (UnixTime s (Some n)) => Some (s, n)
         | Some (UnixTime s None) => Some (s, 0)
         | None => None
         end).

(** a tree; the items of a sharded directory are entries and further buckets *)
Inductive fsnode :=
| FsFile (md : metadata) (content : bytes)
| FsSymlink (md : metadata) (target : bytes)
| FsDir (md : metadata) (entries : list (bytes * cid * fsnode))
| FsShard (md : metadata) (items : list shard_item)
with shard_item :=
| ShEntry (name : bytes) (c : cid) (n : fsnode)
| ShBucket (c : cid) (items : list shard_item).

(** names that can be parts of a path: not empty, not ".", and no slash *)
Definition plain_name (n : bytes) : Prop := n <> [] /\ n <> [x2e] /\ ~ In x2f n.
(** the same, but "." is fine *)
Definition loose_name (n : bytes) : Prop := n <> [] /\ ~ In x2f n.
(** the names that make up a path: the first one may be "." ("./a/b") *)
Definition path_names (names : list bytes) : Prop :=
  match names with [] => True | n :: rest => loose_name n /\ Forall plain_name rest end.

Section stored.
Context (X : ext).

(** [stored get c n]: the block of [c] is the root of the tree [n], all in the
    block store [get] *)
Inductive stored (get : cid -> option bytes) : cid -> fsnode -> Prop :=
| stored_file : forall c b f content,
    get c = Some b -> try_parse (ext_dbg X) b = Ok f -> file_dag X get f content -> blen content < two64 ->
    stored get c (FsFile (says (f_data f)) content)
| stored_symlink : forall c b f,
    get c = Some b -> try_parse (ext_dbg X) b = Ok f -> u_type (f_data f) = Symlink ->
    stored get c (FsSymlink (says (f_data f)) (own_data f))
| stored_dir : forall c b f es,
    get c = Some b -> try_parse (ext_dbg X) b = Ok f -> supported_dir (f_data f) ->
    stored_entries get (f_links f) es ->
    stored get c (FsDir (says (f_data f)) es)
| stored_shard : forall c b f its,
    get c = Some b -> try_parse (ext_dbg X) b = Ok f -> supported_shard (f_data f) ->
    stored_items get (f_links f) its ->
    stored get c (FsShard (says (f_data f)) its)
(** the links of a directory *)
with stored_entries (get : cid -> option bytes) : list pblink -> list (bytes * cid * fsnode) -> Prop :=
| entries_nil : stored_entries get [] []
| entries_cons : forall l name c n ls es,
    l_name l = Some name -> loose_name name -> link_cid X l = Some c -> stored get c n ->
    stored_entries get ls es ->
    stored_entries get (l :: ls) ((name, c, n) :: es)
(** the links of a shard: a name of two bytes means another bucket *)
with stored_items (get : cid -> option bytes) : list pblink -> list shard_item -> Prop :=
| items_nil : stored_items get [] []
| items_entry : forall l prefix name c n ls its,
    l_name l = Some (prefix ++ name) -> length prefix = 2%nat ->
    loose_name name -> text name -> link_cid X l = Some c -> stored get c n ->
    stored_items get ls its ->
    stored_items get (l :: ls) (ShEntry name c n :: its)
| items_bucket : forall l prefix c b f sub ls its,
    l_name l = Some prefix -> length prefix = 2%nat -> link_cid X l = Some c ->
    get c = Some b -> try_parse (ext_dbg X) b = Ok f -> supported_shard (f_data f) ->
    stored_items get (f_links f) sub ->
    stored_items get ls its ->
    stored_items get (l :: ls) (ShBucket c sub :: its).

(** ** What there is to see *)

(** Directories at the root of the walk and sharded ones are both reported as
    [RootDirectory] *)
Inductive seen :=
| SeenRootDirectory (c : cid) (path : bytes) (md : metadata)
| SeenDirectory (c : cid) (path : bytes) (md : metadata)
| SeenFile (c : cid) (path : bytes) (md : metadata) (content : bytes)
| SeenSymlink (c : cid) (path : bytes) (md : metadata) (target : bytes)
| SeenBucket (c : cid) (path : bytes).

(** the path of an entry of the directory at [p] *)
Definition child (p name : bytes) : bytes := match p with [] => name | _ => p ++ x2f :: name end.

(** pre-order *)
Fixpoint sights (root : bool) (path : bytes) (c : cid) (n : fsnode) : list seen :=
  match n with
  | FsFile md content => [SeenFile c path md content]
  | FsSymlink md target => [SeenSymlink c path md target]
  | FsDir md es =>
    (if root then SeenRootDirectory c path md else SeenDirectory c path md)
    :: flat_map (fun e => sights false (child path (fst (fst e))) (snd (fst e)) (snd e)) es
  | FsShard md its => SeenRootDirectory c path md :: flat_map (item_sights path) its
  end
with item_sights (path : bytes) (it : shard_item) : list seen :=
  match it with
  | ShEntry name c n => sights false (child path name) c n
  | ShBucket c its => SeenBucket c path :: flat_map (item_sights path) its
  end.

(** a path with a "." in it, not at its front: something like a/. or a/./b *)
Definition dotted (p : bytes) : Prop :=
  exists a b, p = a ++ x2f :: x2e :: b /\ (b = [] \/ exists b', b = x2f :: b').
Definition path_seen (e : seen) : bytes :=
  match e with
  | SeenRootDirectory _ p _ | SeenDirectory _ p _ | SeenFile _ p _ _ | SeenSymlink _ p _ _ | SeenBucket _ p => p
  end.
Definition path_told (it : continued) : bytes :=
  match it with
  | WBucket _ p | WDirectory _ p _ | WFile _ _ p _ _ | WRootDirectory _ p _ | WSymlink _ _ p _ => p
  end.
Definition no_dots (evs : list seen) : Prop := forall e, In e evs -> ~ dotted (path_seen e).
Definition no_dots_told (items : list continued) : Prop := forall it, In it items -> ~ dotted (path_told it).

(** no plain directory other than the root comes directly before a bucket, and
    no path has a "." in it *)
Definition walkable (evs : list seen) : Prop :=
  (forall pre c p md c' p' post, evs <> pre ++ SeenDirectory c p md :: SeenBucket c' p' :: post) /\ no_dots evs.

(** ** Reports *)

(** a file is reported block by block: at least one segment, the first and the
    last one marked, the bytes making up the content *)
Definition file_segments (c : cid) (path : bytes) (md : metadata) (content : bytes) (items : list continued) : Prop :=
  exists pieces, pieces <> [] /\ concat pieces = content /\ length items = length pieces
    /\ forall i piece, nth_error pieces i = Some piece ->
       exists s, nth_error items i = Some (WFile s c path md (blen content))
         /\ as_bytes s = piece
         /\ (is_first s = true <-> i = 0%nat)
         /\ (is_last s = true <-> S i = length pieces).

Inductive reported : seen -> list continued -> Prop :=
| rep_root : forall c p md, reported (SeenRootDirectory c p md) [WRootDirectory c p md]
| rep_dir : forall c p md, reported (SeenDirectory c p md) [WDirectory c p md]
| rep_file : forall c p md content items, file_segments c p md content items ->
    reported (SeenFile c p md content) items
| rep_symlink : forall c p md target, reported (SeenSymlink c p md target) [WSymlink target c p md]
| rep_bucket : forall c p, reported (SeenBucket c p) [WBucket c p].
(** the same, but for the Cid of a bucket *)
Inductive reported_but : seen -> list continued -> Prop :=
| but_same : forall e items, reported e items -> reported_but e items
| but_bucket : forall c c' p, reported_but (SeenBucket c p) [WBucket c' p].
(** a list of them, one after the other *)
Inductive all (P : seen -> list continued -> Prop) : list seen -> list continued -> Prop :=
| all_nil : all P [] []
| all_cons : forall e items evs items', P e items -> all P evs items' -> all P (e :: evs) (items ++ items').

(** what happens to the Cids of the buckets which directly follow the root: all
    get the one of the root *)
Fixpoint relabel (c : cid) (evs : list seen) : list seen :=
  match evs with
  | SeenBucket _ p :: rest => SeenBucket c p :: relabel c rest
  | _ => evs
  end.
Definition as_told (evs : list seen) : list seen :=
  match evs with
  | SeenRootDirectory c p md :: rest => SeenRootDirectory c p md :: relabel c rest
  | _ => evs
  end.

(** the walk does not get over this, [items] having been reported: a bucket right
    after a plain directory, or, with debug assertions, a path with a "." in it *)
Definition stuck (items : list continued) (it : continued) : Prop :=
  (exists pre c p md c' p', items = pre ++ [WDirectory c p md] /\ it = WBucket c' p')
  \/ ext_dbg X = true /\ dotted (path_told it).

(** ** Walks *)

(** the caches that exist: none, or one left by an earlier operation, which is
    always empty (C24_walk_cache) *)
Definition clean_cache (k : option cache) : Prop := k = None \/ k = Some [].

(** [walks gives w bs asked items w']: calling [next] with the blocks [bs], each
    time [should_continue] was true, returned the [items] and led from [w] to
    [w'].  [asked] were the first pending links before each call; [gives c b]
    says that [b] may be passed when [c] is asked for. *)
Inductive walks (gives : cid -> bytes -> Prop)
  : walker -> list bytes -> list cid -> list continued -> walker -> Prop :=
| walks_here : forall w, walks gives w [] [] [] w
| walks_next : forall w c others b k k' it w1 bs asked items w2,
    should_continue w = true -> w_pending_links w = Ok (c, others) -> gives c b ->
    clean_cache k -> walk_next X w b k = (Ok it, w1, k') ->
    walks gives w1 bs asked items w2 ->
    walks gives w (b :: bs) (c :: asked) (it :: items) w2.

(** a walk over the store from its start *)
Definition walk_from (get : cid -> option bytes) (root : cid) (name : bytes)
    (items : list continued) (w : walker) : Prop :=
  exists bs asked, walks (store get) (walker_new root name) bs asked items w.

(** [evs] being what there is to see from [root] on, the walks are as follows:
    [items0] reports all of [evs] ([as_told]).  What a walk has returned so far is
    a beginning of [items0], and the next call returns the next item, or panics if
    that is one the walk is stuck on.  Without debug assertions this holds up to
    and including the first path with a "." in it. *)
Definition walked (get : cid -> option bytes) (root : cid) (name : bytes) (evs : list seen) : Prop :=
  exists items0, all reported (as_told evs) items0
  /\ (forall items w, walk_from get root name items w ->
     ext_dbg X = true \/ no_dots_told items \/ no_dots evs ->
     exists rest, items0 = items ++ rest /\ no_dots_told items
     /\ (should_continue w = true <-> rest <> [])
     /\ forall it rest', rest = it :: rest' ->
        exists c others b, w_pending_links w = Ok (c, others) /\ get c = Some b
        /\ forall k, clean_cache k ->
           (~ stuck items it -> exists w' k', walk_next X w b k = (Ok it, w', k'))
           /\ (stuck items it -> fst (fst (walk_next X w b k)) = Panic))
  /\ (forall items rest, items0 = items ++ rest ->
      (forall pre it post, items = pre ++ it :: post -> ~ stuck pre it /\ (dotted (path_told it) -> post = [])) ->
      exists w, walk_from get root name items w).
(** [evs] is reported to the end, and every walk is a part of that *)
Definition walked_through (get : cid -> option bytes) (root : cid) (name : bytes) (evs : list seen) : Prop :=
  exists items0, all reported_but evs items0
  /\ (exists w, walk_from get root name items0 w /\ should_continue w = false)
  /\ forall items w, walk_from get root name items w ->
     exists rest, items0 = items ++ rest
     /\ (should_continue w = true <-> rest <> [])
     /\ forall it rest', rest = it :: rest' ->
        exists c others b, w_pending_links w = Ok (c, others) /\ get c = Some b
        /\ forall k, clean_cache k -> exists w' k', walk_next X w b k = (Ok it, w', k').

(** ** Stores a walk does not panic on *)

(** the links of directories are plain names *)
Definition orderly_dir (f : flat) : Prop :=
  forall l, In l (f_links f) -> exists name, l_name l = Some name /\ plain_name name.
(** the links of shards are two bytes and a plain name, or just two bytes, in
    which case they lead to a shard (if to any UnixFS block) *)
Definition orderly_shard (get : cid -> option bytes) (f : flat) : Prop :=
  forall l, In l (f_links f) -> exists prefix name, l_name l = Some (prefix ++ name) /\ length prefix = 2%nat
    /\ text name
    /\ (plain_name name
        \/ name = [] /\ forall c b g, link_cid X l = Some c -> get c = Some b -> try_parse (ext_dbg X) b = Ok g ->
                        u_type (f_data g) = HAMTShard).
(** file blocks tell their size and are linked to UnixFS blocks; if overflow is
    checked, the sizes of the parts do not exceed the size of the whole *)
Definition orderly_file (get : cid -> option bytes) (f : flat) : Prop :=
  (exists size, u_filesize (f_data f) = Some size
     /\ (ext_dbg X = true -> sumN (u_blocksizes (f_data f)) <= size))
  /\ forall i l c b, nth_error (f_links f) i = Some l -> link_cid X l = Some c -> get c = Some b ->
     exists g, try_parse (ext_dbg X) b = Ok g
       /\ (ext_dbg X = true -> forall z size, nth_error (u_blocksizes (f_data f)) i = Some z ->
           u_filesize (f_data g) = Some size -> size <= z).
Definition orderly (get : cid -> option bytes) : Prop :=
  forall c b, get c = Some b ->
  try_parse (ext_dbg X) b <> Panic /\ try_parse (ext_dbg X) b <> Diverge
  /\ forall f, try_parse (ext_dbg X) b = Ok f ->
     match u_type (f_data f) with
     | Directory => orderly_dir f
     | HAMTShard => orderly_shard get f
     | File | Raw => orderly_file get f
     | _ => True
     end.

End stored.
