(** * SpecWalkSteps: what each call of a walk answers to any block at all.
    Of Walk.v and Dir.v only the types of errors and of results are used; file
    blocks are answered as in SpecFileSteps.v, without a target range. *)
From Verif Require Import Base Wire Cid Pb Reader Dir Walk SpecFile SpecDir SpecWalk SpecFileSteps.

Section steps.
Context (X : ext).

(** ** Places *)

(** a link to visit is the root of the walk, an entry of a directory, or a further
    bucket of a sharded directory; a directory is given by the names on the way
    to it *)
Inductive place :=
| AtRoot (name : bytes)
| Entry (dir : list bytes) (name : bytes)
| Bucket (dir : list bytes).

Definition names (p : place) : list bytes :=
  match p with
  | AtRoot [] => []
  | AtRoot name => [name]
  | Entry dir name => dir ++ [name]
  | Bucket dir => dir
  end.
(** the path in writing *)
Fixpoint slashed (l : list bytes) : bytes :=
  match l with
  | [] => []
  | [n] => n
  | n :: r => n ++ x2f :: slashed r
  end.
Definition path_of (p : place) : bytes := slashed (names p).

(** ** States *)

(** what came before: nothing; a plain directory; the root of the walk, which is
    sharded and has this Cid, and buckets; anything else *)
Inductive prior := Nothing | PlainDirectory | RootShard (c : cid) | Other.

(** a file of which blocks are missing: its Cid, place, metadata and size, the
    links to visit and the verdict on its last block *)
Record reading := Reading {
  r_cid : cid;
  r_place : place;
  r_metadata : metadata;
  r_size : N;
  r_links : list (cid * (N * N));
  r_prev : before
}.

Record state := State {
  s_prior : prior;
  s_file : option reading;
  s_queue : list (cid * place)
}.

(** the Cids of the blocks to come, as far as known *)
Definition awaited (s : state) : list cid :=
  match s_file s with Some r => map fst (r_links r) | None => [] end ++ map fst (s_queue s).

Definition beginning (root : cid) (name : bytes) : state := State Nothing None [(root, AtRoot name)].

(** ** Links *)

(** the link number [i] of the plain directory at [dir] *)
Inductive link_in_dir (dir : list bytes) (i : nat) (l : pblink) : outcome walk_error (cid * place) -> Prop :=
| d_invalid : link_cid X l = None ->
    link_in_dir dir i l (Err (EInvalidCid (InvalidCidInLink i (match l_hash l with Some h => h | None => [] end) (name_of l))))
| d_named : forall c, link_cid X l = Some c -> name_of l <> [] -> ~ In x2f (name_of l) ->
    link_in_dir dir i l (Ok (c, Entry dir (name_of l)))
| d_panic : forall c, link_cid X l = Some c -> name_of l = [] \/ In x2f (name_of l) -> link_in_dir dir i l Panic.

(** the link number [i] of a bucket of the sharded directory at [dir] *)
Inductive link_in_shard (dir : list bytes) (i : nat) (l : pblink) : outcome walk_error (cid * place) -> Prop :=
| h_invalid : link_cid X l = None ->
    link_in_shard dir i l (Err (EInvalidCid (InvalidCidInLink i (match l_hash l with Some h => h | None => [] end) (name_of l))))
| h_named : forall c a b name, link_cid X l = Some c -> name_of l = a :: b :: name -> name <> [] ->
    ~ splits_char l -> ~ In x2f name -> link_in_shard dir i l (Ok (c, Entry dir name))
| h_bucket : forall c a b, link_cid X l = Some c -> name_of l = [a; b] -> link_in_shard dir i l (Ok (c, Bucket dir))
| h_short : forall c, link_cid X l = Some c -> (length (name_of l) < 2)%nat -> link_in_shard dir i l Panic
| h_panic : forall c a b name, link_cid X l = Some c -> name_of l = a :: b :: name ->
    splits_char l \/ In x2f name -> link_in_shard dir i l Panic.

(** all links, the first one having number [i]: the last bad one counts *)
Inductive links_in (one : nat -> pblink -> outcome walk_error (cid * place) -> Prop)
  : nat -> list pblink -> outcome walk_error (list (cid * place)) -> Prop :=
| l_none : forall i, links_in one i [] (Ok [])
| l_good : forall i l ls e es, links_in one (S i) ls (Ok es) -> one i l (Ok e) -> links_in one i (l :: ls) (Ok (e :: es))
| l_error : forall i l ls es e, links_in one (S i) ls (Ok es) -> one i l (Err e) -> links_in one i (l :: ls) (Err e)
| l_panic : forall i l ls es, links_in one (S i) ls (Ok es) -> one i l Panic -> links_in one i (l :: ls) Panic
| l_later : forall i l ls r, links_in one (S i) ls r -> (forall es, r <> Ok es) -> links_in one i (l :: ls) r.

(** ** Blocks *)

(** a link to a further bucket leads to a bucket, and entries are not called "."
    (except directly below a root without a name) *)
Definition fits (p : place) (t : ftype) : Prop :=
  match p with
  | AtRoot _ => True
  | Entry dir name => dir = [] \/ name <> [x2e]
  | Bucket _ => t = HAMTShard
  end.
Definition is_root (p : place) : Prop := exists name, p = AtRoot name.

(** the errors of file blocks *)
Definition told (e : read_failed) : outcome walk_error (continued * state) :=
  match e with
  | FileErr e => Err (EFile e)
  | UnexpectedType t => Err (EUnexpectedType t)
  | ReadErr _ => Panic (* for every block after the first one *)
  | InvalidCid e => Err (EInvalidCid e)
  end.

(** what remains of a file *)
Definition remains (r : reading) : option reading := match r_links r with [] => None | _ => Some r end.
Definition ends (r : reading) : bool := match r_links r with [] => true | _ => false end.

(** the block of [c], parsed, at its place; [queue] are the further links.  A
    block that does not fit its place makes the program end if assertions are
    checked; nothing is said about it otherwise. *)
Inductive enters (before : prior) (queue : list (cid * place)) (c : cid) (p : place) (f : flat)
  : outcome walk_error (continued * state) -> Prop :=
| e_misfit : forall es, ~ fits p (u_type (f_data f)) -> ext_dbg X = true ->
    match u_type (f_data f) with
    | Directory => supported_dir (f_data f) /\ links_in (link_in_dir (names p)) 0 (f_links f) (Ok es)
    | HAMTShard => supported_shard (f_data f) /\ links_in (link_in_shard (names p)) 0 (f_links f) (Ok es)
    | File | Raw => exists out links prev, opened X None (0, blen (own_data f)) [] f (Ok (out, links, prev))
    | Symlink => True
    | Metadata => False
    end ->
    enters before queue c p f Panic
(** plain directories *)
| e_dir_props : u_type (f_data f) = Directory -> ~ supported_dir (f_data f) ->
    enters before queue c p f
      (Err (EDirectory (DirProps (u_filesize (f_data f)) (u_blocksizes (f_data f)) (u_hashtype (f_data f)) (u_fanout (f_data f)) (u_data (f_data f)))))
| e_dir_link : forall e, supported_dir (f_data f) -> links_in (link_in_dir (names p)) 0 (f_links f) (Err e) ->
    enters before queue c p f (Err e)
| e_dir_panic : supported_dir (f_data f) -> links_in (link_in_dir (names p)) 0 (f_links f) Panic ->
    enters before queue c p f Panic
| e_root_dir : forall es, supported_dir (f_data f) -> links_in (link_in_dir (names p)) 0 (f_links f) (Ok es) -> is_root p ->
    enters before queue c p f
      (Ok (WRootDirectory c (path_of p) (says (f_data f)), State PlainDirectory None (es ++ queue)))
| e_dir : forall es, supported_dir (f_data f) -> links_in (link_in_dir (names p)) 0 (f_links f) (Ok es) -> ~ is_root p ->
    fits p Directory ->
    enters before queue c p f
      (Ok (WDirectory c (path_of p) (says (f_data f)), State PlainDirectory None (es ++ queue)))
(** sharded directories *)
| e_shard_unsupported : u_type (f_data f) = HAMTShard -> ~ (u_fanout (f_data f) = Some 256 /\ u_hashtype (f_data f) = Some 34) ->
    enters before queue c p f (Err (EShard (UnsupportedProperties (u_hashtype (f_data f)) (u_fanout (f_data f)))))
| e_shard_props : u_type (f_data f) = HAMTShard -> u_fanout (f_data f) = Some 256 -> u_hashtype (f_data f) = Some 34 ->
    ~ supported_shard (f_data f) ->
    enters before queue c p f (Err (EShard (UnexpectedProperties (u_filesize (f_data f)) (u_blocksizes (f_data f)))))
| e_shard_link : forall e, supported_shard (f_data f) -> links_in (link_in_shard (names p)) 0 (f_links f) (Err e) ->
    enters before queue c p f (Err e)
| e_shard_panic : supported_shard (f_data f) -> links_in (link_in_shard (names p)) 0 (f_links f) Panic ->
    enters before queue c p f Panic
| e_root_shard : forall es, supported_shard (f_data f) -> links_in (link_in_shard (names p)) 0 (f_links f) (Ok es) -> is_root p ->
    enters before queue c p f
      (Ok (WRootDirectory c (path_of p) (says (f_data f)), State (RootShard c) None (es ++ queue)))
| e_shard : forall es dir name, supported_shard (f_data f) -> links_in (link_in_shard (names p)) 0 (f_links f) (Ok es) ->
    p = Entry dir name -> fits p HAMTShard ->
    enters before queue c p f
      (Ok (WRootDirectory c (path_of p) (says (f_data f)), State Other None (es ++ queue)))
(** further buckets; C39 and C42 tell about the strange cases *)
| e_bucket_after_dir : forall es dir, supported_shard (f_data f) -> links_in (link_in_shard (names p)) 0 (f_links f) (Ok es) ->
    p = Bucket dir -> before = PlainDirectory -> enters before queue c p f Panic
| e_bucket_of_root : forall es dir root, supported_shard (f_data f) -> links_in (link_in_shard (names p)) 0 (f_links f) (Ok es) ->
    p = Bucket dir -> before = RootShard root ->
    enters before queue c p f (Ok (WBucket root (path_of p), State (RootShard root) None (es ++ queue)))
| e_bucket : forall es dir, supported_shard (f_data f) -> links_in (link_in_shard (names p)) 0 (f_links f) (Ok es) ->
    p = Bucket dir -> before = Other ->
    enters before queue c p f (Ok (WBucket c (path_of p), State Other None (es ++ queue)))
(** files *)
| e_file_error : forall e, is_file (f_data f) -> opened X None (0, blen (own_data f)) [] f (Err e) ->
    enters before queue c p f (told e)
| e_file_panic : is_file (f_data f) -> opened X None (0, blen (own_data f)) [] f Panic ->
    enters before queue c p f Panic
| e_file : forall out links prev size, is_file (f_data f) -> opened X None (0, blen (own_data f)) [] f (Ok (out, links, prev)) ->
    fits p (u_type (f_data f)) -> u_filesize (f_data f) = Some size ->
    enters before queue c p f
      (Ok (WFile (FileSegment out true (ends (Reading c p (says (f_data f)) size links prev))) c (path_of p) (says (f_data f)) size,
           State Other (remains (Reading c p (says (f_data f)) size links prev)) queue))
(** symlinks and the rest *)
| e_symlink : u_type (f_data f) = Symlink -> fits p Symlink ->
    enters before queue c p f (Ok (WSymlink (own_data f) c (path_of p) (says (f_data f)), State Other None queue))
| e_metadata : u_type (f_data f) = Metadata -> enters before queue c p f (Err (EUnsupportedType Metadata)).

(** the error for a block that cannot be parsed *)
Definition unparsable (e : parse_failed) : walk_error :=
  match e with
  | InvalidDagPb e => EDagPb e
  | InvalidUnixFs e _ => EUnixFs e
  | NoData _ => EEmptyDagPbNode
  end.

(** ** Calls *)

Inductive step : state -> bytes -> outcome walk_error (continued * state) -> Prop :=
(** a further block of a file *)
| s_file_error : forall before r queue b c rg rest e, r_links r = (c, rg) :: rest ->
    next_step X None (r_prev r) rg rest b (Err e) -> step (State before (Some r) queue) b (told e)
| s_file_panic : forall before r queue b c rg rest, r_links r = (c, rg) :: rest ->
    next_step X None (r_prev r) rg rest b Panic -> step (State before (Some r) queue) b Panic
| s_file_diverge : forall before r queue b c rg rest, r_links r = (c, rg) :: rest ->
    next_step X None (r_prev r) rg rest b Diverge -> step (State before (Some r) queue) b Diverge
| s_file_more : forall before r queue b c rg rest out links prev, r_links r = (c, rg) :: rest ->
    next_step X None (r_prev r) rg rest b (Ok (out, links, prev)) ->
    let r' := Reading (r_cid r) (r_place r) (r_metadata r) (r_size r) links prev in
    step (State before (Some r) queue) b
      (Ok (WFile (FileSegment out false (ends r')) (r_cid r) (path_of (r_place r)) (r_metadata r) (r_size r),
           State before (remains r') queue))
(** a block of anything else, or the first one of a file *)
| s_unparsable : forall before queue b e, try_parse (ext_dbg X) b = Err e ->
    step (State before None queue) b (Err (unparsable e))
| s_panic : forall before queue b, try_parse (ext_dbg X) b = Panic -> step (State before None queue) b Panic
| s_diverge : forall before queue b, try_parse (ext_dbg X) b = Diverge -> step (State before None queue) b Diverge
| s_enters : forall before queue c p b f r, try_parse (ext_dbg X) b = Ok f -> enters before queue c p f r ->
    step (State before None ((c, p) :: queue)) b r.

(** the block does not fit its place *)
Definition misfit (s : state) (b : bytes) : Prop :=
  exists before c p queue f, s = State before None ((c, p) :: queue) /\ try_parse (ext_dbg X) b = Ok f
  /\ ~ fits p (u_type (f_data f)).

(** [follows root name bs asked items s]: the blocks [bs] were accepted one after
    the other, each being the first one awaited, these items were returned, and
    this is the state now *)
Inductive follows (root : cid) (name : bytes) : list bytes -> list cid -> list continued -> state -> Prop :=
| fol_begin : follows root name [] [] [] (beginning root name)
| fol_next : forall bs asked items s c others b it s', follows root name bs asked items s ->
    awaited s = c :: others -> step s b (Ok (it, s')) ->
    follows root name (bs ++ [b]) (asked ++ [c]) (items ++ [it]) s'.

End steps.
