(** * Dir: model of /repo/src/dir.rs, /repo/src/dir/directory.rs and
    /repo/src/dir/sharded_lookup.rs.

    A [VecDeque<Cid>] is modelled by the list of its elements from front to
    back.  The errors of [partition] ([PartitioningError], sharded_lookup.rs
    188-219) are modelled as the [LookupError] they are converted to.
    Functions taking [cache: &mut Option<Cache>] return the cache they leave. *)
From Verif Require Import Base Wire Utf8 Cid Pb Reader.

(** MultipleMatchingLinks, dir.rs 167-184 *)
Inductive multiple :=
| Two (first second : nat * cid)
| OneValid (first : nat * cid) (second : invalid_cid).

(** MultipleMatchingLinks::into_inner, dir.rs 206-212 *)
Definition multiple_into_inner (m : multiple) : cid :=
  match m with Two f _ => snd f | OneValid f _ => snd f end.

(** ShardError, sharded_lookup.rs 222-238 *)
Inductive shard_error :=
| UnsupportedProperties (hash_type fanout : option N)
| UnexpectedProperties (filesize : option N) (blocksizes : list N).

(** LookupError, sharded_lookup.rs 262-274 *)
Inductive lookup_error :=
| LMultiple (m : multiple)
| LInvalidCid (e : invalid_cid)
| LUnexpectedBucketType (t : ftype)
| LShard (e : shard_error)
| LRead (e : option perr).

(** UnexpectedDirectoryProperties, directory.rs 30-41 *)
Record dir_props := DirProps {
  dp_filesize : option N;
  dp_blocksizes : list N;
  dp_hash_type : option N;
  dp_fanout : option N;
  dp_data : option bytes
}.

(** ResolveError, dir.rs 101-112 *)
Inductive resolve_error :=
| RUnexpectedType (t : ftype)
| RUnexpectedDirProperties (p : dir_props)
| RRead (e : perr)
| RLookup (e : lookup_error).

(** LookupError::into_resolve_error, sharded_lookup.rs 276-281 and dir.rs 156-160 *)
Definition into_resolve_error (e : lookup_error) : resolve_error := RLookup e.

(** check_directory_supported, directory.rs 5-27 *)
Definition check_directory_supported (f : flat) : outcome dir_props flat :=
  let u := f_data f in
  if (match u_filesize u with Some _ => true | None => false end)
     || negb (is_nil (u_blocksizes u))
     || (match u_hashtype u with Some _ => true | None => false end)
     || (match u_fanout u with Some _ => true | None => false end)
     || negb (is_nil (opt (u_data u) [] (fun d => d)))
  then Err (DirProps (u_filesize u) (u_blocksizes u) (u_hashtype u) (u_fanout u) (u_data u))
  else Ok f.

Definition is_hamt (t : ftype) : bool := match t with HAMTShard => true | _ => false end.
Definition is_directory (t : ftype) : bool := match t with Directory => true | _ => false end.

(** [o == Some(n)] *)
Definition is_some_n (o : option N) (n : N) : bool := match o with Some m => m =? n | None => false end.

(** ShardedLookup::check_supported, sharded_lookup.rs 135-152; also
    check_hamtshard_supported, dir.rs 16-21 *)
Definition check_supported (f : flat) : outcome shard_error unit :=
  let u := f_data f in
  do _ <- assert (is_hamt (u_type u));
  if negb (is_some_n (u_fanout u) 256) || negb (is_some_n (u_hashtype u) 34)
  then Err (UnsupportedProperties (u_hashtype u) (u_fanout u))
  else if (match u_filesize u with Some _ => true | None => false end) || negb (is_nil (u_blocksizes u))
  then Err (UnexpectedProperties (u_filesize u) (u_blocksizes u))
  else Ok tt.

Section dir.
Context (X : ext).
Let dbg := ext_dbg X.

Definition link_name (l : pblink) : bytes := opt (l_name l) [] (fun n => n).

(** try_convert_cid, dir.rs 77-80 *)
Definition try_convert_cid (nth : nat) (l : pblink) : outcome invalid_cid cid :=
  match ext_cid_decode X (opt (l_hash l) [] (fun h => h)) with
  | Some c => Ok c
  | None => Err (invalid_cid_of nth l)
  end.

(** From<((usize, Cid), (usize, PBLink))> for MultipleMatchingLinks, dir.rs 186-203 *)
Definition multiple_of (first : nat * cid) (j : nat) (second : pblink) : multiple :=
  match ext_cid_decode X (opt (l_hash second) [] (fun h => h)) with
  | Some c => Two first (j, c)
  | None => OneValid first (invalid_cid_of j second)
  end.

(** ShardedLookup, sharded_lookup.rs 29-35 *)
Record lookup := Lookup { lk_links : list cid; lk_needle : bytes }.

(** Cache, sharded_lookup.rs 12-20: the contents of the kept deque; [From]
    clears it *)
Definition dcache : Type := list cid.
Definition dcache_from (_ : list cid) : dcache := [].

(** MaybeResolved, dir.rs 83-93 *)
Inductive maybe_resolved := Found (c : cid) | NeedToLoadMore (l : lookup) | NotFound.

(** ShardedLookup::partition, sharded_lookup.rs 158-186.  Returns what was
    found and the work queue. *)
Fixpoint partition (nth : nat) (links : list pblink) (needle : bytes)
    (found : option (nat * cid)) (work : list cid) : outcome lookup_error (option cid * list cid) :=
  match links with
  | [] => Ok (match found with Some (_, c) => Some c | None => None end, work)
  | l :: rest =>
      let name := link_name l in
      do hit <- (if 2 <? blen name
                 then do s <- str_from name 2; Ok (bytes_eqb s needle)
                 else Ok false);
      if hit then
        match found with
        | Some first => Err (LMultiple (multiple_of first nth l))
        | None =>
            do c <- map_err LInvalidCid (try_convert_cid nth l);
            partition (S nth) rest needle (Some (nth, c)) work
        end
      else if blen name =? 2 then
        do c <- map_err LInvalidCid (try_convert_cid nth l);
        partition (S nth) rest needle found (work ++ [c])
      else partition (S nth) rest needle found work
  end.

(** The common end of lookup_or_start and continue_walk, sharded_lookup.rs
    87-97 and 118-130 *)
Definition conclude (r : outcome lookup_error (option cid * list cid)) (needle : bytes) (k : option dcache)
    : outcome lookup_error maybe_resolved * option dcache :=
  match r with
  | Ok (Some c, links) => (Ok (Found c), Some (dcache_from links))
  | Ok (None, []) => (Ok NotFound, Some (dcache_from []))
  | Ok (None, links) => (Ok (NeedToLoadMore (Lookup links needle)), k)
  | Err e => (Err e, k)
  | Panic => (Panic, k)
  | Diverge => (Diverge, k)
  end.

(** ShardedLookup::lookup_or_start, sharded_lookup.rs 109-131 *)
Definition lookup_or_start (hamt : flat) (needle : bytes) (k : option dcache)
    : outcome lookup_error maybe_resolved * option dcache :=
  match check_supported hamt with
  | Ok _ =>
      let links := opt k [] (fun c => c) in
      conclude (partition 0 (f_links hamt) needle None links) needle None
  | Err e => (Err (LShard e), k)
  | Panic => (Panic, k)
  | Diverge => (Diverge, k)
  end.

(** ShardedLookup::pending_links, sharded_lookup.rs 50-54 *)
Definition lk_pending_links (v : lookup) : outcome lookup_error (cid * list cid) :=
  match lk_links v with
  | [] => Panic
  | c :: rest => Ok (c, rest)
  end.

(** ShardedLookup::continue_walk, sharded_lookup.rs 57-98 *)
Definition lk_continue_walk (v : lookup) (next : bytes) (k : option dcache)
    : outcome lookup_error maybe_resolved * option dcache :=
  match lk_links v with
  | [] => (Panic, k)
  | _ :: links =>
      match try_parse dbg next with
      | Ok hamt =>
          if is_hamt (u_type (f_data hamt)) then
            match check_supported hamt with
            | Ok _ => conclude (partition 0 (f_links hamt) (lk_needle v) None links) (lk_needle v) k
            | Err e => (Err (LShard e), k)
            | Panic => (Panic, k)
            | Diverge => (Diverge, k)
            end
          else (Err (LUnexpectedBucketType (u_type (f_data hamt))), k)
      | Err (InvalidDagPb e) => (Err (LRead (Some e)), Some (dcache_from links))
      | Err (InvalidUnixFs e _) => (Err (LRead (Some e)), Some (dcache_from links))
      | Err (NoData _) => (Err (LRead None), Some (dcache_from links))
      | Panic => (Panic, k)
      | Diverge => (Diverge, k)
      end
  end.

(** ShardedLookup::with_owned_needle, sharded_lookup.rs 102-106 *)
Definition with_owned_needle (v : lookup) : lookup := Lookup (lk_links v) (lk_needle v).

(** the filter_map over the enumerated links, dir.rs 59-64 *)
Fixpoint matching (nth : nat) (links : list pblink) (needle : bytes) : list (nat * pblink) :=
  match links with
  | [] => []
  | l :: rest =>
      if bytes_eqb (link_name l) needle then (nth, l) :: matching (S nth) rest needle
      else matching (S nth) rest needle
  end.

(** the end of resolve on plain links, dir.rs 66-76 *)
Definition resolve_plain (links : list pblink) (needle : bytes) : outcome resolve_error maybe_resolved :=
  match matching 0 links needle with
  | [] => Ok NotFound
  | (i, first) :: more =>
      do c <- map_err (fun e => RLookup (LInvalidCid e)) (try_convert_cid i first);
      match more with
      | (j, second) :: _ => Err (RLookup (LMultiple (multiple_of (i, c) j second)))
      | [] => Ok (Found c)
      end
  end.

(** resolve, dir.rs 36-76 *)
Definition resolve (block needle : bytes) (k : option dcache)
    : outcome resolve_error maybe_resolved * option dcache :=
  match try_parse dbg block with
  | Ok f =>
      match u_type (f_data f) with
      | HAMTShard =>
          let '(r, k') := lookup_or_start f needle k in (map_err RLookup r, k')
      | Directory =>
          match check_directory_supported f with
          | Ok f => (resolve_plain (f_links f) needle, k)
          | Err p => (Err (RUnexpectedDirProperties p), k)
          | Panic => (Panic, k)
          | Diverge => (Diverge, k)
          end
      | t => (Err (RUnexpectedType t), k)
      end
  | Err (InvalidUnixFs _ n) => (resolve_plain (n_links n) needle, k)
  | Err (NoData n) => (resolve_plain (n_links n) needle, k)
  | Err (InvalidDagPb e) => (Err (RRead e), k)
  | Panic => (Panic, k)
  | Diverge => (Diverge, k)
  end.

End dir.
