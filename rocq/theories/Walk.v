(** * Walk: model of /repo/src/walk.rs and of the part of [std::path] it uses.

    [Vec] of pending links: the list of its elements from the last one to the
    first one, i.e. in the order in which [pop] returns them.  Depths are
    unbounded here ([usize] in the code: they count the directories on the way
    to an entry).  [ContinuedWalk] holds the values it borrows.  The state after
    a panic is not used. *)
From Verif Require Import Base Wire Utf8 Cid Pb Reader Visit Dir.

(** ** PathBuf on Unix (standard library of Rust, not in /repo)

    A path is its byte string. *)
Definition sep : byte := x2f.
Definition dot : bytes := [x2e].

(** the parts between separators *)
Fixpoint parts (p : bytes) : list bytes :=
  match p with
  | [] => [[]]
  | x :: p' =>
    if byte_eqb x sep then [] :: parts p'
    else match parts p' with s :: r => (x :: s) :: r | [] => [[x]] end
  end.
Fixpoint unparts (l : list bytes) : bytes :=
  match l with [] => [] | [s] => s | s :: r => s ++ sep :: unparts r end.

(** Components::parse_single_component: [None] for "" and "." *)
Definition is_component (s : bytes) : bool := negb (bytes_eqb s []) && negb (bytes_eqb s dot).
(** Components::trim_right, on the parts from the last one on *)
Fixpoint trim (l : list bytes) : list bytes :=
  match l with
  | [] => []
  | s :: r => if is_component s then l else trim r
  end.

(** Path::is_absolute *)
Definition is_absolute (p : bytes) : bool := match p with x :: _ => byte_eqb x sep | [] => false end.
(** Components::include_cur_dir: "." or a path beginning with "./" *)
Definition cur_dir (p : bytes) : bool :=
  match p with
  | [x] => byte_eqb x x2e
  | x :: y :: _ => byte_eqb x x2e && byte_eqb y sep
  | [] => false
  end.

(** Path::parent *)
Definition parent (p : bytes) : option bytes :=
  let start := if is_absolute p || cur_dir p then 1%nat else 0%nat in
  match trim (rev (parts (skipn start p))) with
  | _ :: r => Some (firstn start p ++ unparts (rev (trim r)))
  | [] => if cur_dir p then Some [] else None
  end.

(** PathBuf::pop: [None] when it returns [false] *)
Definition path_pop (p : bytes) : option bytes := parent p.
(** PathBuf::push *)
Definition path_push (p name : bytes) : bytes :=
  if is_absolute name then name
  else match rev p with
       | [] => name
       | x :: _ => if byte_eqb x sep then p ++ name else p ++ sep :: name
       end.
(** Path::ancestors().count() *)
Fixpoint count_ancestors (fuel : nat) (p : bytes) : nat :=
  match fuel with
  | O => 1
  | S fuel => match parent p with Some q => S (count_ancestors fuel q) | None => 1 end
  end.
Definition ancestors_count (p : bytes) : nat := count_ancestors (S (length p)) p.

(** ** Types *)

(** InnerKind, walk.rs 334-349 *)
Inductive inner_kind :=
| KRootDirectory
| KBucketAtRoot
| KRootBucket
| KBucket
| KDirectory
| KFile (visit : option file_visit) (size : N)
| KSymlink.

(** InnerEntry, walk.rs 319-325 *)
Record inner_entry := InnerEntry {
  ie_cid : cid;
  ie_kind : inner_kind;
  ie_path : bytes;
  ie_metadata : metadata;
  ie_depth : nat
}.

(** the tuple (Cid, String, usize) *)
Definition walk_link : Type := cid * bytes * nat.

(** Walker, walk.rs 16-30 *)
Record walker := Walker {
  w_current : option inner_entry;
  w_next : option walk_link;
  w_pending : list walk_link;
  w_continue : bool
}.

(** FileSegment, walk.rs 586-590 *)
Record segment := FileSegment { seg_bytes : bytes; seg_first : bool; seg_last : bool }.
(** FileSegment::is_first, ::is_last, ::as_bytes, walk.rs 612-628 *)
Definition is_first (s : segment) : bool := seg_first s.
Definition is_last (s : segment) : bool := seg_last s.
Definition as_bytes (s : segment) : bytes := seg_bytes s.

(** ContinuedWalk, walk.rs 555-568 *)
Inductive continued :=
| WBucket (c : cid) (path : bytes)
| WDirectory (c : cid) (path : bytes) (md : metadata)
| WFile (s : segment) (c : cid) (path : bytes) (md : metadata) (size : N)
| WRootDirectory (c : cid) (path : bytes) (md : metadata)
| WSymlink (target : bytes) (c : cid) (path : bytes) (md : metadata).

(** Error, walk.rs 638-667 *)
Inductive walk_error :=
| EUnsupportedType (t : ftype)
| EUnexpectedType (t : ftype)
| EDagPb (e : perr)
| EUnixFs (e : perr)
| EEmptyDagPbNode
| EInvalidCid (e : invalid_cid)
| EFile (e : file_error)
| EDirectory (p : dir_props)
| EShard (e : shard_error).

(** From<ParsingFailed>, walk.rs 669-678 *)
Definition walk_parse_error (e : parse_failed) : walk_error :=
  match e with
  | InvalidDagPb e => EDagPb e
  | InvalidUnixFs e _ => EUnixFs e
  | NoData _ => EEmptyDagPbNode
  end.

(** [?] on a FileReadFailed, walk.rs 686-696: FileReadFailed::Read is
    [unreachable!] *)
Definition walk_read {A} (r : outcome read_failed A) : outcome walk_error A :=
  match r with
  | Ok a => Ok a
  | Err (FileErr e) => Err (EFile e)
  | Err (UnexpectedType t) => Err (EUnexpectedType t)
  | Err (ReadErr _) => Panic
  | Err (InvalidCid e) => Err (EInvalidCid e)
  | Panic => Panic
  | Diverge => Diverge
  end.

Section walk.
Context (X : ext).
Let dbg := ext_dbg X.
Notation wout := (outcome walk_error).

(** ** Links *)

(** [s.contains('/')] *)
Definition has_slash (s : bytes) : bool := existsb (byte_eqb sep) s.

(** the conversion of the hash at the start of both functions below *)
Definition link_target (nth : nat) (l : pblink) : wout cid :=
  map_err EInvalidCid (try_convert_cid X nth l).

(** convert_link, walk.rs 32-49 *)
Definition convert_link (nested_depth nth : nat) (l : pblink) : wout walk_link :=
  do c <- link_target nth l;
  do name <- match l_name l with
             | Some (x :: s) => Ok (x :: s)
             | _ => Panic
             end;
  do _ <- assert (negb (has_slash name));
  Ok (c, name, nested_depth).

(** convert_sharded_link, walk.rs 52-71 *)
Definition convert_sharded_link (nested_depth sibling_depth nth : nat) (l : pblink) : wout walk_link :=
  do c <- link_target nth l;
  do dn <- match l_name l with
           | Some s =>
             if 2 <? blen s then do n <- str_from s 2; Ok (nested_depth, n)
             else if blen s =? 2 then Ok (sibling_depth, [])
             else Panic
           | None => Panic
           end;
  do _ <- assert (negb (has_slash (snd dn)));
  Ok (c, snd dn, fst dn).

(** [for link in links { pending.push(link?) }], walk.rs 163-174 and 199-213:
    the links from the last one to the first one *)
Fixpoint push_links (convert : nat -> pblink -> wout walk_link) (ls : list (nat * pblink))
    (pending : list walk_link) : wout unit * list walk_link :=
  match ls with
  | [] => (Ok tt, pending)
  | (nth, l) :: rest =>
    match convert nth l with
    | Ok e => push_links convert rest (e :: pending)
    | Err e => (Err e, pending)
    | Panic => (Panic, pending)
    | Diverge => (Diverge, pending)
    end
  end.
Definition enumerate_rev (ls : list pblink) : list (nat * pblink) := rev (combine (seq 0 (length ls)) ls).

(** ** InnerEntry *)

(** new_root_dir, new_root_bucket, new_root_file, new_root_symlink, walk.rs 352-405 *)
Definition new_root (k : inner_kind) (c : cid) (md : metadata) (name : bytes) (depth : nat) : inner_entry :=
  InnerEntry c k (path_push [] name) md depth.

(** the loop of set_path, walk.rs 410-416; [d] is [self.depth] *)
Fixpoint pop_to (d depth : nat) (path : bytes) : wout bytes :=
  match d with
  | O => Ok path
  | S d' =>
    if (depth <=? d)%nat then do p <- unwrap (path_pop path); pop_to d' depth p
    else Ok path
  end.

(** set_path, walk.rs 407-422 *)
Definition set_path (ie : inner_entry) (name : bytes) (depth : nat) : wout bytes :=
  do _ <- dassert dbg (ie_depth ie =? ancestors_count (ie_path ie))%nat;
  do p <- pop_to (ie_depth ie) depth (ie_path ie);
  let p := path_push p name in
  do _ <- dassert dbg (depth =? ancestors_count p)%nat;
  Ok p.

Definition in_file (k : inner_kind) : bool := match k with KFile (Some _) _ => true | _ => false end.

(** as_directory, as_bucket_root, as_file and as_symlink, walk.rs 424-463 and
    491-538, which differ in the new kind only *)
Definition as_entry (ie : inner_entry) (k : inner_kind) (c : cid) (name : bytes) (depth : nat) (md : metadata)
    : wout inner_entry :=
  if in_file (ie_kind ie) then Panic
  else do p <- set_path ie name depth; Ok (InnerEntry c k p md depth).

(** the loop of as_bucket, walk.rs 477-483; [d] is [self.depth] *)
Fixpoint pop_bucket (d depth : nat) (path : bytes) : wout (bytes * nat) :=
  if (depth <? d)%nat then
    match d with
    | O => Panic
    | S d' => do p <- unwrap (path_pop path); pop_bucket d' depth p
    end
  else Ok (path, d).

(** as_bucket, walk.rs 465-489 *)
Definition as_bucket (ie : inner_entry) (c : cid) (name : bytes) (depth : nat) : wout inner_entry :=
  match ie_kind ie with
  | KBucketAtRoot => do _ <- assert (ie_depth ie =? depth)%nat; Ok ie
  | KRootBucket | KBucket | KFile None _ | KSymlink =>
    do _ <- assert (is_nil name);
    do pd <- pop_bucket (ie_depth ie) depth (ie_path ie);
    do _ <- assert (snd pd =? depth)%nat;
    Ok (InnerEntry c KBucket (fst pd) (ie_metadata ie) (snd pd))
  | _ => Panic
  end.

(** ** Walker *)

(** Walker::new, walk.rs 75-86 *)
Definition walker_new (c : cid) (root_name : bytes) : walker :=
  let depth := if is_nil root_name then 1%nat else 2%nat in
  Walker None (Some (c, root_name, depth)) [] true.

(** Walker::should_continue, walk.rs 308-310 *)
Definition should_continue (w : walker) : bool := w_continue w.

Definition link_cid_of (l : walk_link) : cid := fst (fst l).

(** Walker::pending_links, walk.rs 94-114 *)
Definition w_pending_links (w : walker) : wout (cid * list cid) :=
  let cids := map link_cid_of (w_pending w) in
  match option_map ie_kind (w_current w) with
  | Some (KFile (Some visit) _) =>
    match pending_links visit with
    | Ok (first, rest) =>
      Ok (first, rest ++ match w_next w with Some n => [link_cid_of n] | None => [] end ++ cids)
    | _ => Panic
    end
  | _ => do n <- unwrap (w_next w); Ok (link_cid_of n, cids)
  end.

(** what Walker::next returns, the walker and the cache afterwards *)
Definition walk_result : Type := wout continued * walker * option cache.

(** walk.rs 133-152: the block belongs to the file being visited *)
Definition next_in_file (w : walker) (ie : inner_entry) (v : file_visit) (size : N) (block : bytes) (k : option cache)
    : walk_result :=
  let '(r, k') := continue_walk X v block k in
  let after visit cont :=
    Walker (Some (InnerEntry (ie_cid ie) (KFile visit size) (ie_path ie) (ie_metadata ie) (ie_depth ie)))
           (w_next w) (w_pending w) cont in
  match walk_read r with
  | Ok (bs, step) =>
    let continues := match step with Some _ => true | None => false end in
    let more := match w_next w with Some _ => true | None => false end in
    (Ok (WFile (FileSegment bs false (negb continues)) (ie_cid ie) (ie_path ie) (ie_metadata ie) size),
     after step (continues || more), k')
  | Err e => (Err e, after None false, k')
  | Panic => (Panic, after None false, k')
  | Diverge => (Diverge, after None false, k')
  end.

(** the second half of the arms for directories: takes the new current entry
    and what is reported, pops the next link *)
Definition finish_dir (w : walker) (links : list pblink) (convert : nat -> pblink -> wout walk_link)
    (entry : wout (inner_entry * continued)) (k : option cache) : walk_result :=
  let '(r, pending) := push_links convert (enumerate_rev links) (w_pending w) in
  match r with
  | Ok _ =>
    let '(next, pending, cont) :=
      match pending with
      | [] => (None, [], false)
      | n :: pending => (Some n, pending, true)
      end in
    match entry with
    | Ok (ie, item) => (Ok item, Walker (Some ie) next pending cont, k)
    | Err e => (Err e, Walker (w_current w) next pending cont, k)
    | Panic => (Panic, Walker (w_current w) next pending cont, k)
    | Diverge => (Diverge, Walker (w_current w) next pending cont, k)
    end
  | Err e => (Err e, Walker (w_current w) None pending false, k)
  | Panic => (Panic, Walker (w_current w) None pending false, k)
  | Diverge => (Diverge, Walker (w_current w) None pending false, k)
  end.

(** the failure before anything but [should_continue] was changed *)
Definition failed (w : walker) (r : wout continued) (k : option cache) : walk_result :=
  (r, Walker (w_current w) (w_next w) (w_pending w) false, k).

(** Walker::next, walk.rs 120-306 *)
Definition walk_next (w : walker) (block : bytes) (k : option cache) : walk_result :=
  match w_current w with
  | Some (InnerEntry _ (KFile (Some v) size) _ _ _ as ie) => next_in_file w ie v size block k
  | _ =>
    match try_parse dbg block with
    | Ok f =>
      let md := metadata_of (f_data f) in
      match u_type (f_data f) with
      | Directory => (* walk.rs 157-192 *)
        match check_directory_supported f with
        | Ok f =>
          match w_next w with
          | None => failed w Panic k
          | Some (c, name, depth) =>
            finish_dir w (f_links f) (convert_link (S depth))
              (match w_current w with
               | None => Ok (new_root KRootDirectory c md name depth,
                             WRootDirectory c (path_push [] name) md)
               | Some ie => do ie <- as_entry ie KDirectory c name depth md;
                            Ok (ie, WDirectory (ie_cid ie) (ie_path ie) (ie_metadata ie))
               end) k
          end
        | Err p => failed w (Err (EDirectory p)) k
        | Panic => failed w Panic k
        | Diverge => failed w Diverge k
        end
      | HAMTShard => (* walk.rs 193-237 *)
        match check_supported f with
        | Ok _ =>
          match w_next w with
          | None => failed w Panic k
          | Some (c, name, depth) =>
            finish_dir w (f_links f) (convert_sharded_link (S depth) depth)
              (match w_current w with
               | None => Ok (new_root KBucketAtRoot c md name depth,
                             WRootDirectory c (path_push [] name) md)
               | Some ie =>
                 if is_nil name then
                   do ie <- as_bucket ie c name depth; Ok (ie, WBucket (ie_cid ie) (ie_path ie))
                 else
                   do ie <- as_entry ie KRootBucket c name depth md;
                   Ok (ie, WRootDirectory (ie_cid ie) (ie_path ie) (ie_metadata ie))
               end) k
          end
        | Err e => failed w (Err (EShard e)) k
        | Panic => failed w Panic k
        | Diverge => failed w Diverge k
        end
      | Raw | File => (* walk.rs 238-271 *)
        let '(r, k') := start_from_parsed X idle_default f k in
        match walk_read r with
        | Ok (bs, size, md, step) =>
          match w_next w with
          | None => failed w Panic k'
          | Some (c, name, depth) =>
            let continues := match step with Some _ => true | None => false end in
            match match w_current w with
                  | None => Ok (new_root (KFile step size) c md name depth)
                  | Some ie => as_entry ie (KFile step size) c name depth md
                  end with
            | Ok ie =>
              let '(next, pending) :=
                match w_pending w with
                | [] => (None, [])
                | n :: pending => (Some n, pending)
                end in
              let more := match next with Some _ => true | None => false end in
              (Ok (WFile (FileSegment bs true (negb continues)) (ie_cid ie) (ie_path ie) (ie_metadata ie) size),
               Walker (Some ie) next pending (continues || more), k')
            | Err e => failed w (Err e) k'
            | Panic => failed w Panic k'
            | Diverge => failed w Diverge k'
            end
          end
        | Err e => failed w (Err e) k'
        | Panic => failed w Panic k'
        | Diverge => failed w Diverge k'
        end
      | Metadata => failed w (Err (EUnsupportedType Metadata)) k (* walk.rs 272 *)
      | Symlink => (* walk.rs 273-304 *)
        let contents := opt (u_data (f_data f)) [] (fun d => d) in
        match w_next w with
        | None => failed w Panic k
        | Some (c, name, depth) =>
          match match w_current w with
                | None => Ok (new_root KSymlink c md name depth)
                | Some ie => as_entry ie KSymlink c name depth md
                end with
          | Ok ie =>
            let '(next, pending, cont) :=
              match w_pending w with
              | [] => (None, [], false)
              | n :: pending => (Some n, pending, true)
              end in
            (Ok (WSymlink contents (ie_cid ie) (ie_path ie) (ie_metadata ie)),
             Walker (Some ie) next pending cont, k)
          | Err e => failed w (Err e) k
          | Panic => failed w Panic k
          | Diverge => failed w Diverge k
          end
        end
      end
    | Err e => failed w (Err (walk_parse_error e)) k
    | Panic => failed w Panic k
    | Diverge => failed w Diverge k
    end
  end.

End walk.
