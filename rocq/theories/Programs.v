(** * Programs: the example programs /repo/examples/{add,cat,get,resolve}.rs

    Modelled: everything the programs do with the library, the block store they
    read (a file system with one file per block), and what they print, as
    structured values (their text is in Output.v, with the "cache" and "got
    lucky" lines of resolve.rs).  Not modelled: the timing and memory statistics
    of add.rs (49-121), failing writes to stdout.  The messages on stderr are in
    Stderr.v and StderrAdd.v. *)
From Verif Require Import Base Wire Utf8 Cid Pb Reader Visit Dir Builder Walk Adder.

(** ** The block store on disk *)

(** [Base::Base32Upper.encode] of the crate multibase (RFC 4648, upper case,
    without padding; the multibase prefix is added by [multibase::encode] only):
    the bits of the key from the most significant one on, in groups of five,
    the last one filled up with zeros *)
Definition bits_of (b : byte) : list bool :=
  map (fun i => N.testbit (b2n b) i) [7; 6; 5; 4; 3; 2; 1; 0].
Definition bit (b : bool) : N := if b then 1 else 0.
Definition digit32 (n : N) : byte :=
  if n <? 26 then n2b (n + 65) (* A-Z *) else n2b (n + 24) (* 2-7 *).
Fixpoint groups5 (l : list bool) : bytes :=
  match l with
  | a :: b :: c :: d :: e :: rest =>
    digit32 (16 * bit a + 8 * bit b + 4 * bit c + 2 * bit d + bit e) :: groups5 rest
  | [] => []
  | [a] => [digit32 (16 * bit a)]
  | [a; b] => [digit32 (16 * bit a + 8 * bit b)]
  | [a; b; c] => [digit32 (16 * bit a + 8 * bit b + 4 * bit c)]
  | [a; b; c; d] => [digit32 (16 * bit a + 8 * bit b + 4 * bit c + 2 * bit d)]
  end.
Definition base32_upper (key : bytes) : bytes := groups5 (flat_map bits_of key).

(** PathBuf::set_extension("data"), for a path whose file name has no dot (as
    here, see [base32_upper]) *)
Definition set_extension_data (p : bytes) : bytes := p ++ [x2e; x64; x61; x74; x61].

(** ShardedBlockStore::as_path, cat.rs 140-156, get.rs 139-155, resolve.rs
    266-282.  [len - 3] underflows for a shorter name: a panic, or in a release
    build one from the slice. *)
Definition as_path {E} (root key : bytes) : outcome E bytes :=
  let encoded := base32_upper key in
  let len := length encoded in
  do _ <- assert (3 <=? len)%nat;
  let dir := firstn 2 (skipn (len - 3) encoded) in
  do _ <- assert (length dir =? 2)%nat;
  Ok (set_extension_data (path_push (path_push root dir) encoded)).

(** what there is to read at a path *)
Inductive opened := CannotOpen (e : N) | CannotRead (e : N) | Contents (b : bytes).
Definition disk : Type := bytes -> opened.

(** the Error enums, cat.rs 106-122, get.rs 105-121, resolve.rs 226-248 *)
Inductive program_error (T : Type) := OpeningFailed (e : N) | Other (e : N) | Traversal_ (e : T).
Arguments OpeningFailed {T}.
Arguments Other {T}.
Arguments Traversal_ {T}.

(** ShardedBlockStore::as_file, cat.rs 158-165 (get.rs 157-164, resolve.rs
    284-291), and read_to_end into the cleared buffer *)
Definition read_block {T} (fs : disk) (root : bytes) (c : cid) : outcome (program_error T) bytes :=
  do p <- as_path root (cid_bytes c);
  match fs p with
  | CannotOpen e => Err (OpeningFailed e)
  | CannotRead e => Err (Other e)
  | Contents b => Ok b
  end.

(** the root of the store, cat.rs 33-36, get.rs 32-35, resolve.rs 38-41 *)
Definition blocks_dir (ipfs_path : bytes) : bytes := path_push ipfs_path [x62; x6c; x6f; x63; x6b; x73].

Section programs.
Context (X : ext).
Let dbg := ext_dbg X.

(** ** cat.rs *)

(** the loop of walk, cat.rs 81-99.  [written] is what went to stdout before;
    the result goes with all that was written.  [fuel] bounds the number of
    blocks read. *)
Fixpoint cat_loop (fuel : nat) (fs : disk) (root : bytes) (step : option file_visit)
    (written : bytes) (read content : N) : outcome (program_error read_failed) (N * N) * bytes :=
  match step with
  | None => (Ok (read, content), written)
  | Some v =>
    match fuel with
    | O => (Diverge, written)
    | S fuel =>
      match (do p <- map_err Traversal_ (pending_links v);
             do buf <- read_block fs root (fst p);
             do read <- add64 dbg read (blen buf);
             do r <- map_err Traversal_ (fst (continue_walk X v buf None));
             Ok (read, r)) with
      | Ok (read, (out, next)) =>
        match add64 dbg content (blen out) with
        | Ok content => cat_loop fuel fs root next (written ++ out) read content
        | Err e => (Err e, written ++ out)
        | Panic => (Panic, written ++ out)
        | Diverge => (Diverge, written ++ out)
        end
      | Err e => (Err e, written)
      | Panic => (Panic, written)
      | Diverge => (Diverge, written)
      end
    end
  end.

(** walk, cat.rs 58-104: the two counters, and what was written to stdout *)
Definition cat_walk (fuel : nat) (fs : disk) (root : bytes) (start : cid)
    : outcome (program_error read_failed) (N * N) * bytes :=
  match (do buf <- read_block fs root start;
         do read <- add64 dbg 0 (blen buf);
         do r <- map_err Traversal_ (visit_start X idle_default buf);
         Ok (read, r)) with
  | Ok (read, (out, _, _, step)) =>
    match add64 dbg 0 (blen out) with
    | Ok content => cat_loop fuel fs root step out read content
    | Err e => (Err e, out)
    | Panic => (Panic, out)
    | Diverge => (Diverge, out)
    end
  | Err e => (Err e, [])
  | Panic => (Panic, [])
  | Diverge => (Diverge, [])
  end.

(** ** add.rs *)

(** Stats, add.rs 123-128 *)
Record stats := Stats { st_blocks : N; st_bytes : N; st_last : option cid }.
Definition stats_default : stats := Stats 0 0 None.

(** Stats::process, add.rs 145-152 *)
Fixpoint process (st : stats) (new_blocks : list cblock) : aout stats :=
  match new_blocks with
  | [] => Ok st
  | (c, block) :: rest =>
    do n <- add64 dbg (st_blocks st) 1;
    do z <- add64 dbg (st_bytes st) (blen block);
    process (Stats n z (Some c)) rest
  end.

(** the inner loop, add.rs 35-41; [fuel] bounds the number of calls of push *)
Fixpoint add_inner (fuel : nat) (a : adder) (st : stats) (input : N) (x : bytes) (total : N)
    : aout (adder * stats * N * N) :=
  if total <? blen x then
    match fuel with
    | O => Diverge
    | S fuel =>
      do r <- push X a (skipn (N.to_nat total) x);
      let '(a, blocks, consumed) := r in
      do st <- process st blocks;
      do input <- add64 dbg input consumed;
      do total <- add64 dbg total consumed;
      add_inner fuel a st input x total
    end
  else Ok (a, st, input, total).

(** the outer loop, add.rs 23-47.  [stdin] is what successive calls of
    [fill_buf] return, [None] being an error; at its end they return nothing. *)
Fixpoint add_outer (stdin : list (option bytes)) (a : adder) (st : stats) (input : N) : aout (stats * N) :=
  match stdin with
  | [] | Some [] :: _ =>
    do blocks <- finish X a;
    do st <- process st blocks;
    Ok (st, input)
  | None :: _ => Panic
  | Some x :: rest =>
    do r <- add_inner (S (length x)) a st input x 0;
    let '(a, st, input, total) := r in
    do _ <- assert (total =? blen x);
    add_outer rest a st input
  end.

(** what is printed at the end, add.rs 49-72 and 130-143: the number of blocks,
    their bytes, the Cid of the last one, the same as a CIDv1, and the number
    of bytes read *)
Record add_report := AddReport {
  ar_blocks : N; ar_bytes : N; ar_cid : cid; ar_cidv1 : cid; ar_input : N
}.
(** Cid::new_v1(0x70, *hash), add.rs 132-133 *)
Definition as_v1 (c : cid) : cid := Cid true 0x70 (cid_code c) (cid_digest c).
Definition add_main (stdin : list (option bytes)) : aout add_report :=
  do r <- add_outer stdin adder_default stats_default 0;
  let '(st, input) := r in
  do last <- unwrap (st_last st);
  Ok (AddReport (st_blocks st) (st_bytes st) last (as_v1 last) input).

(** ** get.rs *)

(** the printed lines: permissions, seconds, size, path *)
Inductive line :=
| LineFile (mode : N) (seconds : Z) (size : N) (path : bytes)
| LineDir (mode : N) (seconds : Z) (path : bytes)
| LineLink (mode : N) (seconds : Z) (path target : bytes).

(** [metadata.mode().unwrap_or(d) & 0o7777] *)
Definition mode_of (md : metadata) (d : N) : N := N.land (opt (md_mode md) d (fun m => m)) 4095.
(** [metadata.mtime().unwrap_or((0, 0)).0] *)
Definition seconds_of (md : metadata) : Z := opt (md_mtime md) 0%Z fst.

(** the match in the loop, get.rs 69-99; 0o644 = 420, 0o755 = 493 *)
Definition get_lines (it : continued) : outcome (program_error walk_error) (list line) :=
  match it with
  | WBucket _ _ => Ok []
  | WFile s _ path md size =>
    Ok (if is_last s then [LineFile (mode_of md 420) (seconds_of md) size path] else [])
  | WDirectory _ path md | WRootDirectory _ path md =>
    Ok [LineDir (mode_of md 493) (seconds_of md) path]
  | WSymlink target _ path md =>
    do _ <- assert (utf8_valid target);                        (* from_utf8(..).unwrap() *)
    Ok [LineLink (mode_of md 493) (seconds_of md) path target]
  end.

(** walk, get.rs 54-103: the result goes with the lines printed.  [fuel] bounds
    the number of blocks read. *)
Fixpoint get_loop (fuel : nat) (fs : disk) (root : bytes) (w : walker) (k : option cache)
    (printed : list line) : outcome (program_error walk_error) unit * list line :=
  if should_continue w then
    match fuel with
    | O => (Diverge, printed)
    | S fuel =>
      match (do p <- map_err Traversal_ (w_pending_links w); read_block fs root (fst p)) with
      | Ok buf =>
        let '(r, w, k) := walk_next X w buf k in
        match bind (map_err Traversal_ r) get_lines with
        | Ok ls => get_loop fuel fs root w k (printed ++ ls)
        | Err e => (Err e, printed)
        | Panic => (Panic, printed)
        | Diverge => (Diverge, printed)
        end
      | Err e => (Err e, printed)
      | Panic => (Panic, printed)
      | Diverge => (Diverge, printed)
      end
    end
  else (Ok tt, printed).
Definition get_walk (fuel : nat) (fs : disk) (root : bytes) (start : cid)
    : outcome (program_error walk_error) unit * list line :=
  get_loop fuel fs root (walker_new start []) None [].

(** ** resolve.rs *)

(** the loop over the buckets of a sharded directory, resolve.rs 196-218:
    [None] is a return from the function with [Ok(None)].  The counter
    [other_blocks] is in Stderr.v. *)
Fixpoint resolve_buckets (fuel : nat) (fs : disk) (root : bytes) (v : lookup) (k : option dcache)
    : outcome (program_error resolve_error) (option cid) * option dcache :=
  match fuel with
  | O => (Diverge, k)
  | S fuel =>
    match (do p <- map_err (fun e => Traversal_ (into_resolve_error e)) (lk_pending_links v);
           read_block fs root (fst p)) with
    | Ok buf =>
      let '(r, k) := lk_continue_walk X v buf k in
      match r with
      | Ok NotFound => (Ok None, k)
      | Ok (Found c) => (Ok (Some c), k)
      | Ok (NeedToLoadMore v) => resolve_buckets fuel fs root v k
      | Err e => (Err (Traversal_ (into_resolve_error e)), k)
      | Panic => (Panic, k)
      | Diverge => (Diverge, k)
      end
    | Err e => (Err e, k)
    | Panic => (Panic, k)
    | Diverge => (Diverge, k)
    end
  end.

(** walk, resolve.rs 154-223.  [fuel] bounds the number of buckets read for one
    segment. *)
Fixpoint resolve_walk (fuel : nat) (fs : disk) (root : bytes) (c : cid) (segments : list bytes)
    (k : option dcache) : outcome (program_error resolve_error) (option cid) :=
  match segments with
  | [] => Ok (Some c)
  | s :: rest =>
    do buf <- read_block fs root c;
    let '(r, k) := resolve X buf s k in
    match r with
    | Ok (Found c) => resolve_walk fuel fs root c rest k
    | Ok NotFound => Ok None
    | Ok (NeedToLoadMore v) =>
      let '(r, k) := resolve_buckets fuel fs root v k in
      do o <- r;
      match o with
      | Some c => resolve_walk fuel fs root c rest k
      | None => Ok None
      end
    | Err e => Err (Traversal_ e)
    | Panic => Panic
    | Diverge => Diverge
    end
  end.

(** *** Paths *)

(** PathError, resolve.rs 66-69 *)
Inductive path_error := PathInvalidCid | InvalidPath.
(** IpfsPath, resolve.rs 84-88, with the root taken out of its option *)
Definition ipfs_path : Type := cid * list bytes.

(** [str::splitn(2, pat)]: the part before the first occurrence of the
    pattern, and what follows it if there is one *)
Fixpoint prefix_of (pat s : bytes) : option bytes :=
  match pat, s with
  | [], _ => Some s
  | p :: pat, x :: s => if byte_eqb p x then prefix_of pat s else None
  | _ :: _, [] => None
  end.
Fixpoint splitn2 (pat s : bytes) : bytes * option bytes :=
  match prefix_of pat s with
  | Some rest => ([], Some rest)
  | None =>
    match s with
    | [] => ([], None)
    | x :: s => let '(a, b) := splitn2 pat s in (x :: a, b)
    end
  end.

(** "/ipfs/" *)
Definition slash_ipfs : bytes := [x2f; x69; x70; x66; x73; x2f].

(** TryFrom<&str> for IpfsPath, resolve.rs 101-146.  [cid_of_str] is
    [Cid::try_from(&str).ok()] of the crate cid. *)
Definition path_try_from (cid_of_str : bytes -> option cid) (path : bytes) : outcome path_error ipfs_path :=
  do p <- match splitn2 slash_ipfs path with
          | ([], Some x) => Ok x
          | ([], None) => Err InvalidPath
          | (x, Some _) => Err InvalidPath
          | (x, None) => Ok x
          end;
  let '(root, more) := splitn2 [x2f] p in
  let segments :=
    match more with
    | None => []
    | Some s => filter (fun s => negb (is_nil s)) (split_slash s)
    end in
  do c <- ok_or (cid_of_str root) PathInvalidCid;
  Ok (c, segments).

(** From<Cid> for IpfsPath, resolve.rs 90-99 *)
Definition path_from (c : cid) : ipfs_path := (c, []).

(** ** main of cat.rs, get.rs and resolve.rs *)

(** cat.rs 8-56, get.rs 7-52, resolve.rs 8-63: the exit code, and what is
    written to stdout ([nothing] before the call of walk).  [arg] and [var] are
    the first argument and the variable IPFS_PATH ([None] if it is not set or
    not UTF-8). *)
Definition main {E A B T O} (nothing : O) (parse : bytes -> outcome E A)
    (walk : bytes -> A -> outcome (program_error T) B * O) (arg var : option bytes) : outcome Empty_set N * O :=
  match arg with
  | None => (Ok 0, nothing)
  | Some a =>
    match parse a with
    | Err _ => (Ok 1, nothing)
    | Ok v =>
      match var with
      | None => (Ok 1, nothing)
      | Some p =>
        let '(r, out) := walk (blocks_dir p) v in
        (match r with
         | Ok _ => Ok 0
         | Err _ => Ok 1
         | Panic => Panic
         | Diverge => Diverge
         end, out)
      end
    | Panic => (Panic, nothing)
    | Diverge => (Diverge, nothing)
    end
  end.
(** cat.rs 9: [Cid::try_from(String)], see [path_try_from] *)
Definition cat_main (cid_of_str : bytes -> option cid) (fuel : nat) (fs : disk) (arg var : option bytes)
    : outcome Empty_set N * bytes :=
  main [] (fun a => ok_or (cid_of_str a) PathInvalidCid) (fun dir c => cat_walk fuel fs dir c) arg var.
(** get.rs 8 *)
Definition get_main (cid_of_str : bytes -> option cid) (fuel : nat) (fs : disk) (arg var : option bytes)
    : outcome Empty_set N * list line :=
  main [] (fun a => ok_or (cid_of_str a) PathInvalidCid) (fun dir c => get_walk fuel fs dir c) arg var.
(** resolve.rs 45-51: a Cid is printed if there is one *)
Definition resolve_main (cid_of_str : bytes -> option cid) (fuel : nat) (fs : disk) (arg var : option bytes)
    : outcome Empty_set N * list cid :=
  main [] (path_try_from cid_of_str)
    (fun dir p => let r := resolve_walk fuel fs dir (fst p) (snd p) None in
                  (r, match r with Ok (Some c) => [c] | _ => [] end)) arg var.
End programs.
