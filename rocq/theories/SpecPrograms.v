(** * SpecPrograms: the block store on disk, listings and paths, independently of
    the proofs. *)
From Verif Require Import Base Wire Utf8 SpecText Cid Pb Reader Visit Dir Builder Walk Adder SpecAdder SpecFile SpecDir SpecWalk Programs.

(** ** Files named in base 32 *)

(** the number with the given digits, most significant first *)
Definition number (base : N) (digits : list N) : N := fold_left (fun n d => base * n + d) digits 0.
(** the digits of base 32: A-Z are 0-25, 2-7 are 26-31 (RFC 4648) *)
Definition base32_digit (ch : byte) (d : N) : Prop :=
  (d < 26 /\ b2n ch = d + 65) \/ (26 <= d < 32 /\ b2n ch = d + 24).
(** [name] is [key] in base 32, as few digits as needed, filled up with zero
    bits at the end *)
Definition in_base32 (key name : bytes) : Prop :=
  exists digits, Forall2 base32_digit name digits
    /\ 8 * blen key <= 5 * blen name < 8 * blen key + 5
    /\ number 32 digits = number 256 (map b2n key) * 2 ^ (5 * blen name - 8 * blen key).

(** [block_file dir c path]: where a store in [dir] keeps the block of [c]: in
    the directory named by the next to last two characters of the file name
    (without its extension) *)
Definition block_file (dir : bytes) (c : cid) (path : bytes) : Prop :=
  exists pre y z last, in_base32 (cid_bytes c) (pre ++ [y; z; last])
    /\ path = dir ++ [x2f] ++ [y; z] ++ [x2f] ++ (pre ++ [y; z; last]) ++ [x2e; x64; x61; x74; x61].

(** [blocks_place ipfs dir]: the store of the IPFS directory [ipfs] is in [dir],
    which is "blocks" in [ipfs] *)
Definition blocks_place (ipfs dir : bytes) : Prop :=
  let name := [x62; x6c; x6f; x63; x6b; x73] in
  let ready := ipfs = [] \/ exists q, ipfs = q ++ [x2f] in
  (ready /\ dir = ipfs ++ name) \/ (~ ready /\ dir = ipfs ++ [x2f] ++ name).

(** what the store has for a Cid *)
Definition on_disk (fs : disk) (dir : bytes) (c : cid) (what : opened) : Prop :=
  forall path, block_file dir c path -> fs path = what.
(** the right block for [c] can be read *)
Definition intact (fs : disk) (dir : bytes) (get : cid -> option bytes) (c : cid) : Prop :=
  exists b, get c = Some b /\ on_disk fs dir c (Contents b).
(** the file for [c] cannot be opened, or it cannot be read *)
Definition unreadable {T} (fs : disk) (dir : bytes) (c : cid) (err : program_error T) : Prop :=
  (exists e, on_disk fs dir c (CannotOpen e) /\ err = OpeningFailed e)
  \/ (exists e, on_disk fs dir c (CannotRead e) /\ err = Other e).

(** the store has all the blocks of [get] *)
Definition stocked (fs : disk) (dir : bytes) (get : cid -> option bytes) : Prop :=
  forall c b path, get c = Some b -> block_file dir c path -> fs path = Contents b.
(** the first block kept under a Cid *)
Definition holding (kept : list (cid * bytes)) (c : cid) : option bytes :=
  match find (fun kb => bytes_eqb (cid_bytes (fst kb)) (cid_bytes c)) kept with
  | Some (_, b) => Some b
  | None => None
  end.

(** ** The blocks of a file *)

(** the blocks below the Cids of a list, those of the first one first, each
    block before the ones it links to; blocks linked to several times are there
    several times *)
Inductive blocks_below (X : ext) (get : cid -> option bytes) : list cid -> list (cid * bytes) -> Prop :=
| no_blocks : blocks_below X get [] []
| one_block : forall c b f ds more kbs,
    get c = Some b -> try_parse (ext_dbg X) b = Ok f -> map (link_cid X) (f_links f) = map Some ds ->
    blocks_below X get (ds ++ more) kbs -> blocks_below X get (c :: more) ((c, b) :: kbs).
(** the part of the content of a file that is in a block *)
Definition payload (X : ext) (b : bytes) : bytes :=
  match try_parse (ext_dbg X) b with
  | Ok f => match f_links f with [] => own_data f | _ => [] end
  | _ => []
  end.
(** all bytes of a list of blocks *)
Definition all_bytes (bs : list bytes) : N := blen (concat bs).

(** ** Listings *)

Definition line_mode (md : metadata) (default : N) : N :=
  (match md_mode md with Some m => m | None => default end) mod 4096.
Definition line_seconds (md : metadata) : Z := match md_mtime md with Some (s, _) => s | None => 0%Z end.

(** the line of a node; files are rw-r--r-- and the others rwxr-xr-x if they do
    not tell *)
Definition line_of (path : bytes) (n : fsnode) : line :=
  match n with
  | FsFile md content => LineFile (line_mode md (4 * 8 + 6 * 64 + 4)) (line_seconds md) (blen content) path
  | FsSymlink md target => LineLink (line_mode md (7 * 64 + 5 * 8 + 5)) (line_seconds md) path target
  | FsDir md _ | FsShard md _ => LineDir (line_mode md (7 * 64 + 5 * 8 + 5)) (line_seconds md) path
  end.

Definition line_path (l : line) : bytes :=
  match l with LineFile _ _ _ p => p | LineDir _ _ p => p | LineLink _ _ p _ => p end.

(** one line for each directory, file and symlink, parents first *)
Fixpoint listing (path : bytes) (n : fsnode) : list line :=
  line_of path n ::
  match n with
  | FsFile _ _ | FsSymlink _ _ => []
  | FsDir _ es => flat_map (fun e => listing (child path (fst (fst e))) (snd e)) es
  | FsShard _ its => flat_map (item_listing path) its
  end
with item_listing (path : bytes) (it : shard_item) : list line :=
  match it with
  | ShEntry name _ n => listing (child path name) n
  | ShBucket _ its => flat_map (item_listing path) its
  end.

(** all targets of symlinks are text *)
Definition text_targets (evs : list seen) : Prop :=
  forall c p md target, In (SeenSymlink c p md target) evs -> text target.

(** the lines for what a walk sees *)
Definition seen_lines (e : seen) : list line :=
  match e with
  | SeenRootDirectory _ p md | SeenDirectory _ p md => [LineDir (line_mode md (7 * 64 + 5 * 8 + 5)) (line_seconds md) p]
  | SeenFile _ p md content => [LineFile (line_mode md (4 * 8 + 6 * 64 + 4)) (line_seconds md) (blen content) p]
  | SeenSymlink _ p md target => [LineLink (line_mode md (7 * 64 + 5 * 8 + 5)) (line_seconds md) p target]
  | SeenBucket _ _ => []
  end.
(** what get panics on: a symlink with a target that is no text, a bucket right
    after a plain directory, and with debug assertions a "." inside a path *)
Inductive trips (X : ext) : list seen -> seen -> Prop :=
| trips_target : forall before c p md target, ~ text target -> trips X before (SeenSymlink c p md target)
| trips_bucket : forall before c p md c' p', trips X (before ++ [SeenDirectory c p md]) (SeenBucket c' p')
| trips_dot : forall before e, ext_dbg X = true -> dotted (path_seen e) -> trips X before e.
(** nothing of the sort, and no "." inside a path at all *)
Definition smooth (X : ext) (evs : list seen) : Prop :=
  no_dots evs /\ forall before e after, evs = before ++ e :: after -> ~ trips X before e.

(** ** Paths *)

(** what is directly below a node: the entries of a directory, or those of all
    buckets of a sharded one *)
Fixpoint item_entries (it : shard_item) : list (bytes * cid * fsnode) :=
  match it with
  | ShEntry name c n => [(name, c, n)]
  | ShBucket _ its => flat_map item_entries its
  end.
Definition below_node (n : fsnode) : option (list (bytes * cid * fsnode)) :=
  match n with
  | FsDir _ es => Some es
  | FsShard _ its => Some (flat_map item_entries its)
  | _ => None
  end.

(** where a path leads to *)
Inductive leads_to (c : cid) (n : fsnode) : list bytes -> cid -> fsnode -> Prop :=
| leads_here : leads_to c n [] c n
| leads_below : forall es name c' n' rest c'' n'',
    below_node n = Some es -> In (name, c', n') es -> leads_to c' n' rest c'' n'' ->
    leads_to c n (name :: rest) c'' n''.

(** no directory has two entries of the same name *)
Definition unambiguous (c : cid) (n : fsnode) : Prop :=
  forall path c' n' es, leads_to c n path c' n' -> below_node n' = Some es -> NoDup (map (fun e => fst (fst e)) es).

(** text with slashes between its parts *)
Fixpoint slashed (l : list bytes) : bytes := match l with [] => [] | s :: r => x2f :: s ++ slashed r end.
(** [pat] is somewhere in [s] *)
Definition occurs (pat s : bytes) : Prop := exists a b, s = a ++ pat ++ b.
