(** * Reader: model of /repo/src/file/reader.rs, of the errors of
    /repo/src/file.rs and of the [Metadata] of /repo/src/lib.rs.

    Borrowed slices and iterators are modelled by their values; a lazy iterator
    is modelled by the list of its items together with the place where its
    arithmetic happens (see [range_links]). *)
From Verif Require Import Base Wire Cid Pb.

(** [Range<u64>]: start and end *)
Definition range : Type := N * N.

(** Metadata, lib.rs 137-141, [mtime : Option<(i64, u32)>] *)
Record metadata := MData { md_mode : option N; md_mtime : option (Z * N) }.

(** From<&UnixFs> for Metadata, lib.rs 170-179 *)
Definition metadata_of (u : unixfs) : metadata :=
  MData (u_mode u)
        (match u_mtime u with
         | Some t => Some (t_secs t, match t_nanos t with Some n => n | None => 0 end)
         | None => None
         end).

(** FileError, file.rs 70-104 *)
Inductive file_error :=
| LinksAndBlocksizesMismatch
| NoLinksNoContent
| NonRootDefinesMetadata (m : metadata)
| IntermediateNodeWithoutFileSize
| TreeExpandsOnLinks
| TreeOverlapsBetweenLinks
| EarlierLink
| TreeJumpsBetweenLinks
| UnexpectedRawOrFileProperties (hash_type fanout : option N).

(** InvalidCidInLink, lib.rs 36-50: index, hash, name ([source] and [hidden]
    carry no information here), From at lib.rs 52-76 *)
Record invalid_cid := InvalidCidInLink { ic_nth : nat; ic_hash : bytes; ic_name : bytes }.
Definition invalid_cid_of (nth : nat) (l : pblink) : invalid_cid :=
  InvalidCidInLink nth (opt (l_hash l) [] (fun h => h)) (opt (l_name l) [] (fun h => h)).

(** FileReadFailed, file.rs 21-34; [UnexpectedNodeType] by its type *)
Inductive read_failed :=
| FileErr (e : file_error)
| UnexpectedType (t : ftype)
| ReadErr (e : option perr)
| InvalidCid (e : invalid_cid).

(** From<ParsingFailed> for FileReadFailed, file.rs 60-69 *)
Definition read_failed_of (e : parse_failed) : read_failed :=
  match e with
  | InvalidDagPb e => ReadErr (Some e)
  | InvalidUnixFs e _ => ReadErr (Some e)
  | NoData _ => ReadErr None
  end.

(** Ending, reader.rs 36-42 *)
Inductive ending := TreeCoverage (e : N) | Chunk (e : N).

(** Ending::check_is_suitable_next, reader.rs 46-73 *)
Definition check_is_suitable_next (self : ending) (offset : N) (next : range) : option file_error :=
  match self with
  | TreeCoverage cover_end =>
      if (fst next <=? offset) && (cover_end <? snd next) then Some TreeExpandsOnLinks
      else if (fst next <? cover_end) && (cover_end <? snd next) then Some TreeOverlapsBetweenLinks
      else if fst next <? offset then Some EarlierLink
      else None
  | Chunk chunk_end =>
      if negb (fst next =? chunk_end) then Some TreeJumpsBetweenLinks else None
  end.

(** FileReader, reader.rs 18-26 *)
Record file_reader := FileReader {
  fr_offset : N;
  fr_end : ending;
  fr_links : list pblink;
  fr_data : bytes;
  fr_blocksizes : list N;
  fr_metadata : metadata;
  fr_file_size : N
}.

(** Traversal, reader.rs 188-195 *)
Record traversal := Traversal {
  tr_last_ending : ending;
  tr_last_offset : N;
  tr_file_size : N;
  tr_metadata : metadata
}.

(** FileContent, reader.rs 227-239; the iterator is RangeLinks over the zipped
    links and blocksizes with the given base, pb.rs 165-181 *)
Inductive file_content := FBytes (b : bytes) | FLinks (zipped : list (pblink * N)) (base : N).

Definition is_nil {A} (l : list A) : bool := match l with [] => true | _ => false end.

Section reader.
Context (X : ext).
Let dbg := ext_dbg X.

(** FileReader::from_parts, reader.rs 106-160 *)
Definition from_parts (inner : flat) (offset : N) (md : metadata) : outcome read_failed file_reader :=
  let u := f_data inner in
  let empty_or_no_content := opt (u_data u) true is_nil in
  let is_zero_bytes := opt (u_filesize u) 0 (fun n => n) =? 0 in
  match u_type u with
  | File | Raw =>
      if negb (Nat.eqb (length (f_links inner)) (length (u_blocksizes u)))
      then Err (FileErr LinksAndBlocksizesMismatch)
      else if empty_or_no_content && negb is_zero_bytes && is_nil (f_links inner)
      then Err (FileErr NoLinksNoContent)
      else
        let data := opt (u_data u) [] (fun d => d) in
        match u_hashtype u, u_fanout u with
        | None, None =>
            do e <- (if is_nil (f_links inner)
                     then do s <- add64 dbg offset (opt (u_filesize u) (blen data) (fun n => n)); Ok (Chunk s)
                     else match u_filesize u with
                          | Some fs => do s <- add64 dbg offset fs; Ok (TreeCoverage s)
                          | None => Err (FileErr IntermediateNodeWithoutFileSize)
                          end);
            do fs <- unwrap (u_filesize u);
            Ok (FileReader offset e (f_links inner) data (u_blocksizes u) md fs)
        | ht, fa => Err (FileErr (UnexpectedRawOrFileProperties ht fa))
        end
  | t => Err (UnexpectedType t)
  end.

(** FileReader::from_parsed, reader.rs 83-86 *)
Definition from_parsed (inner : flat) : outcome read_failed file_reader :=
  from_parts inner 0 (metadata_of (f_data inner)).

(** FileReader::from_block, reader.rs 77-81 *)
Definition from_block (data : bytes) : outcome read_failed file_reader :=
  do inner <- map_err read_failed_of (try_parse dbg data);
  from_parts inner 0 (metadata_of (f_data inner)).

(** FileReader::from_continued, reader.rs 89-104 *)
Definition from_continued (t : traversal) (offset : N) (data : bytes) : outcome read_failed file_reader :=
  do inner <- map_err read_failed_of (try_parse dbg data);
  match u_mode (f_data inner), u_mtime (f_data inner) with
  | None, None => from_parts inner offset (tr_metadata t)
  | _, _ => Err (FileErr (NonRootDefinesMetadata (metadata_of (f_data inner))))
  end.

(** FileReader::content, reader.rs 164-185 *)
Definition fr_content (fr : file_reader) : file_content * traversal :=
  (if is_nil (fr_links fr) then FBytes (fr_data fr)
   else FLinks (combine (fr_links fr) (fr_blocksizes fr)) (fr_offset fr),
   Traversal (fr_end fr) (fr_offset fr) (fr_file_size fr) (fr_metadata fr)).

(** Traversal::continue_walk, reader.rs 205-213 *)
Definition tr_continue_walk (t : traversal) (next_block : bytes) (tree_range : range)
    : outcome read_failed file_reader :=
  match check_is_suitable_next (tr_last_ending t) (tr_last_offset t) tree_range with
  | Some e => Err (FileErr e)
  | None => from_continued t (fst tree_range) next_block
  end.

End reader.
