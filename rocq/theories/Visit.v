(** * Visit: model of /repo/src/file/visit.rs and of [RangeLinks]
    (/repo/src/pb.rs 165-200).

    The [Vec] of pending links is modelled by the list of its elements from the
    last one to the first one, i.e. in the order in which [pop] returns them:
    [links.reverse()] (visit.rs 74) and [pending[before..].reverse()]
    (visit.rs 183) thus make the links appear in the order of the block. *)
From Verif Require Import Base Wire Cid Pb Reader.

(** IdleFileVisit, visit.rs 15-18: the target range *)
Definition idle : Type := option range.
(** IdleFileVisit::default() and with_target_range, visit.rs 15, 24-26 *)
Definition idle_default : idle := None.
Definition with_target_range (_ : idle) (r : range) : idle := Some r.

(** a pending link with the file range it covers *)
Definition pending_link : Type := cid * range.

(** FileVisit, visit.rs 116-126 *)
Record file_visit := FileVisit {
  fv_pending : list pending_link;
  fv_range : option range;
  fv_state : traversal
}.

(** Cache, visit.rs 98-101: the contents of the kept [Vec] *)
Definition cache : Type := list pending_link.
(** From<Vec<_>> for Cache, visit.rs 103-108: clears the vector *)
Definition cache_from (_ : list pending_link) : cache := [].

(** block_is_in_target_range, visit.rs 228-236 *)
Definition block_is_in_target_range (block : range) (target : option range) : bool :=
  match target with
  | Some t => N.max (fst block) (fst t) <=? N.min (snd block) (snd t)
  | None => true
  end.

Section visit.
Context (X : ext).
Let dbg := ext_dbg X.

(** to_pending, visit.rs 211-225 *)
Definition to_pending (nth : nat) (l : pblink) (r : range) : outcome read_failed pending_link :=
  match ext_cid_decode X (opt (l_hash l) [] (fun h => h)) with
  | Some c => Ok (c, r)
  | None => Err (InvalidCid (invalid_cid_of nth l))
  end.

(** The loops over [iter.enumerate()], visit.rs 63-71 and 173-179, with the
    lazily evaluated RangeLinks::next, pb.rs 189-195 *)
Fixpoint select_links (nth : nat) (base : N) (zipped : list (pblink * N)) (target : option range)
    : outcome read_failed (list pending_link) :=
  match zipped with
  | [] => Ok []
  | (l, blocksize) :: rest =>
      do next <- add64 dbg base blocksize;
      let r := (base, next) in
      if block_is_in_target_range r target then
        do p <- to_pending nth l r;
        do ps <- select_links (S nth) next rest target;
        Ok (p :: ps)
      else select_links (S nth) next rest target
  end.

(** [&content[start..end]] *)
Definition slice_index (content : bytes) (s e : N) : outcome read_failed bytes :=
  unwrap (get_range content s e).

(** target_slice, visit.rs 252-280 *)
Definition target_slice (content : bytes) (block target : range) : outcome read_failed bytes :=
  if negb (block_is_in_target_range block (Some target)) then Ok []
  else if fst target <? fst block then
    do e <- sub64 dbg (N.min (snd target) (snd block)) (fst block);
    slice_index content 0 e
  else if snd block <? snd target then
    do s <- sub64 dbg (fst target) (fst block);
    do e <- sub64 dbg (N.min (snd target) (snd block)) (fst block);
    slice_index content s e
  else
    do s <- sub64 dbg (fst target) (fst block);
    do len <- sub64 dbg (snd target) (fst target);
    do e <- add64 dbg s len;
    slice_index content s e.

(** maybe_target_slice, visit.rs 240-250 *)
Definition maybe_target_slice (content : bytes) (block : range) (target : option range)
    : outcome read_failed bytes :=
  match target with
  | Some t => target_slice content block t
  | None => Ok content
  end.

(** FileVisitResult, visit.rs 20, and the cache left behind.
    (On an error the cache is left as [cache.take()] did, i.e. taken when the
    block has links.) *)
Definition visit_result : Type := bytes * N * metadata * option file_visit.

(** IdleFileVisit::start_from_reader, visit.rs 45-94.  The second component is
    the cache afterwards. *)
Definition start_from_reader (v : idle) (fr : file_reader) (c : option cache)
    : outcome read_failed visit_result * option cache :=
  let md := fr_metadata fr in
  let '(content, tr) := fr_content fr in
  match content with
  | FBytes content =>
      (do s <- maybe_target_slice content (0, blen content) v;
       Ok (s, tr_file_size tr, md, None), c)
  | FLinks zipped base =>
      match select_links 0 base zipped v with
      | Ok sel =>
          let links := opt c [] (fun i => i) ++ sel in
          match links with
          | [] => (Ok ([], tr_file_size tr, md, None), Some (cache_from links))
          | _ => (Ok ([], tr_file_size tr, md, Some (FileVisit links v tr)), None)
          end
      | Err e => (Err e, None)
      | Panic => (Panic, None)
      | Diverge => (Diverge, None)
      end
  end.

(** IdleFileVisit::start, visit.rs 32-35 *)
Definition visit_start (v : idle) (block : bytes) : outcome read_failed visit_result :=
  do fr <- from_block X block;
  fst (start_from_reader v fr None).

(** IdleFileVisit::start_from_parsed, visit.rs 37-43 *)
Definition start_from_parsed (v : idle) (block : flat) (c : option cache)
    : outcome read_failed visit_result * option cache :=
  match from_parsed X block with
  | Ok fr => start_from_reader v fr c
  | Err e => (Err e, c)
  | Panic => (Panic, c)
  | Diverge => (Diverge, c)
  end.

(** FileVisit::pending_links, visit.rs 134-140 *)
Definition pending_links (v : file_visit) : outcome read_failed (cid * list cid) :=
  match fv_pending v with
  | [] => Panic
  | (c, _) :: rest => Ok (c, map fst rest)
  end.

(** FileVisit::continue_walk, visit.rs 146-193 *)
Definition continue_walk (v : file_visit) (next : bytes) (c : option cache)
    : outcome read_failed (bytes * option file_visit) * option cache :=
  match fv_pending v with
  | [] => (Panic, c)
  | (_, r) :: pending =>
      match tr_continue_walk X (fv_state v) next r with
      | Ok fr =>
          let '(content, tr) := fr_content fr in
          match content with
          | FBytes content =>
              match maybe_target_slice content r (fv_range v) with
              | Ok s =>
                  match pending with
                  | [] => (Ok (s, None), Some (cache_from pending))
                  | _ => (Ok (s, Some (FileVisit pending (fv_range v) tr)), c)
                  end
              | Err e => (Err e, c)
              | Panic => (Panic, c)
              | Diverge => (Diverge, c)
              end
          | FLinks zipped base =>
              (do sel <- select_links 0 base zipped (fv_range v);
               Ok ([], Some (FileVisit (sel ++ pending) (fv_range v) tr)), c)
          end
      | Err e => (Err e, c)
      | Panic => (Panic, c)
      | Diverge => (Diverge, c)
      end
  end.

(** FileVisit::file_size and AsRef<Metadata>, visit.rs 196-206 *)
Definition fv_file_size (v : file_visit) : N := tr_file_size (fv_state v).
Definition fv_metadata (v : file_visit) : metadata := tr_metadata (fv_state v).

End visit.
