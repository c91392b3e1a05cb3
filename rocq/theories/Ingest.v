(** * Ingest: the program of the benchmark /repo/benches/ingest-tar.rs, which
    makes a tree of an archive

    Modelled: ingest_tar (24-140).  Not modelled: the tar format (the archive
    is given as the sequence of its entries, each with its path, its link name
    and what successive reads of its content return), the capacity of the
    buffer (65-67, 87-89; see [entry_file]) and criterion_benchmark (3-22). *)
From Verif Require Import Base Wire Utf8 Cid Pb Dagpb Reader Builder Adder.

(** an entry: what [path_bytes] and [link_name_bytes] return, and what
    successive calls of [read] do: [None] is an error, and at the end they
    return nothing *)
Record tar_entry := TarEntry {
  te_path : bytes; te_link : option bytes; te_reads : list (option bytes)
}.

(** [Result::unwrap] *)
Definition unwrap_result {E A} (r : outcome E A) : aout A :=
  match r with Ok a => Ok a | Err _ => Panic | Panic => Panic | Diverge => Diverge end.

Section ingest.
Context (X : ext).
Let dbg := ext_dbg X.

(** the fold over the last blocks, ingest-tar.rs 90-99 *)
Fixpoint fold_blocks (acc : option (cid * N)) (blocks : list cblock) : aout (option (cid * N)) :=
  match blocks with
  | [] => Ok acc
  | (c, b) :: rest =>
    match acc with
    | Some (_, total) => do z <- add64 dbg total (blen b); fold_blocks (Some (c, z)) rest
    | None => fold_blocks (Some (c, blen b)) rest
    end
  end.

(** the inner loop, ingest-tar.rs 107-112, on [part = buffer[..n]]; [fuel]
    bounds the number of calls of push *)
Fixpoint push_part (fuel : nat) (a : adder) (part : bytes) (read written : N) : aout (adder * N) :=
  if read <? blen part then
    match fuel with
    | O => Diverge
    | S fuel =>
      do r <- push X a (skipn (N.to_nat read) part);
      let '(a, blocks, consumed) := r in
      do read <- add64 dbg read consumed;
      do sum <- sum64 dbg 0 (map (fun b => blen (snd b)) blocks);
      do written <- add64 dbg written sum;
      push_part fuel a part read written
    end
  else Ok (a, written).

(** the loop over the content, ingest-tar.rs 85-115: the Cid and the size for
    the link, and the buffer.  A [read] of more than there is room for cannot
    be; the slice [buffer[read..n]] would panic. *)
Fixpoint read_content (reads : list (option bytes)) (a : adder) (buffer : bytes) (written : N)
    : aout (cid * N * bytes) :=
  match reads with
  | [] | Some [] :: _ =>
    do blocks <- finish X a;
    do r <- fold_blocks None blocks;
    do r <- unwrap r;
    do written <- add64 dbg written (snd r);
    Ok (fst r, written, buffer)
  | None :: _ => Panic
  | Some piece :: rest =>
    do _ <- assert (blen piece <=? blen buffer);
    let buffer := piece ++ skipn (length piece) buffer in
    do r <- push_part (S (length piece)) a (firstn (length piece) buffer) 0 written;
    let '(a, written) := r in
    read_content rest a buffer written
  end.

(** a file, ingest-tar.rs 56-115.  The loops of 69-78 fill the buffer up with
    zeros to the size hint. *)
Definition entry_file (b : builder) (buffer path : bytes) (reads : list (option bytes)) : aout (builder * bytes) :=
  let a := adder_default in
  let buffer := buffer ++ repeat x00 (N.to_nat (size_hint a - blen buffer)) in
  do r <- read_content reads a buffer 0;
  let '(c, written, buffer) := r in
  let '(r, b) := put_link b path c written in
  do _ <- unwrap_result r;
  Ok (b, buffer).

(** the body of the loop over the entries, ingest-tar.rs 38-120 *)
Definition ingest_entry (b : builder) (buffer : bytes) (e : tar_entry) : aout (builder * bytes) :=
  let path := te_path e in
  do _ <- assert (utf8_valid path);
  match te_link e with
  | Some link_name =>
    do _ <- assert (utf8_valid link_name);
    let buffer := serialize_symlink_block link_name [] in
    let c := Cid true 0x70 0x12 (ext_sha256 X buffer) in
    let '(r, b) := put_link b path c (blen buffer) in
    do _ <- unwrap_result r;
    Ok (b, buffer)
  | None =>
    if negb (ends_with_slash path) then entry_file b buffer path (te_reads e)
    else
      let '(r, b) := set_metadata b (firstn (length path - 1) path) (MData None None) in
      do _ <- unwrap_result r;
      Ok (b, buffer)
  end.

(** the loop over the entries, ingest-tar.rs 35-121; [None] is an error of the
    archive *)
Fixpoint ingest_entries (es : list (option tar_entry)) (b : builder) (buffer : bytes) : aout (builder * bytes) :=
  match es with
  | [] => Ok (b, buffer)
  | None :: _ => Panic
  | Some e :: es =>
    do r <- ingest_entry b buffer e;
    let '(b, buffer) := r in
    ingest_entries es b buffer
  end.

(** the loop over the nodes of the tree, ingest-tar.rs 125-130; [fuel] bounds
    their number *)
Fixpoint last_node (fuel : nat) (it : post_order) (last : option (cid * N * N)) : aout (option (cid * N * N)) :=
  match fuel with
  | O => Diverge
  | S fuel =>
    let '(r, it) := next X it in
    match r with
    | Ok None => Ok last
    | Ok (Some n) => last_node fuel it (Some (n_cid n, n_total_size n, blen (n_block n)))
    | Err _ => Panic
    | Panic => Panic
    | Diverge => Diverge
    end
  end.

(** ingest_tar, ingest-tar.rs 24-140: what is given to [black_box] *)
Definition ingest_options : tree_options :=
  TreeOptions (block_size_limit default_options) true.
Definition ingest_tar (fuel : nat) (es : list (option tar_entry)) (buffer : bytes) : aout (cid * N * N) :=
  do r <- ingest_entries es (builder_new ingest_options) buffer;
  do last <- last_node fuel (build (fst r)) None;
  unwrap last.
End ingest.
