(** * Reserve: the capacities the file adder asks for (/repo/src/file/adder.rs)

    Adder.v leaves out that buffers are reserved in advance.  [Vec::reserve] panics
    ("capacity overflow") if the vector would have more than isize::MAX bytes,
    however much memory there is; these panics are modelled here.  That memory
    runs out is not. *)
From Verif Require Import Base Wire Cid Pb Adder.

(** isize::MAX *)
Definition isize_max : N := 9223372036854775807.
(** whether a vector can have room for [n] elements of [size] bytes *)
Definition holds (size n : N) : bool := n * size <=? isize_max.

Section reserve.
(** [lsz]: the size of a PBLink, which the compiler chooses *)
Context (X : ext) (lsz : N).

(** what BalancedCollector::flush_links reserves before anything else, adder.rs
    491-501: [branching_factor] elements in each of its two vectors.  They keep the
    capacity once they have it, so that only the first time matters; and the
    vectors that cannot get it never do. *)
Definition collector_fits (bf : N) : bool := holds lsz bf && holds 8 bf.

(** FileAdder::push, adder.rs 160-203: unless a whole chunk is at hand and nothing
    is buffered, the buffer gets room for a chunk if it has none yet (179-184); and
    when a chunk is complete, flush_links is called *)
Definition push_res (a : adder) (input : bytes) : aout (adder * list cblock * N) :=
  do r <- accept X (a_chunk a) input (a_buf a);
  let '(_, ready) := r in
  if negb ((blen (a_buf a) =? 0) && ready) && negb (holds 1 (a_chunk a)) then Panic
  else if ready && negb (collector_fits (a_bf a)) then Panic
  else push X a input.

(** FileAdder::finish, adder.rs 211-220: calls flush_links in any case *)
Definition finish_res (a : adder) : aout (list cblock) :=
  if collector_fits (a_bf a) then finish X a else Panic.
End reserve.
