(** * Adder: model of /repo/src/file/adder.rs

    Not modelled: capacities and [reserve] (adder.rs 190-194, 491-501), i.e.
    memory exhaustion and the "capacity overflow" panic for absurd branching
    factors; the Debug/Display impls; the [reused_*] vectors, which are cleared
    before every use (adder.rs 547-548) and only save allocations. *)
From Verif Require Import Base Wire Cid Pb.

(** Link, adder.rs 87-98 *)
Record link := Link { k_depth : nat; k_target : cid; k_total : N; k_file : N }.

(** FileAdder, adder.rs 17-27; [Chunker::Size(a_chunk)], [BalancedCollector
    { branching_factor: a_bf }] *)
Record adder := Adder { a_chunk : N; a_bf : N; a_buf : bytes; a_links : list link }.

(** no Rust-level errors here, only panics *)
Definition aout A := outcome Empty_set A.

(** one produced block *)
Definition cblock : Type := cid * bytes.

Section adder.
Context (X : ext).
Let dbg := ext_dbg X.

(** FileAdderBuilder::build with Chunker::Size(chunk) and
    BalancedCollector::with_branching_factor(bf), adder.rs 115-140, 428-437 *)
Definition adder_new (chunk bf : N) : aout adder :=
  do _ <- assert (0 <? bf);
  Ok (Adder chunk bf [] []).

(** FileAdder::default(), adder.rs 16, 326-331, 409-421 *)
Definition adder_default : adder := Adder (256 * 1024) 174 [] [].

(** FileAdder::size_hint, adder.rs 152-154, 347-353 *)
Definition size_hint (a : adder) : N := a_chunk a.

(** render_and_hash, adder.rs 302-313 *)
Definition render_and_hash (f : flat) : cblock :=
  let out := flat_write f in (block_cid X out, out).

(** flush_buffered_leaf, adder.rs 222-266: the new links and maybe a block *)
Definition flush_buffered_leaf (input : bytes) (links : list link) (finishing : bool)
    : option cblock * list link :=
  if (blen input =? 0) && (negb finishing || negb (Nat.eqb (length links) 0))
  then (None, links)
  else
    let data := if negb (blen input =? 0) then Some input else None in
    let filesize := Some (blen input) in
    let inner := Flat [] (UnixFs File data filesize [] None None None None) in
    let '(c, vec) := render_and_hash inner in
    (Some (c, vec), links ++ [Link 0 c (blen vec) (blen input)]).

(** partition_link, adder.rs 625-641, folded over the slice (adder.rs 555-574):
    asserts the depth, accumulates links, blocksizes, nested_size,
    nested_total_size *)
Fixpoint partition_links (level : nat) (ls : list link)
    (acc : list pblink * list N * N * N) : aout (list pblink * list N * N * N) :=
  match ls with
  | [] => Ok acc
  | l :: ls' =>
      do _ <- assert (Nat.eqb (k_depth l) level);
      let '(pls, bss, ns, nts) := acc in
      do ns' <- add64 dbg ns (k_file l);
      do nts' <- add64 dbg nts (k_total l);
      partition_links level ls'
        (pls ++ [PBLink (Some (cid_bytes (k_target l))) (Some []) (Some (k_total l))],
         bss ++ [k_file l], ns', nts')
  end.

(** [iter().position(|l| l.depth == level)] *)
Fixpoint position (level : nat) (ls : list link) : option nat :=
  match ls with
  | [] => None
  | l :: ls' => if Nat.eqb (k_depth l) level then Some O
                else match position level ls' with Some i => Some (S i) | None => None end
  end.

(** [pending[i] = v] *)
Fixpoint set_nth (i : nat) (v : link) (ls : list link) : aout (list link) :=
  match ls, i with
  | [], _ => Panic
  | _ :: ls', O => Ok (v :: ls')
  | l :: ls', S i' => do r <- set_nth i' v ls'; Ok (l :: r)
  end.

(** [pending.drain(s..e)] *)
Definition drain (s e : nat) (ls : list link) : aout (list link) :=
  if Nat.leb s e && Nat.leb e (length ls) then Ok (firstn s ls ++ skipn e ls) else Panic.

(** result of the [while let] loop: [true] means [break 'outer] *)
Definition wres : Type := bool * list link * option nat * list cblock.

(** the [while let Some(first_at)] loop, adder.rs 528-601.
    [fuel]: [starting_point] grows by at least one per iteration. *)
Fixpoint while_loop (fuel : nat) (bf : N) (finishing : bool) (level : nat)
    (pending : list link) (starting_point : nat) (last_overwrite : option nat)
    (ret : list cblock) : aout wres :=
  do _ <- assert (Nat.leb starting_point (length pending));   (* slice index *)
  match position level (skipn starting_point pending) with
  | None => Ok (false, pending, last_overwrite, ret)
  | Some rel =>
      match fuel with
      | O => Diverge
      | S fuel' =>
          let first_at := (rel + starting_point)%nat in
          if negb finishing && (N.of_nat (length pending - first_at) <=? bf) then
            match last_overwrite with
            | Some lo => do p <- drain (lo + 1) first_at pending; Ok (true, p, last_overwrite, ret)
            | None => Ok (true, pending, last_overwrite, ret)
            end
          else
            do e <- add64 dbg (N.of_nat first_at) bf;
            let last := N.to_nat (N.min e (N.of_nat (length pending))) in
            do _ <- assert (Nat.leb first_at last);             (* slice index *)
            do acc <- partition_links level (firstn (last - first_at) (skipn first_at pending)) ([], [], 0, 0);
            let '(pls, bss, ns, nts) := acc in
            let inner := Flat pls (UnixFs File None (Some ns) bss None None None None) in
            let '(c, vec) := render_and_hash inner in
            let index := match last_overwrite with Some i => (i + 1)%nat | None => first_at end in
            do ts <- add64 dbg nts (blen vec);
            do p <- set_nth index (Link (level + 1) c ts ns) pending;
            while_loop fuel' bf finishing level p last (Some index) (ret ++ [(c, vec)])
      end
  end.

(** the ['outer: for level in 0..] loop, adder.rs 503-618 *)
Fixpoint outer_loop (fuel : nat) (bf : N) (finishing : bool) (level : nat)
    (pending : list link) (ret : list cblock) : aout (list link * list cblock) :=
  if (Nat.eqb (length pending) 1 && finishing)
     || ((N.of_nat (length pending) <=? bf) && negb finishing)
  then Ok (pending, ret)
  else match fuel with
  | O => Diverge
  | S fuel' =>
      do w <- while_loop (S (length pending)) bf finishing level pending 0 None ret;
      let '(broke, p, lo, ret') := w in
      if broke then Ok (p, ret')
      else
        let p' := match lo with Some i => firstn (i + 1) p | None => p end in
        do _ <- dassert dbg (match position level p' with None => true | Some _ => false end);
        outer_loop fuel' bf finishing (S level) p' ret'
  end.

(** BalancedCollector::flush_links, adder.rs 442-622.  [fuel] bounds the number
    of levels. *)
Definition flush_links_fuel (fuel : nat) (bf : N) (pending : list link) (finishing : bool)
    : aout (list link * list cblock) :=
  outer_loop fuel bf finishing 0 pending [].

Definition flush_links (bf : N) (pending : list link) (finishing : bool) :=
  flush_links_fuel (S (S (length pending))) bf pending finishing.

(** Chunker::accept, adder.rs 334-345 *)
Definition accept (max : N) (input buffered : bytes) : aout (bytes * bool) :=
  do room <- sub64 dbg max (blen buffered);
  let l := N.min (blen input) room in
  let accepted := firstn (N.to_nat l) input in
  do s <- add64 dbg (blen buffered) l;
  Ok (accepted, max <=? s).

(** FileAdder::push, adder.rs 160-203: new state, blocks, consumed count *)
Definition push (a : adder) (input : bytes) : aout (adder * list cblock * N) :=
  do r <- accept (a_chunk a) input (a_buf a);
  let '(accepted, ready) := r in
  if (blen (a_buf a) =? 0) && ready then
    match flush_buffered_leaf accepted (a_links a) false with
    | (None, _) => Panic                                       (* assert!(leaf.is_some()) *)
    | (Some leaf, links) =>
        do f <- flush_links (a_bf a) links false;
        let '(links', blocks) := f in
        Ok (Adder (a_chunk a) (a_bf a) [] links', leaf :: blocks, blen accepted)
    end
  else
    let buf := a_buf a ++ accepted in
    if negb ready then Ok (Adder (a_chunk a) (a_bf a) buf (a_links a), [], blen accepted)
    else
      match flush_buffered_leaf buf (a_links a) false with
      | (None, _) => Panic
      | (Some leaf, links) =>
          do f <- flush_links (a_bf a) links false;
          let '(links', blocks) := f in
          Ok (Adder (a_chunk a) (a_bf a) [] links', leaf :: blocks, blen accepted)
      end.

(** FileAdder::finish, adder.rs 211-220 *)
Definition finish_fuel (fuel : nat) (a : adder) : aout (list cblock) :=
  let '(last_leaf, links) := flush_buffered_leaf (a_buf a) (a_links a) true in
  do f <- flush_links_fuel fuel (a_bf a) links true;
  let '(_, blocks) := f in
  Ok (match last_leaf with Some l => l :: blocks | None => blocks end).
Definition finish (a : adder) : aout (list cblock) :=
  finish_fuel (length (a_links a) + 3) a.

(** ** The way callers drive it *)

(** push a slice, re-pushing what was not consumed (as in the tests,
    adder.rs 277-299, and /repo/examples/add.rs).  [fuel] bounds the number of
    calls; running out is [Diverge]. *)
Fixpoint push_all (fuel : nat) (a : adder) (input : bytes) : aout (adder * list cblock) :=
  match input with
  | [] => Ok (a, [])
  | _ =>
      match fuel with
      | O => Diverge
      | S fuel' =>
          do r <- push a input;
          let '(a1, bs1, n) := r in
          do r2 <- push_all fuel' a1 (skipn (N.to_nat n) input);
          let '(a2, bs2) := r2 in
          Ok (a2, bs1 ++ bs2)
      end
  end.

(** push every slice of a list of slices, then finish *)
Fixpoint push_slices (a : adder) (slices : list bytes) : aout (adder * list cblock) :=
  match slices with
  | [] => Ok (a, [])
  | s :: rest =>
      do r <- push_all (S (length s)) a s;
      let '(a1, bs1) := r in
      do r2 <- push_slices a1 rest;
      let '(a2, bs2) := r2 in
      Ok (a2, bs1 ++ bs2)
  end.

Definition add_file (chunk bf : N) (slices : list bytes) : aout (list cblock) :=
  do a <- adder_new chunk bf;
  do r <- push_slices a slices;
  let '(a', bs) := r in
  do last <- finish a';
  Ok (bs ++ last).

End adder.
