(** * AdderDebug: Debug formatting of file adders
    (/repo/src/file/adder.rs 29-82, 333-337) and the benchmark
    /repo/benches/adder.rs. *)
From Coq Require Import Strings.String.
From Coq Require Import Init.Byte.
From Coq Require Import DecimalN.
From Verif Require Import Base Wire Cid Pb Adder.

Definition lit (s : string) : bytes := list_byte_of_string s.
Arguments lit s%string.

(** [impl Display for usize] (core): decimal digits.  The digits are those of the
    standard library's [N.to_uint]. *)
Fixpoint digits (u : Decimal.uint) : bytes :=
  match u with
  | Decimal.Nil => []
  | Decimal.D0 u => x30 :: digits u
  | Decimal.D1 u => x31 :: digits u
  | Decimal.D2 u => x32 :: digits u
  | Decimal.D3 u => x33 :: digits u
  | Decimal.D4 u => x34 :: digits u
  | Decimal.D5 u => x35 :: digits u
  | Decimal.D6 u => x36 :: digits u
  | Decimal.D7 u => x37 :: digits u
  | Decimal.D8 u => x38 :: digits u
  | Decimal.D9 u => x39 :: digits u
  end.
Definition decimal (n : N) : bytes := digits (N.to_uint n).

(** the loop of LinkFormatter::fmt, adder.rs 57-79 *)
Fixpoint fmt_loop (current : nat) (count : N) (l : list link) : bytes :=
  match l with
  | [] => decimal (N.of_nat current) ++ lit ": " ++ decimal count ++ lit "]"
  | k :: l =>
      if (current =? k_depth k)%nat then fmt_loop current (count + 1) l
      else
        let steps_between := if (k_depth k <? current)%nat then (current - k_depth k)%nat else (k_depth k - current)%nat in
        decimal (N.of_nat current) ++ lit ": " ++ decimal count ++ lit "/"
        ++ concat (repeat (lit "0/") (steps_between - 1))
        ++ fmt_loop (k_depth k) 1 l
  end.
(** LinkFormatter::fmt, adder.rs 45-81 *)
Definition fmt_links (l : list link) : bytes :=
  lit "[" ++ match l with
             | [] => lit "]"
             | k :: _ => fmt_loop (k_depth k) 0 l
             end.
(** <FileAdder as Debug>::fmt, adder.rs 29-40; [capacity] is the capacity of the
    buffer, which the allocator chooses.  Chunker derives Debug (adder.rs 322). *)
Definition fmt_adder (a : adder) (capacity : N) : bytes :=
  lit "FileAdder { chunker: Size(" ++ decimal (a_chunk a) ++ lit "), block_buffer: "
  ++ decimal (blen (a_buf a)) ++ lit "/" ++ decimal capacity
  ++ lit ", unflushed_links: " ++ fmt_links (a_links a) ++ lit " }".

(** ** benches/adder.rs *)
Section bench.
Context (X : ext).
(** the loop of run_adder, benches/adder.rs 74-79; collects the blocks that the
    program counts.  [Diverge] stands for running out of fuel. *)
Fixpoint run_adder_loop (fuel : nat) (a : adder) (total size : N) (blocks : list cblock) : aout (adder * N * list cblock) :=
  if total <? size then
    match fuel with
    | O => Diverge
    | S fuel =>
        do (a, bs, consumed) <- push X a [x00];
        do total <- add64 (ext_dbg X) total consumed;
        run_adder_loop fuel a total size (blocks ++ bs)
    end
  else Ok (a, total, blocks).
(** run_adder, benches/adder.rs 66-82 *)
Definition run_adder (fuel : nat) (size : N) : aout (list cblock) :=
  do a <- adder_new 1 174;
  do (a, total, blocks) <- run_adder_loop fuel a 0 size [];
  do _ <- assert (total =? size);
  do last <- finish X a;
  Ok (blocks ++ last).
End bench.
