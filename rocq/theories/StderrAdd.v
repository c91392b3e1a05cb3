(** * StderrAdd: what /repo/examples/add.rs writes to standard error, as the lines
    of it.  The message of a panic is not modelled: with [Panic], the lines are
    those before it. *)
From Coq Require Import Strings.String.
From Coq Require Import Init.Byte.
From Verif Require Import Base Wire Cid Pb Adder AdderDebug Programs Output.

(** what the clock, the allocator and other crates contribute: Display of
    ProcessStats, add.rs 81-89 ([None] where there is none, add.rs 116-119); Debug
    of the Duration [total]; [{:.2}] of bytes per second in units of 1048576
    bytes, add.rs 63 and 70, given by the number of bytes; the capacity of the
    buffer of the adder at the end; Display of Cid *)
Record surroundings := Surroundings {
  s_process : option bytes;
  s_total : bytes;
  s_rate : N -> bytes;
  s_capacity : N;
  s_cid : cid -> bytes
}.

Section stderr_add.
Context (X : ext) (C : surroundings).
(** the loop of main, add.rs 23-47, in builds as in [add_outer]: the two lines
    are written when the input ends, before the adder finishes *)
Fixpoint add_outer_err (stdin : list (option bytes)) (a : adder) (st : stats) (input : N) : list bytes :=
  match stdin with
  | [] | Some [] :: _ => [lit "finishing"; fmt_adder a (s_capacity C)]
  | None :: _ => []
  | Some x :: rest =>
    match add_inner X (S (length x)) a st input x 0 with
    | Ok (a, st, input, total) => if total =? blen x then add_outer_err rest a st input else []
    | _ => []
    end
  end.
(** Display of Stats, add.rs 130-143 *)
Definition stats_text (r : add_report) : bytes :=
  numeral 10 (ar_blocks r) ++ lit " blocks, " ++ numeral 10 (ar_bytes r) ++ lit " block bytes, "
  ++ s_cid C (ar_cid r) ++ lit " or " ++ s_cid C (ar_cidv1 r).
(** the end of main, add.rs 49-72 *)
Definition report_err (r : add_report) : list bytes :=
  [stats_text r;
   match s_process C with Some p => p ++ lit ", " | None => [] end ++ lit "total: " ++ s_total C;
   lit "Input: " ++ s_rate C (ar_input r) ++ lit " MB/s (read " ++ numeral 10 (ar_input r) ++ lit " bytes)";
   lit "Output: " ++ s_rate C (ar_bytes r) ++ lit " MB/s"].
Definition add_err (stdin : list (option bytes)) : list bytes :=
  add_outer_err stdin adder_default stats_default 0
  ++ match add_main X stdin with Ok r => report_err r | _ => [] end.
End stderr_add.
