(** * SpecOrder: when each block of a file is returned, independently of how
    the adder works (property C66). *)
From Verif Require Import Base Wire Cid Pb Adder SpecAdder.

(** What completing leaf number [i] of the leaves [ts] makes available: the leaf
    itself and, when it is the first one behind a full group of [b] leaves, the
    node of that group. *)
Definition step_trees (b : nat) (ts : list ftree) (i : nat) : list ftree :=
  firstn 1 (skipn i ts)
  ++ (if negb (i =? 0)%nat && (i mod b =? 0)%nat then [FNode (firstn b (skipn (i - b) ts))] else []).

(** ... and what the first [k] leaves make available, in order *)
Definition pushed_trees (b : nat) (ts : list ftree) (k : nat) : list ftree :=
  flat_map (step_trees b ts) (seq 0 k).

(** the number of group nodes among them *)
Definition pushed_nodes (b k : nat) : nat := ((k - 1) / b)%nat.

(** the leaves of content [c] *)
Definition leaves_of (chunk : N) (c : bytes) : list ftree := map FLeaf (chunks (N.to_nat chunk) c).
(** the number of complete chunks in [c] *)
Definition complete (chunk : N) (c : bytes) : nat := N.to_nat (blen c / chunk).
