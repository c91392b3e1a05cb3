(** * SpecReserve: vocabulary of PropertiesReserve.v *)
From Verif Require Import Base Wire Cid Pb Adder SpecAdder Reserve.

(** sessions (SpecAdder.v) of an adder that reserves its buffers *)
Inductive session_res (X : ext) (lsz : N) : adder -> bytes -> list cblock -> adder -> Prop :=
| sr_start : forall a, session_res X lsz a [] [] a
| sr_push : forall a c out a1 input a2 bs n,
    session_res X lsz a c out a1 ->
    push_res X lsz a1 input = Ok (a2, bs, n) ->
    session_res X lsz a (c ++ firstn (N.to_nat n) input) (out ++ bs) a2.

(** [n] elements of [size] bytes have at most 2^63-1 bytes *)
Definition addressable (size n : N) : Prop := n * size < 2 ^ 63.
