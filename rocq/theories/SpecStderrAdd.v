(** * SpecStderrAdd: what add says on standard error, independently of the
    program.  From StderrAdd.v only the surroundings are used. *)
From Coq Require Import Strings.String.
From Coq Require Import Init.Byte.
From Verif Require Import Base Cid SpecText SpecOutput StderrAdd.

(** the links that wait when [k] chunks of the input are complete: all chunks but
    up to 174 are in link blocks, each with 174 of them *)
Definition waiting (k : N) (t : bytes) : Prop :=
  (k = 0 /\ t = ascii "[]")
  \/ (exists a, 1 <= k <= 174 /\ numeral_of 10 k a /\ t = ascii "[0: " ++ a ++ ascii "]")
  \/ (exists groups loose a b, k = groups * 174 + loose /\ 1 <= groups /\ 1 <= loose <= 174
      /\ numeral_of 10 groups a /\ numeral_of 10 loose b /\ t = ascii "[1: " ++ a ++ ascii "/0: " ++ b ++ ascii "]").

(** the lines after [input] bytes of which [blocks] blocks, of [bytes] bytes
    altogether, became; [c] is the Cid of the last *)
Definition add_says (C : surroundings) (input blocks bytes : N) (c : cid) (lines : list Base.bytes) : Prop :=
  exists left capacity links n z i,
  numeral_of 10 (input mod 262144) left /\ numeral_of 10 (s_capacity C) capacity /\ waiting (input / 262144) links
  /\ numeral_of 10 blocks n /\ numeral_of 10 bytes z /\ numeral_of 10 input i
  /\ lines =
  [ascii "finishing";
   ascii "FileAdder { chunker: Size(262144), block_buffer: " ++ left ++ ascii "/" ++ capacity ++ ascii ", unflushed_links: " ++ links ++ ascii " }";
   n ++ ascii " blocks, " ++ z ++ ascii " block bytes, " ++ s_cid C c ++ ascii " or " ++ s_cid C c;
   match s_process C with Some p => p ++ ascii ", " | None => [] end ++ ascii "total: " ++ s_total C;
   ascii "Input: " ++ s_rate C input ++ ascii " MB/s (read " ++ i ++ ascii " bytes)";
   ascii "Output: " ++ s_rate C bytes ++ ascii " MB/s"].
