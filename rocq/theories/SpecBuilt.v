(** * SpecBuilt: what a walk over a built tree is meant to report, in terms of
    the calls made to the builder.  Only the vocabulary of SpecBuilder.v (calls,
    entries, emitted nodes) and SpecWalk.v (sights of a stored tree) is used. *)
From Coq Require Import Sorting.Sorted.
From Verif Require Import Base Wire Cid Pb Reader Visit Dir Builder Walk SpecFile SpecDir SpecBuilder SpecWalk.

(** pre-order of paths: a directory comes before what is in it, and its entries
    in the order of their names *)
Definition path_before (p q : list bytes) : Prop :=
  (exists n rest, q = p ++ n :: rest)
  \/ (exists pre n m p' q', p = pre ++ n :: p' /\ q = pre ++ m :: q' /\ name_lt n m).

Section shown.
Context (X : ext) (b : builder) (H : list call) (what : cid -> fsnode) (pre base : list bytes).

(** what there is to see at the entry [pre ++ names] of the tree in a walk from
    the node at [pre], which is called [base]: a directory with the Cid of its
    node, or all of what is stored at the Cid of a link *)
Inductive shown : list bytes -> list seen -> Prop :=
| shown_start : forall node, emitted X b node -> n_path node = join pre ->
    shown [] [SeenRootDirectory (n_cid node) (join base) (MData None None)]
| shown_dir : forall names node, names <> [] -> dir_in H (pre ++ names) ->
    emitted X b node -> n_path node = join (pre ++ names) ->
    shown names [SeenDirectory (n_cid node) (join (base ++ names)) (MData None None)]
| shown_link : forall names c s, leaf_in H (pre ++ names) c s ->
    shown names (sights false (join (base ++ names)) c (what c)).

(** everything from the node at [pre] on, in pre-order *)
Definition shown_all (evs : list seen) : Prop :=
  exists order parts,
    StronglySorted path_before order
    /\ (forall names, In names order <-> names = [] \/ entry_in H (pre ++ names))
    /\ Forall2 shown order parts /\ evs = concat parts.
End shown.
