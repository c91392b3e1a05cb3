(** * SpecAdder: the balanced file tree, independently of how it is built. *)
From Coq Require Import Permutation.
From Verif Require Import Base Wire Cid Pb Adder.

(** A file tree: leaves hold content, inner nodes have children. *)
Inductive ftree := FLeaf (d : bytes) | FNode (ts : list ftree).

(** the file bytes below a node *)
Fixpoint content (t : ftree) : bytes :=
  match t with
  | FLeaf d => d
  | FNode ts => concat (map content ts)
  end.

Section blocks.
Context (X : ext).

(** The UnixFS message of a leaf (no Data field for the empty file)... *)
Definition leaf_msg (d : bytes) : flat :=
  Flat [] (UnixFs File (match d with [] => None | _ => Some d end) (Some (blen d)) [] None None None None).
(** ...and of an inner node, given for each child its block, the total encoded
    size of its subtree and its content. *)
Definition node_msg (children : list (bytes * N * bytes)) : flat :=
  Flat (map (fun '(blk, ts, _) => PBLink (Some (cid_bytes (block_cid X blk))) (Some []) (Some ts)) children)
       (UnixFs File None (Some (sumN (map (fun '(_, _, c) => blen c) children)))
               (map (fun '(_, _, c) => blen c) children) None None None None).

(** the block of a node and the total encoded size of its subtree *)
Fixpoint encoded (t : ftree) : bytes * N :=
  match t with
  | FLeaf d => let b := flat_write (leaf_msg d) in (b, blen b)
  | FNode ts =>
      let b := flat_write (node_msg (map (fun t => (encoded t, content t)) ts)) in
      (b, sumN (map (fun t => snd (encoded t)) ts) + blen b)
  end.
Definition block (t : ftree) : bytes := fst (encoded t).
Definition tsize (t : ftree) : N := snd (encoded t).

Definition children (t : ftree) : list ftree := match t with FLeaf _ => [] | FNode ts => ts end.

(** a block with its Cid *)
Definition cblock_of (t : ftree) : cid * bytes := (block_cid X (block t), block t).

(** all nodes of a tree (children before their parent), and all their blocks *)
Fixpoint nodes (t : ftree) : list ftree :=
  match t with
  | FLeaf _ => [t]
  | FNode ts => concat (map nodes ts) ++ [t]
  end.
Definition tree_blocks (t : ftree) : list (cid * bytes) := map cblock_of (nodes t).
End blocks.

(** cut a list into consecutive pieces of [n], the last one possibly shorter *)
Fixpoint pieces_go {A} (fuel : nat) (n : nat) (l : list A) : list (list A) :=
  match fuel, l with
  | S f, _ :: _ => firstn n l :: pieces_go f n (skipn n l)
  | _, _ => []
  end.
Definition pieces {A} (n : nat) (l : list A) : list (list A) := pieces_go (length l) n l.

(** [balanced b ts r]: repeatedly grouping [b] consecutive trees of [ts] under
    new nodes until a single tree is left gives [r] *)
Inductive balanced (b : nat) : list ftree -> ftree -> Prop :=
| bal_one : forall t, balanced b [t] t
| bal_level : forall ts r, (2 <= length ts)%nat ->
    balanced b (map FNode (pieces b ts)) r -> balanced b ts r.

(** [upper b ts ns]: [ns] lists the nodes above the trees [ts], level by level
    from the bottom, each level from left to right; the root comes last *)
Inductive upper (b : nat) : list ftree -> list ftree -> Prop :=
| upper_root : forall t, upper b [t] []
| upper_level : forall ts ns, (2 <= length ts)%nat ->
    upper b (map FNode (pieces b ts)) ns -> upper b ts (map FNode (pieces b ts) ++ ns).

(** the chunks of a file; the empty file has one empty chunk *)
Definition chunks (n : nat) (c : bytes) : list bytes :=
  match c with [] => [[]] | _ => pieces n c end.

(** the canonical tree of content [c] *)
Definition canonical (chunk bf : N) (c : bytes) (r : ftree) : Prop :=
  balanced (N.to_nat bf) (map FLeaf (chunks (N.to_nat chunk) c)) r.

(** every leaf is at the same depth *)
Inductive uniform : nat -> ftree -> Prop :=
| uni_leaf : forall d, uniform 0 (FLeaf d)
| uni_node : forall h ts, ts <> [] -> Forall (uniform h) ts -> uniform (S h) (FNode ts).

(** file adder configurations considered: positive chunk size and branching
    factor that fit a usize *)
Definition cfg_ok (chunk bf : N) : Prop := 1 <= chunk < two64 /\ 1 <= bf < two63.
(** configurations for which no block comes near the 4 GiB length limit of the
    protobuf parser (the defaults are 256 KiB and 174) *)
Definition moderate (chunk bf : N) : Prop := chunk <= 2147483648 /\ bf <= 33554432.
(** contents considered: up to 2^54 bytes (16 PiB) *)
Definition max_content : N := 18014398509481984.

(** Every way to use an adder: any sequence of push calls with arbitrary
    inputs.  [session a c out a']: starting from [a], some sequence of push calls
    consumed the bytes [c] altogether, returned the blocks [out] and left the
    adder in [a']. *)
Inductive session (X : ext) : adder -> bytes -> list cblock -> adder -> Prop :=
| session_start : forall a, session X a [] [] a
| session_push : forall a c out a1 input a2 bs n,
    session X a c out a1 ->
    push X a1 input = Ok (a2, bs, n) ->
    session X a (c ++ firstn (N.to_nat n) input) (out ++ bs) a2.
