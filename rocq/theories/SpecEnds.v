(** * SpecEnds: stores of blocks without cycles, and their size when unfolded. *)
From Verif Require Import Base Wire Cid Pb SpecFile.

Section ends.
Context (X : ext) (get : cid -> option bytes).

(** the block of [c] has a (valid) link to [d] *)
Definition links_to (c d : cid) : Prop :=
  exists b f l, get c = Some b /\ try_parse (ext_dbg X) b = Ok f /\ In l (f_links f) /\ link_cid X l = Some d.
(** one or several links lead from [c] to [d] *)
Inductive reaches (c d : cid) : Prop :=
| reaches_link : links_to c d -> reaches c d
| reaches_over : forall e, links_to c e -> reaches e d -> reaches c d.
Definition no_cycles : Prop := forall c, ~ reaches c c.
Definition finite : Prop := exists kept : list cid, forall c b, cid_wf c = true -> get c = Some b -> In c kept.

(** the Cids of the valid links *)
Definition targets (ls : list pblink) : list cid :=
  flat_map (fun l => match link_cid X l with Some c => [c] | None => [] end) ls.

(** [unfolded cs n]: [n] is the number of blocks below the Cids [cs], themselves
    included; blocks linked to several times count several times, and so do
    blocks that are missing or unreadable *)
Inductive unfolded : list cid -> nat -> Prop :=
| un_nil : unfolded [] 0
| un_end : forall c cs n, (forall d, ~ links_to c d) -> unfolded cs n -> unfolded (c :: cs) (S n)
| un_node : forall c b f cs m n, get c = Some b -> try_parse (ext_dbg X) b = Ok f ->
    unfolded (targets (f_links f)) m -> unfolded cs n -> unfolded (c :: cs) (S (m + n)).

(** parsing each of the blocks comes to an end, which is so in all builds with
    overflow checks (C04) *)
Definition parsable : Prop := forall c b, get c = Some b -> try_parse (ext_dbg X) b <> Diverge.
End ends.

(** every block of the store was stored after those that it links to *)
Definition children_first (X : ext) (kept : list (cid * bytes)) : Prop :=
  forall earlier c b later, kept = earlier ++ (c, b) :: later ->
  forall f l d, try_parse (ext_dbg X) b = Ok f -> In l (f_links f) -> link_cid X l = Some d ->
  ~ In d (map fst ((c, b) :: later)).

(** ** A store of few blocks that is large when unfolded *)
Definition empty_file : flat := Flat [] (UnixFs File None (Some 0) [] None None None None).
(** [w] links to the same, empty, file *)
Definition copies (w : nat) (c : cid) : flat :=
  Flat (repeat (PBLink (Some (cid_bytes c)) (Some []) (Some 0)) w) (UnixFs File None (Some 0) (repeat 0 w) None None None None).
(** 1 + w + w^2 + ... + w^n *)
Fixpoint geometric (w n : nat) : nat := match n with O => 1 | S n => 1 + w * geometric w n end.
