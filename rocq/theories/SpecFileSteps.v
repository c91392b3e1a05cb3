(** * SpecFileSteps: what each call of a file visit answers to any block at all.
    Nothing of Reader.v and Visit.v is used but the types of errors and
    metadata. *)
From Verif Require Import Base Wire Cid Pb Reader SpecFile SpecWalk.

Section steps.
Context (X : ext).

(** a range of file offsets: from, to *)
Notation rng := (N * N)%type.

(** u64 addition: overflow ends the program if checked, and wraps otherwise *)
Definition plus (a b : N) : option N :=
  if a + b <? two64 then Some (a + b)
  else if ext_dbg X then None else Some ((a + b) mod two64).

(** the range overlaps or touches the target *)
Definition touches (target : option rng) (r : rng) : Prop :=
  match target with
  | None => True
  | Some (a, b) => N.max (fst r) a <= N.min (snd r) b
  end.

(** ** The place of a block *)

(** the block before: a leaf that claims to end at [e], or a node that claims to
    cover [s, e) *)
Inductive before := AfterLeaf (e : N) | AfterNode (s e : N).

(** the errors for a block that is meant to cover [r] *)
Inductive misplaced : before -> rng -> file_error -> Prop :=
| jumps : forall e r, fst r <> e -> misplaced (AfterLeaf e) r TreeJumpsBetweenLinks
| expands : forall s e r, fst r <= s -> e < snd r -> misplaced (AfterNode s e) r TreeExpandsOnLinks
| overlaps : forall s e r, s < fst r -> fst r < e -> e < snd r -> misplaced (AfterNode s e) r TreeOverlapsBetweenLinks
| earlier : forall s e r, fst r < s -> snd r <= e -> misplaced (AfterNode s e) r EarlierLink.

(** ** The contents of a block *)

Definition is_file (u : unixfs) : Prop := u_type u = File \/ u_type u = Raw.
Definition matched (f : flat) : Prop := length (f_links f) = length (u_blocksizes (f_data f)).
(** bytes are claimed but there are none *)
Definition void (f : flat) : Prop :=
  f_links f = [] /\ own_data f = [] /\ exists n, u_filesize (f_data f) = Some n /\ n <> 0.
Definition bare (u : unixfs) : Prop := u_hashtype u = None /\ u_fanout u = None.

(** the verdict on a message at offset [off] *)
Inductive judged (f : flat) (off : N) : outcome read_failed before -> Prop :=
| j_type : ~ is_file (f_data f) -> judged f off (Err (UnexpectedType (u_type (f_data f))))
| j_counts : is_file (f_data f) -> ~ matched f -> judged f off (Err (FileErr LinksAndBlocksizesMismatch))
| j_void : is_file (f_data f) -> matched f -> void f -> judged f off (Err (FileErr NoLinksNoContent))
| j_props : is_file (f_data f) -> matched f -> ~ void f -> ~ bare (f_data f) ->
    judged f off (Err (FileErr (UnexpectedRawOrFileProperties (u_hashtype (f_data f)) (u_fanout (f_data f)))))
| j_nosize_node : is_file (f_data f) -> matched f -> bare (f_data f) -> f_links f <> [] ->
    u_filesize (f_data f) = None -> judged f off (Err (FileErr IntermediateNodeWithoutFileSize))
| j_nosize_leaf : is_file (f_data f) -> matched f -> bare (f_data f) -> f_links f = [] ->
    u_filesize (f_data f) = None -> judged f off Panic
| j_overflow : forall size, is_file (f_data f) -> matched f -> ~ void f -> bare (f_data f) ->
    u_filesize (f_data f) = Some size -> plus off size = None -> judged f off Panic
| j_leaf : forall size e, is_file (f_data f) -> matched f -> ~ void f -> bare (f_data f) ->
    u_filesize (f_data f) = Some size -> plus off size = Some e -> f_links f = [] ->
    judged f off (Ok (AfterLeaf e))
| j_node : forall size e, is_file (f_data f) -> matched f -> ~ void f -> bare (f_data f) ->
    u_filesize (f_data f) = Some size -> plus off size = Some e -> f_links f <> [] ->
    judged f off (Ok (AfterNode off e)).

(** the links to visit, with their ranges; [i] counts all of them, [off] is
    where the next one starts *)
Inductive picks (target : option rng) : nat -> N -> list pblink -> list N -> outcome read_failed (list (cid * rng)) -> Prop :=
| p_end : forall i off, picks target i off [] [] (Ok [])
| p_overflow : forall i off l ls z zs, plus off z = None -> picks target i off (l :: ls) (z :: zs) Panic
| p_skip : forall i off e l ls z zs r, plus off z = Some e -> ~ touches target (off, e) ->
    picks target (S i) e ls zs r -> picks target i off (l :: ls) (z :: zs) r
| p_invalid : forall i off e l ls z zs, plus off z = Some e -> touches target (off, e) -> link_cid X l = None ->
    picks target i off (l :: ls) (z :: zs)
      (Err (InvalidCid (InvalidCidInLink i (match l_hash l with Some h => h | None => [] end)
                                           (match l_name l with Some n => n | None => [] end))))
| p_take : forall i off e l ls z zs c ps, plus off z = Some e -> touches target (off, e) -> link_cid X l = Some c ->
    picks target (S i) e ls zs (Ok ps) -> picks target i off (l :: ls) (z :: zs) (Ok ((c, (off, e)) :: ps))
| p_take_fails : forall i off e l ls z zs c r, plus off z = Some e -> touches target (off, e) -> link_cid X l = Some c ->
    picks target (S i) e ls zs r -> (forall ps, r <> Ok ps) -> picks target i off (l :: ls) (z :: zs) r.

(** the bytes returned of a leaf with data [d] that its parent says covers [r];
    if the data is too short for that, the program ends *)
Inductive cut (target : option rng) (r : rng) (d : bytes) : outcome read_failed bytes -> Prop :=
| cut_all : target = None -> cut target r d (Ok d)
| cut_none : ~ touches target r -> cut target r d (Ok [])
| cut_part : forall a b, target = Some (a, b) -> touches target r -> N.min b (snd r) - fst r <= blen d ->
    cut target r d (Ok (byte_range (N.max a (fst r) - fst r) (N.min b (snd r) - fst r) d))
| cut_short : forall a b, target = Some (a, b) -> touches target r -> blen d < N.min b (snd r) - fst r ->
    cut target r d Panic.

(** the error for a block that cannot be parsed *)
Definition unreadable (e : parse_failed) : read_failed :=
  match e with
  | InvalidDagPb e | InvalidUnixFs e _ => ReadErr (Some e)
  | NoData _ => ReadErr None
  end.

(** results: the bytes returned, the links to visit and the verdict on the block *)
Notation result := (outcome read_failed (bytes * list (cid * rng) * before)).

(** what to make of a parsed block meant to cover [r]; [rest] are the links left *)
Inductive opened (target : option rng) (r : rng) (rest : list (cid * rng)) (f : flat) : result -> Prop :=
| o_err : forall e, judged f (fst r) (Err e) -> opened target r rest f (Err e)
| o_panic : judged f (fst r) Panic -> opened target r rest f Panic
| o_leaf : forall e out, judged f (fst r) (Ok (AfterLeaf e)) -> cut target r (own_data f) (Ok out) ->
    opened target r rest f (Ok (out, rest, AfterLeaf e))
| o_short : forall e, judged f (fst r) (Ok (AfterLeaf e)) -> cut target r (own_data f) Panic ->
    opened target r rest f Panic
| o_node : forall s e ps, judged f (fst r) (Ok (AfterNode s e)) ->
    picks target 0 (fst r) (f_links f) (u_blocksizes (f_data f)) (Ok ps) ->
    opened target r rest f (Ok ([], ps ++ rest, AfterNode s e))
| o_node_err : forall s e err, judged f (fst r) (Ok (AfterNode s e)) ->
    picks target 0 (fst r) (f_links f) (u_blocksizes (f_data f)) (Err err) -> opened target r rest f (Err err)
| o_node_panic : forall s e, judged f (fst r) (Ok (AfterNode s e)) ->
    picks target 0 (fst r) (f_links f) (u_blocksizes (f_data f)) Panic -> opened target r rest f Panic.

(** the first block; the root of a file has the range of its own bytes *)
Inductive first_step (target : option rng) (b : bytes) : result -> Prop :=
| f_unreadable : forall e, try_parse (ext_dbg X) b = Err e -> first_step target b (Err (unreadable e))
| f_panic : try_parse (ext_dbg X) b = Panic -> first_step target b Panic
| f_diverge : try_parse (ext_dbg X) b = Diverge -> first_step target b Diverge
| f_opened : forall f r, try_parse (ext_dbg X) b = Ok f -> opened target (0, blen (own_data f)) [] f r ->
    first_step target b r.

(** a further block *)
Inductive next_step (target : option rng) (prev : before) (r : rng) (rest : list (cid * rng)) (b : bytes) : result -> Prop :=
| n_misplaced : forall e, misplaced prev r e -> next_step target prev r rest b (Err (FileErr e))
| n_unreadable : forall e, (forall e, ~ misplaced prev r e) ->
    try_parse (ext_dbg X) b = Err e -> next_step target prev r rest b (Err (unreadable e))
| n_panic : (forall e, ~ misplaced prev r e) -> try_parse (ext_dbg X) b = Panic -> next_step target prev r rest b Panic
| n_diverge : (forall e, ~ misplaced prev r e) -> try_parse (ext_dbg X) b = Diverge -> next_step target prev r rest b Diverge
| n_metadata : forall f, (forall e, ~ misplaced prev r e) -> try_parse (ext_dbg X) b = Ok f -> ~ no_metadata (f_data f) ->
    next_step target prev r rest b (Err (FileErr (NonRootDefinesMetadata (says (f_data f)))))
| n_opened : forall f res, (forall e, ~ misplaced prev r e) -> try_parse (ext_dbg X) b = Ok f -> no_metadata (f_data f) ->
    opened target r rest f res -> next_step target prev r rest b res.

(** [unfolds target bs asked out links prev]: the blocks [bs] were accepted one
    after the other, the links [asked] being the ones to visit next, and the bytes
    [out] returned; [links] are left to visit *)
Inductive unfolds (target : option rng) : list bytes -> list cid -> bytes -> list (cid * rng) -> before -> Prop :=
| u_first : forall b out links prev, first_step target b (Ok (out, links, prev)) ->
    unfolds target [b] [] out links prev
| u_next : forall bs asked out c r rest prev b out' links' prev', unfolds target bs asked out ((c, r) :: rest) prev ->
    next_step target prev r rest b (Ok (out', links', prev')) ->
    unfolds target (bs ++ [b]) (asked ++ [c]) (out ++ out') links' prev'.

End steps.
