(** * SpecFile: file DAGs and visits over them, independently of the proofs. *)
From Verif Require Import Base Wire Cid Pb Reader Visit.

Section spec.
Context (X : ext).

(** ** Visits *)

(** [continues gives v bs asked out ov]: starting from the visit [v], calling
    [continue_walk] once for each block of [bs] returned the bytes [out]
    altogether and left [ov].  [asked] lists the first links of [pending_links]
    before each call; [gives c b] says that [b] may be the block passed to the
    call when [c] is asked for.  The caches passed in are arbitrary. *)
Inductive continues (gives : cid -> bytes -> Prop)
  : file_visit -> list bytes -> list cid -> bytes -> option file_visit -> Prop :=
| cont_here : forall v, continues gives v [] [] [] (Some v)
| cont_next : forall v c others b k k' out v' bs asked out2 ov,
    pending_links v = Ok (c, others) -> gives c b ->
    continue_walk X v b k = (Ok (out, Some v'), k') ->
    continues gives v' bs asked out2 ov ->
    continues gives v (b :: bs) (c :: asked) (out ++ out2) ov
| cont_last : forall v c others b k k' out,
    pending_links v = Ok (c, others) -> gives c b ->
    continue_walk X v b k = (Ok (out, None), k') ->
    continues gives v [b] [c] out None.

(** A visit with target range [target] (if any), from its start. *)
Inductive visit (gives : cid -> bytes -> Prop) (target : idle)
  : list bytes -> list cid -> bytes -> option file_visit -> Prop :=
| visit_single : forall root out size md,
    visit_start X target root = Ok (out, size, md, None) ->
    visit gives target [root] [] out None
| visit_multi : forall root out size md v bs asked out2 ov,
    visit_start X target root = Ok (out, size, md, Some v) ->
    continues gives v bs asked out2 ov ->
    visit gives target (root :: bs) asked (out ++ out2) ov.

(** blocks are looked up in a block store *)
Definition store (get : cid -> option bytes) : cid -> bytes -> Prop := fun c b => get c = Some b.
(** any block at all may be passed in *)
Definition anything : cid -> bytes -> Prop := fun _ _ => True.

(** the visit of [root] over the store runs to the end and returns [out] *)
Definition reads (get : cid -> option bytes) (target : idle) (root out : bytes) : Prop :=
  exists bs asked, visit (store get) target (root :: bs) asked out None.

(** ** Well-formed file DAGs *)

Definition link_cid (l : pblink) : option cid :=
  ext_cid_decode X (match l_hash l with Some h => h | None => [] end).

(** a File or Raw message without HAMT fields *)
Definition plain_file (u : unixfs) : Prop :=
  (u_type u = File \/ u_type u = Raw) /\ u_hashtype u = None /\ u_fanout u = None.
Definition no_metadata (u : unixfs) : Prop := u_mode u = None /\ u_mtime u = None.
Definition own_data (f : flat) : bytes := match u_data (f_data f) with Some d => d | None => [] end.

(** [file_dag get f c]: the message [f] is the root of a file with content [c]
    whose other blocks are in the store [get].  Leaves may be anywhere. *)
Inductive file_dag (get : cid -> option bytes) : flat -> bytes -> Prop :=
| dag_leaf : forall f,
    plain_file (f_data f) -> f_links f = [] -> u_blocksizes (f_data f) = [] ->
    u_filesize (f_data f) = Some (blen (own_data f)) ->
    file_dag get f (own_data f)
| dag_node : forall f cs,
    plain_file (f_data f) -> f_links f <> [] ->
    u_blocksizes (f_data f) = map blen cs ->
    u_filesize (f_data f) = Some (blen (concat cs)) ->
    file_dags get (f_links f) cs ->
    file_dag get f (concat cs)
(** the same for the targets of a list of links *)
with file_dags (get : cid -> option bytes) : list pblink -> list bytes -> Prop :=
| dags_nil : file_dags get [] []
| dags_cons : forall l c b f d ls ds,
    link_cid l = Some c -> get c = Some b -> try_parse (ext_dbg X) b = Ok f ->
    no_metadata (f_data f) -> file_dag get f d ->
    file_dags get ls ds -> file_dags get (l :: ls) (d :: ds).

(** the bytes of [c] at the offsets in [a, b) *)
Definition byte_range (a b : N) (c : bytes) : bytes :=
  firstn (N.to_nat (b - a)) (skipn (N.to_nat a) c).

(** ** Links and file ranges in arbitrary DAGs *)

(** [below get c d]: block [c] links to [d], maybe through other blocks *)
Inductive below (get : cid -> option bytes) : cid -> cid -> Prop :=
| below_link : forall c b f l d,
    get c = Some b -> try_parse (ext_dbg X) b = Ok f -> In l (f_links f) -> link_cid l = Some d ->
    below get c d
| below_trans : forall c d e, below get c d -> below get d e -> below get c e.

(** the [i]-th link of [f], when [f] starts at offset [base], covers [s, e)
    according to the block sizes (u64 arithmetic) *)
Definition link_covers (f : flat) (base : N) (c : cid) (s e : N) : Prop :=
  exists i l z,
    nth_error (f_links f) i = Some l /\ link_cid l = Some c
    /\ nth_error (u_blocksizes (f_data f)) i = Some z
    /\ s = (base + sumN (firstn i (u_blocksizes (f_data f)))) mod two64
    /\ e = (s + z) mod two64.

(** block [c] covers [s, e) somewhere in the file with the given root *)
Inductive covers (get : cid -> option bytes) (root : bytes) : cid -> N -> N -> Prop :=
| covers_root : forall f c s e,
    try_parse (ext_dbg X) root = Ok f -> link_covers f 0 c s e -> covers get root c s e
| covers_child : forall p s0 e0 b f c s e,
    covers get root p s0 e0 -> get p = Some b -> try_parse (ext_dbg X) b = Ok f ->
    link_covers f s0 c s e -> covers get root c s e.

(** ** The leaves of an arbitrary sequence of blocks *)

(** [layout stack bs leaves stack']: [bs] are blocks of a DAG in depth-first
    order.  [stack] holds the offsets at which the next blocks start, according
    to the block sizes of the blocks linking to them (u64 arithmetic), [stack']
    those left after [bs].  [leaves] lists for each block without links its
    offset, its claimed size and its bytes. *)
Fixpoint starts (base : N) (sizes : list N) : list N :=
  match sizes with
  | [] => []
  | z :: zs => base :: starts ((base + z) mod two64) zs
  end.
Inductive layout : list N -> list bytes -> list (N * N * bytes) -> list N -> Prop :=
| layout_nil : forall stack, layout stack [] [] stack
| layout_leaf : forall off stack b bs f size leaves stack',
    try_parse (ext_dbg X) b = Ok f -> f_links f = [] -> u_filesize (f_data f) = Some size ->
    layout stack bs leaves stack' ->
    layout (off :: stack) (b :: bs) ((off, size, own_data f) :: leaves) stack'
| layout_node : forall off stack b bs f leaves stack',
    try_parse (ext_dbg X) b = Ok f -> f_links f <> [] ->
    length (f_links f) = length (u_blocksizes (f_data f)) ->
    layout (starts off (u_blocksizes (f_data f)) ++ stack) bs leaves stack' ->
    layout (off :: stack) (b :: bs) leaves stack'.

(** [truthful sizes bs]: [bs] are blocks of DAGs in depth-first order, as many
    DAGs as there are [sizes], and all sizes are true: a block tells the size
    that the block linking to it tells, a leaf holds as many bytes as it tells,
    and the sizes of the links of a node add up to the one it tells. *)
Inductive truthful : list N -> list bytes -> Prop :=
| truthful_end : truthful [] []
| truthful_leaf : forall size sizes b bs f,
    try_parse (ext_dbg X) b = Ok f -> f_links f = [] -> u_filesize (f_data f) = Some size ->
    blen (own_data f) = size -> truthful sizes bs -> truthful (size :: sizes) (b :: bs)
| truthful_node : forall size sizes b bs f,
    try_parse (ext_dbg X) b = Ok f -> f_links f <> [] -> u_filesize (f_data f) = Some size ->
    sumN (u_blocksizes (f_data f)) = size -> truthful (u_blocksizes (f_data f) ++ sizes) bs ->
    truthful (size :: sizes) (b :: bs).

(** each leaf starts where the one before ended, the first one at [from] *)
Fixpoint contiguous (from : N) (leaves : list (N * N * bytes)) : Prop :=
  match leaves with
  | [] => True
  | (off, size, _) :: rest => off = from /\ contiguous ((off + size) mod two64) rest
  end.

End spec.
