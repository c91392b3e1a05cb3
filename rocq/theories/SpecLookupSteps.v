(** * SpecLookupSteps: what each call of a name lookup answers to any block at all.
    Of Dir.v only the types of errors and of results are used. *)
From Verif Require Import Base Wire Cid Pb Reader Dir SpecFile SpecDir.

Section steps.
Context (X : ext).

(** where a lookup stands: the Cid of the entry, no such entry, or the buckets to
    be visited, at least one *)
Inductive reply := Gives (c : cid) | Absent | Awaits (first : cid) (others : list cid).

Definition hash_of (l : pblink) : bytes := match l_hash l with Some h => h | None => [] end.
(** the links [l1], number [i], and [l2], number [j], both have the name *)
Definition both (i : nat) (c1 : cid) (j : nat) (l2 : pblink) : multiple :=
  match link_cid X l2 with
  | Some c2 => Two (i, c1) (j, c2)
  | None => OneValid (i, c1) (InvalidCidInLink j (hash_of l2) (name_of l2))
  end.

(** ** Plain directories, and dag-pb nodes that are no UnixFS *)

Inductive among (needle : bytes) (links : list pblink) : outcome resolve_error reply -> Prop :=
| a_none : named links needle = [] -> among needle links (Ok Absent)
| a_invalid : forall pre l post, links = pre ++ l :: post -> named pre needle = [] -> name_of l = needle -> link_cid X l = None ->
    among needle links (Err (RLookup (LInvalidCid (InvalidCidInLink (length pre) (hash_of l) needle))))
| a_one : forall l c, named links needle = [l] -> link_cid X l = Some c -> among needle links (Ok (Gives c))
| a_several : forall pre l mid l2 post c, links = pre ++ l :: mid ++ l2 :: post ->
    named pre needle = [] -> name_of l = needle -> named mid needle = [] -> name_of l2 = needle -> link_cid X l = Some c ->
    among needle links (Err (RLookup (LMultiple (both (length pre) c (length pre + 1 + length mid) l2)))).

(** ** Buckets of sharded directories *)

(** the name of an entry follows two further bytes; other buckets have two bytes only *)
Definition carries (needle : bytes) (l : pblink) : Prop := needle <> [] /\ exists a b, name_of l = a :: b :: needle.
Definition leads (l : pblink) : Prop := exists a b, name_of l = [a; b].

(** the links before [l] are [pre], and [l] ends the search in this bucket *)
Inductive stops (needle : bytes) (pre : list pblink) (l : pblink) : outcome lookup_error (option cid * list cid) -> Prop :=
| st_panic : splits_char l -> stops needle pre l Panic
| st_invalid : ~ splits_char l -> leads l \/ carries needle l /\ (forall p, In p pre -> ~ carries needle p) -> link_cid X l = None ->
    stops needle pre l (Err (LInvalidCid (InvalidCidInLink (length pre) (hash_of l) (name_of l))))
| st_several : forall pre1 l1 pre2 c, ~ splits_char l -> carries needle l ->
    pre = pre1 ++ l1 :: pre2 -> carries needle l1 -> (forall p, In p pre1 \/ In p pre2 -> ~ carries needle p) -> link_cid X l1 = Some c ->
    stops needle pre l (Err (LMultiple (both (length pre1) c (length pre) l))).

(** no link of [links] ends the search *)
Definition passes (needle : bytes) (links : list pblink) : Prop :=
  forall pre l post r, links = pre ++ l :: post -> ~ stops needle pre l r.

(** the Cids of the further buckets, in order *)
Inductive buckets : list pblink -> list cid -> Prop :=
| bk_nil : buckets [] []
| bk_leads : forall l c ls cs, leads l -> link_cid X l = Some c -> buckets ls cs -> buckets (l :: ls) (c :: cs)
| bk_other : forall l ls cs, ~ leads l -> buckets ls cs -> buckets (l :: ls) cs.

(** all links of a bucket: the entry, if it is there, and the further buckets *)
Inductive scan (needle : bytes) (links : list pblink) : outcome lookup_error (option cid * list cid) -> Prop :=
| sc_stops : forall pre l post r, links = pre ++ l :: post -> passes needle pre -> stops needle pre l r -> scan needle links r
| sc_found : forall pre l post c cs, passes needle links -> links = pre ++ l :: post -> carries needle l ->
    (forall p, In p pre \/ In p post -> ~ carries needle p) -> link_cid X l = Some c ->
    buckets links cs -> scan needle links (Ok (Some c, cs))
| sc_none : forall cs, passes needle links -> (forall l, In l links -> ~ carries needle l) -> buckets links cs ->
    scan needle links (Ok (None, cs)).

(** the search goes on with the buckets in [queue] and then those just found *)
Inductive search (needle : bytes) (queue : list cid) (links : list pblink) : outcome lookup_error reply -> Prop :=
| se_found : forall c cs, scan needle links (Ok (Some c, cs)) -> search needle queue links (Ok (Gives c))
| se_absent : queue = [] -> scan needle links (Ok (None, [])) -> search needle queue links (Ok Absent)
| se_more : forall cs c others, scan needle links (Ok (None, cs)) -> queue ++ cs = c :: others ->
    search needle queue links (Ok (Awaits c others))
| se_error : forall e, scan needle links (Err e) -> search needle queue links (Err e)
| se_panic : scan needle links Panic -> search needle queue links Panic.

(** the errors for shards that are not supported *)
Inductive refused (u : unixfs) : shard_error -> Prop :=
| rf_kind : ~ (u_fanout u = Some 256 /\ u_hashtype u = Some 34) -> refused u (UnsupportedProperties (u_hashtype u) (u_fanout u))
| rf_props : u_fanout u = Some 256 -> u_hashtype u = Some 34 -> u_filesize u <> None \/ u_blocksizes u <> [] ->
    refused u (UnexpectedProperties (u_filesize u) (u_blocksizes u)).

(** ** Calls *)

(** resolving [needle] in a block *)
Inductive first_call (needle block : bytes) : outcome resolve_error reply -> Prop :=
| fc_unreadable : forall e, try_parse (ext_dbg X) block = Err (InvalidDagPb e) -> first_call needle block (Err (RRead e))
| fc_panic : try_parse (ext_dbg X) block = Panic -> first_call needle block Panic
| fc_diverge : try_parse (ext_dbg X) block = Diverge -> first_call needle block Diverge
| fc_lists : forall links r, lists X block links -> among needle links r -> first_call needle block r
| fc_dir_props : forall f, try_parse (ext_dbg X) block = Ok f -> u_type (f_data f) = Directory -> ~ supported_dir (f_data f) ->
    first_call needle block (Err (RUnexpectedDirProperties
      (DirProps (u_filesize (f_data f)) (u_blocksizes (f_data f)) (u_hashtype (f_data f)) (u_fanout (f_data f)) (u_data (f_data f)))))
| fc_type : forall f, try_parse (ext_dbg X) block = Ok f -> u_type (f_data f) <> Directory -> u_type (f_data f) <> HAMTShard ->
    first_call needle block (Err (RUnexpectedType (u_type (f_data f))))
| fc_refused : forall f e, try_parse (ext_dbg X) block = Ok f -> u_type (f_data f) = HAMTShard -> refused (f_data f) e ->
    first_call needle block (Err (RLookup (LShard e)))
| fc_shard : forall f r, try_parse (ext_dbg X) block = Ok f -> supported_shard (f_data f) -> search needle [] (f_links f) (Ok r) ->
    first_call needle block (Ok r)
| fc_shard_error : forall f e, try_parse (ext_dbg X) block = Ok f -> supported_shard (f_data f) -> search needle [] (f_links f) (Err e) ->
    first_call needle block (Err (RLookup e))
| fc_shard_panic : forall f, try_parse (ext_dbg X) block = Ok f -> supported_shard (f_data f) -> search needle [] (f_links f) Panic ->
    first_call needle block Panic.

(** the block of the first bucket awaited; [queue] are the others *)
Inductive next_call (needle : bytes) (queue : list cid) (block : bytes) : outcome lookup_error reply -> Prop :=
| nc_unreadable : forall e, try_parse (ext_dbg X) block = Err e ->
    next_call needle queue block
      (Err (LRead (match e with InvalidDagPb e => Some e | InvalidUnixFs e _ => Some e | NoData _ => None end)))
| nc_panic : try_parse (ext_dbg X) block = Panic -> next_call needle queue block Panic
| nc_diverge : try_parse (ext_dbg X) block = Diverge -> next_call needle queue block Diverge
| nc_type : forall f, try_parse (ext_dbg X) block = Ok f -> u_type (f_data f) <> HAMTShard ->
    next_call needle queue block (Err (LUnexpectedBucketType (u_type (f_data f))))
| nc_refused : forall f e, try_parse (ext_dbg X) block = Ok f -> u_type (f_data f) = HAMTShard -> refused (f_data f) e ->
    next_call needle queue block (Err (LShard e))
| nc_search : forall f r, try_parse (ext_dbg X) block = Ok f -> supported_shard (f_data f) -> search needle queue (f_links f) r ->
    next_call needle queue block r.

(** ** Histories *)

(** [awaiting needle block bs c others]: the lookup started with [block] and was
    given the blocks [bs], and now awaits these buckets *)
Inductive awaiting (needle block : bytes) : list bytes -> cid -> list cid -> Prop :=
| aw_first : forall c others, first_call needle block (Ok (Awaits c others)) -> awaiting needle block [] c others
| aw_next : forall bs c others b c' others', awaiting needle block bs c others ->
    next_call needle others b (Ok (Awaits c' others')) -> awaiting needle block (bs ++ [b]) c' others'.

(** the same for the code; the caches are any that lookups leave behind, and the
    name may be copied at any time *)
Inductive looking (needle block : bytes) : list bytes -> lookup -> Prop :=
| lo_first : forall k v k', clean k -> resolve X block needle k = (Ok (NeedToLoadMore v), k') -> looking needle block [] v
| lo_next : forall bs v b k v' k', clean k -> looking needle block bs v -> lk_continue_walk X v b k = (Ok (NeedToLoadMore v'), k') ->
    looking needle block (bs ++ [b]) v'
| lo_owned : forall bs v, looking needle block bs v -> looking needle block bs (with_owned_needle v).

End steps.
