(** * SpecRuns: what the example programs cat, get and resolve do on any disk at
    all, whatever the blocks contain.  Blocks are answered as in
    SpecFileSteps.v, SpecWalkSteps.v and SpecLookupSteps.v; of Programs.v only
    the types are used.  A run that is not described here goes on for ever. *)
From Verif Require Import Base Wire Utf8 Cid Pb Reader Dir Walk SpecAdder SpecFile SpecDir SpecWalk.
From Verif Require SpecFileSteps SpecWalkSteps SpecLookupSteps.
From Verif Require Import Programs SpecPrograms.

Section runs.
Context (X : ext) (fs : disk) (dir : bytes).

(** ** cat *)

Notation counts := (outcome (program_error read_failed) (N * N)).

(** [cat_on links prev read content res out]: the blocks of [links] are still to
    be read, the last block was judged [prev], [read] and [content] bytes were
    counted so far; the run ends with [res] after writing [out] *)
Inductive cat_on : list (cid * (N * N)) -> SpecFileSteps.before -> N -> N -> counts -> bytes -> Prop :=
| cat_end : forall prev read content, cat_on [] prev read content (Ok (read, content)) []
| cat_unreadable : forall c r rest prev read content err, unreadable fs dir c err ->
    cat_on ((c, r) :: rest) prev read content (Err err) []
(** more than 2^64 bytes *)
| cat_many : forall c r rest prev read content b, on_disk fs dir c (Contents b) -> SpecFileSteps.plus X read (blen b) = None ->
    cat_on ((c, r) :: rest) prev read content Panic []
| cat_error : forall c r rest prev read content b read' e, on_disk fs dir c (Contents b) -> SpecFileSteps.plus X read (blen b) = Some read' ->
    SpecFileSteps.next_step X None prev r rest b (Err e) ->
    cat_on ((c, r) :: rest) prev read content (Err (Traversal_ e)) []
| cat_panic : forall c r rest prev read content b read', on_disk fs dir c (Contents b) -> SpecFileSteps.plus X read (blen b) = Some read' ->
    SpecFileSteps.next_step X None prev r rest b Panic ->
    cat_on ((c, r) :: rest) prev read content Panic []
| cat_long : forall c r rest prev read content b read' out links prev', on_disk fs dir c (Contents b) ->
    SpecFileSteps.plus X read (blen b) = Some read' -> SpecFileSteps.next_step X None prev r rest b (Ok (out, links, prev')) ->
    SpecFileSteps.plus X content (blen out) = None ->
    cat_on ((c, r) :: rest) prev read content Panic out
| cat_next : forall c r rest prev read content b read' out links prev' content' res more, on_disk fs dir c (Contents b) ->
    SpecFileSteps.plus X read (blen b) = Some read' -> SpecFileSteps.next_step X None prev r rest b (Ok (out, links, prev')) ->
    SpecFileSteps.plus X content (blen out) = Some content' -> cat_on links prev' read' content' res more ->
    cat_on ((c, r) :: rest) prev read content res (out ++ more).

(** all of cat, for the file with this Cid *)
Inductive cat_run (c : cid) : counts -> bytes -> Prop :=
| cr_unreadable : forall err, unreadable fs dir c err -> cat_run c (Err err) []
| cr_many : forall b, on_disk fs dir c (Contents b) -> SpecFileSteps.plus X 0 (blen b) = None -> cat_run c Panic []
| cr_error : forall b read e, on_disk fs dir c (Contents b) -> SpecFileSteps.plus X 0 (blen b) = Some read ->
    SpecFileSteps.first_step X None b (Err e) -> cat_run c (Err (Traversal_ e)) []
| cr_panic : forall b read, on_disk fs dir c (Contents b) -> SpecFileSteps.plus X 0 (blen b) = Some read ->
    SpecFileSteps.first_step X None b Panic -> cat_run c Panic []
| cr_long : forall b read out links prev, on_disk fs dir c (Contents b) -> SpecFileSteps.plus X 0 (blen b) = Some read ->
    SpecFileSteps.first_step X None b (Ok (out, links, prev)) -> SpecFileSteps.plus X 0 (blen out) = None -> cat_run c Panic out
| cr_next : forall b read out links prev content res more, on_disk fs dir c (Contents b) -> SpecFileSteps.plus X 0 (blen b) = Some read ->
    SpecFileSteps.first_step X None b (Ok (out, links, prev)) -> SpecFileSteps.plus X 0 (blen out) = Some content ->
    cat_on links prev read content res more -> cat_run c res (out ++ more).

(** ** get *)

(** the lines for what a walk returns; a file is printed with its last block *)
Inductive prints : continued -> list line -> Prop :=
| pr_bucket : forall c path, prints (WBucket c path) []
| pr_more : forall out first c path md size, prints (WFile (FileSegment out first false) c path md size) []
| pr_file : forall out first c path md size,
    prints (WFile (FileSegment out first true) c path md size) [LineFile (line_mode md (6 * 64 + 4 * 8 + 4)) (line_seconds md) size path]
| pr_dir : forall c path md, prints (WDirectory c path md) [LineDir (line_mode md (7 * 64 + 5 * 8 + 5)) (line_seconds md) path]
| pr_root_dir : forall c path md, prints (WRootDirectory c path md) [LineDir (line_mode md (7 * 64 + 5 * 8 + 5)) (line_seconds md) path]
| pr_symlink : forall target c path md, utf8_valid target = true ->
    prints (WSymlink target c path md) [LineLink (line_mode md (7 * 64 + 5 * 8 + 5)) (line_seconds md) path target].

Inductive get_on : SpecWalkSteps.state -> outcome (program_error walk_error) unit -> list line -> Prop :=
| get_end : forall s, SpecWalkSteps.awaited s = [] -> get_on s (Ok tt) []
| get_unreadable : forall s c others err, SpecWalkSteps.awaited s = c :: others -> unreadable fs dir c err -> get_on s (Err err) []
| get_error : forall s c others b e, SpecWalkSteps.awaited s = c :: others -> on_disk fs dir c (Contents b) ->
    SpecWalkSteps.step X s b (Err e) -> get_on s (Err (Traversal_ e)) []
| get_panic : forall s c others b, SpecWalkSteps.awaited s = c :: others -> on_disk fs dir c (Contents b) ->
    SpecWalkSteps.step X s b Panic -> get_on s Panic []
(** a symlink whose target is no text *)
| get_no_text : forall s c others b target d path md s', SpecWalkSteps.awaited s = c :: others -> on_disk fs dir c (Contents b) ->
    SpecWalkSteps.step X s b (Ok (WSymlink target d path md, s')) -> utf8_valid target = false -> get_on s Panic []
| get_next : forall s c others b it s' ls res more, SpecWalkSteps.awaited s = c :: others -> on_disk fs dir c (Contents b) ->
    SpecWalkSteps.step X s b (Ok (it, s')) -> prints it ls -> get_on s' res more -> get_on s res (ls ++ more).

(** ** resolve *)

Notation target := (outcome (program_error resolve_error) (option cid)).

(** a lookup of [needle] that awaits the bucket [c] and then the [others]:
    [None] if there is no such entry *)
Inductive search_on (needle : bytes) : cid -> list cid -> target -> Prop :=
| so_unreadable : forall c others err, unreadable fs dir c err -> search_on needle c others (Err err)
| so_error : forall c others b e, on_disk fs dir c (Contents b) -> SpecLookupSteps.next_call X needle others b (Err e) ->
    search_on needle c others (Err (Traversal_ (RLookup e)))
| so_panic : forall c others b, on_disk fs dir c (Contents b) -> SpecLookupSteps.next_call X needle others b Panic ->
    search_on needle c others Panic
| so_absent : forall c others b, on_disk fs dir c (Contents b) ->
    SpecLookupSteps.next_call X needle others b (Ok SpecLookupSteps.Absent) -> search_on needle c others (Ok None)
| so_found : forall c others b d, on_disk fs dir c (Contents b) ->
    SpecLookupSteps.next_call X needle others b (Ok (SpecLookupSteps.Gives d)) -> search_on needle c others (Ok (Some d))
| so_next : forall c others b c' others' res, on_disk fs dir c (Contents b) ->
    SpecLookupSteps.next_call X needle others b (Ok (SpecLookupSteps.Awaits c' others')) ->
    search_on needle c' others' res -> search_on needle c others res.

(** the entry [needle] of the directory [c] *)
Inductive entry_of (c : cid) (needle : bytes) : target -> Prop :=
| eo_unreadable : forall err, unreadable fs dir c err -> entry_of c needle (Err err)
| eo_error : forall b e, on_disk fs dir c (Contents b) -> SpecLookupSteps.first_call X needle b (Err e) -> entry_of c needle (Err (Traversal_ e))
| eo_panic : forall b, on_disk fs dir c (Contents b) -> SpecLookupSteps.first_call X needle b Panic -> entry_of c needle Panic
| eo_absent : forall b, on_disk fs dir c (Contents b) -> SpecLookupSteps.first_call X needle b (Ok SpecLookupSteps.Absent) -> entry_of c needle (Ok None)
| eo_found : forall b d, on_disk fs dir c (Contents b) -> SpecLookupSteps.first_call X needle b (Ok (SpecLookupSteps.Gives d)) -> entry_of c needle (Ok (Some d))
| eo_search : forall b d others res, on_disk fs dir c (Contents b) ->
    SpecLookupSteps.first_call X needle b (Ok (SpecLookupSteps.Awaits d others)) -> search_on needle d others res -> entry_of c needle res.

(** a path below [c], name by name *)
Inductive path_on (c : cid) : list bytes -> target -> Prop :=
| po_end : path_on c [] (Ok (Some c))
| po_next : forall s rest d res, entry_of c s (Ok (Some d)) -> path_on d rest res -> path_on c (s :: rest) res
| po_stop : forall s rest res, entry_of c s res -> (forall d, res <> Ok (Some d)) -> path_on c (s :: rest) res.

End runs.
