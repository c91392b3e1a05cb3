(** * SpecStderr: what cat, get and resolve say on standard error, independently
    of the programs.  Of Stderr.v only the types are used; runs are those of
    SpecRuns.v, blocks are answered as in SpecLookupSteps.v. *)
From Coq Require Import Strings.String.
From Coq Require Import Init.Byte.
From Verif Require Import Base Wire Cid Pb Reader Dir Walk Programs SpecPrograms SpecRuns SpecText SpecOutput SpecMessages Stderr.
From Verif Require SpecLookupSteps.

(** the advice when a block cannot be opened *)
Definition advice (io : bytes) : list bytes :=
  [io; []; ascii "This is likely caused by either:"; ascii " - ipfs does not have the block";
   ascii " - ipfs is configured to use non-flatfs storage"; ascii " - ipfs is configured to use flatfs with different sharding"].

(** a line of resolve; the name in the last one is not quoted *)
Definition notice_line (cid_text : cid -> bytes) (n : notice) (t : bytes) : Prop :=
  match n with
  | Reading c s => exists q, quoted s q /\ t = ascii "reading " ++ cid_text c ++ ascii " to resolve " ++ q
  | Walking c s => exists q, quoted s q /\ t = ascii "walking " ++ cid_text c ++ ascii " on " ++ q
  | Searching c s => exists q, quoted s q /\ t = ascii "  -> reading " ++ cid_text c ++ ascii " while searching for " ++ q
  | Resolved s from n to => exists q, numeral_of 10 (N.of_nat n) q
      /\ t = ascii "     resolved " ++ s ++ ascii " from " ++ cid_text from ++ ascii " after " ++ q ++ ascii " blocks to " ++ cid_text to
  end.
(** the block that a line announces to be read *)
Definition announces (n : notice) : list cid :=
  match n with Reading c _ | Searching c _ => [c] | _ => [] end.

Section told.
Context (X : ext) (fs : disk) (dir : bytes).

(** a call that ends the run *)
Definition ends (r : outcome resolve_error SpecLookupSteps.reply) : Prop :=
  r = Ok SpecLookupSteps.Absent \/ r = Panic \/ exists e, r = Err e.
Definition ends_search (r : outcome lookup_error SpecLookupSteps.reply) : Prop :=
  r = Ok SpecLookupSteps.Absent \/ r = Panic \/ exists e, r = Err e.

(** the search for [needle] that awaits [c] and [others] reads the buckets [cs];
    it ends with the entry [o] or without one *)
Inductive searched (needle : bytes) : cid -> list cid -> list cid -> option cid -> Prop :=
| sd_unreadable : forall c others (err : program_error resolve_error), unreadable fs dir c err -> searched needle c others [c] None
| sd_ends : forall c others b r, on_disk fs dir c (Contents b) -> SpecLookupSteps.next_call X needle others b r -> ends_search r ->
    searched needle c others [c] None
| sd_gives : forall c others b d, on_disk fs dir c (Contents b) ->
    SpecLookupSteps.next_call X needle others b (Ok (SpecLookupSteps.Gives d)) -> searched needle c others [c] (Some d)
| sd_next : forall c others b c' others' cs o, on_disk fs dir c (Contents b) ->
    SpecLookupSteps.next_call X needle others b (Ok (SpecLookupSteps.Awaits c' others')) ->
    searched needle c' others' cs o -> searched needle c others (c :: cs) o.

(** the lines for resolving a path below [c] *)
Inductive told (c : cid) : list bytes -> list notice -> Prop :=
| t_end : told c [] []
| t_unreadable : forall s rest (err : program_error resolve_error), unreadable fs dir c err -> told c (s :: rest) [Reading c s]
| t_ends : forall s rest b r, on_disk fs dir c (Contents b) -> SpecLookupSteps.first_call X s b r -> ends r -> told c (s :: rest) [Reading c s]
| t_gives : forall s rest b d ns, on_disk fs dir c (Contents b) -> SpecLookupSteps.first_call X s b (Ok (SpecLookupSteps.Gives d)) ->
    told d rest ns -> told c (s :: rest) (Reading c s :: ns)
| t_lost : forall s rest b d others cs, on_disk fs dir c (Contents b) ->
    SpecLookupSteps.first_call X s b (Ok (SpecLookupSteps.Awaits d others)) -> searched s d others cs None ->
    told c (s :: rest) (Reading c s :: Walking c s :: map (fun x => Searching x s) cs)
| t_found : forall s rest b d others cs e ns, on_disk fs dir c (Contents b) ->
    SpecLookupSteps.first_call X s b (Ok (SpecLookupSteps.Awaits d others)) -> searched s d others cs (Some e) -> told e rest ns ->
    told c (s :: rest) (Reading c s :: Walking c s :: map (fun x => Searching x s) cs ++ Resolved s c (length cs) e :: ns).
End told.

(** ** The lines at the end *)
Definition cat_says (io : N -> bytes) (why : read_failed -> bytes) (res : outcome (program_error read_failed) (N * N)) (lines : list bytes) : Prop :=
  match res with
  | Ok (read, content) => exists r t, numeral_of 10 read r /\ numeral_of 10 content t
      /\ lines = [ascii "Content bytes: " ++ t; ascii "Total bytes:   " ++ r]
  | Err (OpeningFailed e) => lines = advice (io e)
  | Err (Other e) => lines = [ascii "Failed to walk the merkle tree: Other file related io error: " ++ io e]
  | Err (Traversal_ e) => lines = [ascii "Failed to walk the merkle tree: Traversal failed, please report this as a bug: " ++ why e]
  | Panic => lines = []
  | Diverge => False
  end.
Definition get_says (io : N -> bytes) (why : walk_error -> bytes) (res : outcome (program_error walk_error) unit) (lines : list bytes) : Prop :=
  match res with
  | Ok _ => lines = []
  | Err (OpeningFailed e) => lines = advice (io e)
  | Err (Other e) => lines = [ascii "Failed to walk the merkle tree: A file-related IO error: " ++ io e]
  | Err (Traversal_ e) => lines = [ascii "Failed to walk the merkle tree: Walk failed, please report this as a bug: " ++ why e]
  | Panic => lines = []
  | Diverge => False
  end.
Definition resolve_says (io : N -> bytes) (why : resolve_error -> bytes) (res : outcome (program_error resolve_error) (option cid)) (lines : list bytes) : Prop :=
  match res with
  | Ok (Some _) => lines = []
  | Ok None => lines = [ascii "not found"]
  | Err (OpeningFailed e) => lines = advice (io e)
  | Err (Other e) => lines = [ascii "Failed to walk the merkle tree: Other file related io error: " ++ io e]
  | Err (Traversal_ e) => lines = [ascii "Failed to walk the merkle tree: Walking failed, please report this as a bug: " ++ why e]
  | Panic => lines = []
  | Diverge => False
  end.

(** ** The error of a lookup within the last line *)
Section shown.
Context (cid_text : cid -> bytes) (cid_error : bytes -> bytes) (protobuf : perr -> bytes).
Definition shard_is (e : shard_error) (t : bytes) : Prop :=
  match e with
  | UnsupportedProperties h f => exists a b, option_is (numeral_of 10) h a /\ option_is (numeral_of 10) f b
      /\ t = ascii "UnsupportedProperties { hash_type: " ++ a ++ ascii ", fanout: " ++ b ++ ascii " }"
  | UnexpectedProperties z bs => exists a b, option_is (numeral_of 10) z a /\ list_is bs b
      /\ t = ascii "UnexpectedProperties { filesize: " ++ a ++ ascii ", blocksizes: " ++ b ++ ascii " }"
  end.
Definition lookup_is (e : lookup_error) (t : bytes) : Prop :=
  exists u, (match e with
    | LMultiple m => multiple_is cid_text cid_error m u /\ t = ascii "Multiple(" ++ u ++ ascii ")"
    | LInvalidCid e => invalid_is cid_error e u /\ t = ascii "InvalidCid(" ++ u ++ ascii ")"
    | LUnexpectedBucketType ty => type_is ty u /\ t = ascii "UnexpectedBucketType(" ++ u ++ ascii ")"
    | LShard e => shard_is e u /\ t = ascii "Shard(" ++ u ++ ascii ")"
    | LRead e => option_is (fun e u => u = protobuf e) e u /\ t = ascii "Read(" ++ u ++ ascii ")"
    end).
Definition resolve_is (e : resolve_error) (t : bytes) : Prop :=
  match e with
  | RUnexpectedType ty => exists u, type_is ty u /\ t = ascii "UnexpectedType(" ++ u ++ ascii ")"
  | RUnexpectedDirProperties p => exists z bs h f d, option_is (numeral_of 10) (dp_filesize p) z /\ list_is (dp_blocksizes p) bs
      /\ option_is (numeral_of 10) (dp_hash_type p) h /\ option_is (numeral_of 10) (dp_fanout p) f
      /\ option_is (fun d => list_is (map b2n d)) (dp_data p) d
      /\ t = ascii "UnexpectedDirProperties(UnexpectedDirectoryProperties { filesize: " ++ z ++ ascii ", blocksizes: " ++ bs
             ++ ascii ", hash_type: " ++ h ++ ascii ", fanout: " ++ f ++ ascii ", data: " ++ d ++ ascii " })"
  | RRead e => t = ascii "Read(" ++ protobuf e ++ ascii ")"
  | RLookup e => exists u, lookup_is e u /\ t = ascii "Lookup(" ++ u ++ ascii ")"
  end.
End shown.
