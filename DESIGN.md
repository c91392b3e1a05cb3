# Formal model of ipfs-rust/unixfsv1 in Rocq (Coq 8.16.1)

The development is in `rocq/theories` (logical name `Verif`).  Only the Coq
standard library is used.

## 1. How the code is modelled

* Every Rust function becomes a Gallina function returning an
  `outcome E A := Ok a | Err e | Panic | Diverge`.  `Panic` is an explicit
  value for every `unwrap`, `expect`, `assert!`, `unreachable!`, `todo!`, slice
  index and overflow check; `Diverge` is what fuel-indexed loops return when
  they run out of fuel, and the termination theorems exclude it (`C04_fuel`:
  more fuel never changes the outcome of a parse).
* `&mut` methods return the new state.
* Bytes are `list Byte.byte`; integers are `N`, with 64-bit wrap-around or the
  overflow check written explicitly wherever the code does arithmetic that can
  overflow.  The Boolean `ext_dbg` (or an argument `dbg`) selects a build with
  overflow checks and debug assertions (`true`) or a release build (`false`);
  theorems quantify over both.
* External code is passed in a record `ext` (no axioms): `ext_sha256`,
  `ext_cid_decode`.  Theorems assume `ext_ok` (SHA-256 gives 32 bytes; decoding
  the encoding of a well-formed CID gives it back), and nothing like
  collision freedom unless the statement says so (C50).  `real_ext` is an
  instance written in Gallina (FIPS 180-4 SHA-256 and a CIDv0/v1 decoder), proved
  to satisfy `ext_ok`, and used to replay the repository's own unit tests
  (`Golden*.v`) by computation.
* quick-protobuf 0.8.0 (`BytesReader`, `Writer`, `sizeofs`) is modelled
  explicitly, position based (`start`/`end` cursor over the whole buffer) from
  the published source, because the properties about hostile input live there.
* The std collections are modelled by their sequential semantics: `Vec`,
  `VecDeque`, `BTreeMap` as lists, `HashMap` (builder) as a list of key/value
  pairs whose order no result may depend on (C34), `PathBuf` as a list of bytes
  with the Unix `push`/`pop`/`components` rules.

## 2. Files, in dependency order

| file | content |
| --- | --- |
| `Base.v`, `Tac.v` | outcome monad, integers, bytes; tactics |
| `Wire.v` | quick-protobuf reader / writer / sizeofs |
| `Utf8.v` | `core::str::from_utf8`, char boundaries |
| `Cid.v`, `Sha256.v` | `cid`/`multihash` encodings, `ext`, SHA-256 and the real instance |
| `Pb.v` | `src/pb.rs`, `src/pb/merkledag.rs`, `src/pb/unixfs.rs`, `src/dir/builder/custom_pb.rs` |
| `Dagpb.v` | `src/dagpb.rs`, `src/symlink.rs` |
| `Adder.v` | `src/file/adder.rs` |
| `AdderDebug.v` | Debug text of adders, `benches/adder.rs` |
| `Errors.v` | `UnexpectedNodeType` of `src/lib.rs` |
| `Reader.v`, `Visit.v` | `src/file.rs`, `src/file/reader.rs`, `src/file/visit.rs` |
| `Dir.v` | `src/dir.rs`, `src/dir/directory.rs`, `src/dir/sharded_lookup.rs` |
| `Builder.v` | `src/dir/builder.rs`, `src/dir/builder/{buffered,dir_builder,iter}.rs` |
| `Walk.v` | `src/walk.rs` |
| `SpecWire.v` | what it means for bytes to encode a protobuf message (relational, any field order, unknown fields, sloppy varints) |
| `SpecCanon.v` | the canonical encoding |
| `SpecAdder.v`, `SpecOrder.v` | chunking, the balanced tree; the order of its blocks |
| `SpecFile.v` | file DAGs in a block store, and visits driven by a store |
| `SpecDir.v` | directories and sharded directories in a store |
| `SpecBuilder.v` | maps from paths, the tree they imply, post order |
| `SpecWalk.v`, `SpecBuilt.v` | stored trees and their pre-order listing; walking built trees |
| `Wire_proofs Pb_proofs Codec_proofs Parse_safety Parsed Lax_proofs Overflow_proofs Fuel_proofs Canon_proofs` | codec proofs |
| `SpecOverflow` | specification: the blocks on which parsing overflows |
| `Adder_proofs Adder_thms Order_proofs` | adder |
| `Visit_proofs Visit_thms` | file visits |
| `Dir_proofs` | resolve, sharded lookup |
| `Paths_proofs Builder_proofs Builder_iter Builder_thms Builder_use Cumulative_proofs` | builder |
| `Walk_proofs Walk_sim Walk_steps Walk_thms Walk_safe Built_proofs` | walker |
| `Programs.v`, `SpecPrograms.v`, `Store_proofs Programs_proofs` | `examples/*.rs`: model, specification, proofs |
| `SpecWalkAstray.v`, `Walk_astray`, `SpecRunsAstray.v`, `Runs_astray` | walks and get without debug assertions over any blocks: specification, proofs |
| `SpecRuns.v`, `Runs_proofs` | runs of the programs on any disk: specification, proofs |
| `SpecText.v`, `Text_proofs` | UTF-8: specification, proofs |
| `Listing_proofs`, `Ingest.v`, `SpecIngest.v`, `Ingest_proofs Ingest_tree` | the lines of get; `benches/ingest-tar.rs`: model, specification, proofs |
| `Output.v`, `SpecOutput.v`, `Output_proofs Names_text_proofs` | text on standard output of get and resolve: model, specification, proofs |
| `Messages.v`, `SpecMessages.v`, `Messages_proofs PropertiesMessages` | `Display` of the errors: model, specification, proofs (C75) |
| `SpecEnds Ends_proofs Ends_walk PropertiesEnds` | stores without cycles, their size when unfolded, and termination (C76) |
| `Stderr.v`, `SpecStderr.v`, `Stderr_proofs PropertiesStderr` | what cat, get and resolve write to standard error: model, specification, proofs (C77) |
| `StderrAdd.v`, `SpecStderrAdd.v`, `PropertiesStderrAdd` | what add writes to standard error: model, specification, proofs (C78) |
| `Causes.v`, `PropertiesCauses` | `Error::source` of the errors: model, proofs (C79) |
| `Values.v`, `SpecValues.v`, `PropertiesValues.v` | `Debug` of walkers, visits, lookups, items, nodes and wrapped blocks: model, specification, proofs (C80) |
| `Reserve.v`, `SpecReserve.v`, `Reserve_proofs.v`, `PropertiesReserve.v` | the capacities the adder reserves, and when they overflow (C82) |
| `FileTime.v`, `FileTime_proofs.v`, `PropertiesFileTime.v` | `Metadata::mtime_as_filetime` and the functions of the crate filetime around it (C81) |
| `Pushed_proofs.v`, `PropertiesPushed.v` | C12 and C14 for the blocks pushed so far, finish or no finish |
| `SpecHang.v`, `Hang_proofs.v`, `PropertiesHang.v` | the blocks in which a parser without overflow checks never ends (C04) |
| `Examples_*.v` | concrete stores, trees, histories used as witnesses |
| `Properties*.v` | the property theorems with `Print Assumptions`, non-vacuity examples beside them |
| `Golden*.v` | replay of the repository's unit tests on the model by computation |

The specification files do not use the model's helper functions: they mention the
model only through its data types (messages, Cids, items) and, where a store is
driven, through the API functions.

## 3. Plan per property

* C01, C02, C03: a generic lemma about the generated `while !is_eof` loop over a
  list of wire items; round trip for every value; `get_size = length`.
* C04: with overflow checks the parser always terminates (fuel bound = length);
  C04_exact/C05_exact: the exact set of blocks it panics on (SpecOverflow.v),
  by inverting and replaying the reading loop;
  refuted: the unchecked `start += len` of `read_unknown` panics (debug) or
  loops forever (release).
* C05: `node_data` = Data field; `wrap_node_data` refuted on `0a00`, proved
  whenever Data is not an empty slice at the end of the block.
* C06–C14: adder state machine; invariant over every push history; refinement
  to the canonical balanced tree; C13 refuted for branching factor 1.
* C15–C18, C20, C23, C24, C46: visitor/reader state machine against an inductive
  `file DAG` specification; induction over the DAG.
* C19, C21, C22: the natural claims are refuted with witnesses; proved: which size
  is reported when (C19_exact), truthful blocks (C21_truthful), the exact panics.
* C25–C29: resolve and sharded lookup against a spec of HAMT trees; C29 refuted,
  exact characterisation of the panics.
* C30–C38: tree builder; refinement of `put_link` to a map from paths, iterator
  state machine versus recursive post-order specification; C36, C37 refuted.
* C39–C43, C47: Walker versus recursive pre-order specification by simulation;
  the panicking shapes are refutations, everything else is proved.
* C44: symlink block round trip, also through the walker.
* C45: refuted (unknown type values decode as Raw); the type of every accepted block
  (C45_exact) and what walks refuse (C45_walk) are exact.
* C48: canonical encodings specified separately; uniqueness and the writers
  produce them.
* C49: converse of C03 by inverting the parser's loop; refuted for builds without
  overflow checks.
* C50: two stores that both satisfy "Cid = hash of block" agree where they overlap
  unless a SHA-256 collision is exhibited; then the specifications of reading,
  walking and looking up only depend on the root Cid.
* C51: a relational specification of each call's answer (SpecFileSteps.v), shown
  to be functional and to agree with the code at every reachable state.
* C52: the same for walks (SpecWalkSteps.v): places instead of depths and path
  buffers; a relation between the states of the specification and of the code is
  kept by every call. C41_exact follows from it.
* C53: the same for name lookups (SpecLookupSteps.v): the loop over the links keeps
  "no link so far ends the search". C29_exact follows from it.

* C54-C60 (the example programs, Programs.v): C54 by unique readability of base 32
  numbers; C55, C56, C58, C59 run the loops of the programs along the executions
  that C16, C12, C25/C27 and C39 provide, reading blocks through C54; C57 by
  induction on strings; C60 from C57 and C58.

* C61: the state after a session is known (C06); finish is computed from it.
* C62, C63 (Ingest.v, benches/ingest-tar.rs): each entry of an archive is shown to be
  one call of the tree builder, by running the adder along the session its reads make
  (the reused buffer is a parameter of the induction); then C30-C36 tell the last node,
  and the stored tree of C43 is shown to have the members of the archive. Read back
  through C55, C58 and C59.
* C64: UTF-8 by code points (SpecText.v); the check decodes one character at a time,
  induction on the length. The first byte of a character is never a continuation byte,
  all others are, which gives uniqueness and the boundaries.
* C65: the nodes in iteration order are a permutation of the directories of the tree,
  the accepted links one of its leaves (both without repetition); the recursive size
  is the sum over both.
* C66: the state of the adder as a function of the complete chunks (used for C09) gives
  the pushed blocks; finish adds whole levels (`upper`, one rule per level).
* C67, C68: AdderDebug.v models the formatter and the benchmark loop; the adder state of
  C66 gives the text, C06 that every push of the benchmark takes one byte.
* C71: as C01-C03, for the outer and the inner message separately.
* C72: as C52, over a state that carries the path of the last item as the texts between its slashes; path pops and pushes are proved to be `up` and `down` of SpecWalkAstray.v for all written paths, and an invariant bounds the number of possible steps up by the level.
* C73: number formatting, escapes and alignment of core::fmt as functions; against a relation giving the layout of a line; unambiguity by showing that each column can be split off. Which characters above the control characters are printed as they are (tables of core) is left open. An invariant of walks (all names kept are text, pops and pushes keep paths text) gives the text of paths.
* C74: the walk of resolve.rs with the lines it prints; the text of Cids (crate cid) is any text without spaces and control characters, the capacity shown for a cache any number.
* C75: `Display` of all errors of the crate, with the `Debug` implementations it uses; text from quick_protobuf and cid is a parameter. All names in errors are shown to be text (valid UTF-8), so the escaping of `{:?}` applies; injectivity by splitting at separators. `SpecMessages.v` spells out every message with its numbers and names; `C75_says_*` show that the errors that occur have them.
* C76: `unfolded` counts the blocks below a Cid; a finite store without cycles gives one number per Cid (well-founded induction). Each step of a visit, walk or lookup replaces the first awaited Cid by some of the links of its block (from the exact step specifications in `SpecFileSteps SpecWalkSteps SpecLookupSteps`), so the number awaited decreases. For the programs the fuel of their model is shown to be enough when it is that number; `parsable` (parsing itself ends) is C04 in builds with overflow checks. `C76_amplified` builds the exponential stores for any depth and width.
* C77: the lines on standard error follow from the result of a run (`cat_says get_says resolve_says`, with the runs of `SpecRuns.v`); the lines resolve writes while reading are those of `told`, an inductive relation over the same step specifications as `path_on`. `C77_reads` compares two disks that agree on the announced blocks, for every fuel. Control characters: every error that a program can print comes from a call of the library, so C75's lemmas apply; the segments printed without quotes are followed back to the argument.
* C78: the state of the adder when the input ends is `state_ok` of the bytes read (the invariant behind C09), whose Debug text is C67's; the report is C56's. Times, rates (floating point) and the capacity of the buffer are parameters.
* C79: the errors that a call can end with, by cases of the call: those of a parsed block carry no protobuf error, the others are the conversions of the parse error.
* C80: SpecValues.v describes the text by names of fields and quoted/numeric parts (from SpecText.v and SpecMessages.v). That names are valid UTF-8 comes from the walk (the links' names parse), from the call (`text needle`, `&str` paths).
* C04, never ending: SpecHang.v says where reading goes from a position, field by field, positions being numbers modulo 2^64; a message hangs if reading comes back to a position, or (for nodes and UnixFS messages) gets to an embedded message that hangs. Proved from the loop's fuel (C04_fuel) by the pigeonhole principle.
* C81: mtime_as_filetime for any metadata, with the platform and the build profile as parameters; what is parsed fits an i64 (invariant of the parsing loops). `FileTime::from_unix_time`, `unix_seconds` and `nanoseconds` of the dependency filetime are modelled from its documentation, not from source.
* C82: push and finish of the model preceded by the tests `Vec::reserve` makes (more than isize::MAX bytes: panic); the state invariant of C06 says when a chunk is complete; without room for the links there is never a complete chunk, so that the branching factor needs no bound.
* C70: SpecRuns.v describes the runs of the programs by the step relations of C51-C53; by induction on the number of blocks read, and back by induction on the description.
* C69: Errors.v; which blocks are refused for their type, read off the two parsers.

None of the properties is considered inexpressible.

## 4. Where the code does not do what a user would expect

Each is a theorem (`..._refuted`) with a concrete witness.

* C04/C05: an 11 byte block makes the parser overflow (panic in debug builds, endless loop in release builds); `wrap_node_data` panics on an empty Data field at the end of a block.
* C06: chunk size 0 is accepted by the API and every push panics.
* C13: `finish` does not return for branching factor 1 and more than one chunk.
* C19: `FileVisit::file_size()` is the size of the block visited last.
* C21, C22: sizes of malformed DAGs are not validated; four kinds of blocks panic file reading.
* C29: a shard link name whose third byte is inside a UTF-8 character panics the lookup.
* C30: the empty path is accepted; `set_metadata` of the only root directory is refused once it has entries (without wrapping). C33: total sizes overflow.
* C36: polling after `TooLargeBlock` can panic. C37: directory metadata is never written.
* C39: a HAMT bucket directly after a plain directory panics the walker. So does, with debug assertions, an entry called "." below another one.
* C41: eight kinds of blocks the walker panics on: empty names, names with a slash, short or non-boundary shard link names, a file without size, an unparsable later file block, a bucket link to a file, "." below a directory.
* C42: buckets directly following a sharded root carry the root's Cid.
* C43: a tree with something at the empty path cannot be walked at all (C43_empty_root), one with entries called "." below others ("a/./b"; "." at the front is fine) only up to the first of them.
* C45: unknown UnixFS types are decoded as Raw.
* C56: add prints the same Cid twice (as "… or …"; the second is the version 1 form of the first, which already is one).
* C57: `<cid>/ipfs/x` is refused although `/ipfs/<cid>/ipfs/x` is fine; "/ipfs/" alone is reported as an invalid Cid, not as an invalid path as the comment in the code says.
* C59: get panics on a symlink target that is not UTF-8. C60: resolve exits with 0 for names that are not there.
* C61, C62: finish returns nothing for content of exactly one chunk, so that a caller that takes its last block for the root, like ingest_tar, panics on files of exactly 262144 bytes.
* C63: an archive with an entry "a/./c" is ingested without complaint into a tree that get and walks panic on. Hard links become symbolic links.
* C66: contrary to the picture in adder.rs 440-490, push never returns link blocks above the lowest level; their links pile up until finish.
* C67: links waiting for finish grow linearly with the content (the slowdown reported in benches/adder.rs).
* C69: the error of resolve on a Raw block says that it is no file, although visits read it.
* C74: resolve writes its "cache …" and "got lucky …" messages to standard output, before the Cid (the usage message says that the final Cid is written there).
* C72: in builds without debug assertions a directory with an entry called "." makes the walker report later paths wrongly ("b" for "a/b") and panic at the next entry further up; the debug assertion in set_path that would catch this is compiled out.
* C71: `UnixFs::try_from(&PBNode)` accepts a node without data, as an empty Raw node, which FlatUnixFs refuses.
* C70: the example programs do not check blocks against their Cids; get prints lines for ever on a store whose block for a Cid is a directory with that Cid in it.
* C49: a build without overflow checks accepts a block that encodes nothing.

## 5. Trusted base

* Coq's kernel (vcheck also runs coqchk).
* `Print Assumptions` stands under each property theorem and says "Closed under
  the global context" for every one of them: no axioms are used, not even the
  standard library's.  (The seven `Coq.ssr.ssrunder.Under_rel.*` entries a
  whole-library scan lists are fields of a module type of the standard
  library's ssreflect, loaded by the `lia`/`ssr` preludes; no theorem uses them.)
* The reading of the Rust code: each definition cites the lines it models.
* The models of quick-protobuf 0.8.0, `cid` (libipld 0.14), `multihash` 0.16, `std` (`Vec`,
  `VecDeque`, `BTreeMap`, `HashMap`, `PathBuf`, `str`), whose sources are not in
  `/repo`; written from their published behaviour.  For the examples also `multibase`
  (base 32), `std::fs` (a function from paths to file contents that does not
  change while a program runs) and the parsing of Cids from text (any function).

Modelled: all of `src/pb.rs`, `src/pb/*.rs`, `src/dagpb.rs`, `src/symlink.rs`,
`src/file.rs`, `src/file/{adder,reader,visit}.rs`, `src/dir.rs`,
`src/dir/{directory,sharded_lookup}.rs`, `src/dir/builder.rs`,
`src/dir/builder/*.rs`, `src/walk.rs`, `examples/*.rs`, `ingest_tar` of
`benches/ingest-tar.rs`, as far as results, errors, panics and
state are concerned.

Not modelled: `Debug` of `Cache`, `PBLink`, entries and leaves of the tree builder, collectors, chunkers and options, and of any type with the alternate flag; sources of the errors of other crates; allocation failure and, except for the adder's buffers (C82), `reserve` and `with_capacity`; the depth of the stack (dropping a tree of very deep directories recurses); the tests,
the rest of `benches/` (criterion, the tar format: an archive is a list of entries),
`src/test_support.rs`, the messages of panics, the
timing and memory statistics of add; buffers are unbounded, i.e. `usize` is 64
bits and no `Vec` reaches 2^63 bytes.  Simplifications of single functions are
named in the comments of their definitions.

## 6. Testing the theorems against wrong programs

`seeded/LOG.jsonl` has one line per wrong program.  In a copy of the development
one model definition is edited; then every file is rebuilt with failing proofs
admitted, and a property counts as failed when its proof (transitively) contains
such a proof.  `seeded/AUTO.jsonl` has the results for mutants made by
mechanical edits of the model.
