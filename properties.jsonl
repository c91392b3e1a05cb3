{"id": "C01", "title": "dag-pb/UnixFS encode-parse round trip", "statement": "Serialising any FlatUnixFs value (links with optional Hash/Name/Tsize, UnixFS data with type, optional data, filesize, blocksizes, hashType, fanout, mode, mtime) and parsing the bytes with FlatUnixFs::try_parse gives back exactly the same value.", "quantifier": "every FlatUnixFs value whose integers fit their protobuf types, whose names are valid UTF-8 and whose nested messages are shorter than 2^32 bytes", "why_tests_cant": "the value space (arbitrary link lists, arbitrary byte strings, every 64-bit integer) is unbounded; the unit tests parse a handful of fixed hex literals", "anchors": ["src/pb.rs: FlatUnixFs, MessageWrite::write_message, TryFrom<&[u8]>", "src/pb/merkledag.rs", "src/pb/unixfs.rs"]}
{"id": "C02", "title": "Announced message size equals bytes written", "statement": "For every message the crate writes (PBLink, PBNode, UnixFs, UnixTime, FlatUnixFs, and the directory node of the tree builder) get_size() is exactly the number of bytes write_message produces; in particular every nested length prefix is right.", "quantifier": "every message value", "why_tests_cant": "a wrong size for a single varint width or one optional field only shows on values with that width/field combination", "anchors": ["src/pb.rs: FlatUnixFs::get_size", "src/pb/merkledag.rs: get_size", "src/pb/unixfs.rs: get_size", "src/dir/builder/custom_pb.rs: get_size"]}
{"id": "C03", "title": "Parsing is insensitive to field order and to unknown fields", "statement": "A dag-pb block whose fields appear in any order and are interleaved with unknown well-formed fields parses to the links in order of appearance and the last Data value; the same holds for the fields inside UnixFS data and inside links.", "quantifier": "every sequence of well-formed known and unknown fields", "why_tests_cant": "there are infinitely many interleavings; tests only contain canonical blocks", "anchors": ["src/pb/merkledag.rs: PBNode::from_reader, PBLink::from_reader", "src/pb/unixfs.rs: Data::from_reader, UnixTime::from_reader"]}
{"id": "C04", "title": "Parsing arbitrary bytes: which blocks make it panic, and in which it never ends", "statement": "With overflow checks FlatUnixFs::try_parse always returns or panics, and it panics on exactly the blocks in which the length of an unknown length-delimited field, met while reading the node, its links or the UnixFS data, makes the position overflow. Without overflow checks it never panics, and returns the same as with them on all blocks but these; on these it ends if and only if reading, whose position wraps around, never comes back to a position it has left. (That it returns Ok or Err on every block is refuted by C04_parse_total_refuted: an 11 byte block panics with the checks and loops forever without.)", "quantifier": "every byte string below 4 GiB, in builds with and without overflow checks", "why_tests_cant": "hostile inputs are unbounded; tests have no malformed dag-pb blocks", "anchors": ["src/pb.rs: FlatUnixFs::try_parse", "src/pb/merkledag.rs", "src/pb/unixfs.rs", "Cargo.lock: quick-protobuf 0.8.0"]}
{"id": "C05", "title": "dagpb accessors expose exactly the Data field", "statement": "dagpb::node_data returns d if and only if the block encodes a PBNode with Data field d (none if absent). wrap_node_data(block).node_data() equals that (empty when absent) and get_ref/into_inner give back the block unchanged; wrap_node_data fails exactly when node_data does, and panics exactly when the parser overflows (C04) or the block ends in an empty Data field. (That it fails only on blocks which are not dag-pb is refuted by C05_wrap_node_data_refuted.)", "quantifier": "every dag-pb block", "why_tests_cant": "slice position arithmetic must be right for every position and length of the Data field, including at the very end of the block", "anchors": ["src/dagpb.rs: node_data, wrap_node_data, subslice_to_range, NodeData"]}
{"id": "C06", "title": "push consumes a well defined, non-zero prefix", "statement": "FileAdder::push(input) consumes exactly min(len(input), chunk_size - buffered) bytes; so for non-empty input it always makes progress, and never panics, whenever the chunk size is positive.", "quantifier": "every reachable adder state, every input slice, every chunk size", "why_tests_cant": "needs to hold after every possible history of pushes", "anchors": ["src/file/adder.rs: FileAdder::push, Chunker::accept"]}
{"id": "C07", "title": "Chunking does not depend on how the input is sliced", "statement": "Pushing the same content in any sequence of slices (re-pushing what was not consumed) and finishing yields exactly the same sequence of blocks and Cids.", "quantifier": "every content, every slicing of it, every chunk size and branching factor", "why_tests_cant": "the number of slicings is exponential in the content length; the tests try 31 fixed slice sizes on one string", "anchors": ["src/file/adder.rs: FileAdder::push, FileAdder::finish, Chunker::accept"]}
{"id": "C08", "title": "push returns at most two blocks", "statement": "Each call of FileAdder::push returns at most two new blocks: at most one leaf followed by at most one link block.", "quantifier": "every reachable adder state and input", "why_tests_cant": "documented guarantee over every history of pushes", "anchors": ["src/file/adder.rs: FileAdder::push, BalancedCollector::flush_links"]}
{"id": "C09", "title": "The adder builds the canonical balanced tree, root last", "statement": "All blocks of the push calls followed by finish are exactly the blocks of the balanced tree obtained by cutting the content into chunk_size pieces and repeatedly grouping branching_factor consecutive nodes until one is left; every leaf is at the same depth, every non-last node of a level is full, and the root is the last block returned.", "quantifier": "every content, chunk size >= 1, branching factor >= 2, slicing", "why_tests_cant": "tree shapes at group boundaries (n, n*b, n*b+1, b^k+1 ...) for all sizes cannot be enumerated", "anchors": ["src/file/adder.rs: BalancedCollector::flush_links, FileAdder::finish"]}
{"id": "C10", "title": "Adder sizes are consistent", "statement": "In every block of an added file, filesize is the number of content bytes below it, blocksizes lists the content sizes of its children in order and sums to filesize, and each link's Tsize is the total encoded size of the linked subtree.", "quantifier": "every content and configuration", "why_tests_cant": "invariant over all tree shapes", "anchors": ["src/file/adder.rs: BalancedCollector::flush_links, partition_link, flush_buffered_leaf"]}
{"id": "C11", "title": "Blocks are identified by their hash", "statement": "Every (Cid, block) pair returned by FileAdder and every node returned by the directory builder has Cid = CIDv1(dag-pb, sha2-256(block)).", "quantifier": "every emitted block in every run", "why_tests_cant": "must hold for each emitted block of unboundedly many runs", "anchors": ["src/file/adder.rs: render_and_hash", "src/dir/builder/iter.rs: render_directory"]}
{"id": "C12", "title": "Blocks are emitted children first", "statement": "At any point of adding a file (i.e. after any prefix of the emitted blocks), every link of every emitted block points to a block emitted earlier; so a crash between two blocks never leaves a stored block with a dangling link.", "quantifier": "every content, slicing and crash point (prefix of the emitted blocks)", "why_tests_cant": "quantifies over every prefix of every run", "anchors": ["src/file/adder.rs: FileAdder::push, finish, flush_links"]}
{"id": "C13", "title": "finish terminates exactly when the tree can be narrowed down to a root", "statement": "FileAdder::finish returns if and only if the branching factor is at least two or the content fits one chunk. (That it returns for every accepted factor, i.e. also for 1, is refuted by C13_finish_terminates_refuted: it then never returns.)", "quantifier": "every reachable adder state, every branching factor > 0", "why_tests_cant": "termination for every size", "anchors": ["src/file/adder.rs: BalancedCollector::flush_links, with_branching_factor"]}
{"id": "C14", "title": "Leaf and fan-out limits", "statement": "No leaf block carries more than chunk_size bytes of content and no link block has more than branching_factor or fewer than one link.", "quantifier": "every content and configuration", "why_tests_cant": "bound over all blocks of all runs", "anchors": ["src/file/adder.rs: Chunker::accept, flush_links"]}
{"id": "C15", "title": "Reading back an added file returns its bytes", "statement": "Walking the tree produced by FileAdder with IdleFileVisit/FileVisit over any block store holding the emitted blocks succeeds and the concatenated slices are exactly the original content.", "quantifier": "every content, chunk size, branching factor (>= 2) and every store that returns the emitted blocks", "why_tests_cant": "the composition of encoder, tree builder and traversal over all sizes", "anchors": ["src/file/visit.rs: IdleFileVisit::start, FileVisit::continue_walk", "src/file/reader.rs", "src/file/adder.rs"]}
{"id": "C16", "title": "Any well-formed file tree is read in full", "statement": "For every UnixFS file tree, of any shape (balanced, trickle, mixed File/Raw leaves) whose sizes are consistent, the visit returns the concatenation of the leaves in order.", "quantifier": "every well-formed file DAG", "why_tests_cant": "unbounded tree shapes", "anchors": ["src/file/visit.rs", "src/file/reader.rs: FileReader, Ending::check_is_suitable_next"]}
{"id": "C17", "title": "A range visit returns exactly the requested bytes", "statement": "with_target_range(a..b) makes the visit return exactly the bytes of the file at offsets in [a, b), clipped to the file size, for every range (including empty, inverted and out-of-bounds ones).", "quantifier": "every well-formed file DAG and every pair a, b", "why_tests_cant": "the code itself says 'FIXME: these must have bugs'; all alignments of ranges against all block boundaries cannot be tested", "anchors": ["src/file/visit.rs: with_target_range, block_is_in_target_range, target_slice"]}
{"id": "C18", "title": "A range visit only loads blocks touching the range", "statement": "During a visit with a target range every block asked for via pending_links covers a file range that overlaps or touches the target range.", "quantifier": "every DAG and every range", "why_tests_cant": "quantifies over all visits", "anchors": ["src/file/visit.rs: block_is_in_target_range, FileVisit::pending_links"]}
{"id": "C19", "title": "Which file size is reported", "statement": "IdleFileVisit::start reports the size told by the root block, which is the total size of the file; FileVisit::file_size() is at every point of a visit the size told by the block visited last. (That it stays the total size is refuted by C19_file_size_refuted.)", "quantifier": "every sequence of blocks and every point of the visit; the total size for every multi-block file", "why_tests_cant": "must hold at each step of each visit", "anchors": ["src/file/visit.rs: FileVisit::file_size", "src/file/reader.rs: Traversal::file_size, FileReader::from_parts"]}
{"id": "C20", "title": "Untrusted file trees: accepted leaves are contiguous", "statement": "If a visit without target range over arbitrary (possibly hostile) blocks runs to completion without an error, the file ranges claimed by consecutive leaves are contiguous starting from zero: no gaps, no overlaps, no reordering.", "quantifier": "every sequence of blocks whatsoever", "why_tests_cant": "hostile trees cannot be enumerated", "anchors": ["src/file/reader.rs: Ending::check_is_suitable_next", "src/file/visit.rs: FileVisit::continue_walk"]}
{"id": "C21", "title": "A completed visit over truthful blocks yields as many bytes as the file size says", "statement": "If a visit over arbitrary blocks completes without error, and the blocks told their sizes truthfully (each leaf the number of its bytes, each other block the sum of the sizes of its links, each block the size its parent told), then exactly as many bytes as the reported file size were returned. In general the bytes are those of the leaves at the offsets their parents claim, and the sizes are not checked (C21_sizes_refuted: a completed visit may return another number of bytes).", "quantifier": "every sequence of blocks", "why_tests_cant": "hostile trees cannot be enumerated", "anchors": ["src/file/visit.rs", "src/file/reader.rs"]}
{"id": "C22", "title": "Exactly which blocks make file reading panic", "statement": "IdleFileVisit::start and FileVisit::continue_walk panic on a block exactly if the parser does (C04), if it is a file block without links and without a file size, if (with overflow checks) the ranges it implies overflow 64 bits, or, in the middle of a visit with a target range, if a leaf holds fewer bytes than the range asks of it. (That untrusted input never panics is refuted by C22_no_filesize_refuted, C22_short_leaf_refuted, C22_empty_pending_refuted and C22_overflow_refuted.)", "quantifier": "every byte string given as a block, at every point of every visit, every target range", "why_tests_cant": "hostile inputs are unbounded", "anchors": ["src/file/reader.rs: from_parts", "src/file/visit.rs: target_slice, pending_links"]}
{"id": "C23", "title": "Only the root of a file may carry metadata", "statement": "A visit reports the mode and mtime of the root block, keeps them during the whole visit, and rejects every non-root block which sets mode or mtime.", "quantifier": "every visit over arbitrary blocks", "why_tests_cant": "quantifies over all blocks", "anchors": ["src/file/reader.rs: from_continued", "src/lib.rs: Metadata"]}
{"id": "C24", "title": "Caches never change results", "statement": "Passing any Cache obtained from earlier (finished or failed) operations instead of None changes neither the result of file visits, walks nor of resolving.", "quantifier": "every history of operations sharing a cache", "why_tests_cant": "quantifies over histories", "anchors": ["src/file/visit.rs: Cache", "src/dir/sharded_lookup.rs: Cache", "src/walk.rs: Walker::next"]}
{"id": "C25", "title": "resolve on a plain directory finds exactly the named link", "statement": "resolve(block, needle) on a supported UnixFS Directory or a dag-pb node without UnixFS data returns Found(cid) iff exactly one link has that name (and its hash is a valid Cid, which is returned), NotFound iff none has it, and a Multiple error iff at least two have it and the first is valid.", "quantifier": "every block and needle", "why_tests_cant": "arbitrary link lists", "anchors": ["src/dir.rs: resolve, try_convert_cid, MultipleMatchingLinks"]}
{"id": "C26", "title": "resolve classifies every block", "statement": "resolve treats HAMT shards, directories, plain dag-pb and other UnixFS nodes by type: unsupported directory or shard properties, files/symlinks/metadata and non dag-pb blocks give the corresponding error and never a wrong answer.", "quantifier": "every byte string", "why_tests_cant": "all combinations of optional properties", "anchors": ["src/dir.rs: resolve", "src/dir/directory.rs: check_directory_supported", "src/dir/sharded_lookup.rs: check_supported"]}
{"id": "C27", "title": "HAMT lookup is sound and complete", "statement": "Driving resolve/ShardedLookup over a sharded directory finds the entry's Cid if the sharded tree contains an entry with that name (exactly once), and answers NotFound if it contains none.", "quantifier": "every well-formed sharded directory of any depth, every needle", "why_tests_cant": "unbounded shard trees", "anchors": ["src/dir/sharded_lookup.rs: lookup_or_start, continue_walk, partition"]}
{"id": "C28", "title": "HAMT lookup visits each bucket at most once", "statement": "The lookup terminates after loading at most as many blocks as the sharded directory has buckets, in breadth first order.", "quantifier": "every well-formed sharded directory", "why_tests_cant": "termination over unbounded trees", "anchors": ["src/dir/sharded_lookup.rs: continue_walk, pending_links"]}
{"id": "C29", "title": "Exactly which blocks make resolve panic", "statement": "resolve and ShardedLookup::continue_walk panic on exactly the blocks on which the parser panics (C04) and those with a link name, before any match, whose third byte lies within a UTF-8 character; on all others they return Ok or Err, but for those on which the parser does not return. (That they never panic is refuted by C29_refuted.)", "quantifier": "every byte string and needle, at every point of a lookup", "why_tests_cant": "hostile inputs are unbounded", "anchors": ["src/dir.rs: resolve", "src/dir/sharded_lookup.rs: partition"]}
{"id": "C30", "title": "The tree builder behaves like a map from paths to links", "statement": "put_link/set_metadata accept exactly the paths that are well formed (not rooted, no repeated slash, no trailing slash; the empty path counts as one empty name), do not collide with an existing entry (set_metadata: an existing leaf) or go through an existing leaf, and respect the single-root rule; every other call returns the error naming the first reason; after any sequence of calls the tree holds exactly the accepted leaves and the directories they imply.", "quantifier": "every sequence of put_link and set_metadata calls", "why_tests_cant": "quantifies over operation histories", "anchors": ["src/dir/builder/buffered.rs: modify_with, put_link, set_metadata", "src/dir/builder/dir_builder.rs"]}
{"id": "C31", "title": "A failed put leaves the tree unchanged", "statement": "When put_link or set_metadata returns an error, the tree that is eventually built is the same as if the call had not been made.", "quantifier": "every operation history and failing call", "why_tests_cant": "the code says 'FIXME: there might be a case where we have now stale nodes'; quantifies over histories", "anchors": ["src/dir/builder/buffered.rs: modify_with"]}
{"id": "C32", "title": "build emits each directory once, children before parents", "statement": "Iterating the PostOrderIterator yields exactly one node per directory (plus the wrapping root iff requested), each with its full path, and every directory after all of its subdirectories.", "quantifier": "every tree built by any history of calls", "why_tests_cant": "unbounded trees", "anchors": ["src/dir/builder/iter.rs: PostOrderIterator::next_borrowed, update_full_path"]}
{"id": "C33", "title": "Directory blocks list their entries sorted, with right Cids and sizes", "statement": "The block of each directory parses as a UnixFS Directory whose links are its entries in strictly increasing byte order of names, each with the Cid and total size of the entry; total_size of a directory is its block size plus the total sizes of its entries (whenever that fits in a u64).", "quantifier": "every tree", "why_tests_cant": "unbounded trees", "anchors": ["src/dir/builder/iter.rs: render_directory, partition_children_leaves", "src/dir/builder/custom_pb.rs"]}
{"id": "C34", "title": "Insertion order does not matter", "statement": "Two builders which accepted the same links (and metadata calls) in a different order build exactly the same blocks.", "quantifier": "every pair of accepted histories with the same set of links", "why_tests_cant": "factorially many orders", "anchors": ["src/dir/builder/buffered.rs", "src/dir/builder/dir_builder.rs", "src/dir/builder/iter.rs"]}
{"id": "C35", "title": "The block size limit is enforced exactly", "statement": "With a block size limit no emitted block exceeds it, and TooLargeBlock(size) is returned exactly for the directories whose block would be size > limit bytes.", "quantifier": "every tree and limit", "why_tests_cant": "quantifies over all trees and limits", "anchors": ["src/dir/builder/iter.rs: render_directory"]}
{"id": "C36", "title": "Exactly when the iterator panics after an error", "statement": "Polling a PostOrderIterator on, also after errors, panics at some point if and only if the block of a directory with a parent is larger than the limit. (That the iterator can always be polled after TooLargeBlock is refuted by C36_refuted: the parent of the failed directory is not there to be linked.)", "quantifier": "every tree and limit", "why_tests_cant": "quantifies over all trees", "anchors": ["src/dir/builder/iter.rs: next_borrowed"]}
{"id": "C37", "title": "Directory metadata is never written", "statement": "The mode and mtime given to set_metadata are accepted or refused according to the path only: no emitted block has any metadata, and the values never influence blocks or results. (That they appear in the directory's block is refuted by C37_refuted.)", "quantifier": "every tree and metadata", "why_tests_cant": "relates API input to encoded output for all values", "anchors": ["src/dir/builder/buffered.rs: set_metadata", "src/dir/builder/iter.rs: render_directory"]}
{"id": "C38", "title": "Built trees resolve", "statement": "For every link put in a builder, resolving its path segment by segment over the built blocks arrives at the link's Cid.", "quantifier": "every accepted history and every put path", "why_tests_cant": "composition of builder, encoder and resolver over unbounded trees", "anchors": ["src/dir/builder", "src/dir.rs: resolve"]}
{"id": "C39", "title": "The walk enumerates the tree in pre-order with right paths", "statement": "Driving a Walker over a well-formed UnixFS tree yields each directory, file and symlink exactly once, in depth first pre-order, with its Cid, full path and metadata; the walk terminates and should_continue() becomes false exactly at the end. There are two exceptions: the walk panics instead of returning the first bucket that directly follows a plain directory, and in builds with debug assertions it panics instead of returning the first item with a name \".\" in its path, other than as the first one; in builds without them it returns that item, and what follows is that of C72. (That there is no exception is refuted by C39_refuted and C43_dot_refuted.)", "quantifier": "every well-formed tree of directories, sharded directories, files and symlinks", "why_tests_cant": "unbounded trees", "anchors": ["src/walk.rs: Walker::next, InnerEntry::set_path, convert_link, convert_sharded_link"]}
{"id": "C40", "title": "File segments of a walk concatenate to the file", "statement": "During a walk the segments of each file come consecutively, the first is marked is_first, the last is_last, and their bytes concatenate to the file's content; the reported size is the file's size.", "quantifier": "every file in every well-formed tree", "why_tests_cant": "unbounded trees", "anchors": ["src/walk.rs: Walker::next, FileSegment"]}
{"id": "C41", "title": "Exactly which blocks make Walker::next panic", "statement": "Walker::next panics on a block exactly if the parser does (C04), if the file visit it starts or continues does (C22), if the last unusable link of a directory or shard is one which cannot be named (no name, an empty name, a name with a slash, or split within a character), if a bucket directly follows a plain directory, or, with debug assertions, if the type does not fit the expected place or the path. pending_links never panics while should_continue(). (That untrusted blocks never panic is refuted by C41_refuted and C39_refuted.)", "quantifier": "every sequence of byte strings given as blocks, every root name without slash, builds with debug assertions (without them: C72)", "why_tests_cant": "hostile inputs are unbounded", "anchors": ["src/walk.rs"]}
{"id": "C42", "title": "Which Cid bucket items carry", "statement": "ContinuedWalk::Bucket reports the Cid of the bucket block that was just processed, except while nothing but buckets followed the sharded root of the walk: these report the Cid of the root. (That there is no exception is refuted by C42_refuted.)", "quantifier": "every walk over any blocks", "why_tests_cant": "all shapes of sharded trees", "anchors": ["src/walk.rs: InnerEntry::as_bucket"]}
{"id": "C43", "title": "Built trees walk back to their entries", "statement": "Walking a tree built by BufferingTreeBuilder (over a store with the emitted blocks and the linked files) yields exactly the implied directories and the put files under their paths with their contents, as far as C39 goes: up to the first path with a name \".\" that is not its first. If something was put at the empty path, the first call of every walk from the root panics (unless the root was dropped by not wrapping). (That accepted histories always give trees that can be walked is refuted by C43_refuted and C43_dot_refuted.)", "quantifier": "every accepted history, every emitted directory as the start of the walk", "why_tests_cant": "composition over unbounded trees", "anchors": ["src/dir/builder", "src/walk.rs", "src/file"]}
{"id": "C44", "title": "Symlink blocks round trip", "statement": "serialize_symlink_block appends exactly one block to the buffer, and walking that block yields a Symlink item with exactly the given target and no metadata.", "quantifier": "every target string shorter than 2^31 bytes and every initial buffer", "why_tests_cant": "arbitrary strings", "anchors": ["src/symlink.rs: serialize_symlink_block", "src/walk.rs: Walker::next"]}
{"id": "C45", "title": "Which UnixFS types are refused", "statement": "The type of a block is the last type value encoded in it, modulo 2^32, where everything besides the six defined values counts as Raw. A walk refuses a block as UnsupportedType if and only if its type is Metadata (unless in the middle of a file, where it fails otherwise). (That undefined types are refused is refuted by C45_unknown_type_refuted: they are read as files.)", "quantifier": "every block, every point of every walk", "why_tests_cant": "2^32 type values", "anchors": ["src/walk.rs: Error::UnsupportedType", "src/pb/unixfs.rs: From<i32> for DataType"]}
{"id": "C46", "title": "pending_links lists exactly what will be needed", "statement": "At every point of a walk or visit the first link of pending_links is the block next() must be given, and the remaining ones are exactly the known blocks to be asked for later, in the order in which they will be needed.", "quantifier": "every point of every walk", "why_tests_cant": "quantifies over all walk states", "anchors": ["src/walk.rs: Walker::pending_links", "src/file/visit.rs: FileVisit::pending_links"]}
{"id": "C47", "title": "Walk items carry what their block says", "statement": "Every item next() returns has the metadata, file size, symlink target or content bytes of the block it was given and, but for buckets and later file segments, the Cid that pending_links asked for; directories and shards of unsupported shapes are never reported.", "quantifier": "every walk over arbitrary blocks, every block given to next()", "why_tests_cant": "quantifies over all walk states and block contents", "anchors": ["src/walk.rs: Walker::next, Entry, ContinuedWalk"]}
{"id": "C48", "title": "Written blocks are in canonical form", "statement": "Every block the crate writes (files, directories, symlinks) is the one canonical encoding of its message: all links before the data, the fields of each message in order, every varint as short as possible. Equal messages therefore always give equal bytes and equal Cids.", "quantifier": "every message within the format's ranges", "why_tests_cant": "Golden tests compare a few blocks; the property is about every message", "anchors": ["src/pb/merkledag.rs", "src/pb/unixfs.rs", "src/dir/builder/custom_pb.rs: CustomFlatUnixFs", "src/symlink.rs: serialize_symlink_block"]}
{"id": "C49", "title": "Parsing accepts exactly the encodings", "statement": "With overflow checks, a block is parsed to a message if and only if the block is a protobuf encoding of it (the only leniency being that varints wider than their field are truncated), and it is reported as having no UnixFS data if and only if it encodes a node without any. Without overflow checks every encoding is parsed to its message as well, and all blocks on which the checks do not fail give the same. (That builds without checks accept nothing else is refuted by C49_release_refuted.)", "quantifier": "every block below 4 GiB", "why_tests_cant": "The converse of decoding ranges over all byte strings: no set of malformed samples shows that every malformed block is rejected", "anchors": ["src/pb.rs: FlatUnixFs::try_parse", "src/pb/merkledag.rs", "src/pb/unixfs.rs"]}
{"id": "C50", "title": "The root Cid vouches for everything below it", "statement": "If all blocks handed in were checked against their Cids then, SHA-256 collisions aside, reading a file, walking a tree or looking up a name from a given root Cid can only return what was stored under that Cid (or stop early for missing blocks), whoever supplied the blocks; two trees with the same root Cid are equal, and two added files with the same root Cid have the same content whatever the settings.", "quantifier": "all pairs of block stores, all trees, all targets, all walks", "why_tests_cant": "quantifies over everything an adversary could supply", "anchors": ["src/file/visit.rs: FileVisit::continue_walk", "src/walk.rs: Walker::next", "src/dir/sharded_lookup.rs: ShardedLookup::continue_walk", "src/file/adder.rs: FileAdder"]}
{"id": "C51", "title": "Every block of a file visit gets the answer its place and contents call for", "statement": "Starting a file visit with a block, or continuing one with the next block, gives exactly the answer that the block's contents and its place in the file call for: the errors for links that jump, overlap, expand or go back, for blocks that cannot be parsed, metadata below the root, wrong types, mismatched numbers of links and sizes, missing content, unexpected properties, a missing file size and invalid links (with the index, hash and name of the first invalid one among those visited); and otherwise the right bytes, the right links to visit next, and the position to check the next block against.", "quantifier": "every byte string given as a block, at every point of every visit, every u64 target range, every Cid decoder, with and without overflow checks", "why_tests_cant": "The blocks come from untrusted peers: there are unboundedly many combinations of visit histories and block contents, and each class of bad block must be recognised in every one of them.", "anchors": ["src/file/reader.rs FileReader::from_parts", "src/file/reader.rs FileReader::continue_walk", "src/file/reader.rs Ending::check_is_suitable_next", "src/file/visit.rs IdleFileVisit::start", "src/file/visit.rs FileVisit::continue_walk", "src/file.rs FileError"]}
{"id": "C52", "title": "Every block of a walk gets the answer its place and contents call for", "statement": "Giving the next block to a walk yields exactly the answer that the block's contents and its place in the tree call for: the item with the right Cid, path, metadata, bytes and first/last flags and, as the next pending links, the block's own links in order before those that were already waiting; or the right error for blocks that cannot be parsed, directories and shards with properties they must not have, links with invalid Cids (with the index, hash and name of the last invalid one), bad file blocks and unsupported types. After any error the walk is over.", "quantifier": "every byte string given as a block, at every point of every walk, every root Cid and every root name without a slash, every Cid decoder; with debug assertions also for blocks that do not fit their place", "why_tests_cant": "The blocks come from untrusted peers: there are unboundedly many combinations of histories and block contents, and the answer depends on paths and depths of everything visited before.", "anchors": ["src/walk.rs Walker::next", "src/walk.rs Walker::pending_links", "src/walk.rs InnerEntry::as_entry", "src/walk.rs InnerEntry::as_bucket", "src/walk.rs convert_link", "src/walk.rs convert_sharded_link", "src/walk.rs Error"]}
{"id": "C53", "title": "Every block of a name lookup gets the answer its contents call for", "statement": "Resolving a name in a block, or continuing a lookup in a sharded directory with the next bucket, gives exactly the answer the contents of the block call for: the Cid of the one link with that name, not found, or the buckets to visit next (those already waiting first, then the new ones in order); or the right error for blocks that cannot be parsed or are no directories, unsupported properties, several links with the name (with both indices and Cids), or links with invalid Cids (with the index, hash and name of the first that matters). Copying the name into the lookup changes nothing.", "quantifier": "every byte string given as a block, at every point of every lookup, every name, every Cid decoder, every cache left behind by earlier lookups, with and without overflow checks", "why_tests_cant": "The blocks come from untrusted peers: the answer depends on the combination of all links of a block and on all buckets seen before.", "anchors": ["src/dir.rs resolve", "src/dir.rs MultipleMatchingLinks", "src/dir/sharded_lookup.rs ShardedLookup::partition", "src/dir/sharded_lookup.rs ShardedLookup::continue_walk", "src/dir/sharded_lookup.rs ShardedLookup::with_owned_needle", "src/dir/directory.rs check_directory_supported"]}
{"id": "C54", "title": "The example programs find every block in the store, one file per Cid", "statement": "The example programs look for the block of a Cid in <IPFS_PATH>/blocks, in the file named by the Cid in upper case base 32 with extension .data, in the directory named by the next-to-last two characters of that name. Every Cid has exactly one such file, finding it never panics, and different Cids have different files, so that any set of blocks can be kept in such a store.", "quantifier": "every Cid, every value of IPFS_PATH, every finite set of blocks", "why_tests_cant": "Injectivity and totality range over all Cids, of unbounded length; tests see a few names.", "anchors": ["examples/cat.rs ShardedBlockStore::as_path", "examples/get.rs ShardedBlockStore::as_path", "examples/resolve.rs ShardedBlockStore::as_path"]}
{"id": "C55", "title": "cat prints exactly the content of a file", "statement": "cat writes the content of the file with the given Cid to its output, byte for byte, counts the bytes of its blocks (a block linked to several times is counted each time) and of the content, and exits with 0. It writes the part of the content in each block as soon as the block is read; when a block cannot be opened or read, it stops there and exits with 1, with an error telling which of the two happened. Directories and symlinks are refused with their type before anything is written.", "quantifier": "every stored file of any size and shape, every store holding its blocks, every set of missing blocks", "why_tests_cant": "Files have unboundedly many shapes, and any subset of the blocks can be missing.", "anchors": ["examples/cat.rs main", "examples/cat.rs walk", "examples/cat.rs Error", "src/file/visit.rs IdleFileVisit", "src/file/visit.rs FileVisit"]}
{"id": "C56", "title": "add reports the tree of its input", "statement": "However the input arrives in pieces, add reports the number of blocks of the balanced tree with the default chunk size and branching factor, their total size, the Cid of its root and the number of bytes read. From a store with these blocks, cat prints the input again, with the same counts.", "quantifier": "every input up to 2^54 bytes, every division into non-empty buffers", "why_tests_cant": "There are exponentially many ways for the input to arrive, and inputs of any size.", "anchors": ["examples/add.rs main", "examples/add.rs Stats::process", "examples/cat.rs walk", "src/file/adder.rs FileAdder"]}
{"id": "C57", "title": "resolve parses paths as documented", "statement": "A path is /ipfs/ followed by a Cid and further parts, each after a slash, or the same without the prefix if /ipfs/ does not occur later on; empty parts are left out. Anything else is refused: as an invalid path if it is empty or has /ipfs/ later on without starting with it, as an invalid Cid if the first part is none. The text of a Cid parses to the same as conversion from the Cid. (That the prefix may be left out of any path is refuted by C57_prefix_refuted.)", "quantifier": "every string, every Cid parser", "why_tests_cant": "The claim is about all strings.", "anchors": ["examples/resolve.rs IpfsPath", "examples/resolve.rs PathError"]}
{"id": "C58", "title": "resolve finds what a path leads to", "statement": "Over a store with all blocks of a tree of directories (plain and sharded) without repeated names, resolve returns the Cid a path leads to; nothing if some name is not in its directory; and an error telling the type if the path goes on below a file or symlink. These are all cases. The blocks it reads are the same whatever the store, the first one being that of the root, and the first of them that cannot be opened or read ends the search with the corresponding error.", "quantifier": "every stored tree of any depth and width, every path, every set of missing blocks", "why_tests_cant": "Trees, sharding layouts and paths are unbounded; the cache is shared between the lookups of all parts of the path.", "anchors": ["examples/resolve.rs walk", "src/dir.rs resolve", "src/dir/sharded_lookup.rs ShardedLookup"]}
{"id": "C59", "title": "get lists a tree, parents first", "statement": "get prints one line for each directory, file and symlink of a tree with its permissions, modification time, size, path and target, parents before their entries, entries in the order of the links, with rw-r--r-- for files and rwxr-xr-x for the others as default permissions. If some block is missing or unreadable, it prints the first of these lines and fails with the corresponding error. Only when it comes to a symlink with a target that is not UTF-8, to a bucket right after a plain directory or, with debug assertions, to a path with a name \".\" that is not its first (C39), it panics, after the lines for everything before; without debug assertions such a path is listed, and the further lines are those of C72. (That this cannot happen is refuted by C59_refuted.)", "quantifier": "every stored tree, every store holding its blocks, every set of missing blocks", "why_tests_cant": "Trees of any depth and width, with files of any number of blocks; any subset of blocks can be missing.", "anchors": ["examples/get.rs walk", "src/walk.rs Walker", "src/walk.rs ContinuedWalk"]}
{"id": "C60", "title": "The exit codes of the example programs", "statement": "resolve exits with 0 and prints the Cid if the path leads somewhere, with 0 and no Cid printed if a directory has no entry of a name in the path, and with 1 if a part of the path is below a file or symlink or if a block on the way cannot be read. get exits with 0 after the listing, and with 1 when a block cannot be read, but for the panics of C59 (and the paths called \".\" named there). cat, get and resolve exit with 1 if the argument is invalid or if IPFS_PATH is not set, and with 0 (showing the usage) without an argument. (That exit code 0 tells success is refuted by C60_exit_code_refuted.)", "quantifier": "every argument, every environment, every stored tree", "why_tests_cant": "All paths and trees are concerned.", "anchors": ["examples/resolve.rs main", "examples/get.rs main", "examples/cat.rs main"]}
{"id": "C61", "title": "The root is the last block of finish, except for content of one full chunk", "statement": "After any session, finish returns no block at all exactly when the content is exactly one chunk long (push has then already returned the only block, the root); for every other content, also the empty one, the last block finish returns is the root of the canonical tree.", "quantifier": "every content, every way of cutting it into pushes, every chunk size, every branching factor", "why_tests_cant": "Content lengths and the ways to push it are unbounded; the exception is a single length per configuration.", "anchors": ["src/file/adder.rs FileAdder::push", "src/file/adder.rs FileAdder::finish", "src/file/adder.rs flush_buffered_links", "benches/ingest-tar.rs ingest_tar"]}
{"id": "C62", "title": "Ingesting an archive is one call of the tree builder per entry", "statement": "ingest_tar adds a file under the Cid of its root block and the total size of its blocks, a link as a symlink block, and a folder by set_metadata with the default metadata. Its result (Cid, total size, block length) is that of the last node the builder gives, if no path is used twice or below a file or link, all paths are well formed and no node is too large; otherwise it panics. It also panics on an error of the archive, on paths and link names that are not UTF-8, on read errors, and (unexpectedly) on every file of exactly 256 KiB.", "quantifier": "every sequence of archive entries, every splitting of the file contents into reads, every earlier content of the reused buffer", "why_tests_cant": "Archives, contents and read sizes are unbounded, and the buffer is shared by all entries.", "anchors": ["benches/ingest-tar.rs ingest_tar", "src/dir/builder/buffered.rs BufferingTreeBuilder", "src/symlink.rs serialize_symlink_block", "src/file/adder.rs FileAdder"]}
{"id": "C63", "title": "An ingested archive can be read back", "statement": "The tree under the Cid ingest_tar returns has exactly the files, links and folders of the archive (and the folders on the way to them) at their paths, with their contents and targets; get lists each once, up to the first path with a name \".\" that is not its first, where it panics with debug assertions (C59), resolve finds each, and cat writes the contents of the files. Only if the archive has a member at the empty path, the first call of every walk over the tree panics. (That every archive can be listed completely is refuted by C63_refuted.)", "quantifier": "every archive, every store with the blocks that were produced", "why_tests_cant": "Archives are unbounded in the number, depth and size of their entries; reading back composes the adder, the tree builder, the walker, the lookups and the file visit.", "anchors": ["benches/ingest-tar.rs ingest_tar", "examples/get.rs walk", "examples/resolve.rs walk", "examples/cat.rs walk"]}
{"id": "C64", "title": "Link names are text", "statement": "The name of every link of a parsed block is valid UTF-8, i.e. the encoding of exactly one sequence of Unicode scalar values (no surrogates, no overlong forms, nothing above U+10FFFF); a written block is parsed back to the same value exactly if its names are such text. Cutting such a string succeeds exactly between two of its characters.", "quantifier": "every byte string, every block, every position", "why_tests_cant": "There are infinitely many strings and the edge cases are spread over the whole range of code points.", "anchors": ["src/pb/merkledag.rs PBLink::from_reader", "src/dir/sharded_lookup.rs partition", "src/walk.rs as_entry"]}
{"id": "C65", "title": "Total sizes are cumulative", "statement": "The total size of the last node the tree builder returns is the number of bytes of the blocks of all nodes it returned plus the sizes given with all accepted links, modulo 2^64 (exactly, in builds with overflow checks). The size ingest_tar reports counts every block of every file and link of the archive and every directory block.", "quantifier": "every history of put_link and set_metadata, with and without wrapping, every archive", "why_tests_cant": "The sum runs over trees of any shape; a link counted twice or not at all shows only for particular shapes.", "anchors": ["src/dir/builder/iter.rs PostOrderIterator::next", "src/dir/builder/iter.rs render_directory", "src/dir/builder.rs TreeNode", "benches/ingest-tar.rs ingest_tar"]}
{"id": "C66", "title": "When each block of a file is returned", "statement": "push returns each leaf as soon as its chunk is complete, and the link block of a full group of leaves together with the next leaf; finish returns the last incomplete leaf and then all remaining link blocks level by level, root last. Link blocks above the lowest level are never returned before finish.", "quantifier": "every chunk size >= 1, every branching factor, every content up to 2^54 bytes, every way of slicing it into push calls", "why_tests_cant": "The order depends on the content length, chunk size and branching factor through two levels of grouping; tests see a few sizes.", "anchors": ["src/file/adder.rs FileAdder::push", "src/file/adder.rs FileAdder::finish", "src/file/adder.rs BalancedCollector::flush_links"]}
{"id": "C67", "title": "Debug text of a file adder", "statement": "The Debug text of an adder shows the chunk size, the number of buffered bytes (content length modulo chunk size) and, per level, the number of links waiting: after k complete chunks with branching factor b, (k-1)/b links of level 1 and the remaining leaves of level 0. Numbers are in plain decimal notation. The number of waiting links grows with the content (k/b), it is not bounded by the depth of the tree.", "quantifier": "every chunk size >= 1, branching factor, content up to 2^54 bytes, slicing into push calls", "why_tests_cant": "The text depends on the history only through two divisions of arbitrary numbers; a formatting test fixes one state.", "anchors": ["src/file/adder.rs impl Debug for FileAdder", "src/file/adder.rs LinkFormatter"]}
{"id": "C68", "title": "The adder benchmark does what it measures", "statement": "run_adder of the adder benchmark terminates for every size, its assertion on the consumed bytes holds, and the blocks it counts are those of the balanced tree of that many zero bytes.", "quantifier": "every size up to 2^54", "why_tests_cant": "The loop ends only if every push consumes exactly one byte; the benchmark is run for three sizes.", "anchors": ["benches/adder.rs run_adder"]}
{"id": "C69", "title": "Errors about unexpected node types", "statement": "When a file visit refuses a block for its type, the error's is_file is false and its is_directory is true exactly if resolve does not refuse the block for its type; when resolve refuses a block for its type, is_directory is false, and if is_file is true then visits do not refuse the block for its type. The Debug text names the type by number and name and identifies it.", "quantifier": "every block, target range, name and cache", "why_tests_cant": "Three classifications of the six node types, made in different modules, must agree on all blocks.", "anchors": ["src/lib.rs UnexpectedNodeType", "src/file/reader.rs from_parts", "src/dir.rs resolve"]}
{"id": "C70", "title": "cat, get and resolve on damaged or hostile stores", "statement": "Whatever is on disk, a run of cat, get (with assertions on) or resolve ends exactly in the way that follows from reading, one after the other, the blocks asked for: an unreadable file gives its I/O error, a block the library refuses gives that error, with exit code 1; what was printed before stays printed, and nothing else is printed. Each run has one outcome; a run with none goes on for ever, which a store with a wrong block can cause.", "quantifier": "every disk, whatever the contents of its files; every Cid, path and argument", "why_tests_cant": "The blocks are untrusted input: all contents of all files, and runs of any length.", "anchors": ["examples/cat.rs walk", "examples/get.rs walk", "examples/resolve.rs walk"]}
{"id": "C71", "title": "PBNode and UnixFs messages on their own", "statement": "Parsing a PBNode as written gives its links and data back, the data being a part of the block; parsing a UnixFs message as written gives it back; a FlatUnixFs is written as the PBNode that has the written UnixFs as data, and reading it in two steps is the same as reading it in one. (A PBNode without data is read as an empty Raw UnixFs, not refused.)", "quantifier": "every message whose fields fit their types and whose encoding is below 4 GiB, and every block", "why_tests_cant": "All combinations of present, absent and repeated fields and of lengths of varints.", "anchors": ["src/pb.rs TryFrom impls", "src/pb/merkledag.rs PBNode", "src/pb/unixfs.rs Data"]}
{"id": "C72", "title": "Walks in builds without debug assertions, call by call", "statement": "In a build without debug assertions, at every point of every walk the next block asked for, should_continue() and the answer to any block whatsoever are those of SpecWalkAstray.v: as with assertions (C52), but a block that does not fit its place (an entry called \".\" below another directory, or something else than a bucket behind a link to a bucket) is accepted; the paths from then on are those obtained by stepping up and down from the path of the last item, and the walk panics exactly if one of the panics of C41 occurs or the way leads up from the empty path. The program get ends and prints accordingly on any disk.", "quantifier": "every sequence of blocks whatever they contain, every root name without a slash, every cache content that is not read before being written", "why_tests_cant": "Paths after a misfit depend on the whole history of the walk; no finite set of trees covers the combinations.", "anchors": ["src/walk.rs Walker::next", "src/walk.rs InnerEntry::set_path", "src/walk.rs InnerEntry::as_bucket", "src/walk.rs InnerEntry::as_entry", "examples/get.rs walk"]}
{"id": "C73", "title": "The text get prints", "statement": "Standard output of get consists of one line for each file, directory and symlink listed: kind, permissions in octal, seconds right-aligned to 12 characters, size (or -) right-aligned to 16 characters, the path in quotes, and \" -> \" with the target in quotes for a symlink. Quotes, backslashes and control characters of names are escaped: every line is free of control characters, and the lines (with all names, numbers and targets) can be told from the text. Paths reported by a walk are always text (UTF-8), whatever the blocks are, if the root name is.", "quantifier": "every content of the block store, every argument and environment, every tree; every walk over any blocks", "why_tests_cant": "Names with newlines, quotes, \" -> \" or escapes in them could imitate other lines; all names are concerned.", "anchors": ["examples/get.rs walk", "src/walk.rs Walker::next", "src/walk.rs InnerEntry::set_path"]}
{"id": "C74", "title": "The text resolve prints", "statement": "Standard output of resolve consists of lines beginning with \"cache \" or \"got lucky: found \", followed by the Cid on a line of its own if the path leads to one. Neither kind of line contains control characters, so that the Cid is the only line without a space. (That standard output is just the Cid, as the usage message says, is refuted by C74_refuted: there is always a line \"cache None\" first, also when nothing is found and the exit code is 0.)", "quantifier": "every content of the block store, every argument and environment", "why_tests_cant": "All paths, names and stores are concerned.", "anchors": ["examples/resolve.rs main", "examples/resolve.rs walk"]}
{"id": "C75", "title": "The messages of errors", "statement": "The message (Display) of every error of visiting a file, resolving, walking, parsing a block and building a tree contains no control characters, so it is one line, whatever bytes are in the blocks and whatever names and paths occur; as far as this is so for the messages taken from the protobuf and cid crates. The messages of file errors and of building errors tell the error: equal messages mean the same error with the same values in it. Sizes, counts, link numbers and data bytes appear in the messages as the numbers they are. Building errors that carry a path carry the path given to put_link or set_metadata.", "quantifier": "every block, state of a visit or walk, needle, path, sequence of operations before the failing one, and every implementation of the text of foreign errors without control characters", "why_tests_cant": "Names are arbitrary text from blocks and paths; all errors with all payloads are concerned.", "anchors": ["src/file.rs FileError FileReadFailed", "src/lib.rs InvalidCidInLink UnexpectedNodeType", "src/pb.rs ParsingFailed", "src/dir.rs ResolveError MultipleMatchingLinks", "src/dir/directory.rs UnexpectedDirectoryProperties", "src/dir/sharded_lookup.rs ShardError LookupError", "src/walk.rs Error", "src/dir/builder.rs TreeBuildingFailed"]}
{"id": "C76", "title": "Reading ends on stores without cycles", "statement": "If no block leads to itself by links and the store is finite, then visits, walks, lookups and the programs cat, get and resolve come to an end whatever the blocks contain: a visit of a file and a lookup ask for fewer blocks, a walk for at most as many, as there are below the root when blocks linked to several times are counted several times; a complete visit of a file asks for all of them. A store whose blocks were stored after the blocks they link to has no cycles. The number may be exponential in the number of stored blocks, even for a file without bytes: the crate has no limit of its own.", "quantifier": "every store without cycles, root, target range, name, path, and content of blocks; every depth and width of the exponential stores", "why_tests_cant": "Termination and bounds over all stores and all block contents.", "anchors": ["src/file/visit.rs IdleFileVisit::start FileVisit::continue_walk", "src/walk.rs Walker::next", "src/dir/sharded_lookup.rs ShardedLookup::continue_walk", "examples/cat.rs walk", "examples/get.rs walk", "examples/resolve.rs walk"]}
{"id": "C77", "title": "What cat, get and resolve write to standard error", "statement": "On success cat reports the number of content bytes, which are those it wrote to standard output, and of all bytes of the blocks it read; get reports nothing; resolve reports 'not found' just if it prints no Cid. A failing program says why: a block that cannot be opened gives the advice about the store, any other failure one line with the error. While it runs resolve announces every block before it reads it, with the name that it looks for, and for an entry found in a sharded directory the number of blocks that were needed; result and messages depend on nothing but the path and the announced blocks. cat and get write no control characters whatever the blocks contain, and neither does resolve unless they are in the path given, which it prints without quotes in one kind of line.", "quantifier": "every disk, whatever the blocks contain, every argument and IPFS_PATH, every text of foreign errors", "why_tests_cant": "All contents of stores and arguments are concerned, and all results of the programs.", "anchors": ["examples/cat.rs main Error", "examples/get.rs main Error", "examples/resolve.rs main walk Error PathError", "src/dir.rs ResolveError"]}
{"id": "C78", "title": "What add writes to standard error", "statement": "When its input ends add says so and shows the state of the adder: the bytes of the last incomplete chunk, the capacity of its buffer and how many links wait at each level, which is all complete chunks but those in full link blocks. It then reports the number of blocks of the balanced tree of the input, their bytes, the Cid of its root, and the bytes read. The lines depend on the input only, not on how it arrives in pieces, apart from time, rates and capacity; the third line tells the number of blocks, their bytes and the root. When reading the input fails nothing is written before the panic. No line has control characters.", "quantifier": "every input up to 2^54 bytes and every way it arrives in pieces, with or without overflow checks, every timing", "why_tests_cant": "All inputs and all divisions into pieces are concerned.", "anchors": ["examples/add.rs main Stats", "src/file/adder.rs FileAdder LinkFormatter"]}
{"id": "C79", "title": "The sources of errors", "statement": "Error::source of an error tells a protobuf error just if the block could not be parsed, and then that error: for file visits (unless the next block is refused for its place in the file, which is looked at first), for the steps of sharded lookups, and for resolve on blocks that are not dag-pb. For file visits a link is the source only if its Cid cannot be decoded, and has the decoding error as its own source; lookups and walks do not tell it as a source. Errors of walks have no source, but their message tells the protobuf error. The message of an error ends with the message of its source, so none is lost when only messages are printed; converting the error of a lookup keeps the source.", "quantifier": "every block, link, state of a visit, lookup or walk, name, and every text of foreign errors", "why_tests_cant": "All contents of blocks and all states in which an error can occur are concerned.", "anchors": ["src/lib.rs InvalidCidInLink", "src/pb.rs ParsingFailed", "src/file.rs FileReadFailed", "src/dir.rs ResolveError", "src/dir/sharded_lookup.rs LookupError", "src/walk.rs Error"]}
{"id": "C80", "title": "Debugging what the library hands out", "statement": "Debug (without the alternate flag) of what walks return, of walkers, file visits, sharded lookups, results of lookups, nodes of trees and wrapped blocks is one line that tells every part: names and paths are quoted and escaped, contents of files and targets of symlinks are lists of numbers, the links yet to visit are listed with the next one last, the block of a node of a tree is told by its size only, and a wrapped block by its length and by where in it the data is. No control character reaches the text, whatever names, contents and targets are, when Cids have none in theirs.", "quantifier": "every walk, visit, lookup, tree and block, every name and content, every way the table of plain characters and the text of Cids could be", "why_tests_cant": "All names, contents and states in which a value can be debugged are concerned.", "anchors": ["src/dagpb.rs NodeData", "src/walk.rs Walker, InnerEntry, ContinuedWalk, FileSegment", "src/file/visit.rs IdleFileVisit, FileVisit", "src/file/reader.rs Traversal, Ending", "src/dir/sharded_lookup.rs ShardedLookup", "src/dir.rs MaybeResolved", "src/dir/builder/iter.rs TreeNode"]}
{"id": "C81", "title": "The modification time as a FileTime", "statement": "For the metadata of every block, Metadata::mtime_as_filetime returns a time exactly if the block has one, and the returned FileTime gives back, on every platform, the seconds since 1970 and the nanoseconds of the block. It never panics, except on Windows in builds with overflow checks, where it panics exactly for times so late that counting them from 1601 exceeds an i64.", "quantifier": "every block that parses, platform (Windows or not) and build profile", "why_tests_cant": "the time is an arbitrary i64 from an untrusted block; the panic needs a platform and a build profile the tests are not run in", "anchors": ["src/lib.rs: Metadata::mtime, Metadata::mtime_as_filetime, From<&UnixFs> for Metadata"]}
{"id": "C82", "title": "Configurations whose buffers cannot exist", "statement": "Every positive branching factor and every chunk size is accepted when a FileAdder is built. A push panics (\"capacity overflow\") exactly if the chunk size is 2^63 or more, or if the push completes a chunk and the links or block sizes of one full node would take 2^63 bytes or more; finish panics exactly in the latter case, even when the file has a single chunk. In all other configurations and states push and finish do what the other properties say.", "quantifier": "every chunk size and branching factor of 64 bits, every sequence of pushes, every size of a link in memory", "why_tests_cant": "the limits lie at sizes no test can allocate or feed, and the panic comes only when the first chunk is complete", "anchors": ["src/file/adder.rs: FileAdder::push, FileAdder::finish, BalancedCollector::with_branching_factor, flush_links"]}
