{"claims": [
{"property": "C01", "status": "proved", "theorems": ["C01_round_trip"], "note": "every FlatUnixFs value, nested lengths < 2^32"},
{"property": "C02", "status": "proved", "theorems": ["C02_sizes_exact", "C02_custom_is_flat"], "note": ""},
{"property": "C03", "status": "proved", "theorems": ["C03_node_fields", "C03_flat_fields"], "note": "the converse, that nothing else is accepted, is C49"},
{"property": "C04", "status": "proved", "theorems": ["C04_totality", "C04_fuel", "C04_parse_total_refuted", "C04_exact", "C04_hangs", "C04_messages_hang"], "note": "C04_exact: the exact blocks (SpecOverflow.v) on which parsing panics with overflow checks; C04_totality/C04_fuel: no divergence with checks, no panic without, agreement otherwise; C04_hangs: the exact blocks (SpecHang.v) in which parsing never ends without checks. The stronger claim (never a panic) is refuted: C04_parse_total_refuted."},
{"property": "C05", "status": "proved", "theorems": ["C05_node_data", "C05_wrap_node_data", "C05_wrap_node_data_refuted", "C05_exact"], "note": "C05_exact: exactly when node_data and wrap_node_data panic and what node_data returns; the stronger claim is refuted (an empty Data at the end of the block): C05_wrap_node_data_refuted"},
{"property": "C06", "status": "proved", "theorems": ["C06_push_progress", "C06_size_hint", "C06_zero_chunk_refuted", "C06_zero_chunk_only_empty"], "note": "content <= 2^54 bytes, 1 <= chunk < 2^64, 1 <= branching factor < 2^63; chunk size 0 (accepted by the API) panics on every push, so that only the empty file can be added; sizes for which reserving the buffers panics: C82"},
{"property": "C07", "status": "proved", "theorems": ["C07_slicing_independent", "C07_add_file"], "note": "content <= 2^54 bytes, 1 <= chunk < 2^64, 1 <= branching factor < 2^63"},
{"property": "C08", "status": "proved", "theorems": ["C08_at_most_two"], "note": "content <= 2^54 bytes, 1 <= chunk < 2^64, 1 <= branching factor < 2^63"},
{"property": "C09", "status": "proved", "theorems": ["C09_balanced_tree", "C09_canonical", "C09_add_file"], "note": "content <= 2^54 bytes, 1 <= chunk < 2^64, 1 <= branching factor < 2^63; branching factor >= 2, or one chunk (finish does not return otherwise, C13)"},
{"property": "C10", "status": "proved", "theorems": ["C10_sizes"], "note": "content <= 2^54 bytes, 1 <= chunk < 2^64, 1 <= branching factor < 2^63; chunk <= 2^31 and branching factor <= 2^25 so that no block reaches the parser's 4 GiB limit"},
{"property": "C11", "status": "proved", "theorems": ["C11_adder_cids", "C11_builder_cids", "C11_cid_bytes"], "note": "both emitters of blocks: the file adder and the directory builder"},
{"property": "C12", "status": "proved", "theorems": ["C12_children_first", "C12_pushed"], "note": "all blocks of a complete run (sizes of contents and configurations as C10); C12_pushed: the blocks pushed so far, also when finish is never called or never returns"},
{"property": "C13", "status": "proved", "theorems": ["C13_finish_terminates", "C13_finish_terminates_refuted", "C13_exact"], "note": "C13_exact; the stronger claim (every accepted branching factor) is refuted for factor 1: C13_finish_terminates_refuted"},
{"property": "C14", "status": "proved", "theorems": ["C14_limits", "C14_pushed", "C14_defaults"], "note": "C14_pushed: exact sizes of the blocks pushed so far, for every branching factor"},
{"property": "C15", "status": "proved", "theorems": ["C15_read_back"], "note": "Full read and every target range; for cfg_ok/moderate configurations (chunk <= 2^31, branching factor 2..2^25, or a single chunk), contents up to 2^54 bytes."},
{"property": "C16", "status": "proved", "theorems": ["C16_reads_all"], "note": ""},
{"property": "C17", "status": "proved", "theorems": ["C17_range", "C17_byte_range", "C17_byte_range_nth"], "note": ""},
{"property": "C18", "status": "proved", "theorems": ["C18_touching"], "note": ""},
{"property": "C19", "status": "proved", "theorems": ["C19_start_size", "C19_file_size_refuted", "C19_last_block_size", "C19_exact"], "note": "C19_exact, with C19_start_size for well-formed files; the stronger claim (file_size() stays the total) is refuted: C19_file_size_refuted"},
{"property": "C20", "status": "proved", "theorems": ["C20_contiguous", "C20_contiguous_prefix"], "note": "Offsets are u64; in builds without overflow checks they wrap (stated modulo 2^64), with overflow checks they are exact."},
{"property": "C21", "status": "proved", "theorems": ["C21_sizes_refuted", "C21_offsets", "C21_wellformed", "C21_truthful"], "note": "C21_truthful over arbitrary blocks, C21_offsets without the assumption of truthfulness, C21_wellformed for stored files; without truthfulness the claim is refuted: C21_sizes_refuted"},
{"property": "C22", "status": "proved", "theorems": ["C22_no_panic_otherwise", "C22_no_filesize_refuted", "C22_short_leaf_refuted", "C22_empty_pending_refuted", "C22_overflow_refuted", "C22_start_panics", "C22_continue_panics"], "note": "C22_start_panics and C22_continue_panics are exact, for any block and any u64 target range; the four ways are shown to exist by the _refuted theorems"},
{"property": "C23", "status": "proved", "theorems": ["C23_metadata_kept", "C23_metadata_start", "C23_non_root_rejected", "C23_non_root_error"], "note": ""},
{"property": "C24", "status": "proved", "theorems": ["C24_visit_cache", "C24_resolve_cache", "C24_walk_cache"], "note": "visits and walks share one cache type (C24_walk_cache: every history of operations), lookups have their own (C24_resolve_cache)"},
{"property": "C25", "status": "proved", "theorems": ["C25_plain", "C25_indices"], "note": "Found/NotFound/Multiple/InvalidCid characterised by the links with that name; the reported indices are those of the first two."},
{"property": "C26", "status": "proved", "theorems": ["C26_classify", "C26_buckets"], "note": "Every block by what the parser returns for it; success only for supported directories, supported shards and dag-pb nodes without UnixFS data."},
{"property": "C27", "status": "proved", "theorems": ["C27_sharded_lookup", "C27_deterministic", "C27_first_shard_decides"], "note": "Sound and complete over every well-formed sharded directory (any shape and depth) in a block store; also what happens with repeated names."},
{"property": "C28", "status": "proved", "theorems": ["C28_breadth_first", "C28_all_buckets"], "note": "The links asked for are a prefix of the buckets in breadth first order."},
{"property": "C29", "status": "proved", "theorems": ["C29_refuted", "C29_only_ways", "C29_ascii", "C29_release_panics", "C29_exact"], "note": "C29_exact is exact for every call at every point of a lookup; that the case exists: C29_refuted"},
{"property": "C30", "status": "proved", "theorems": ["C30_accepts", "C30_tree", "C30_empty_path", "C30_root_metadata"], "note": "exact acceptance and error of every call after every history; corners made explicit: the empty path is accepted, and without wrapping set_metadata of the only root directory is refused once it has entries"},
{"property": "C31", "status": "proved", "theorems": ["C31_failed_call"], "note": ""},
{"property": "C32", "status": "proved", "theorems": ["C32_post_order", "C32_paths_distinct"], "note": "whenever the iteration returns no error and does not panic; when it does is C35/C36/C33_overflow"},
{"property": "C33", "status": "proved", "theorems": ["C33_blocks", "C33_overflow"], "note": "blocks below 2^32 bytes; totals are modulo 2^64 in builds without overflow checks and panic otherwise (C33_overflow)"},
{"property": "C34", "status": "proved", "theorems": ["C34_same_entries", "C34_order", "C34_any_order"], "note": ""},
{"property": "C35", "status": "proved", "theorems": ["C35_blocks", "C35_errors", "C35_first_error", "C35_defaults"], "note": "after the first error see C36"},
{"property": "C36", "status": "proved", "theorems": ["C36_refuted", "C36_exact"], "note": "C36_exact; that the case exists: C36_refuted"},
{"property": "C37", "status": "proved", "theorems": ["C37_refuted", "C37_values_ignored"], "note": "the claim a user would expect is refuted (C37_refuted); C37_values_ignored is what holds"},
{"property": "C38", "status": "proved", "theorems": ["C38_resolves"], "note": ""},
{"property": "C39", "status": "proved", "theorems": ["C39_exact", "C39_preorder", "C39_refuted"], "note": "C39_exact: for every stored tree every walk returns a prefix of one list of items given by the tree (pre-order), and panics exactly where a bucket directly follows a plain directory or, with debug assertions, at a '.' that is not the first name of its path (C39_refuted, C43_dot_refuted: such trees exist); without debug assertions up to and including that item. C39_preorder: the full claim for trees without these."},
{"property": "C40", "status": "proved", "theorems": ["C40_segments", "C40_any_blocks"], "note": "C40_segments: over stored trees; C40_any_blocks: the first/last marking for arbitrary blocks"},
{"property": "C41", "status": "proved", "theorems": ["C41_refuted", "C41_orderly", "C41_unsharded", "C46_walk_step", "C41_exact", "C72_panics"], "note": "C41_exact with debug assertions, C72_panics without; C41_orderly/C41_unsharded: no panic over orderly stores; that the panics exist: C41_refuted (eight kinds of blocks), C39_refuted (a ninth)"},
{"property": "C42", "status": "proved", "theorems": ["C42_exact", "C42_refuted", "C42_bucket_cid"], "note": "C42_exact says exactly when; that the exception exists: C42_refuted"},
{"property": "C43", "status": "proved", "theorems": ["C43_walk", "C43_files", "C43_empty", "C43_empty_root", "C43_no_repetition", "C43_added_files", "C43_refuted", "C43_dot_refuted"], "note": "For every accepted history the walk from any returned node gives exactly the implied directories and what is stored at the links, in pre-order under their paths (C43_walk), with files at the links exactly the put files with their contents (C43_files), up to the exceptions of C39. Histories with something at the empty path: C43_empty, C43_empty_root."},
{"property": "C44", "status": "proved", "theorems": ["C44_symlink_round_trip", "C44_walk"], "note": ""},
{"property": "C45", "status": "proved", "theorems": ["C45_type_decoding", "C45_unknown_type_refuted", "C45_exact", "C45_walk"], "note": "C45_exact: the type of every accepted block; C45_walk: what is refused; that undefined types are refused is refuted: C45_unknown_type_refuted"},
{"property": "C46", "status": "proved", "theorems": ["C46_visit_pending", "C46_lookup_pending", "C46_lookup_nonempty", "C46_walk_step", "C46_walk_pending"], "note": "file visits, sharded lookups, walks"},
{"property": "C47", "status": "proved", "theorems": ["C47_items_match_blocks"], "note": "for arbitrary blocks"},
{"property": "C48", "status": "proved", "theorems": ["C48_canonical", "C48_directories", "C48_symlinks"], "note": "Canonical encodings are specified in SpecCanon.v (field order, shortest varints) without the writer; a message has exactly one and it is what the writers produce."},
{"property": "C49", "status": "proved", "theorems": ["C49_exact", "C49_release", "C49_release_refuted"], "note": "exact with overflow checks; without, wrap-around of an unknown field's length lets the code accept a block that encodes nothing (C49_release_refuted)"},
{"property": "C50", "status": "proved", "theorems": ["C50_tree", "C50_visit", "C50_walk", "C50_lookup", "C50_root_cid"], "note": ""},
{"property": "C51", "status": "proved", "theorems": ["C51_start", "C51_continue", "C51_accepts"], "note": "C51_start / C51_continue: the answer of the code is the one and only answer that the independent specification SpecFileSteps.v gives for the place and contents of the block, at every point reachable by accepted blocks; C51_accepts: the visit accepts a history iff the specification does. C51_nonvacuous walks a file with a middle range and shows each class of error."},
{"property": "C52", "status": "proved", "theorems": ["C52_step", "C52_checked", "C52_accepts", "C52_error_ends"], "note": "C52_step / C52_checked: at every point of a walk the answer of the code to any block is the one and only answer of the independent relational specification SpecWalkSteps.v (places, prior, queue), and pending_links are the awaited Cids; C52_accepts: conversely; C52_error_ends: after an error should_continue is false. Without debug assertions nothing is said from the first block on that does not fit its place (a non-bucket below a bucket link, or an entry called \".\")."},
{"property": "C53", "status": "proved", "theorems": ["C53_resolve", "C53_continue", "C53_accepts"], "note": "The answer of the code is the one and only answer of the independent relational specification SpecLookupSteps.v, for the first and every further block of a lookup, for arbitrary blocks; C53_accepts: conversely. C53_nonvacuous follows a lookup through two levels of buckets."},
{"property": "C54", "status": "proved", "theorems": ["C54_dir", "C54_path", "C54_short_keys", "C54_injective", "C54_store"], "note": "RFC 4648 test vectors as a check of the model."},
{"property": "C55", "status": "proved", "theorems": ["C55_cat", "C55_damaged", "C55_not_a_file", "C55_main"], "note": "Total block bytes below 2^64 (otherwise the u64 counter overflows). Failing writes to stdout are not modelled."},
{"property": "C56", "status": "proved", "theorems": ["C56_add", "C56_same_cid", "C56_input_error", "C56_read_back"], "note": "Finding: the two Cids printed are always the same one. A read error on stdin is a panic."},
{"property": "C57", "status": "proved", "theorems": ["C57_after_ipfs", "C57_bare", "C57_cut", "C57_invalid", "C57_from", "C57_prefix_refuted"], "note": "exact for all strings; parsing of the Cid itself is a parameter. C57_prefix_refuted: the prefix may not be left out if /ipfs/ occurs later"},
{"property": "C58", "status": "proved", "theorems": ["C58_found", "C58_absent", "C58_not_a_directory", "C58_cases", "C58_damaged"], "note": ""},
{"property": "C59", "status": "proved", "theorems": ["C59_exact", "C59_listing", "C59_damaged", "C59_refuted", "C59_members", "C59_no_path_twice"], "note": "C59_exact covers every stored tree and every set of unreadable blocks; C59_members/C59_no_path_twice: the listing in terms of paths. The text of a line is kept structured."},
{"property": "C60", "status": "proved", "theorems": ["C60_resolve", "C60_not_a_directory", "C60_missing", "C60_get", "C60_get_exact", "C60_usage", "C60_exit_code_refuted"], "note": "cat: see C55_main. C60_exit_code_refuted is the case of names that are not there: exit code 0 and nothing printed."},
{"property": "C61", "status": "proved", "theorems": ["C61_finish_empty", "C61_root"], "note": "finish returns nothing exactly for content of one full chunk; otherwise its last block is the root."},
{"property": "C62", "status": "proved", "theorems": ["C62_ingest", "C62_calls_unique", "C62_unfit", "C62_whole_chunk_refuted"], "note": "The expectation that every archive of text paths is taken is refuted for files of exactly 256 KiB."},
{"property": "C63", "status": "proved", "theorems": ["C63_tree", "C63_read_back", "C63_empty", "C63_refuted"], "note": "C63_tree, C63_read_back: all archives ingest_tar accepts, unless there is a member at the empty path; for these C63_empty. C63_refuted: with 'a/./c' walks over the tree panic."},
{"property": "C64", "status": "proved", "theorems": ["C64_valid", "C64_unique", "C64_slicing", "C64_splits", "C64_names", "C64_written"], "note": "UTF-8 is specified by code points."},
{"property": "C65", "status": "proved", "theorems": ["C65_cumulative", "C65_ingested"], "note": ""},
{"property": "C66", "status": "proved", "theorems": ["C66_push_order", "C66_finish_order", "C66_upper", "C66_high_nodes_wait", "C66_finish_count"], "note": "Exact sequence of blocks of every session and of finish (bf >= 2 or a single chunk: finish does not return otherwise, C13)."},
{"property": "C67", "status": "proved", "theorems": ["C67_debug", "C67_decimal", "C67_pending_grows"], "note": "The capacity of the buffer, which the allocator chooses, is a parameter of the text."},
{"property": "C68", "status": "proved", "theorems": ["C68_run_adder"], "note": ""},
{"property": "C69", "status": "proved", "theorems": ["C69_visit", "C69_resolve", "C69_continue", "C69_raw_refuted", "C69_text"], "note": "C69_raw_refuted: the converse of C69_resolve fails for Raw blocks. Types in walk errors: C52."},
{"property": "C70", "status": "proved", "theorems": ["C70_cat", "C70_get", "C70_resolve", "C70_main", "C70_get_forever"], "note": "get is described for builds with assertions."},
{"property": "C71", "status": "proved", "theorems": ["C71_node_round_trip", "C71_unixfs_round_trip", "C71_flat_is_node", "C71_two_steps", "C71_no_data_refuted"], "note": ""},
{"property": "C72", "status": "proved", "theorems": ["C72_step", "C72_accepts", "C72_conforms", "C72_panics", "C72_get", "C72_get_main"], "note": "Exact for every block sequence in builds without debug assertions, for root names without a slash. C72_panics is C41_exact for these builds, C72_get is C70_get for them. The example shows what goes wrong: below a directory with an entry called '.', later paths are wrong and the walk panics."},
{"property": "C73", "status": "proved", "theorems": ["C73_paths", "C73_text", "C73_unambiguous", "C73_visible", "C73_listing"], "note": "characters above the control characters may be printed as they are or escaped (tables of core::fmt are left open)"},
{"property": "C74", "status": "proved", "theorems": ["C74_text", "C74_tells", "C74_refuted"], "note": "the text of Cids is any text without spaces and control characters; 'only the Cid is written to stdout' is refuted by C74_refuted"},
{"property": "C75", "status": "proved", "theorems": ["C75_file", "C75_dir", "C75_walk", "C75_parse", "C75_builder", "C75_file_tells", "C75_build_tells", "C75_build_path", "C75_says_file", "C75_says_dir", "C75_says_walk", "C75_says_builder"], "note": "Display of the crate's errors; text from quick_protobuf and cid is a parameter assumed without control characters. C75_says_*: each error that occurs has the message spelled out in SpecMessages.v, with its numbers and names. C75_nonvacuous shows such a parameter and a walk error on a name with a newline and a quote."},
{"property": "C76", "status": "proved", "theorems": ["C76_finite", "C76_children_first", "C76_file", "C76_file_all", "C76_walk", "C76_lookup", "C76_programs", "C76_runs", "C76_amplified"], "note": "Upper bounds on the number of blocks asked for by a visit, a walk and a lookup, exact for a visit of a whole file; C76_programs: with enough fuel (the number of blocks) the loops of cat, get and resolve end; C76_amplified: the bound is exponential in the number of stored blocks, for a file without bytes. That cycles make get run for ever is C70_get_forever."},
{"property": "C77", "status": "proved", "theorems": ["C77_cat", "C77_get", "C77_resolve", "C77_told", "C77_notices", "C77_reads", "C77_start", "C77_exit", "C77_cat_content", "C77_cat_stored", "C77_why", "C77_visible", "C77_visible_resolve", "C77_newline"], "note": "With the runs of C70: C77_cat, C77_get (assertions on, as C70_get) and C77_resolve give all lines; C77_told: the notices of resolve are determined and given by every run that ends; C77_reads: announced blocks determine everything. C77_why: what a block that cannot be walked into says, one case per reason, names all different reasons. C77_visible for cat and get, C77_visible_resolve for resolve, with C77_newline the counterexample for a path with a newline. Messages of panics are not modelled; fewer than 2^31 buckets per segment are assumed for the i32 counter."},
{"property": "C78", "status": "proved", "theorems": ["C78_add", "C78_arrival", "C78_input_error", "C78_tells", "C78_visible"], "note": "Times, rates (floating point, given by the number of bytes) and the capacity of the buffer are parameters; the message of a panic is not modelled. C78_nonvacuous gives all lines for an input in two pieces."},
{"property": "C79", "status": "proved", "theorems": ["C79_start", "C79_continue", "C79_dir", "C79_walk", "C79_told"], "note": "Sources beyond the errors of quick_protobuf and cid are not modelled. C79_nonvacuous has a block that cannot be parsed and one whose link has no Cid."},
{"property": "C80", "status": "proved", "theorems": ["C80_walk", "C80_visit", "C80_idle", "C80_lookup", "C80_tree", "C80_wrapped", "C80_visible"], "note": "The alternate flag is not modelled. C80_nonvacuous has an item of a walk, a wrapped block and a node with a line break in its name."},
{"property": "C81", "status": "proved", "theorems": ["C81_same_time", "C81_exact", "C81_visit", "C81_walk"], "note": "for all metadata of blocks that parse, as file visits and walks report it; the functions of the crate filetime are modelled from its documentation. The stronger claim (never a panic) holds except on Windows with overflow checks, for the times C81_exact names"},
{"property": "C82", "status": "proved", "theorems": ["C82_push", "C82_finish", "C82_sessions"], "note": "contents up to 2^54 bytes; the size of a link in memory is a parameter; running out of memory is not modelled"}
]}
