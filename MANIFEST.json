{
 "claims": [
  {
   "property": "C01",
   "status": "proved",
   "theorems": [
    "C01_C02_heap_is_priority_queue",
    "C01_extract_returns_earliest"
   ],
   "note": "rt/heap.c, all operations; sequential (RT_LOCK not modelled)"
  },
  {
   "property": "C02",
   "status": "proved",
   "theorems": [
    "C01_C02_heap_is_priority_queue"
   ],
   "note": "multiset accounting is part of pq_step"
  },
  {
   "property": "C03",
   "status": "proved",
   "theorems": [
    "C03_masks_are_sets"
   ],
   "note": "mask.c and the mask.h macros, all operations"
  },
  {
   "property": "C04",
   "status": "proved",
   "theorems": [
    "C04_hash_is_finite_map",
    "C04_shash_is_finite_map",
    "C04_ihash_is_finite_map",
    "C04_hset_is_set"
   ],
   "note": "all four tables, any hash function, initial size a power of two >= 4"
  },
  {
   "property": "C05",
   "status": "partial",
   "theorems": [
    "C05_ghash_refuted",
    "C05_ghash_put_get_partial"
   ],
   "note": "refuted with ghash_delete (resurrection after growth); put/get histories proved"
  },
  {
   "property": "C06",
   "status": "proved",
   "theorems": [
    "C06_waveform_preemption",
    "C06_wake_matures"
   ],
   "note": "all histories of assignments and wake-ups below time 2^63; null transactions are C47"
  },
  {
   "property": "C07",
   "status": "partial",
   "theorems": [
    "C07_marking_rule_refuted",
    "C07_keeps_at_least_lrm_partial",
    "C07_transport_exact_partial",
    "C07_default_inertial_exact_partial"
   ],
   "note": "refuted for explicit rejection limits; exact for transport and default inertial histories"
  },
  {
   "property": "C08",
   "status": "proved",
   "theorems": [
    "C08_values",
    "C08_not_lost",
    "C08_transactions_mature"
   ],
   "note": "Refinement of the kernel (delta queues, event heap, fast driver path, deferred resolution, wakeups) to an ideal simulator without queues, for every well-formed design and every legal behaviour of the processes. Not in this model: disconnections, force/release, implicit signals, ports with conversions, watchers."
  },
  {
   "property": "C09",
   "status": "proved",
   "theorems": [
    "C09_time_increases",
    "C09_timeouts_are_exact"
   ],
   "note": "For every reachable state and every legal cycle."
  },
  {
   "property": "C10",
   "status": "partial",
   "theorems": [
    "C10_exactly_once",
    "C10_postponed_partial",
    "C10_postponed_timeout_refuted"
   ],
   "note": "Exactly once and no missed wakeup hold in full. The ordering of postponed processes holds when they are resumed by an event; a postponed process whose wait times out runs with the ordinary processes (C10_postponed_timeout_refuted)."
  },
  {
   "property": "C11",
   "status": "partial",
   "theorems": [
    "C11_event_wakes_registered_partial",
    "C11_never_missed_any_history_partial",
    "C11_duplicate_registration_refuted"
   ],
   "note": "Exact for every history without re-registration behind a cancellation (what wait statements do); for arbitrary histories no registered object is missed; refuted in general: a second entry can survive cancellation."
  },
  {
   "property": "C12",
   "status": "partial",
   "theorems": [
    "C12_access_preserves_partial",
    "C12_every_element_in_a_piece",
    "C12_released_force_revived_refuted",
    "C12_disconnected_driver_revived_refuted",
    "C12_queued_force_aborts_refuted"
   ],
   "note": "Proved for every history of sub-range accesses interleaved with arbitrary simulation, as long as no source is disconnected and no force/deposit is queued at the access; both excluded cases are refuted with concrete witnesses (clone_source does not copy the disconnected flag; assertion on queued pseudo source)."
  },
  {
   "property": "C13",
   "status": "proved",
   "theorems": [
    "C13_index_agrees_with_search",
    "C13_lookup_distance"
   ],
   "note": "Index lookup gives the same pieces, first piece and events as linear search, in every reachable partition; the assertions of the index code cannot fail."
  },
  {
   "property": "C14",
   "status": "proved",
   "theorems": [
    "C14_memo_equals_call",
    "C14_memo_stops_when_call_aborts",
    "C14_abort_hidden_refuted"
   ],
   "note": "For every resolution function, width and number of drivers. The refuted companion shows a call that ends the simulation with status zero (std.env.stop) is hidden by the memo."
  },
  {
   "property": "C15",
   "status": "partial",
   "theorems": [
    "C15_force_release_deposit_partial",
    "C15_deposit_overrides_force_refuted",
    "C15_stale_deposit_refuted"
   ],
   "note": "Exact for all histories in which a force and a deposit are never outstanding together; refuted otherwise (deposit overrides a force, or resurfaces after release)."
  },
  {
   "property": "C16",
   "status": "proved",
   "theorems": [
    "C16_unsigned_round_trip",
    "C16_signed_round_trip",
    "C16_size",
    "C16_sequences"
   ],
   "note": "All 64-bit values, any sequence of fields through the write buffer."
  },
  {
   "property": "C17",
   "status": "proved",
   "theorems": [
    "C17_every_implementation_is_adler",
    "C17_detects_one_byte",
    "C17_detects_swap"
   ],
   "note": "Scalar (32/64-bit words) and AVX2 (lane by lane) code both compute mathematical Adler-32 for every byte string and chunking; single-byte corruption and neighbour exchange always detected."
  },
  {
   "property": "C18",
   "status": "partial",
   "theorems": [
    "C18_blocks",
    "C18_reread",
    "C18_read_sizes",
    "C18_corruption_detected",
    "C18_truncation_detected",
    "C18_fastlz_padding_refuted",
    "C18_4gib_refuted"
   ],
   "note": "Proved for the ZSTD (codec as a parameter assumed lossless) and uncompressed formats below 4 GiB; refuted for the FASTLZ format and for files of 4 GiB or more."
  },
  {
   "property": "C19",
   "status": "proved",
   "theorems": [
    "C19_handles_unique",
    "C19_handles_stable",
    "C19_pieces_hash",
    "C19_nul_stops",
    "C19_nul_refuted"
   ],
   "note": "Concurrent table under every schedule. Names that contain a NUL byte are hashed up to it only, so joining pieces gives a second handle (refuted for such names)."
  },
  {
   "property": "C20",
   "status": "partial",
   "theorems": [
    "C20_round_trip",
    "C20_empty_refuted",
    "C20_nul_refuted",
    "C20_long_refuted"
   ],
   "note": "Round trip proved for all interleavings of writes to any number of open files; refuted for empty names, names with NUL and names between 60 and 64 KiB, which the identifier table accepts."
  },
  {
   "property": "C21",
   "status": "proved",
   "theorems": [
    "C21_glob",
    "C21_star_empty_refuted"
   ],
   "note": "A star stands for one or more characters, as coded."
  },
  {
   "property": "C22",
   "status": "proved",
   "theorems": [
    "C22_distance",
    "C22_metric"
   ],
   "note": ""
  },
  {
   "property": "C23",
   "status": "partial",
   "theorems": [
    "C23_parts",
    "C23_rebuild",
    "C23_apostrophe_refuted"
   ],
   "note": "Refuted for the literal of the apostrophe itself."
  },
  {
   "property": "C24",
   "status": "proved",
   "theorems": [
    "C24_roundtrip",
    "C24_no_file_refuted",
    "C24_registers_refuted"
   ],
   "note": "zstd is a parameter with an inverse. The refuted theorems show why the conditions on locations and registers are needed."
  },
  {
   "property": "C25",
   "status": "proved",
   "theorems": [
    "C25_cprop",
    "C25_results",
    "C25_handles_refuted",
    "C25_labels"
   ],
   "note": "Lock-step equality of complete machine states after every number of steps. Conditions: registers below nregs, labels lead to marked targets, moves do not compute addresses, operand kinds of the output acceptable; the last one is needed (C25_handles_refuted)."
  },
  {
   "property": "C26",
   "status": "partial",
   "theorems": [
    "C26_dce_partial",
    "C26_registers",
    "C26_traps_refuted",
    "C26_labels",
    "C26_passes_partial"
   ],
   "note": "Covers every removal except that of an allocation whose result is never used (allocs_used); a trap in dead code disappears (C26_traps_refuted)."
  },
  {
   "property": "C27",
   "status": "proved",
   "theorems": [
    "C27_delete_nops",
    "C27_no_nops",
    "C27_labels"
   ],
   "note": "Both directions, for returning, going wrong and running for ever; condition: labels only occur as jump targets."
  },
  {
   "property": "C28",
   "status": "partial",
   "theorems": [
    "C28_promotion_partial",
    "C28_frame",
    "C28_wide_refuted",
    "C28_early_refuted",
    "C28_escape_refuted"
   ],
   "note": "Promotion of one allocation, step by step, when the place is private to the accesses through its register along the run: allocation before access, store before load, stored values fit, everything else blind to the place, and the address itself not stored. The layout of the remaining allocations is proved without these conditions. Without them the promotion changes behaviour (three refutations). Missing: that moving the remaining allocations within the frame is not observable."
  },
  {
   "property": "C29",
   "status": "partial",
   "theorems": [
    "C29_lvn_partial",
    "C29_memset_partial",
    "C29_memset_refuted",
    "C29_rewritten_refuted",
    "C29_checked_refuted",
    "C29_exp_refuted",
    "C29_slot_refuted"
   ],
   "note": "Full statement refuted: five concrete programs whose meaning local value numbering changes. Proved: for code in which each register is written at one place, slots are not reused without a call, and no checked arithmetic, exponentiation or block operation is replaced, the function returns the same values, diverges or goes wrong exactly as before. Missing: the block operations inside the simulation; for memset the stored bytes are proved right for non-negative values."
  },
  {
   "property": "C30",
   "status": "proved",
   "theorems": [
    "C30_alloc",
    "C30_no_spills",
    "C30_intervals",
    "C30_allocated_code",
    "C30_flag_refuted",
    "C30_no_registers_refuted"
   ],
   "note": "Interval construction (depth first walk), the allocation for any result of the unstable sort, and the behaviour of renamed code on the interpreter's semantics. Outside the conditions two memory errors of the code are shown: the flag live across blocks, and no allowed register."
  },
  {
   "property": "C31",
   "status": "proved",
   "theorems": [
    "C31_live_out",
    "C31_live_in",
    "C31_dead",
    "C31_flag_partial",
    "C31_flags_refuted"
   ],
   "note": "Exact for every register and every graph, terminates; and semantically: changing registers not reported live at the start of a block does not change the run. The flag bit is exact only without chained comparisons (C31_flags_refuted)."
  },
  {
   "property": "C32",
   "status": "proved",
   "theorems": [
    "C32_edge_lists",
    "C32_partition",
    "C32_transfers",
    "C32_edges",
    "C32_predecessors"
   ],
   "note": "Exits listed by jit_will_abort are assumed not to come back (exits_abort)."
  },
  {
   "property": "C33",
   "status": "partial",
   "theorems": [
    "C33_pack_partial",
    "C33_pack_refuted",
    "C33_defined_partial",
    "C33_defined_refuted",
    "C33_integer_partial",
    "C33_integer_refuted",
    "C33_literal_partial",
    "C33_literal_refuted"
   ],
   "note": "Proved for every width up to 28, up to 32 without X and Z, and all multiples of 32; refuted for the other widths. Literals: see good_literal; refuted otherwise."
  },
  {
   "property": "C34",
   "status": "partial",
   "theorems": [
    "C34_first_match_partial",
    "C34_binary_refuted",
    "C34_always_refuted",
    "C34_z_refuted",
    "C34_edges_refuted",
    "C34_unmatched_refuted",
    "C34_refuted"
   ],
   "note": "Every table without b, without rows that always match and with inputs other than z; the output is delayed by 1 fs and a sequential UDP keeps its output when no row matches."
  },
  {
   "property": "C35",
   "status": "proved",
   "theorems": [
    "C35_heap_history",
    "C35_owned",
    "C35_end_pointer",
    "C35_margin_refuted"
   ],
   "note": "mspace.c with the real bit masks; stacks and registers are arbitrary word lists."
  },
  {
   "property": "C36",
   "status": "proved",
   "theorems": [
    "C36_all_freed",
    "C35_heap_history"
   ],
   "note": "Out-of-memory condition is the no_room clause of alloc_oom in GcSpec.v."
  },
  {
   "property": "C37",
   "status": "proved",
   "theorems": [
    "C37_mutual_exclusion",
    "C37_acquire_when_free"
   ],
   "note": "Every number of threads, locks and parking bays and every schedule under sequential consistency; the assertions of lock, unlock, park and unpark never fail."
  },
  {
   "property": "C38",
   "status": "proved",
   "theorems": [
    "C38_sleeper_has_waker",
    "C38_released_lock_has_no_sleeper",
    "C38_free_lock_acquired"
   ],
   "note": "Spurious wake-ups and shared bays included; a waiter obtains a free lock in at most nine of its own steps when the other threads rest."
  },
  {
   "property": "C39",
   "status": "proved",
   "theorems": [
    "C39_exactly_once",
    "C39_at_most_once",
    "C39_short_runs",
    "C39_wrap_refuted"
   ],
   "note": "Word-by-word model of push_bot, pop_bot and pop_top with any number of thieves. The condition on the 32-bit tag is shown to be necessary by C39_wrap_refuted."
  },
  {
   "property": "C40",
   "status": "proved",
   "theorems": [
    "C40_phases",
    "C40_all_leave"
   ],
   "note": "Every number of participants and every schedule."
  },
  {
   "property": "C41",
   "status": "proved",
   "theorems": [
    "C41_drain",
    "C41_at_most_once",
    "C41_async_barrier",
    "C41_drain_returns"
   ],
   "note": "Work queue of thread.c, every interleaving of posting, starting, stealing, executing and draining; epochs are unbounded in the model (32-bit in the code)."
  },
  {
   "property": "C42",
   "status": "proved",
   "theorems": [
    "C42_dominators",
    "C42_flow_graph"
   ],
   "note": "The dominator sets computed by mir_dominator_tree over the bit masks of mask.c are exactly the blocks on every path from the entry or a resume block; the flow graph built by mir_get_cfg has exactly the edges of the jumps."
  },
  {
   "property": "C43",
   "status": "proved",
   "theorems": [
    "C43_shuffle_is_reordering",
    "C43_shuffle_reaches_every_order"
   ],
   "note": "Any number of tasks, any random sequence; also every order is reachable."
  },
  {
   "property": "C44",
   "status": "partial",
   "theorems": [
    "C44_parts_partial",
    "C44_no_overlap_partial",
    "C44_code",
    "C44_integers"
   ],
   "note": "For signals and for generated code every type is covered. For layout_of only types without null ranges: C44_null_refuted shows fields overlapping; C44_alignment_refuted shows scalars in arrays of records off their alignment."
  },
  {
   "property": "C45",
   "status": "partial",
   "theorems": [
    "C45_reports_exactly_matches_partial",
    "C45_report_ends_match_partial",
    "C45_first_match_reported_partial",
    "C45_star_forgotten_refuted",
    "C45_empty_takes_cycle_refuted",
    "C45_empty_matches_anything_refuted",
    "C45_assert_choice_refuted",
    "C45_product_loses_edge_refuted"
   ],
   "note": "Proved for sequences of Boolean expressions, concatenation, fusion and consecutive repetition with at least one copy (bounded or infinite), nested in any way, over every trace, from building the automaton through removal of epsilon edges to the states active at run time. False of the code for repetitions that may be empty, for assert directives with choices and for some uses of && (refuted by witnesses). Missing: goto and non-consecutive repetition, and the uses of && that work."
  },
  {
   "property": "C46",
   "status": "partial",
   "theorems": [
    "C04_small_table_refuted"
   ],
   "note": "refuted: a table of size two fills up and a lookup never ends; for sizes >= 4 termination is part of the C04 theorems"
  },
  {
   "property": "C47",
   "status": "partial",
   "theorems": [
    "C47_null_transaction_kept_refuted",
    "C47_disconnect_at_time_zero_refuted",
    "C47_disconnect_takes_effect_partial"
   ],
   "note": "refuted: pending null transactions are deleted by later assignments, time-zero disconnection is lost"
  },
  {
   "property": "C48",
   "status": "partial",
   "theorems": [
    "C48_at_most_twenty_collide",
    "C48_progress_refuted"
   ],
   "note": "Refuted: 21 legal VHDL identifiers with the same hash make the table grow for ever. Progress without collisions is not proved."
  },
  {
   "property": "C49",
   "status": "partial",
   "theorems": [
    "C49_hash_agrees",
    "C49_ascii",
    "C49_latin1_other",
    "C49_latin1_x86_refuted",
    "C49_downcase"
   ],
   "note": "Refuted on x86-64 for accented letters."
  },
  {
   "property": "C50",
   "status": "proved",
   "theorems": [
    "C50_split_first",
    "C50_split_last",
    "C50_no_separator",
    "C50_starts_with"
   ],
   "note": "hash_update stopping at NUL and C19 give the handle for the characters."
  },
  {
   "property": "C51",
   "status": "proved",
   "theorems": [
    "C51_order_is_irrelevant"
   ],
   "note": "One cycle from any reachable state; processes communicate through signals only."
  },
  {
   "property": "C52",
   "status": "partial",
   "theorems": [
    "C52_agree_partial",
    "C52_signals_partial"
   ],
   "note": "Agreement for plain types (LayoutSpec.plain) and signals. It is false in general: C52_nested_refuted, C52_open_refuted, C52_bounds_refuted."
  },
  {
   "property": "C53",
   "status": "proved",
   "theorems": [
    "C53_round_trip",
    "C53_pack",
    "C53_literal"
   ],
   "note": "Any sequence of well-formed numbers; packing and literals give only well-formed numbers."
  },
  {
   "property": "C54",
   "status": "proved",
   "theorems": [
    "C54_plus",
    "C54_minus",
    "C54_plus_natural",
    "C54_natural_plus",
    "C54_null_warning_refuted"
   ],
   "note": "The property speaks of warnings for non-null vectors only: for a null vector and a NATURAL other than 0 the native code warns although TO_UNSIGNED would not (C54_null_warning_refuted)."
  },
  {
   "property": "C55",
   "status": "proved",
   "theorems": [
    "C55_times"
   ],
   "note": "Allocation never fails in the model."
  },
  {
   "property": "C56",
   "status": "proved",
   "theorems": [
    "C56_compare"
   ],
   "note": ""
  },
  {
   "property": "C57",
   "status": "proved",
   "theorems": [
    "C57_to_unsigned",
    "C57_to_signed",
    "C57_signed_exact",
    "C57_resize_unsigned",
    "C57_resize_signed",
    "C57_resize_value",
    "C57_to_01"
   ],
   "note": ""
  },
  {
   "property": "C58",
   "status": "proved",
   "theorems": [
    "C58_logic",
    "C58_to_x01",
    "C58_equal"
   ],
   "note": "Nine versions of the logic operators, two of TO_X01, three of byte equality."
  },
  {
   "property": "C59",
   "status": "partial",
   "theorems": [
    "C59_plus",
    "C59_minus",
    "C59_plus_logic",
    "C59_logic_plus",
    "C59_times",
    "C59_equal_unsigned",
    "C59_equal_signed_partial",
    "C59_both_null",
    "C59_equal_signed_refuted",
    "C59_null_refuted",
    "C59_times_null"
   ],
   "note": "Proved for non-null operands, except \"=\" of SIGNED when the shorter operand has the sign 'L' or 'H': there it is false (refuted). With one null operand the result depends on memory not in use (refuted)."
  },
  {
   "property": "C60",
   "status": "partial",
   "theorems": [
    "C60_merge_partial",
    "C60_merge_files_partial",
    "C60_any_order_partial",
    "C60_merge_fault",
    "C60_merge_total",
    "C60_same_design",
    "C60_update_counts",
    "C60_overrun_refuted",
    "C60_options_lost_refuted",
    "C60_options_one"
   ],
   "note": "Counts and order independence proved for merges that do not fault; exactly when they fault is characterised; databases of two runs of one design always merge. Missing: totality, which is refuted (a scope that extends the one already read is read out of bounds), and the report options, which are lost when a second database is read."
  },
  {
   "property": "C61",
   "status": "proved",
   "theorems": [
    "C61_toggle",
    "C61_constant"
   ],
   "note": "Callback of all four option sets with its batches of eight bytes, for any width and history; saturation included."
  },
  {
   "property": "C62",
   "status": "partial",
   "theorems": [
    "C62_counts",
    "C62_covered_partial",
    "C62_initial_refuted"
   ],
   "note": "Entries are counted right; reached exactly when counted if the initial value is the leftmost literal. Otherwise false: refuted."
  },
  {
   "property": "C63",
   "status": "partial",
   "theorems": [
    "C63_statement_partial",
    "C63_saturation_refuted",
    "C63_saturation_range",
    "C63_counts_partial",
    "C63_no_new_items",
    "C63_not_compiled",
    "C63_stale_refuted",
    "C63_array_stays"
   ],
   "note": "Right below 2^31 executions and when cover points are not created after code was compiled just in time; both conditions are shown to be needed."
  },
  {
   "property": "C64",
   "status": "partial",
   "theorems": [
    "C64_items",
    "C64_items_total",
    "C64_encoding",
    "C64_scopes_partial",
    "C64_rename_refuted",
    "C64_rename_fresh_refuted"
   ],
   "note": "Items: proved in full. Scopes: proved for runs in which no scope is renamed; with renaming it is false (refuted)."
  },
  {
   "property": "C65",
   "status": "partial",
   "theorems": [
    "C65_totals_partial",
    "C65_all_below",
    "C65_average_partial",
    "C65_own_items_refuted",
    "C65_limit_refuted",
    "C65_source_refuted",
    "C65_merged_refuted",
    "C65_average_refuted"
   ],
   "note": "Proved for databases whose items are in groups, within the item limit, with all sources found and for items not directly in the scope of an instance; the full property is false in each of these cases (witnesses), and the average counts every functional item as covered."
  },
  {
   "property": "C66",
   "status": "proved",
   "theorems": [
    "C66_round_trip"
   ],
   "note": "Assumes the compressor gives back the blocks it was handed (C16-C18) and is not the legacy FastLZ one; names under 61440 bytes; at most 2^31 mentioned identifiers. Items without operands or without a further name keep whatever the reader's memory held in those fields, as in the C."
  },
  {
   "property": "C67",
   "status": "partial",
   "theorems": [
    "C67_path",
    "C67_same_reference",
    "C67_different_paths",
    "C67_repeated_slash_refuted",
    "C67_repeated_slash_always"
   ],
   "note": "For names with a repeated slash the same-reference half is false: C67_repeated_slash_refuted; each call makes a further entry for the same path. Hence the condition in C67_same_reference."
  },
  {
   "property": "C68",
   "status": "partial",
   "theorems": [
    "C68_marks",
    "C68_wrap_refuted",
    "C68_nested_refuted"
   ],
   "note": "Proved for traversals of a unit that come one after another with fewer than 65536 started in between. The unconditional statement is false: the generation number is 16 bits wide (C68_wrap_refuted) and a traversal started within another one of the same unit clears its marks (C68_nested_refuted)."
  },
  {
   "property": "C69",
   "status": "proved",
   "theorems": [
    "C69_sizes",
    "C69_change",
    "C69_refused"
   ],
   "note": "For all tables of kinds; the 64-bit masks are numbers with bits 0 to 63. Registration of names and the check sums of the tables are left out."
  },
  {
   "property": "C70",
   "status": "partial",
   "theorems": [
    "C70_visit",
    "C70_items",
    "C70_kind_refuted"
   ],
   "note": "Proved when no other class has as many kinds as the number asked for. Otherwise the function is called for every object of that other class (C70_kind_refuted): the test for 'all kinds' looks at the class of the object met, not at the one asked for. Callbacks are taken not to change objects."
  },
  {
   "property": "C71",
   "status": "proved",
   "theorems": [
    "C71_kept",
    "C71_complete"
   ],
   "note": "Positions are counted without the 32-bit limit. A unit without a root object stops, as in the code."
  },
  {
   "property": "C72",
   "status": "proved",
   "theorems": [
    "C72_faithful",
    "C72_accepted",
    "C72_same_process_refuted"
   ],
   "note": "C72_faithful is about every read that succeeds, C72_accepted says when it does. C72_same_process_refuted shows what the last sentence of the statement says. Not modelled: the outer header of lib.c, units that depend on each other in a circle, the formats of older versions."
  },
  {
   "property": "C73",
   "status": "partial",
   "theorems": [
    "C73_missing",
    "C73_genuine",
    "C73_good_accepted",
    "C73_ordered_partial",
    "C73_refuted",
    "C73_wide_refuted"
   ],
   "note": "Correct statements are always accepted, reports are exact when no value stands twice, a reported duplicate is one, and with choices in ascending or descending order an accepted statement is correct. False in general: a choice next to an interval is merged with it without looking at the following interval, so duplicates are missed and cancel missing values."
  },
  {
   "property": "C74",
   "status": "proved",
   "theorems": [
    "C74_accepted",
    "C74_unknown_length",
    "C74_subtype_refuted"
   ],
   "note": "The condition on the characters is needed: C74_subtype_refuted. Matching case statements are not modelled."
  },
  {
   "property": "C75",
   "status": "partial",
   "theorems": [
    "C75_scalar",
    "C75_one",
    "C75_array",
    "C75_constant_partial",
    "C75_constant_refuted"
   ],
   "note": "Generated code: proved. Replacement of a constant case statement: only when every range choice contains the value, false otherwise since a range that does not match falls through to the case of others."
  },
  {
   "property": "C76",
   "status": "partial",
   "theorems": [
    "C76_arithmetic_partial",
    "C76_bounds_partial",
    "C76_zero_minus_refuted",
    "C76_divide_by_negative_refuted",
    "C76_sum_64_bits_refuted",
    "C76_negate_unsigned_refuted",
    "C76_negate_check_refuted",
    "C76_one_bit_sum_refuted",
    "C76_folded_sum_refuted",
    "C76_absolute_refuted",
    "C76_quotient_refuted"
   ],
   "note": "Proved for every run whose steps meet ArithSpec.regular; the refutations show that the claim is false of the code for steps that do not. Jumps, memory, reals and arrays are not modelled."
  },
  {
   "property": "C77",
   "status": "partial",
   "theorems": [
    "C77_memory_partial",
    "C77_scalars",
    "C77_earlier_address_refuted",
    "C77_earlier_context_refuted",
    "C77_deallocate_refuted",
    "C77_file_open_refuted",
    "C77_dead_store_refuted"
   ],
   "note": "Proved for every block that meets LoadSpec.fits; without pointers (C77_scalars) no condition is needed. The refutations show that each condition is needed."
  },
  {
   "property": "C78",
   "status": "partial",
   "theorems": [
    "C78_import_partial",
    "C78_stamps_partial",
    "C78_arithmetic_partial",
    "C78_square_refuted",
    "C78_product_range_refuted",
    "C78_select_refuted",
    "C78_rem_refuted",
    "C78_zero_minus_refuted"
   ],
   "note": "Proved for every block that meets the conditions of MirModel.fits; outside them the code is wrong, as the refuted theorems show. Reals, offsets, exponentiation, arrays, memory and jumps are not modelled."
  },
  {
   "property": "C79",
   "status": "partial",
   "theorems": [
    "C79_shift_partial",
    "C79_arithmetic_partial",
    "C79_arithmetic_refuted"
   ],
   "note": "Exact for sll, srl, rol and ror. For sla and sra exact if the count is not positive or the ends are equal; for every other vector and count the result is proved to be wrong."
  },
  {
   "property": "C80",
   "status": "proved",
   "theorems": [
    "C80_match",
    "C80_match_bit",
    "C80_match_vector",
    "C80_match_bit_vector"
   ],
   "note": "All operators, elements and vectors. The text of the error message, of which only the first seven characters are printed, is not modelled."
  },
  {
   "property": "C81",
   "status": "partial",
   "theorems": [
    "C81_equal_partial",
    "C81_shape_refuted",
    "C81_order_partial",
    "C81_null_refuted",
    "C81_order_total"
   ],
   "note": "Equality is exact for all types whose arrays of several dimensions have a given shape; ordering is exact unless both vectors are null. Outside these conditions the code gives the wrong result (refutations). Reals are left out."
  },
  {
   "property": "C82",
   "status": "proved",
   "theorems": [
    "C82_vectors",
    "C82_not",
    "C82_mixed",
    "C82_reduction",
    "C82_extreme"
   ],
   "note": "All operators and vectors. Reals are left out of MAXIMUM and MINIMUM."
  },
  {
   "property": "C83",
   "status": "partial",
   "theorems": [
    "C83_integer_image",
    "C83_integer_value",
    "C83_integer_round_trip",
    "C83_enum_value",
    "C83_enum_image",
    "C83_physical_image",
    "C83_enum_round_trip_partial",
    "C83_enum_sound_partial",
    "C83_physical_value_partial",
    "C83_physical_round_trip",
    "C83_physical_sound_partial",
    "C83_physical_overflow_refuted",
    "C83_space_literal_refuted",
    "C83_extended_literal_refuted",
    "C83_accent_literal_refuted",
    "C83_inner_space_refuted"
   ],
   "note": "Integers: proved exactly, both directions, with the round trip. Enumerations: every spelling of a basic identifier or a character other than a space is read right and the round trip holds for those; refuted for the space character, extended identifiers and accented letters; white space inside a literal is accepted. Physical: exact while the product fits 64 bits, with the round trip; refuted beyond, where the product wraps without an error."
  },
  {
   "property": "C84",
   "status": "partial",
   "theorems": [
    "C84_real_partial",
    "C84_real_sound_partial",
    "C84_exponent_refuted",
    "C84_exponent_space_refuted",
    "C84_exponent_garbage_refuted"
   ],
   "note": "Proved for numbers without an exponent and with an exponent of one digit at the end of the string. Refuted for exponents of more digits: the loop never reads the next character, so the first digit is used for every character up to the end of the string. The rounding of the floating-point operations is not modelled."
  },
  {
   "property": "C85",
   "status": "partial",
   "theorems": [
    "C85_file_objects_partial",
    "C85_stale_handle_partial",
    "C85_generation_refuted",
    "C85_reuse_refuted"
   ],
   "note": "Proved for simulations that open at most 65534 files, by a refinement from the table of slots with generations to the association of objects with files. Refuted beyond: the generation wraps to 0 because the hint is used without looking at it, the handle of slot 0 becomes 0 and the opened file counts as closed; a stale handle of another slot reaches a new file."
  },
  {
   "property": "C86",
   "status": "proved",
   "theorems": [
    "C86_sequence",
    "C86_unique",
    "C86_range",
    "C86_seed"
   ],
   "note": "The published recurrence is stated on an infinite sequence; the in-place table is proved to hold its windows. Calls are taken one after another, as the lock makes them. That the seed is not changed between calls is not needed after the first call."
  },
  {
   "property": "C87",
   "status": "partial",
   "theorems": [
    "C87_event_partial",
    "C87_event_whole",
    "C87_event_not_missed",
    "C87_sync_ok",
    "C87_last_event_partial",
    "C87_last_event_not_later",
    "C87_now",
    "C87_last_value_partial",
    "C87_last_value_scalar",
    "C87_event_refuted",
    "C87_last_value_refuted",
    "C87_query_changes_refuted",
    "C87_null_slice_refuted",
    "C87_delta_refuted"
   ],
   "note": "'EVENT and 'LAST_EVENT are exact for whole signals and for slices whose ends the elaborated design had cut; for other slices events are never missed, but may be reported for elements that did not change (refuted). 'LAST_VALUE is exact for scalars and slices that are one piece, refuted otherwise. Below 65536 delta cycles at a time."
  },
  {
   "property": "C88",
   "status": "partial",
   "theorems": [
    "C88_active_partial",
    "C88_last_active_partial",
    "C88_assigned_active",
    "C88_no_fault",
    "C88_pending",
    "C88_active_too_early_refuted",
    "C88_active_lost_refuted",
    "C88_last_active_refuted",
    "C88_mixed_refuted"
   ],
   "note": "Proved for questions before any undelayed assignment of the cycle, or anywhere once a delayed assignment was made in an earlier cycle, in runs where the first delayed assignment does not follow an undelayed one in its cycle. Elsewhere the full statement is false of the code: witnesses are proved. One piece and one driver; ports, force and several drivers are not modelled."
  },
  {
   "property": "C89",
   "status": "partial",
   "theorems": [
    "C89_sent",
    "C89_flushed",
    "C89_received_partial",
    "C89_end_to_end_partial",
    "C89_two_texts_refuted",
    "C89_long_refuted",
    "C89_negative_refuted",
    "C89_fragment_refuted"
   ],
   "note": "Sending and flushing: proved. Receiving: proved for every cut of the stream in which nothing follows a text in the same piece, and payloads below 2 GiB. Otherwise false of the code: a text destroys the first byte after it, lengths are cut to 32 bits (witnesses), and a message in several frames fails an assertion. The handlers are taken not to send."
  },
  {
   "property": "C90",
   "status": "partial",
   "theorems": [
    "C90_xor_not",
    "C90_and_partial",
    "C90_or_partial",
    "C90_x_decided_refuted",
    "C90_or_short_refuted",
    "C90_logical_partial",
    "C90_log_and_refuted",
    "C90_reduce_partial",
    "C90_reduce_refuted",
    "C90_resize",
    "C90_add_partial",
    "C90_neg_partial",
    "C90_add_x_refuted",
    "C90_equal_partial",
    "C90_equal_x_refuted",
    "C90_case_equal",
    "C90_less_partial",
    "C90_less_same_size",
    "C90_less_sizes_refuted",
    "C90_less_x_refuted",
    "C90_integer",
    "C90_round_trip",
    "C90_net",
    "C90_wire_partial",
    "C90_wire_refuted",
    "C90_missing_refuted",
    "C90_to_string_refuted",
    "C90_binary_partial"
   ],
   "note": "Exact for known operands: bitwise and (any lengths), or (same length), not, xor, logical ! and ||, reductions, +, unary -, ==, and the relations when each number fits in the other's size; case equality, resize, conversions and encoding exact for all. With unknown bits each definite bit is right. Refuted: && is never true, relations of different sizes are inverted, or drops upper bits, x does not follow the tables, wires depend on the order of drivers, - and != have no function, strings come out backwards."
  },
  {
   "property": "C91",
   "status": "partial",
   "theorems": [
    "C91_narrow",
    "C91_values",
    "C91_bounds_partial",
    "C91_null_right_refuted",
    "C91_wide_refuted",
    "C91_null",
    "C91_length_partial",
    "C91_length_refuted",
    "C91_check",
    "C91_element",
    "C91_places",
    "C91_slice_partial",
    "C91_slice_direction_refuted",
    "C91_loop",
    "C91_loop_bounds"
   ],
   "note": "Bounds, lengths and elements for ranges whose bounds differ by less than 2^63 - 1 (all ranges of 32-bit types); loops for all. Refuted: 'RIGHT of a null range, lengths of 64-bit ranges, slices against a direction known only at run time."
  },
  {
   "property": "C92",
   "status": "partial",
   "theorems": [
    "C92_calendar",
    "C92_seconds_partial",
    "C92_seconds_late_refuted",
    "C92_seconds_early_refuted",
    "C92_gmtime_partial",
    "C92_gmtime_late_refuted",
    "C92_round_trip_partial",
    "C92_back_partial",
    "C92_localtime",
    "C92_localtime_trec_partial",
    "C92_gmtime_trec_partial",
    "C92_gmtime_trec_refuted",
    "C92_epoch_local_refuted",
    "C92_add_partial",
    "C92_add_borrow_refuted",
    "C92_diff_partial",
    "C92_sub_partial",
    "C92_epoch_refuted",
    "C92_time_to_seconds_partial",
    "C92_time_to_seconds_refuted",
    "C92_seconds_to_time_partial",
    "C92_seconds_to_time_refuted",
    "C92_to_string_partial",
    "C92_to_string_refuted"
   ],
   "note": "Conversions, sums and differences for the years 1969 to 2038 and without a borrow of a tenth of a second or more; reals are exact in the model. Refuted: later and earlier years, EPOCH without argument, EPOCH of a local time, GMTIME near a change of offset, sums that borrow, TIME_TO_SECONDS of negative times, SECONDS_TO_TIME out of range, the month of TO_STRING."
  },
  {
   "property": "C93",
   "status": "partial",
   "theorems": [
    "C93_stable",
    "C93_quiet",
    "C93_wakes",
    "C93_next",
    "C93_delayed_partial",
    "C93_delayed_late",
    "C93_delayed_initial_refuted",
    "C93_transaction",
    "C93_transaction_parity"
   ],
   "note": "STABLE, QUIET and TRANSACTION in full. DELAYED is wrong in the first T units of time: it has the default value of the type (C93_delayed_initial_refuted); from then on it is right (C93_delayed_late). The activity and events of S are given, and the fast path for assignments without delay is not modelled."
  },
  {
   "property": "C94",
   "status": "partial",
   "theorems": [
    "C94_integer_partial",
    "C94_integer_only",
    "C94_integer_overflow",
    "C94_integer_least_refuted",
    "C94_enum_identifier",
    "C94_enum_char_partial",
    "C94_enum_only",
    "C94_enum_space_refuted",
    "C94_enum_extended_refuted",
    "C94_enum_empty_refuted",
    "C94_chars_partial",
    "C94_chars_quoted",
    "C94_chars_only",
    "C94_chars_wide_refuted",
    "C94_chars_subtype_refuted",
    "C94_physical_partial",
    "C94_physical_only",
    "C94_physical_minus_refuted",
    "C94_physical_number_refuted",
    "C94_real_empty_refuted"
   ],
   "note": "Both directions for integers below 2^63 in magnitude, identifiers, character literals other than space, and arrays of up to 256 literals. Refuted for the least integer, ' ', extended identifiers, empty text, types with more literals, arrays of a subtype, -1 of the first unit, and missing numbers. strtod is a parameter and only whole numbers are covered. The check of the range of the subtype is not part of this code."
  },
  {
   "property": "C95",
   "status": "partial",
   "theorems": [
    "C95_image_partial",
    "C95_value_partial",
    "C95_value_only",
    "C95_round_trip_partial",
    "C95_image_null_refuted",
    "C95_value_null_refuted",
    "C95_value_rest_refuted",
    "C95_value_separator_refuted",
    "C95_value_length_refuted",
    "C95_value_delimiter_refuted",
    "C95_value_quotes_refuted",
    "C95_value_string_refuted",
    "C95_value_empty_refuted"
   ],
   "note": "Images of nested records and arrays are as the standard has them and are read back; C95_value_only bounds what is accepted. Refuted for null arrays, text after the value, parentheses as separators, arrays longer than their field, commas in character literals and character arrays. The scalars are parameters."
  },
  {
   "property": "C96",
   "status": "partial",
   "theorems": [
    "C96_file_same",
    "C96_file_distinct",
    "C96_file_legal",
    "C96_file_found_partial",
    "C96_file_found_refuted",
    "C96_lookup",
    "C96_lookup_sse_partial",
    "C96_lookup_sse_refuted",
    "C96_hex_refuted"
   ],
   "note": "Files and table agree with the specification of equal names, on file systems that ignore case, and file names have legal characters only. Names have no plus sign outside of extended identifiers. Refuted for the suffixes in lower case, for letters outside of ASCII with SSE2, and for the digits of bytes from 128."
  },
  {
   "property": "C97",
   "status": "partial",
   "theorems": [
    "C97_ordered",
    "C97_no_loss",
    "C97_only_saved",
    "C97_reproducible",
    "C97_kind_partial",
    "C97_kind_refuted",
    "C97_stamp_refuted"
   ],
   "note": "Exactly the saved units are in the index if each saving has a later time. The kinds are proved for a session that is alone. Refuted: kinds when another process saves in between, and changes with the same time and size. The lock is assumed to make each operation one step."
  },
  {
   "property": "C98",
   "status": "partial",
   "theorems": [
    "C98_compare",
    "C98_copy",
    "C98_update",
    "C98_waveform_partial",
    "C98_waveform_eight",
    "C98_waveform_refuted"
   ],
   "note": "Proved for the update of signals. Refuted for values of less than eight bytes in waveforms, which are compared with the bytes that follow. The position in cmp_bytes_sse41 is a natural number in place of an int."
  },
  {
   "property": "C99",
   "status": "proved",
   "theorems": [
    "C99_countones",
    "C99_onehot",
    "C99_onehot0",
    "C99_isunknown",
    "C99_ones_total"
   ],
   "note": "A bit_vector is a vector of '0' and '1'. The count is an unbounded integer; a count of 2**31 is not treated. The conditional compilation of the package is not modelled (see findings)."
  }
 ]
}