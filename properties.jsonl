{"id": "C01", "title": "Event queue always yields an earliest event", "statement": "After any history of insert / extract-min / delete operations on the time-ordered event queue, the next extract-min returns an item that is queued and whose time key is no larger than the key of any other queued item; min and min-key report exactly the item the next extraction returns.", "quantifier": "every finite sequence of queue operations with arbitrary 64-bit keys and arbitrary payloads", "why_tests_cant": "The sift-up/sift-down interaction depends on the whole history and shape of the array; a bad ordering only appears for particular key permutations and sizes.", "anchors": ["src/rt/heap.c:heap_insert", "src/rt/heap.c:heap_extract_min", "src/rt/heap.c:heap_min", "src/rt/heap.c:heap_min_key", "src/rt/heap.c:min_heapify"]}
{"id": "C02", "title": "Event queue neither loses, duplicates nor invents events", "statement": "The multiset of queued (key,item) pairs changes by exactly one inserted pair on insert, exactly one returned pair on extract-min, and on delete-by-predicate by exactly one pair satisfying the predicate if there is one (reported true) and by nothing otherwise (reported false).", "quantifier": "every finite sequence of queue operations, every predicate", "why_tests_cant": "Loss or duplication may need a specific position (last element, moved element that must sift up) in an arbitrarily large heap.", "anchors": ["src/rt/heap.c:heap_insert", "src/rt/heap.c:heap_extract_min", "src/rt/heap.c:heap_delete"]}
{"id": "C03", "title": "Bit masks behave as sets of indices", "statement": "For masks of every width the set/clear/test, range set/clear/test, setall/clearall, population count, backwards scan, clear-run count, union/intersection/subtraction/copy/equality and iteration operations agree with the corresponding operations on mathematical sets of indices below the mask size.", "quantifier": "every mask size, every mask content and every in-range argument", "why_tests_cant": "Boundary behaviour depends on alignment to 64-bit words and on the inline/array representations; exhaustive testing over widths and ranges is impossible.", "anchors": ["src/mask.c", "src/mask.h"]}
{"id": "C04", "title": "Hash tables and hash sets are finite maps", "statement": "For every history of puts, deletes and gets (including table growth and any collisions), a get returns the value of the latest put of that key not followed by a delete, NULL if there is none; iteration visits exactly the live pairs; the pointer hash, string hash, integer hash and hash set all satisfy this.", "quantifier": "every operation history, every hash function (any collision pattern), every initial size that is a power of two and at least four (smaller sizes: C46)", "why_tests_cant": "Probe sequences, growth and tombstones interact; a failing history needs specific collisions.", "anchors": ["src/hash.c:hash_put", "src/hash.c:hash_get", "src/hash.c:hash_delete", "src/hash.c:shash_put", "src/hash.c:ihash_put", "src/hash.c:hset_insert"]}
{"id": "C05", "title": "Generic hash table is a finite map", "statement": "The generic (user hash/compare) table returns the latest value put for a key and NULL after the key is deleted.", "quantifier": "every operation history", "why_tests_cant": "Needs a put of an existing key followed by delete and a growth.", "anchors": ["src/hash.c:ghash_put", "src/hash.c:ghash_get", "src/hash.c:ghash_delete"]}
{"id": "C06", "title": "Projected output waveforms stay sorted and preemption is exact", "statement": "After any sequence of assignments to a driver its projected waveform is strictly increasing in time; a new transaction is present at its time; every older transaction at or after the new time is removed; every older transaction before the rejection window is kept unchanged.", "quantifier": "every driver history, every delay, rejection limit and value", "why_tests_cant": "Waveform edits form unbounded histories of list surgery.", "anchors": ["src/rt/model.c:insert_transaction", "src/rt/model.c:sched_driver"]}
{"id": "C07", "title": "Inertial delay follows the VHDL pulse rejection rule", "statement": "Within the rejection window the surviving older transactions are exactly those allowed by LRM 10.5.2.2: a maximal run of transactions immediately preceding the new one with the same value.", "quantifier": "every waveform and every assignment", "why_tests_cant": "The marking rule is defined over arbitrary waveforms.", "anchors": ["src/rt/model.c:insert_transaction"]}
{"id": "C08", "title": "Every scheduled transaction takes effect exactly at its time", "statement": "In any run, each transaction made by a signal assignment that is still in a driver's projected waveform when simulation time reaches its time becomes that driver's current value in that cycle, a driver's current value is always the value of its latest matured transaction, and a signal's value is the resolution of its drivers' current values; no transaction or timeout is lost because its wake-up event was missing, and no internal assertion of the kernel fails.", "quantifier": "every schedule of assignments interleaved with time advance", "why_tests_cant": "A lost wakeup needs a particular order of preemptions, disconnections and events.", "anchors": ["src/rt/model.c:sched_driver", "src/rt/model.c:update_driver", "src/rt/model.c:fast_update_driver", "src/rt/model.c:sched_disconnect"]}
{"id": "C09", "title": "Simulation time is monotone and no event is skipped", "statement": "Across simulation cycles the pair (time, delta) strictly increases, and an event scheduled for time t is delivered in a cycle whose time is exactly t, before any cycle with a later time.", "quantifier": "every model, every set of scheduled events, every number of cycles", "why_tests_cant": "Unbounded executions.", "anchors": ["src/rt/model.c:model_cycle", "src/rt/model.c:model_next_time", "src/rt/model.c:deltaq_insert_proc"]}
{"id": "C10", "title": "A process wakes at most once per cycle and never misses a wakeup", "statement": "In a cycle every process sensitive to at least one signal with an event is executed exactly once, whatever the number of events and duplicates; postponed processes run only after all non-postponed processes of the last delta cycle.", "quantifier": "every sensitivity relation and every set of events", "why_tests_cant": "Depends on arbitrary event combinations.", "anchors": ["src/rt/model.c:wakeup_one", "src/rt/model.c:notify_event", "src/rt/model.c:model_cycle"]}
{"id": "C11", "title": "Sensitivity lists are sets", "statement": "After any history of wait-on / clear operations the set of objects notified on an event of a signal is exactly the set registered and not cleared, each once.", "quantifier": "every history of register/clear operations", "why_tests_cant": "The representation switches between tagged pointer and array with holes.", "anchors": ["src/rt/model.c:sched_event", "src/rt/model.c:clear_event"]}
{"id": "C12", "title": "Splitting a signal preserves its observable value", "statement": "Accessing an arbitrary sub-range of a signal any number of times, in any order, leaves every element's current value, last value, driver values and pending transactions unchanged, and the pieces always partition the signal.", "quantifier": "every sequence of sub-range accesses on signals of any width", "why_tests_cant": "Splits are driven by arbitrary sub-ranges.", "anchors": ["src/rt/model.c:split_nexus", "src/rt/model.c:clone_nexus", "src/rt/model.c:split_value", "src/rt/model.c:clone_source"]}
{"id": "C13", "title": "Signal index lookup agrees with linear search", "statement": "Looking up the piece of a signal that starts at a given offset returns the same piece whether or not the acceleration index exists.", "quantifier": "every partition of a signal and every offset", "why_tests_cant": "Index strides depend on gcds/shifts of arbitrary partitions.", "anchors": ["src/rt/model.c:build_index", "src/rt/model.c:lookup_index", "src/rt/model.c:update_index"]}
{"id": "C14", "title": "Memoised resolution equals calling the resolution function", "statement": "For signals with one or two drivers, the memoised result equals the result of calling the resolution function, and skipping the call for one driver is done only if resolution of a single value is the identity.", "quantifier": "every resolution function over an enumeration and all driver values", "why_tests_cant": "All functions.", "anchors": ["src/rt/model.c:memo_resolution_fn", "src/rt/model.c:call_resolution"]}
{"id": "C15", "title": "Force, release and deposit", "statement": "While a signal is forced its value is the forced value whatever its drivers do; after release it takes the value computed from its drivers; deposit changes the value until the next driver update.", "quantifier": "every history of driver updates, forces, releases, deposits", "why_tests_cant": "Histories.", "anchors": ["src/rt/model.c:force_signal", "src/rt/model.c:release_signal", "src/rt/model.c:deposit_signal", "src/rt/model.c:calculate_driving_value"]}
{"id": "C16", "title": "Variable-length integers round-trip", "statement": "Every unsigned and signed 64-bit integer written to a design library file is read back unchanged and consumes exactly the bytes written, so that any sequence of fields round-trips.", "quantifier": "all 2^64 values and all sequences of them", "why_tests_cant": "2^64 values.", "anchors": ["src/fbuf.c:fbuf_put_uint", "src/fbuf.c:fbuf_get_uint", "src/fbuf.c:fbuf_put_int", "src/fbuf.c:fbuf_get_int"]}
{"id": "C17", "title": "Library checksum is the same function on every CPU and detects byte corruption", "statement": "For every byte string and every way of splitting it into updates, the scalar and the AVX2 implementation compute the same checksum, equal to the mathematical Adler-32 sums, and any corruption of a single byte changes it.", "quantifier": "every byte string of any length and every chunking", "why_tests_cant": "Deferred modulo reductions may overflow only for specific lengths and contents.", "anchors": ["src/fbuf.c:adler32", "src/fbuf.c:adler32_avx2", "src/fbuf.c:checksum_update"]}
{"id": "C18", "title": "Library file contents survive buffering and block boundaries", "statement": "Whatever the sequence and sizes of writes, the concatenation of the blocks flushed to the compressor equals the concatenation of the written bytes, no block exceeds the compressor's input limit, and reading with any sequence of read sizes returns those bytes.", "quantifier": "every sequence of writes", "why_tests_cant": "Block-boundary straddling.", "anchors": ["src/fbuf.c:fbuf_maybe_flush", "src/fbuf.c:write_raw", "src/fbuf.c:fbuf_close"]}
{"id": "C19", "title": "Identifiers are unique", "statement": "Creating identifiers from the same characters always yields the same handle and from different characters different handles, over any history, table growth and any interleaving of threads.", "quantifier": "every history of creations, every hash function, every schedule of concurrent creators", "why_tests_cant": "Races between insertion and growth.", "anchors": ["src/ident.c:ident_from_bytes", "src/ident.c:ident_new", "src/ident.c:grow_table", "src/ident.c:copy_table"]}
{"id": "C20", "title": "Identifiers round-trip through library files", "statement": "Any sequence of identifiers (including null and repeats) written by one session is read back as the same sequence of character strings.", "quantifier": "every sequence of identifiers", "why_tests_cant": "Cache index growth and repeats.", "anchors": ["src/ident.c:ident_write", "src/ident.c:ident_read"]}
{"id": "C21", "title": "Wildcard matching", "statement": "A glob matches exactly the strings obtained by replacing each '*' with a non-empty string.", "quantifier": "all strings and patterns", "why_tests_cant": "Infinite domain.", "anchors": ["src/ident.c:ident_glob", "src/ident.c:ident_glob_walk"]}
{"id": "C22", "title": "Spelling suggestions use true edit distance", "statement": "The distance used for \"did you mean\" hints is the Levenshtein distance.", "quantifier": "all pairs of strings", "why_tests_cant": "Infinite domain.", "anchors": ["src/ident.c:ident_distance"]}
{"id": "C23", "title": "Selected-name splitting respects extended identifiers", "statement": "Walking a selected name yields prefixes whose concatenation with '.' rebuilds the name and never splits inside an extended identifier or a character/operator literal.", "quantifier": "all strings", "why_tests_cant": "Infinite domain.", "anchors": ["src/ident.c:ident_walk_selected"]}
{"id": "C24", "title": "Packed JIT code round-trips", "statement": "Loading a pack file that was written for any set of compiled functions yields, for each of them, the same instructions (opcode, size, condition, target flag, registers, operands, and file, line and column of locations), constant pool, frame size and link table, and finds no other function; for functions using fewer than 65534 registers, locations that name a file and files below 4 GiB.", "quantifier": "every instruction sequence", "why_tests_cant": "Infinite domain; delta-coded locations and string dedup carry state.", "anchors": ["src/jit/jit-pack.c:pack_func", "src/jit/jit-pack.c:jit_pack_fill"]}
{"id": "C25", "title": "Copy propagation preserves execution", "statement": "Running any function before and after the copy-propagation pass gives the same register, flag, argument, memory and control behaviour after every number of steps, as long as the original does nothing undefined and no copied value lands in an operand of a kind the instruction cannot take.", "quantifier": "every IR function, every initial state, every number of steps", "why_tests_cant": "All programs.", "anchors": ["src/jit/jit-optim.c:jit_do_cprop"]}
{"id": "C26", "title": "Dead-code elimination preserves execution", "statement": "Running any well-formed function that does nothing undefined before and after dead-code elimination gives the same observable effects (arguments, memory, control flow, calls and exits), whatever the registers hold at entry.", "quantifier": "every IR function and initial state", "why_tests_cant": "All programs.", "anchors": ["src/jit/jit-optim.c:jit_do_dce"]}
{"id": "C27", "title": "NOP deletion preserves execution", "statement": "Deleting NOPs and renumbering labels preserves behaviour.", "quantifier": "every IR function", "why_tests_cant": "All programs.", "anchors": ["src/jit/jit-optim.c:jit_delete_nops"]}
{"id": "C28", "title": "Promoting stack slots to registers preserves execution", "statement": "Replacing loads and stores of a promotable stack slot by register moves preserves behaviour.", "quantifier": "every IR function", "why_tests_cant": "All programs.", "anchors": ["src/jit/jit-optim.c:jit_do_mem2reg", "src/jit/jit-optim.c:try_promote_allocation"]}
{"id": "C29", "title": "Local value numbering preserves execution", "statement": "Running any function before and after value numbering and its peepholes gives the same behaviour.", "quantifier": "every IR function", "why_tests_cant": "All programs.", "anchors": ["src/jit/jit-optim.c:jit_do_lvn"]}
{"id": "C30", "title": "Register allocation never shares a live register", "statement": "Two virtual registers whose live intervals overlap never get the same physical slot; every virtual register gets a register from the allowed set or a spill slot; nothing is spilled unless more registers are in use at some point than are allowed; and the code running on the assigned slots does exactly what it does on its virtual registers, whatever else the slots hold, provided the flag is not live across blocks and at least one register is allowed.", "quantifier": "every interval list and allowed register mask", "why_tests_cant": "All programs.", "anchors": ["src/jit/jit-optim.c:jit_do_lscan"]}
{"id": "C31", "title": "Liveness analysis is exact", "statement": "A register is reported live-out of a block iff some path from the end of the block reads it before writing it.", "quantifier": "every control-flow graph", "why_tests_cant": "All graphs, all paths.", "anchors": ["src/jit/jit-optim.c:cfg_liveness"]}
{"id": "C32", "title": "Control-flow graph is a correct partition", "statement": "Blocks partition the instructions, every possible transfer of control between instructions is an edge, and block lookup returns the containing block.", "quantifier": "every IR function", "why_tests_cant": "All programs.", "anchors": ["src/jit/jit-optim.c:jit_get_cfg", "src/jit/jit-optim.c:jit_block_for"]}
{"id": "C33", "title": "Verilog four-state numbers keep every bit", "statement": "Packing a vector of four-state digits and reading the bits back gives the same digits at every width; parsing a binary or hex literal gives the digits written.", "quantifier": "every width and digit vector", "why_tests_cant": "Three packed representations with different limits.", "anchors": ["src/vlog/vlog-number.c:number_pack", "src/vlog/vlog-number.c:number_bit", "src/vlog/vlog-number.c:number_new"]}
{"id": "C34", "title": "Verilog UDP tables select the right row", "statement": "The compiled UDP drives, without delay, the output of the first table row whose level/edge specification matches the inputs, and X when no row matches.", "quantifier": "every table and every input combination", "why_tests_cant": "All tables.", "anchors": ["src/vlog/vlog-udp.c:vlog_lower_udp"]}
{"id": "C35", "title": "The garbage collector never frees reachable memory", "statement": "After any history of allocations, pointer writes, root changes and collections in a heap whose number of 32-byte lines is not a multiple of 64, no internal check fails and every object reachable (also through interior pointers and pointers one past the end) from a register, stack, registered root or thread-local buffer still owns its memory: it is disjoint from the free list and later allocations never overlap it. (With a multiple of 64 lines a word that looks like an address just past the heap makes the collector access memory outside its tables.)", "quantifier": "every heap history", "why_tests_cant": "Unbounded histories of heap graphs.", "anchors": ["src/rt/mspace.c:mspace_gc", "src/rt/mspace.c:mspace_try_alloc", "src/rt/mspace.c:mspace_mark_root"]}
{"id": "C36", "title": "The garbage collector frees all unreachable memory", "statement": "After a collection every line not belonging to a reachable block (an object, or a single unused line that some reachable word points at) is on the free list, in maximal runs, and an allocation fails only if no long enough row of such lines exists.", "quantifier": "every heap state", "why_tests_cant": "All heap graphs.", "anchors": ["src/rt/mspace.c:mspace_gc"]}
{"id": "C37", "title": "Locks provide mutual exclusion", "statement": "At most one thread holds a given lock at any time.", "quantifier": "every number of threads and every interleaving", "why_tests_cant": "Schedules.", "anchors": ["src/thread.c:nvc_lock", "src/thread.c:nvc_unlock", "src/thread.c:thread_park", "src/thread.c:thread_unpark"]}
{"id": "C38", "title": "No parked thread is forgotten", "statement": "Whenever a thread is asleep waiting for a lock, the lock is marked as having parked waiters or a wake-up of that bay is already on its way.", "quantifier": "every interleaving", "why_tests_cant": "Schedules.", "anchors": ["src/thread.c:lock_park_cb", "src/thread.c:lock_unpark_cb"]}
{"id": "C39", "title": "Work-stealing queues run each task exactly once", "statement": "Every task pushed to a thread's queue is handed out, unchanged, to exactly one caller over all pops and steals, whatever the interleaving, as long as the queue is not emptied 2^32 times during a single steal; a pop that reports an empty queue loses nothing.", "quantifier": "every number of thieves and every interleaving", "why_tests_cant": "Schedules, ABA.", "anchors": ["src/thread.c:push_bot", "src/thread.c:pop_bot", "src/thread.c:pop_top"]}
{"id": "C40", "title": "Barriers separate phases", "statement": "No thread leaves the n-th barrier wait before all participants have entered their n-th wait, for repeated use, and once all have entered all of them leave.", "quantifier": "every interleaving", "why_tests_cant": "Schedules.", "anchors": ["src/thread.c:barrier_wait"]}
{"id": "C41", "title": "Draining a work queue waits for all its tasks", "statement": "When drain returns every task submitted to the queue in that round has completed.", "quantifier": "every interleaving and every number of rounds", "why_tests_cant": "Schedules.", "anchors": ["src/thread.c:workq_start", "src/thread.c:workq_outstanding", "src/thread.c:execute_task"]}
{"id": "C42", "title": "Dominator sets are exact", "statement": "A block is in the dominator set of another iff it lies on every path from an entry to it.", "quantifier": "every control-flow graph", "why_tests_cant": "All graphs.", "anchors": ["src/mir/mir-optim.c:mir_dominator_tree"]}
{"id": "C43", "title": "Random scheduling order is only a reordering", "statement": "Shuffling process execution runs exactly the same processes, each once.", "quantifier": "every queue and every random sequence", "why_tests_cant": "All permutations.", "anchors": ["src/rt/model.c:deferq_shuffle"]}
{"id": "C44", "title": "Data layouts place record fields without overlap", "statement": "In every layout each field is aligned, fields do not overlap and all lie inside the size.", "quantifier": "every type tree", "why_tests_cant": "All types.", "anchors": ["src/jit/jit-layout.c:layout_of", "src/jit/jit-layout.c:signal_layout_of"]}
{"id": "C45", "title": "PSL automata recognise the property they were built from", "statement": "A cover or never directive whose property is a PSL sequence reports by a given clock cycle exactly when some match of the sequence ends by that cycle; every report is at the last cycle of a match, and from every starting cycle the shortest match is reported at its last cycle.", "quantifier": "every PSL sequence in the modelled subset and every trace", "why_tests_cant": "All traces.", "anchors": ["src/psl/psl-fsm.c:build_node", "src/psl/psl-fsm.c:psl_simplify"]}
{"id": "C46", "title": "Hash table lookups terminate whatever initial size was requested", "statement": "For every requested initial size, every put, get, delete or contains call on a hash table returns.", "quantifier": "every requested size and every operation history", "why_tests_cant": "Needs a table that becomes completely full, which depends on the requested size, the number of keys and growth order.", "anchors": ["src/hash.c:hash_new", "src/hash.c:hash_put", "src/hash.c:hash_get", "src/util.c:next_power_of_2"]}
{"id": "C47", "title": "Disconnections are ordinary transactions", "statement": "A scheduled disconnection (null transaction) of a guarded driver takes effect at its time, is preempted only by the rules that apply to value transactions, and does not delete earlier value transactions outside its rejection window.", "quantifier": "every driver history with disconnections", "why_tests_cant": "Needs particular interleavings of disconnections and assignments.", "anchors": ["src/rt/model.c:sched_disconnect", "src/rt/model.c:insert_transaction", "src/rt/model.c:update_driver"]}
{"id": "C48", "title": "Creating an identifier completes", "statement": "A request for an identifier eventually returns a handle, whatever identifiers exist already.", "quantifier": "every set of identifiers and schedule", "why_tests_cant": "Needs adversarial names with colliding hashes.", "anchors": ["src/ident.c:ident_from_bytes", "src/ident.c:grow_table", "src/ident.c:copy_table"]}
{"id": "C49", "title": "Case-insensitive comparison of names", "statement": "Two names compare equal without regard to case exactly when they differ only in the case of letters, and then they have the same case-insensitive hash.", "quantifier": "all pairs of names, on every supported machine", "why_tests_cant": "Vectorised and scalar code must agree for all contents and lengths.", "anchors": ["src/ident.c:ident_casecmp", "src/ident.c:ident_casehash", "src/ident.c:ident_downcase", "src/util.c:toupper_iso88591"]}
{"id": "C50", "title": "Joining names and taking them apart", "statement": "Joining two names with a separator and splitting at the first or last separator gives back the two names; a name without separator is left whole; the prefix test is exact.", "quantifier": "all names and separators", "why_tests_cant": "Universally quantified over strings, boundary positions in particular.", "anchors": ["src/ident.c:ident_prefix", "src/ident.c:ident_until", "src/ident.c:ident_runtil", "src/ident.c:ident_from", "src/ident.c:ident_rfrom", "src/ident.c:ident_starts_with"]}
{"id": "C51", "title": "The order of processes within a cycle does not matter", "statement": "Whatever order the processes of a cycle are run in (--shuffle), the cycle succeeds, the same processes run, every signal gets the same value and the same transactions, timeouts and sensitivity are outstanding afterwards.", "quantifier": "every reachable state, every permutation of the run queue, every legal behaviour of the processes", "why_tests_cant": "The number of orders is factorial in the number of processes.", "anchors": ["src/rt/model.c:model_cycle", "src/rt/model.c:deferq_shuffle", "src/rt/model.c:sched_driver"]}
{"id": "C52", "title": "Generated code and run-time readers agree where values are", "statement": "For every type, each scalar inside a value has the same offset and size in the code generated for it and in the layout that the waveform writer, VHPI and reflection use to read it; the same for the signals in a record of signals.", "quantifier": "every type tree and every path to a scalar in it", "why_tests_cant": "Two separate computations of offsets must agree on infinitely many types.", "anchors": ["src/jit/jit-layout.c:layout_of", "src/jit/jit-layout.c:signal_layout_of", "src/jit/jit-irgen.c:irgen_size_bytes", "src/jit/jit-irgen.c:irgen_op_record_ref", "src/lower.c:lower_type"]}
{"id": "C53", "title": "Verilog constants survive library files", "statement": "Writing any sequence of Verilog numbers to a library file and reading it back gives the same numbers: same kind, width and digits.", "quantifier": "every sequence of numbers with at most 245760 digits each, every checksum algorithm, every compression other than FastLZ", "why_tests_cant": "Three representations with bit fields, variable-length integers and raw words, split over 64 KiB blocks at any position.", "anchors": ["src/vlog/vlog-number.c:number_write", "src/vlog/vlog-number.c:number_read", "src/fbuf.c:write_raw"]}
{"id": "C54", "title": "Native NUMERIC_STD + and - compute modular sums and differences", "statement": "The native implementations of \"+\" and \"-\" on two UNSIGNED, two SIGNED, and an UNSIGNED and a NATURAL in either order return a null vector if an operand is null, all 'X' if an operand holds a metavalue, and otherwise a vector of '0' and '1' as long as the longer operand whose value is the sum or difference modulo two to that length; 'L' and 'H' count as '0' and '1'. No memory in use before the call changes, the result lies in memory in use after it, and a warning is given exactly when a non-null vector is added to a NATURAL too large for it.", "quantifier": "every pair of operands of any length and content, wherever they lie in memory, every NATURAL", "why_tests_cant": "Lengths and contents are unbounded; the eight-at-a-time path, the remainder loop and the carry between them depend on the length modulo eight.", "anchors": ["src/jit/jit-intrin.c:ieee_plus_unsigned", "src/jit/jit-intrin.c:ieee_minus_signed", "src/jit/jit-intrin.c:__ieee_packed_add", "src/jit/jit-intrin.c:__pack_low_bits", "src/jit/jit-intrin.c:__spread_bits"]}
{"id": "C55", "title": "Native NUMERIC_STD multiplication is exact", "statement": "The native \"*\" on two UNSIGNED or two SIGNED returns a vector whose length is the sum of the operands' lengths and whose value, unsigned or in two's complement, is exactly the product; a metavalue gives all 'X', a null operand a null vector. Operands and all other memory in use stay as they are.", "quantifier": "every pair of operands of any length and content", "why_tests_cant": "Shift-and-add with delayed shifts over vectors of any length; the sign is handled in the last step only.", "anchors": ["src/jit/jit-intrin.c:ieee_mul_unsigned", "src/jit/jit-intrin.c:ieee_mul_signed"]}
{"id": "C56", "title": "Native NUMERIC_STD ordering of UNSIGNED", "statement": "The native \"<\", \">\", \"<=\" and \">=\" on UNSIGNED compare the numbers the operands stand for, whatever their lengths; a null operand or a metavalue gives FALSE and exactly one warning. Memory in use is unchanged and no memory stays allocated.", "quantifier": "every pair of operands of any length and content, every ordering operator", "why_tests_cant": "Lengths and contents are unbounded.", "anchors": ["src/jit/jit-intrin.c:ieee_unsigned_cmp", "src/jit/jit-intrin.c:ieee_less_unsigned"]}
{"id": "C57", "title": "Native NUMERIC_STD conversions", "statement": "TO_UNSIGNED and TO_SIGNED return a vector of the asked length with the value of the integer modulo two to that length and warn exactly when the integer is out of range, so an integer in range is returned exactly; RESIZE pads or drops elements on the left, keeping the sign of a SIGNED, and keeps the number when growing; TO_01 maps 'L' and 'H' to '0' and '1' and fills the vector if it holds a metavalue.", "quantifier": "every integer, every size, every vector", "why_tests_cant": "Sizes are unbounded and the truncation test works on the last group of eight bits only.", "anchors": ["src/jit/jit-intrin.c:ieee_to_unsigned", "src/jit/jit-intrin.c:ieee_to_signed", "src/jit/jit-intrin.c:ieee_resize_signed", "src/jit/jit-intrin.c:ieee_to_01"]}
{"id": "C58", "title": "Vector logic does not depend on the processor", "statement": "\"and\", \"or\", \"xor\" and TO_X01 of STD_LOGIC_1164 and \"=\" of arrays of byte-sized elements give, through the portable code and through the code for SSE4.1 and NEON alike, exactly the element by element result the standard's tables define: for every length, for every position of the operands in memory, whatever lies beyond their ends; operands of different lengths are an error for the logic operators and unequal for \"=\"; only freshly allocated memory is written.", "quantifier": "all vectors of any length, all contents of memory, all three instruction sets", "why_tests_cant": "tests run on one processor and use short vectors; the block boundary, the masked tail and data beyond the end matter only in combinations", "anchors": ["src/jit/jit-intrin.c:ieee_and_vector_sse41", "src/jit/jit-intrin.c:ieee_or_vector_neon", "src/jit/jit-intrin.c:std_xor_vector", "src/jit/jit-intrin.c:std_to_x01_sse41", "src/jit/jit-intrin.c:byte_vector_equal_sse41"]}
{"id": "C59", "title": "Native Synopsys operators", "statement": "The native \"+\", \"-\", \"*\" and \"=\" of STD_LOGIC_ARITH, STD_LOGIC_UNSIGNED and STD_LOGIC_SIGNED compute the numbers the VHDL source of those packages computes: for non-null operands of any length the result has the right length, holds the exact sum, difference (modulo a power of two) or product when no operand holds a metavalue, and is all 'X', with one warning for each such operand, otherwise; \"=\" compares the numbers, 'L' and 'H' standing for '0' and '1'; null operands are an error; the operands are left alone.", "quantifier": "all pairs of vectors of any lengths and contents, all contents of memory", "why_tests_cant": "tests use a handful of vectors of fixed lengths; the result is to hold for all lengths, all nine values of each element and whatever uninitialised memory holds", "anchors": ["src/jit/jit-intrin.c:synopsys_plus_unsigned", "src/jit/jit-intrin.c:synopsys_mul_signed", "src/jit/jit-intrin.c:synopsys_eql_signed", "src/jit/jit-intrin.c:__conv_signed", "lib/synopsys/std_logic_arith.vhd:CONV_SIGNED"]}
{"id": "C60", "title": "Merging coverage databases adds the counts", "statement": "Merging coverage databases gives a database in which every cover point of any of the inputs is present once and carries the sum of its counts, at most 2^31-1 (a toggle bin marked constant in one of them stays so marked), whatever the order in which the files are given; the merge succeeds unless some scope of a later file lists all the items the earlier ones have in it and then more, in which case it reads outside the array of items.", "quantifier": "all databases of any shape, all orders of any number of files", "why_tests_cant": "Tests merge a handful of databases; only a proof covers every tree of scopes, every order of items and of files, and settles exactly which inputs make the merge read out of bounds.", "anchors": ["src/cov/cov-data.c:cover_merge_scope", "src/cov/cov-data.c:cover_merge_one_item", "src/cov/cov-data.c:cover_merge_items", "src/nvc.c:merge_coverage_files"]}
{"id": "C61", "title": "Toggle counters count the transitions", "statement": "For every history of events on a logic signal or vector of any length, the two toggle counters of each element hold exactly how many events changed it to '1' and to '0' under the chosen options (from undefined; from and to 'Z'), at most 2^31-1, no counter of another signal is touched, and an input that nothing drives has its counters marked as unreachable.", "quantifier": "all signal widths, all histories of values, all option sets", "why_tests_cant": "Widths beyond and around the batches of eight bytes, and histories long enough to saturate, cannot be enumerated.", "anchors": ["src/rt/cover.c:DEFINE_COVER_TOGGLE_CB", "src/rt/cover.c:x_cover_setup_toggle_cb"]}
{"id": "C62", "title": "State counters say which states were reached", "statement": "For every history of a signal of an enumeration type a state's coverage counter is positive exactly when the signal had that value at some time of the run, and it counts the entries into it.", "quantifier": "all enumeration subtypes, initial values and histories", "why_tests_cant": "The claim is about every initial value and every history.", "anchors": ["src/rt/cover.c:cover_state_cb", "src/rt/cover.c:x_cover_setup_state_cb"]}
{"id": "C63", "title": "Statement, branch and expression counters count executions", "statement": "However the code is executed (interpreted, compiled ahead of time or just in time) and whatever cover points are created during the run, the counter of each statement, branch and expression bin holds how often it was executed, saturating at the largest value.", "quantifier": "all interleavings of compilation, execution and creation of cover points, all numbers of executions", "why_tests_cant": "Needs more than 2^31 executions, or a reallocation at a particular moment, to be observed.", "anchors": ["src/jit/jit-interp.c:interp_sadd", "src/jit/jit-core.c:jit_get_cover_mem", "src/jit/jit-core.c:jit_get_cover_ptr", "src/jit/jit-llvm.c:cgen_macro_sadd"]}
{"id": "C64", "title": "User-defined cover points have distinct names", "statement": "For every sequence of names given to user-defined cover points in a scope, whatever characters they contain and however often they repeat, the hierarchical names recorded for them are pairwise distinct and identify the name and its occurrence; the names of the scopes created in an instance are distinct likewise.", "quantifier": "all sequences of names over all byte strings", "why_tests_cant": "Collisions depend on combinations of names, repetitions and characters that tests do not enumerate.", "anchors": ["src/rt/cover.c:sanitise_name", "src/rt/cover.c:_nvc_create_cover_scope", "src/rt/cover.c:_nvc_set_cover_scope_name", "src/rt/cover.c:_nvc_add_cover_item"]}
{"id": "C65", "title": "The coverage report counts every item once", "statement": "For every coverage database and every set of report options, the totals and hits printed for an instance are, for each kind, the number of cover items in that instance and below it and the number of those that were hit often enough, excluded, or unreachable when unreachable items are to be ignored; the average is the sum over the kinds; and every item not covered is listed.", "quantifier": "all databases (trees of scopes with any items), all options, all limits", "why_tests_cant": "The numbers depend on the whole tree, on how items are grouped and on limits reached only by large designs.", "anchors": ["src/cov/cov-report.c:cover_append_item_to_chain", "src/cov/cov-report.c:cover_report_hier_scope", "src/cov/cov-report.c:cover_report_hier_children", "src/cov/cov-report.c:cover_report_hier", "src/cov/cov-report.c:cover_print_summary_table_row"]}
{"id": "C66", "title": "A coverage database survives being saved and loaded", "statement": "When a coverage database is saved to a file and that file is loaded, by the same or by another run of the tool that already knows other source files, the loaded database has the same tree of scopes in the same order, each with the same items, names, counts, flags and ranges, and every location names the same file, line, column and extent; the options of the loading command are added to the saved ones, and what the loading run knew about its files does not change.", "quantifier": "every tree of scopes and items of any depth and size whose numbers fit their C types and whose names are shorter than the write buffer, every table of files in the writer and in the reader, every checksum setting, whatever the memory of the reader held before", "why_tests_cant": "the file uses caches of names and of file numbers, and differences between successive locations, so one wrong step shifts everything after it; a test covers a few trees", "anchors": ["src/cov/cov-data.c:cover_dump_items", "src/cov/cov-data.c:cover_write_scope", "src/cov/cov-data.c:cover_read_items", "src/cov/cov-data.c:cover_read_scope", "src/cov/cov-data.c:cover_read_one_item", "src/diag.c:loc_write", "src/diag.c:loc_read", "src/ident.c:ident_write", "src/ident.c:ident_read"]}
{"id": "C67", "title": "A reference to a source file names that file for the whole run", "statement": "The reference obtained for the name of a source file stands for the same path, with repeated slashes squeezed, however many files are opened before and after; names of different paths get different references; and asking again for a name without repeated slashes returns the same reference.", "quantifier": "every history of names asked for, of fewer than 65536 calls, and every name", "why_tests_cant": "the table is searched by name and only ever grows; a test opens a handful of files", "anchors": ["src/diag.c:loc_file_ref", "src/diag.c:loc_file_str"]}
{"id": "C68", "title": "A traversal of the objects of a design unit meets each of them once", "statement": "While a design unit is traversed (visiting, rewriting, copying or collecting it), an object is treated as already met exactly when the same traversal met it earlier, whatever the memory for the marks held before and however many earlier traversals there were, provided the traversals of the unit come one after another and fewer than 65536 traversals are started between two of the same unit.", "quantifier": "every sequence of objects met by every sequence of traversals, every number of objects, every earlier content of the memory", "why_tests_cant": "The marks are cleared lazily, only over the part an earlier traversal touched; a mistake in the bounds shows only for particular orders of objects and particular earlier traversals.", "anchors": ["src/object.c:object_marked_p", "src/object.c:object_next_generation", "src/object.c:zero_mark_bits"]}
{"id": "C69", "title": "Changing the kind of an object keeps the items both kinds have and fits in its memory", "statement": "The sizes of objects are worked out in finitely many steps for every table of kinds and allowed changes; an object of any kind has room for the items of every kind it can be changed into, and no more than one of those kinds needs. An allowed change of kind keeps the value of every item both kinds have, sets the others to their empty value and leaves tag and location alone; a change that is not allowed stops.", "quantifier": "every table of kinds and allowed changes, every object and its items", "why_tests_cant": "Which slot an item has depends on all the bits below it in both masks; tests see the few kinds and changes that occur in them.", "anchors": ["src/object.c:object_change_kind", "src/object.c:object_init", "src/object.h:lookup_item"]}
{"id": "C70", "title": "A traversal calls the function for every object reached, once, children before parents", "statement": "Visiting an object calls the given function exactly once for each object of the requested class and kind that can be reached through its items (without following types and references to declarations unless a deep visit was asked for), returns how many there were, and calls it for an object after those the object refers to, except where they refer back to it.", "quantifier": "every heap of objects whose references exist, with sharing and cycles, every start object, class, kind and depth of visit", "why_tests_cant": "Graphs of any shape, with cycles and sharing; tests see the trees of particular designs.", "anchors": ["src/object.c:object_visit", "src/tree.c:tree_visit_only", "src/vlog/vlog-node.c:vlog_visit_only"]}
{"id": "C71", "title": "Freezing a unit keeps exactly the objects its roots lead to, and references keep their meaning", "statement": "When a design unit is frozen, an object is kept exactly when an object of a root kind in the unit leads to it through references within the unit; the kept objects get new positions one behind the other in the old order, each position names one object, and the position given out for an object finds that object again.", "quantifier": "every heap of objects whose references exist, every unit with at least one root object", "why_tests_cant": "An object that is dropped or moved wrongly shows only for graphs in which it is reached by particular paths.", "anchors": ["src/object.c:object_arena_gc", "src/object.c:gc_mark_from_root", "src/object.c:object_locus", "src/object.c:object_from_locus"]}
{"id": "C72", "title": "A design unit saved to a library and loaded again is the same unit", "statement": "A frozen design unit can be written to its library file, and whenever reading that file in any process succeeds, the process has the same format, a standard not older than that of the unit, and for every dependency a unit of the same name, standard and checksum; the unit read has the same name, flags and dependencies, and exactly the objects that were kept, each once, with the same kind, location and items: references within the unit go to the corresponding objects and references to a dependency go to the position the object has in the file of that dependency. Reading succeeds whenever the dependencies are in memory or can be loaded and the references stay within the unit and its dependencies. (A dependency that the process analysed itself and still has in memory keeps removed objects, and then the position in its file is another object.)", "quantifier": "every frozen unit whose items fit the C types, every set of loaded units and every loader, every split of the file into buffers, every state of the file and identifier tables of the reader", "why_tests_cant": "A unit has unboundedly many graphs, and mistakes show only for particular orders of removal, loading and dependencies.", "anchors": ["src/object.c:object_write", "src/object.c:object_read", "src/object.c:object_write_ref", "src/object.c:object_read_ref", "src/object.c:object_arena_name"]}
{"id": "C73", "title": "A case statement on a scalar is accepted exactly when it covers every value once", "statement": "The analysis of a case statement on a discrete expression accepts it exactly when every value of the subtype of the expression is represented by exactly one choice, or by at most one with an others alternative, and no choice is outside the subtype; otherwise its reports name exactly the values without a choice, and only values with two choices are reported as already covered.", "quantifier": "every type of up to 2**32 values, every number and order of alternatives and choices (single values, ascending and descending ranges, others)", "why_tests_cant": "The check merges intervals in the order the choices are written; which duplicates it misses depends on that order.", "anchors": ["src/bounds.c:bounds_cover_choice", "src/bounds.c:bounds_check_missing_choices", "src/bounds.c:bounds_check_scalar_case", "src/bounds.c:bounds_check_index"]}
{"id": "C74", "title": "A case statement on an array is accepted exactly when its choices cover every value once", "statement": "The analysis of a case statement on a one-dimensional array of characters, whose choices consist of characters of the subtype of the elements, accepts it exactly when all choices have the length of the expression (or of the first choice if that is not known), no two are equal, and every array of that length is a choice unless there is an others alternative. (Two limits: a choice whose hash is the largest integer is never found to be a duplicate, and there are fewer than 2**31 choices.)", "quantifier": "every element subtype, every length, every number and order of choices", "why_tests_cant": "The number of arrays grows exponentially with the length; the check counts and uses hashes.", "anchors": ["src/bounds.c:bounds_check_array_case", "src/bounds.c:bounds_check_duplicate_choice", "src/common.c:encode_case_choice", "src/util.c:ipow_safe"]}
{"id": "C75", "title": "A case statement runs the alternative whose choice represents the value", "statement": "For every value of the expression the code generated for a case statement runs the alternative with a choice representing the value, otherwise the one with others, otherwise none; there is only one such alternative when no value is represented twice. This holds for scalars and for arrays of characters, however the choices are encoded, and when the analysis replaces a case statement with a constant expression by one of its alternatives.", "quantifier": "every list of alternatives with others last, every value; arrays: every length and up to 2**30 literals, choices of the same length", "why_tests_cant": "Arrays are compared through hashes with chains for collisions, so mistakes show only for particular sets of choices.", "anchors": ["src/lower.c:lower_case_scalar", "src/lower.c:lower_case_array", "src/common.c:encode_case_choice", "src/simp.c:simp_match_case_choice", "src/simp.c:simp_case"]}
{"id": "C76", "title": "Compiled integer arithmetic computes what VHDL says or reports the error", "statement": "Straight-line code made of integer parameters, constants, sums, differences, products, div, mod, rem, negation, abs, comparisons, logical operators, selection, conversions and range checks is compiled to operations which, when executed, give every step the value VHDL defines, or stop with the overflow, division-by-zero or range error of the first step that has one, at its source location. Folding of constants, reuse of earlier operations, the value bounds kept by the compiler and the removal of checks that cannot fail do not change this. (The code breaks this for the cases listed as conditions in ArithSpec.regular: 0 - x, fixed negative divisors, 64-bit overflow, results outside the declared range of negation, abs, mod, rem, division and select, one-bit types, and overflow of two operands known at compile time.)", "quantifier": "every sequence of steps of any length, every assignment of values to parameters, all integer types within 64 bits", "why_tests_cant": "The emitters rewrite, share and drop operations depending on value bounds collected over the whole block; an error shows only for particular combinations of types, bounds and values.", "anchors": ["src/vcode.c:emit_add_op", "src/vcode.c:emit_sub_op", "src/vcode.c:emit_mul_op", "src/vcode.c:emit_div", "src/vcode.c:emit_trap_neg", "src/vcode.c:emit_logical", "src/vcode.c:emit_cmp", "src/vcode.c:emit_cast", "src/vcode.c:emit_range_check", "src/vcode.c:vtype_clamp_to_repr", "src/lower.c:lower_check_scalar_bounds", "src/jit/jit-irgen.c:irgen_op_trap_add"]}
{"id": "C77", "title": "Reusing loads and removing overwritten assignments does not change what a block does", "statement": "A basic block that reads and assigns scalar variables, takes their addresses, reads and writes through pointers, calls subprograms, reads and opens files and deallocates is compiled so that every read has the value the variable or location has at that point and the memory at the end of the block is that of executing every action in order, although loads are replaced by earlier loads or stored values and overwritten assignments are removed. (The code breaks this when the address or the context of a variable was taken in an earlier block, when a variable is read through a pointer, and when a location is read through the same pointer before and after deallocate or file_open; these are the conditions in LoadSpec.fits.)", "quantifier": "every sequence of actions of any length, every initial memory, every behaviour of the subprograms, files and operations", "why_tests_cant": "Whether a load may be reused depends on all earlier operations of the block and on what the subprograms called may change.", "anchors": ["src/vcode.c:emit_load", "src/vcode.c:emit_load_indirect", "src/vcode.c:emit_store", "src/vcode.c:emit_store_indirect", "src/vcode.c:emit_index", "src/vcode.c:emit_context_upref", "src/lower.c:lower_pcall", "src/mir/mir-vcode.c:import_deallocate"]}
{"id": "C78", "title": "Translating integer code from the first to the second intermediate form keeps its results", "statement": "A block of integer operations and run-time checks, translated from vcode to MIR with constant folding, simplification and value ranges, gives every value the same integer and stops with the same error at the same place; the value range kept with a node contains the value; and together with C76 the MIR code of VHDL arithmetic computes what VHDL says. (The code breaks this for a checked product of equal or range-limited operands, for the range of a conditional of which one side has no range, for the range of rem with negative divisors, and for 0 - x; these are the conditions in MirModel.fits.)", "quantifier": "every vcode block of any length, whoever emitted it, all parameter values; for the composition every sequence of VHDL steps", "why_tests_cant": "Folding depends on the ranges of all earlier values, and whether a range is right depends on every value they may take.", "anchors": ["src/mir/mir-node.c:mir_build_add_op", "src/mir/mir-node.c:mir_build_sub_op", "src/mir/mir-node.c:mir_build_trap_mul", "src/mir/mir-node.c:mir_build_cmp", "src/mir/mir-node.c:mir_build_select", "src/mir/mir-type.c:mir_stamp_add", "src/mir/mir-type.c:mir_stamp_rem", "src/mir/mir-type.c:mir_stamp_union", "src/mir/mir-vcode.c:import_trap_mul"]}
{"id": "C79", "title": "Shift operators move the elements the standard says", "statement": "For every vector of BIT or BOOLEAN and every INTEGER count, sll, srl, sla, sra, rol and ror return a vector with the index range of the operand and the elements IEEE 1076 defines by repeating a one-place shift, negative counts shifting the other way, without reading or writing outside the vectors. (The code breaks this for sla and sra with a positive count when the ends of the vector differ: the element at the wrong end is shifted in.)", "quantifier": "every vector of any length below 2^60, every count between -2^62 and 2^62, every previous content of the allocated memory", "why_tests_cant": "tests shift a few literals; the regression test uses a vector whose two ends are equal", "anchors": ["src/vhdl/vhdl-predef.c:predef_bit_shift"]}
{"id": "C80", "title": "Matching operators follow the tables of the standard", "statement": "?=, ?/=, ?<, ?<=, ?> and ?>= on STD_ULOGIC and BIT give the value IEEE 1076 defines and report the error for a don't care operand exactly when an ordering operator has one; ?= and ?/= on vectors give 0, U, X or 1 by the first of these that some element comparison gives, and an error for vectors of different lengths.", "quantifier": "every pair of elements and every pair of vectors of any length below 2^60", "why_tests_cant": "81 pairs for each of six operators and vectors of any length; the result of a vector depends on all its elements", "anchors": ["src/vhdl/vhdl-predef.c:predef_match_op", "lib/ieee.08/std_logic_1164-body.vhdl:and_table"]}
{"id": "C81", "title": "Equality and ordering of composite values", "statement": "= and /= of arrays and records of any nesting tell whether there are matching equal elements for all elements, and <, <=, > and >= of vectors follow the lexicographic order of the standard. (The code breaks this for arrays of more than one dimension that differ in shape but not in size, and for < and >= of two null vectors.)", "quantifier": "every pair of values of one composite type, every pair of vectors", "why_tests_cant": "types nest to any depth and vectors have any length; the failing cases are null arrays and unconstrained arrays of several dimensions, which tests leave out", "anchors": ["src/lower.c:lower_array_cmp_inner", "src/lower.c:lower_predef_array_cmp", "src/lower.c:lower_predef_field_eq_cb", "src/lower.c:lower_predef_record_eq", "src/lower.c:lower_predef_negate"]}
{"id": "C82", "title": "Logical operators and extremes of vectors", "statement": "Logical operators on two vectors, on a vector and a scalar and on one vector give the elementwise result, or the reduction, with the index range of the operand, for null vectors as well; vectors of different lengths are an error; MAXIMUM and MINIMUM of an array give its extreme element, or the bound of the element type for a null array.", "quantifier": "every vector of any length below 2^60 and index range, every operator, every range of the element type", "why_tests_cant": "lengths and index ranges are unbounded; null vectors take another path", "anchors": ["src/lower.c:lower_predef_bit_vec_op", "src/lower.c:lower_predef_mixed_bit_vec_op", "src/lower.c:lower_predef_reduction_op", "src/lower.c:lower_predef_min_max"]}
{"id": "C83", "title": "T'IMAGE and T'VALUE of integer, enumeration and physical types", "statement": "T'IMAGE of a value of an integer type is its decimal representation, of an enumeration type the text of the literal, of a physical type the number and the primary unit. T'VALUE gives a value exactly for the strings that write that value, within the bounds of the type, and reports an error for all others. T'VALUE(T'IMAGE(x)) = x for every x of the type.", "quantifier": "all 64-bit integers, all enumeration and physical types, all strings", "why_tests_cant": "There are 2^64 integers and unboundedly many strings and types; tests sample a few.", "anchors": ["lib/nvc/text_util-body.vhd:string_to_int", "lib/nvc/text_util-body.vhd:int_to_string", "lib/nvc/text_util-body.vhd:canon_value", "src/lower.c:lower_enum_value_helper", "src/lower.c:lower_physical_value_helper", "src/lower.c:lower_enum_image_helper", "src/lower.c:lower_physical_image_helper", "src/lower.c:lower_numeric_value_helper"]}
{"id": "C84", "title": "T'VALUE of real types reads the number that is written", "statement": "For every string that writes a real number, with a fraction and an exponent or without, T'VALUE uses the sign, the digits (at least the first 18) and the power of ten that are written; any other string is an error.", "quantifier": "all strings", "why_tests_cant": "The number of digits in mantissa and exponent is unbounded and tests use a few short literals.", "anchors": ["lib/nvc/text_util-body.vhd:string_to_real"]}
{"id": "C85", "title": "A file object reaches the file that was opened through it", "statement": "After any history of opening, closing and using file objects, every operation on a file object reaches the external file that was opened through that object and no other, a closed file object reaches none, closing gives back exactly the file of that object, opening reports the documented status, and mode, name and state are those of the last opening. A copy of a handle reaches nothing once the file was closed.", "quantifier": "all histories of operations on any number of file objects, all answers of the host", "why_tests_cant": "Histories are unbounded; the generation counter wraps only after tens of thousands of openings.", "anchors": ["src/rt/fileio.c:decode_handle", "src/rt/fileio.c:handle_for", "src/rt/fileio.c:drop_handle", "src/rt/fileio.c:x_file_open", "src/rt/fileio.c:__nvc_file_close"]}
{"id": "C86", "title": "The random numbers of a run are those of MT19937 for the seed of the run", "statement": "The n-th random number given to the program, from the start of the process, is the n-th output of the published MT19937 generator for the 32-bit seed given by the random seed option, whatever the seed and however many numbers were drawn, by whatever callers; it is always a 32-bit value, and runs with the same seed get the same numbers.", "quantifier": "every seed and every number of calls, across any number of refills of the table", "why_tests_cant": "The generator has 624 words of state and refills them in place; a wrong index shows only in some words after some refills, and a test compares finitely many numbers for a few seeds.", "anchors": ["src/rt/random.c:mt19937_init", "src/rt/random.c:mt19937_next", "src/rt/random.c:get_random", "src/rt/random.c:_nvc_random_get_next"]}
{"id": "C87", "title": "The attributes of a signal say when and from what its value last changed", "statement": "In every cycle of a run and for every signal or slice S that is not null: S'EVENT is TRUE exactly when the value of S changed in the current cycle, S'LAST_EVENT is the time since the latest cycle in which it changed (TIME'HIGH if it never did), and S'LAST_VALUE is its value before that change (the present value if it never did); this does not depend on which attributes of which slices were asked before.", "quantifier": "every way the signal was cut into pieces by the elaborated design, every sequence of delta cycles and time advances, updates of pieces and queries of slices", "why_tests_cant": "The answers come from fields of pieces that are split on demand, from a flag cached in the signal and from 16-bit numbers of delta cycles; whether they agree with the values depends on the whole history of splits, updates and queries.", "anchors": ["src/rt/model.c:x_test_net_event", "src/rt/model.c:x_last_event", "src/rt/model.c:notify_event", "src/rt/model.c:put_effective", "src/rt/model.c:sync_event_cache", "src/rt/model.c:clone_nexus", "src/rt/model.c:split_nexus", "src/jit/jit-irgen.c:irgen_op_event", "src/lower.c:lower_last_value"]}
{"id": "C88", "title": "The activity attributes of a signal say when a transaction last matured", "statement": "In every cycle of a run and for a signal with one driver: S'ACTIVE is TRUE exactly when a transaction of the driver matured in the current cycle, and S'LAST_ACTIVE is the time since the latest cycle in which one matured (TIME'HIGH if none did), wherever in the cycle they are asked; an assignment without delay makes the signal active in the next delta cycle even if it has that value already.", "quantifier": "every sequence of delta cycles and time advances that passes over no pending transaction, and of delayed and undelayed assignments in each cycle, whichever earlier transactions each of them discards", "why_tests_cant": "A driver that so far had only undelayed assignments keeps no queue of transactions but is updated in place, with the time of the assignment and a 16-bit number of a delta cycle; whether those fields agree with the maturing of transactions depends on the order of assignments and questions over the whole run.", "anchors": ["src/rt/model.c:sched_driver", "src/rt/model.c:nexus_active", "src/rt/model.c:nexus_last_active", "src/rt/model.c:update_driver", "src/rt/model.c:fast_update_driver", "src/rt/model.c:x_test_net_active", "src/rt/model.c:x_last_active"]}
{"id": "C89", "title": "Messages over a WebSocket arrive as they were sent", "statement": "Whatever messages one end of a WebSocket connection sends, the handler at the other end is called once for each text, binary or pong message, in order and with exactly its payload, each ping is answered by a pong with the same payload, and the connection is closing exactly if a close was sent; this does not depend on how the operating system takes the bytes from the sender or cuts the stream into pieces for the receiver.", "quantifier": "every sequence of messages with payloads of any bytes and length, masked or not with any keys, every sequence of results of send and of recv", "why_tests_cant": "The receiver parses frames in place in a buffer that grows and is reset only when empty, and frames may end anywhere in what recv returns; a test sends a few short messages one at a time.", "anchors": ["src/server.c:ws_send", "src/server.c:ws_queue_buf", "src/server.c:ws_flush", "src/server.c:ws_poll", "src/server.h:ws_handler_t"]}
{"id": "C90", "title": "Verilog operators compute the values of the standard", "statement": "For all four-state operands of any widths, the bitwise, logical, reduction, arithmetic, equality and relational operators of a Verilog expression give the value IEEE 1364 defines for them: the shorter operand is extended with zeros, arithmetic and relations are those of the numbers the vectors stand for and unknown if a bit is unknown. Integers convert to vectors and back without change of value, and a wire with several drivers has the value of the standard, whatever their order.", "quantifier": "all vectors of x, z, 0 and 1 of all lengths; all integers and widths; all lists of drivers", "why_tests_cant": "The operands range over vectors of unbounded width and every mix of unknown bits and lengths; tests try a few widths.", "anchors": ["lib/nvc/verilog-body.vhd:resolve_wire", "lib/nvc/verilog-body.vhd:to_logic", "lib/nvc/verilog-body.vhd:to_integer", "lib/nvc/verilog-body.vhd:add_unsigned", "src/vlog/vlog-lower.c:vlog_lower_unary", "src/vlog/vlog-lower.c:vlog_lower_binary"]}
{"id": "C91", "title": "Ranges, array elements, slices and loops follow the indices", "statement": "For every range, ascending or descending, null or not, generated code computes the bounds, direction and length that were given to an array; an access to an element of an array of any number of dimensions is let through if and only if every index belongs to its range, and then reaches the element of these indices, inside the array and distinct from all others; a slice is accepted if and only if it is null or its bounds belong to the array, and its elements are those of the array with the same indices; a check left out at compile time would have been passed; a for loop runs its body once for each value of the range, from left to right, until it is left.", "quantifier": "all ranges of 64-bit bounds and both directions, all arrays and index tuples of any number of dimensions, all loop bodies and types of the loop parameter", "why_tests_cant": "Bounds, lengths and the widths of the loop parameter are unbounded data, and wrap-around matters only at the extremes; tests use a few small arrays.", "anchors": ["src/lower.c:lower_for", "src/lower.c:lower_array_ref", "src/lower.c:lower_array_slice", "src/lower.c:lower_array_off", "src/vcode.c:emit_range_null", "src/vcode.c:emit_range_length", "src/vcode.c:vcode_can_elide_bounds", "src/jit/jit-irgen.c:irgen_op_wrap", "src/jit/jit-irgen.c:irgen_op_index_check"]}
{"id": "C92", "title": "Dates and times of STD.ENV agree with the calendar", "statement": "For every instant, GMTIME and LOCALTIME give the date of that instant in the calendar, EPOCH of a time record gives back the instant it shows, and so converting there and back changes nothing. Adding or subtracting seconds gives the record of the later or earlier instant, and the difference of two records is the time between the instants. TO_STRING writes the record in ISO 8601. TIME_TO_SECONDS and SECONDS_TO_TIME are inverse to each other, and a result out of range is an error.", "quantifier": "all instants, years, time zones, time records, amounts of seconds of either sign and numbers of fraction digits", "why_tests_cant": "Errors depend on leap years, centuries, overflow and borrows at particular instants; the tests use the present time and compare loosely.", "anchors": ["src/rt/stdenv.c:to_time_t", "src/rt/stdenv.c:to_time_record", "src/rt/stdenv.c:_std_env_epoch", "src/rt/stdenv.c:_std_env_gmtime", "src/rt/stdenv.c:_std_env_gmtime_trec", "src/rt/stdenv.c:_std_env_add_trec_real", "src/rt/stdenv.c:_std_env_diff_trec", "src/rt/stdenv.c:_std_env_seconds_to_time", "lib/std.19/env-body.vhd:to_string", "lib/std.19/env-body.vhd:time_to_seconds"]}
{"id": "C93", "title": "Implicit signals follow the history of their prefix", "statement": "In every simulation cycle S'STABLE(T) is true exactly if S had no event in this cycle or in the last T units of time, and S'QUIET(T) likewise with transactions. While either is false a cycle is scheduled in which it becomes true unless something happens again. S'DELAYED(T) has the value that S had T ago, and the initial value of S before that. S'TRANSACTION toggles exactly once in every cycle in which some part of S is active.", "quantifier": "every delay, every history of events and transactions and every sequence of delta cycles and time steps the kernel can take", "why_tests_cant": "The number of events within one delay and the interleaving of delta cycles with time steps are unbounded; tests try one or two edges.", "anchors": ["src/rt/model.c:update_implicit_signal", "src/rt/model.c:schedule_implicit_update", "src/rt/model.c:insert_transaction", "src/rt/model.c:model_cycle", "src/lower.c:lower_implicit_stable", "src/lower.c:lower_implicit_delayed", "src/lower.c:lower_implicit_transaction"]}
{"id": "C94", "title": "Values given as text are read as what they spell", "statement": "The value given for a generic on the command line, or to the force command, is accepted exactly if it spells a value of the type: an integer numeral with an optional sign, an enumeration literal in any case, an array of character literals with or without quotation marks, or a number with a unit. White space around it does not matter. The value that is stored is the one spelled.", "quantifier": "every text, every list of enumeration literals and every list of units", "why_tests_cant": "The texts and types are unbounded; tests use a few values of the standard types.", "anchors": ["src/common.c:parse_value", "src/elab.c:elab_parse_generic_string", "src/rt/shell.c:shell_cmd_force"]}
{"id": "C95", "title": "The image of a record or array is read back as the same value", "statement": "T'IMAGE of a record or array is the list of the images of its parts in parentheses, separated by commas, with character arrays in quotation marks. T'VALUE of such a text, with spaces around the parts, is the value with these parts. So T'VALUE(T'IMAGE(X)) is X. No memory outside of the strings and values is accessed.", "quantifier": "every type built from scalars, character arrays, arrays and records, every value and every text", "why_tests_cant": "Types nest without bound and the lengths are those of the run; tests use a few types and short values.", "anchors": ["src/lower.c:lower_image_helper", "src/lower.c:lower_value_helper", "lib/nvc/text_util-body.vhd:next_delimiter", "lib/nvc/text_util-body.vhd:count_delimiters"]}
{"id": "C96", "title": "Each design unit has a file of its own", "statement": "Two design units of a library are stored in the same file exactly if they have the same name, where case matters in extended identifiers only; this also holds on file systems that ignore case. The names of the files have letters, digits and the signs + - . _ only, whatever is in an extended identifier. The table of units in memory takes the same names for the same.", "quantifier": "every pair of names of ISO 8859-1 characters", "why_tests_cant": "There are unboundedly many names; tests use a few extended identifiers.", "anchors": ["src/lib.c:lib_encode_file_name", "src/lib.c:lib_name_cmp", "src/ident.c:ident_casecmp", "src/util.c:toupper_iso88591"]}
{"id": "C97", "title": "No unit is lost from the index of a library", "statement": "The index of a library has exactly the units that were analysed and saved, in order and without repetition, with the kind each was analysed with last, no matter how many processes use the library at the same time. It does not depend on the order of analysis.", "quantifier": "every history of opening, analysing and saving by any number of processes, and every set of names", "why_tests_cant": "The interleavings of processes are unbounded and tests run one process.", "anchors": ["src/lib.c:lib_add_to_index", "src/lib.c:lib_read_index", "src/lib.c:lib_save", "src/lib.c:lib_init"]}
{"id": "C98", "title": "Signal updates are exact: event, value and last value", "statement": "When a signal is updated there is an event exactly if some byte of its value changes. Then the signal has the new value, S'LAST_VALUE has the previous one, and no other memory is changed; otherwise nothing is changed. Values that are equal compare equal, whatever is stored next to them. This holds with and without vector instructions.", "quantifier": "every memory, every size and offset of a signal, every value", "why_tests_cant": "The code has loops for blocks of 16, 8, 4 and 1 bytes and masks; tests use few sizes and do not control the bytes nearby.", "anchors": ["src/rt/copy.c:_copy2", "src/rt/copy.c:cmp_bytes_sse41", "src/rt/model.c:put_effective", "src/rt/model.c:cmp_values"]}
{"id": "C99", "title": "PSL functions on vectors agree with the number of ones", "statement": "countones gives the number of elements of the vector that are '1' or 'H'; onehot is true exactly if there is one such element and onehot0 exactly if there is at most one; isunknown is true exactly if some element is 'U', 'X', 'Z', 'W' or '-'. None of them indexes outside of the vector, whatever its range and direction, also for null ranges.", "quantifier": "every vector with any range and direction and any elements", "why_tests_cant": "There are vectors of every length and range; tests use a few short ones.", "anchors": ["lib/nvc/psl_support-body.vhd:isunknown", "lib/nvc/psl_support-body.vhd:countones", "lib/nvc/psl_support-body.vhd:onehot", "lib/nvc/psl_support-body.vhd:onehot0"]}
