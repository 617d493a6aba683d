# Formal model of nickg/nvc in Rocq

The source at `/repo` is modelled function by function in Gallina under
`rocq/theories`.  Each area has up to four kinds of files:

* `XModel.v`: definitions only, each citing the C file and lines it models and
  every simplification made;
* `XSpec.v`: the separate specification the theorems are phrased with (sets,
  finite maps, sorted lists, paths, ideal simulators, LRM rules);
* `XProofs.v` and others: lemmas;
* `XProps.v`: the property theorems, each with `Print Assumptions`, and examples
  showing that a concrete, non-trivial case meets the hypotheses.

Where the code does not satisfy a property there is a theorem `..._refuted` (an
explicit witness in the model) next to the strongest theorem that does hold; the
latter is named `_partial` when it leaves out part of the property as stated in
`properties.jsonl`.  The deviations are listed under *Findings*.

## Trusted base

* The kernel of Coq 8.16.1.
* Axioms: none.  `Print Assumptions` answers "Closed under the global context"
  for every theorem in the table at the end.
* The hand translation from C to Gallina.  Nothing was compiled or run from
  `/repo`.

Conventions of the translation:

* `N`, `Z` and `nat` stand for machine integers; wrap-around is written out
  (`mod 2^k`) wherever the C code can reach it, otherwise the theorem states the
  range as a condition.
* `Fault` is the outcome of a failed `assert`, of undefined behaviour and of an
  access outside an array.  A theorem that says `= Ok ...` therefore also says
  that no assertion fails.
* Memory allocation never fails; pointers are indices.
* Concurrency is interleaving of the atomic actions named in the code under
  sequential consistency; weaker memory orders are not modelled.

## Plan per property

| id | what is modelled | how it is proved |
|----|------------------|------------------|
| C01, C02 | `rt/heap.c` as functions on an array of (key, item), index arithmetic as in C | heap order with one hole for sifting; multiset accounting; induction over histories |
| C03 | `mask.c`, `mask.h`: 64-bit words, inline and array forms | refinement to `nat -> bool`; word lemmas with `N.testbit` |
| C04, C46 | `hash.c` hash, shash, ihash, hset: slots, linear probing, growth | refinement to a finite map; invariant "no gap between home slot and key"; the hash function is a parameter |
| C05 | ghash, with the missing `break` of `ghash_put` | computed history; put/get histories proved |
| C06, C07, C47 | `insert_transaction`, `sched_driver`, `sched_disconnect` on lists of transactions | sortedness invariants; the LRM marking rule as separate specification |
| C08, C09, C10, C51 | the simulation cycle of `rt/model.c`: event heap, delta queues, run queues, fast driver path, deferred resolution, sensitivity, timeouts (KernelModel) | refinement to an ideal simulator without queues (KernelSpec), invariant over all reachable states; processes are arbitrary functions of what they can read |
| C11 | `sched_event`, `clear_event` with the tagged pointer representation | refinement to finite sets |
| C12, C13 | `split_value`, `clone_nexus`, `clone_source`, `split_nexus`, index | partition invariant, byte-wise preservation; index lookup = linear search |
| C14 | `memo_resolution_fn`, `call_resolution` | for every resolution function |
| C15 | force, release, deposit, driving and effective value | histories against a specification of the visible value |
| C16, C17, C18 | `fbuf.c`: LEB128, zig-zag, Adler-32 scalar and AVX2 lanes, blocks | arithmetic in N; stream concatenation; codec as a parameter with an inverse |
| C19, C48 | the lock-free identifier table of `ident.c` | labelled transition system with any number of threads |
| C20 to C23, C49, C50 | serialisation, glob, edit distance, walk, case folding, joining and splitting of names | independent inductive specifications |
| C24 | `jit-pack.c` writer and reader | codec round trip by composition |
| C25, C26, C27 | JIT IR semantics of `jit-interp.c` (JitModel); cprop, dce, delete_nops of `jit-optim.c` | simulation proofs |
| C28 | `jit_do_mem2reg` (Mem2regModel) | lock-step simulation relating the register to the place in memory; invariant on the layout of the frame; refutations |
| C29 | `jit_do_lvn` and its peepholes (LvnModel) | invariant relating value numbers to run-time values; simulation with jump threading; refutations |
| C30 | `jit_do_lscan` | interval and slot invariants; renamed code simulates |
| C31, C32 | `jit_get_cfg`, block lists, liveness of `jit-code.c`/`jit-optim.c` | fixpoint = path definition; every transfer of control is an edge |
| C33, C53 | `vlog-number.c`: literals, packing, bits, value, library files | digits of packed words through `N.testbit`; shifts as induction over words; refutations |
| C34 | `vlog_lower_udp`: the blocks built for a table, and an interpreter for them | induction over the entries with a frame condition on blocks; the table semantics of IEEE 1364 as specification |
| C35, C36 | `mspace.c`: lines, head mask, free list, mark and sweep with the real masks | reachability; invariant over heap histories |
| C37 to C41 | `thread.c`: locks and parking, ABP deque, barrier, work queues | labelled transition systems with any number of threads |
| C42 | `mir_get_cfg`, `mir_dominator_tree` over the masks of `mask.c` | greatest fixpoint = path definition; termination |
| C43 | `deferq_shuffle` | permutation; every permutation is reached |
| C44, C52 | `jit-layout.c`; sizes and offsets of `jit-irgen.c` on the types of `lower.c` | induction over type trees; comparison of the two |
| C45 | `psl-fsm.c`: building sequences, removal of epsilon edges; `psl-lower.c`/`model.c`: active states | fragment invariants while building (language, no epsilon cycle, order of edges); depth-first search by accessibility; paths against active states |
| C54 to C57 | NUMERIC_STD operators of `jit-intrin.c` on bytes in memory (IntrinModel) | bit-level lemmas for packing and spreading; carry invariant over suffixes; shift-and-add invariant modulo a power of two |
| C58 | `and`, `or`, `xor`, TO_X01 and byte equality in their portable, SSE4.1 and NEON versions (IntrinLogicModel); a register is a function from lanes to bytes | tables by computation over all nine values; loop invariants over blocks of sixteen |
| C59 | Synopsys operators on bytes in memory (SynopsysModel); the call of the interpreter for null operands is an outcome | conversion lemma; addition, inversion and shift-and-add lemmas of C54 and C55; injectivity of the value of clean vectors |
| C60 | database as a tree of scopes with items (CoverModel), merging file by file; release build | lookup by key; count of matching items still to come against the array bound; sums commute |
| C61 | toggle callback over value bytes and the counter array (CoverRunModel) | per element and direction effect of the inner loop, composed over batches and events |
| C62 | state callback; initial value as a parameter of the claim | induction over events |
| C63 | counter array with the block it is in; realloc moves by an oracle; sites hold the address compiled in | induction over operations; closed form of the saturating addition |
| C64 | names of cover points and scopes created at run time (CoverNameModel), names as byte lists | injectivity of the encoding and of decimal suffixes; invariant over the list of names given so far; refutations for renaming |
| C65 | numbers of the report by hierarchy (CoverReportModel); what is printed is left out | sum over groups and scopes by induction over the tree; bound on the lists against the limit; refutations |
| C66 | `cover_dump_items` and `cover_read_items` with `loc_write`/`loc_read` and `ident_write`/`ident_read` on top of the fields and blocks of C16 (CoverFileModel) | an invariant ties the caches, the file map and the last location of the writer to those of the reader; induction over items and scopes |
| C67 | `loc_file_ref` and `loc_file_str` (FileRefModel) | the table only grows and holds stripped names; refutation for repeated slashes |
| C68 | `object_marked_p`, `object_next_generation`, `zero_mark_bits` (ObjMarkModel) | invariant: outside the touched words the array is arbitrary, inside it holds exactly the marks of the current generation; refutations for 65536 traversals and nested traversals |
| C69 | `object_init` (sizes), `object_change_kind`, `lookup_item` (ObjModel) | rank of a bit in a mask; the sum of the sizes bounds the passes |
| C70 | `object_visit`, `tree_visit_only` (ObjGraphModel) | depth-first search as a function with fuel; new objects are closed under references, events are nested; reachability as a transitive closure in ObjGraphSpec |
| C71 | `object_arena_gc`, `object_locus`, `object_from_locus` (ObjGraphModel) | the same search with the test for the arena; forwarding is the placement of the kept objects |
| C72 | `object_write`, `object_read`, `object_write_ref`, `object_read_ref`, `object_arena_name`, `arena_root` (ObjFileModel) | field by field on the fields of C66 and C53; one lemma per level says what reading gives or which reference stops it; positions by C71 |
| C73 | `bounds_cover_choice`, `bounds_check_missing_choices`, `bounds_check_scalar_case` (CaseModel) | invariants of the list of intervals: separated and covering what came before; the count of missing values modulo 2^32; refutation by an order of choices |
| C74 | `bounds_check_array_case`, `ipow_safe`, `encode_case_choice` (CaseModel) | the power is exact or saturates; counting: distinct words of a finite set cover it iff there are as many |
| C75 | `lower_case_scalar`, `lower_case_array`, `simp_match_case_choice`, `simp_case` (CaseModel) | exact encoding is injective (base 2^bits within 64 bits); invariant of the chains of the hash table; refutation for the constant case |
| C76 | the emitters of `vcode.c` for integer arithmetic, comparison, logic, conversion and checks, with constant folding, reuse of operations, value bounds and removal of checks; execution as in `jit-irgen.c` (ArithModel) | a register always holds the value of its step and lies in its bounds; induction over the steps; nine refutations outside the stated conditions |
| C77 | `emit_load`, `emit_store`, `emit_index`, `emit_context_upref`, `emit_load_indirect`, `emit_store_indirect` of `vcode.c`, with their scans of the block, and execution of one block (LoadModel) | scans are sound if variables are written indirectly only after their address was taken in the block; removed stores leave memories that agree except at the variable; induction over the actions; five refutations outside the stated conditions |
| C78 | the builders `mir_build_*` of `mir-node.c` for integers, the stamps of `mir-type.c`, the import in `mir-vcode.c` and the execution of nodes by `jit-irgen.c` (MirModel) | invariant: the nodes execute, each stamp contains its value, constants and negations are what they say; one lemma per builder; induction over the operations; composed with C76; five refutations outside the stated conditions |
| C79 | the code generated by `predef_bit_shift` of `vhdl-predef.c` (PredefModel) | the loop stores one element per index; elements after n basic shifts by induction on n; the arithmetic shifts are refuted for a positive count and different ends |
| C80 | the code generated by `predef_match_op` and the functions of STD_LOGIC_1164 it calls (PredefModel) | all pairs of elements; induction over the elements for "and" |
| C81 | the code generated by `lower_array_cmp_inner`, `lower_predef_field_eq_cb`, `lower_predef_record_eq` and `lower_predef_negate` of `lower.c` (PredefModel) | induction over the nesting of the type; the loop decides what holds for all positions; the order by induction over the elements left; two refutations |
| C82 | the code generated by `lower_predef_bit_vec_op`, `lower_predef_mixed_bit_vec_op`, `lower_predef_reduction_op` and `lower_predef_min_max` (PredefModel) | loop invariants; reductions as folds |
| C83 | `string_to_int`, `int_to_string`, `canon_value` of `lib/nvc/text_util-body.vhd` and the image and value helpers of `lower.c` (TextModel) | induction over the digits with the sign and magnitude read so far; the table of names as a padded array |
| C84 | the integers in `string_to_real` of `lib/nvc/text_util-body.vhd` (TextModel) | induction over mantissa and collection loops; the powers of ten by exhaustion of the exponents 0 to 511 |
| C85 | the table of handles of `rt/fileio.c`: `decode_handle`, `handle_for`, `drop_handle`, `x_file_open` and the operations as far as the file they reach (FileHandleModel) | refinement to a map from objects to files; the sum of open slots and closings bounds the generations |
| C86 | all of `rt/random.c`: `mt19937_init`, `mt19937_next`, `get_random` (RandomModel) | refinement of the in-place refill of the table to the published recurrence, by an invariant of a half refilled table; induction on the number of calls |
| C87 | the fields of pieces of signals behind 'EVENT, 'LAST_EVENT and 'LAST_VALUE in `rt/model.c`: `put_effective`, `notify_event`, `sync_event_cache`, splitting, `x_test_net_event`, `x_last_event`, with the cached flag of `jit-irgen.c` (SigAttrModel) | invariant over cycles: the event of a piece lies between the latest change of the piece and that of any slice that was cut out from the start |
| C88 | the fields of a driver behind 'ACTIVE and 'LAST_ACTIVE in `rt/model.c`: `sched_driver` with its fast path, `update_driver`, `fast_update_driver`, `nexus_active`, `nexus_last_active` (ActiveModel) | two invariants over cycles, one for a cycle in which nothing took the fast path yet and one for after it did: the fields agree with a specification that lists pending transactions as times; refuted after an undelayed assignment in the same cycle |
| C89 | the WebSocket wrapper of `server.c`: `ws_send`, `ws_queue_buf`, `ws_flush`, `ws_poll` with the results of send and recv as input (WsModel) | the specification says which bytes carry a message (RFC 6455); a frame at the front of the buffer is parsed exactly, a proper prefix of one changes nothing, hence by induction over pieces any cut of the stream gives the same calls; refuted for pieces that go on after a text, long payloads and fragments |
| C90 | the package `lib/nvc/verilog-body.vhd` and the choice of function in `vlog_lower_binary` (VlogModel); vectors are lists of bits, the least significant first | the specification has the tables of IEEE 1364 and defines arithmetic and relations on the numbers that vectors stand for; every loop is given a closed form by induction on the vectors; unknown bits by a relation that says a bit is right for all values of the unknown ones |
| C91 | `lower_for`, `lower_array_ref`, `lower_array_slice`, `lower_array_off`, the array descriptor of `irgen_op_wrap` and its accessors, range and index checks and their elision (RangeModel) | the specification says which values belong to a range, lists them and numbers the elements; offsets by induction on the dimensions; the loop by induction on the values left, with the loop parameter read back modulo its width |
| C92 | the functions on time records in `rt/stdenv.c` and `env-body.vhd` (CalModel); `gmtime_r` of the C library is a parameter, reals are exact | the specification adds up the lengths of years and months; the closed form of `to_time_t` by induction on years; every instant has one date, and a calendar that computes it shows that the assumption on the C library can be met |
| C93 | The driver of an implicit signal with its entries in the time queue and the delta queue, run along a history of S. Invariant: the transactions in the queue are at the times e + T of the events e that are less than T ago, each has an entry in the queue, and the signal is true exactly if none is left. For DELAYED the queue read at a time k gives the value of the last cycle of S not after k - T. |
| C94 | The scanner of each kind of type as a function of the text. Accepted: the text is split as the specification has it and the loops are followed by induction. Only those: each loop returns a split of its input, so a success gives back the parts. |
| C95 | The buffer the image is stored into and the functions of `text_util` that split the text, as functions over lists, and the recursion over the type. Induction over the relation that says how a value is written, with lemmas for each loop. The round trip composes both. |
| C96 | The encoding of names and the comparison of the lookup table as functions on bytes. The digits are read back by a decoder checked for all 256 bytes, and induction over the name gives both directions. |
| C97 | The index as a list, insertion and merge as in the code, and processes that open, put and save with the lock as atomic steps. Invariants over the history: order, what a process has seen, and where each name came from. |
| C98 | Memory as a function from addresses to bytes, the copy loops for each block size and the masked comparison as in `rt/copy.c`, and `put_effective`. An invariant says what the copy has moved after each block; the comparison is by induction on the position. |
| C99 | The loops of `psl_support-body.vhd` over the indices of a vector with its range and direction; an index outside of the range is a fault. The loops are shown to be passes over the elements, and those are compared with an inductive count. |

## What is modelled and what is not

Modelled, with the exceptions named at each definition: `rt/heap.c`; `mask.c`
and `mask.h`; `hash.c` (chash excepted); in `rt/model.c` drivers and waveforms,
disconnection, sources and resolution, nexus splitting and index, forcing, event
registration, the simulation cycle; the deferred queues and their shuffling;
`fbuf.c` (the compressors are parameters); `ident.c`; `jit-pack.c`;
`jit-interp.c` as the meaning of JIT code (calls, exits and macros as far as
JitModel says); cprop, dce, delete_nops, value numbering, promotion of stack memory, flow graph, liveness and register
allocation of `jit-optim.c`/`jit-code.c`; `mspace.c`; locks, deques, barriers and
work queues of `thread.c`; block graph and dominators of `mir-optim.c`;
`jit-layout.c` and the sizes of `jit-irgen.c`; `vlog-number.c`; the blocks built
for UDP tables; sequences of `psl-fsm.c` and how their states run; the native
operators of `jit-intrin.c` (TEXTIO helpers excepted); merging of coverage
databases in `cov-data.c`; the counters of `rt/cover.c` and the names
of cover points and scopes created there; the totals of the report by hierarchy in
`cov-report.c`; the file format of coverage databases, with locations (`diag.c`) and
identifiers (`ident.c`) in files; the table of source files in `diag.c`;
marks, sizes, changes of kind, traversal, removal, saving and loading of objects of `object.c`;
case statements in `bounds.c`, `simp.c` and `lower.c` (matching ones and choices given by
aggregates excepted); the emission of integer arithmetic and run-time checks of
straight-line code in `vcode.c`; the reuse of loads and the removal of stores in a block of
`vcode.c`; the builders of integer operations in MIR, their value ranges and the import
of integer vcode; the code generated for predefined operators of arrays and records in
`lower.c` and `vhdl-predef.c`; T'IMAGE and T'VALUE of scalar types in `lower.c` and
`lib/nvc/text_util-body.vhd` (floating-point arithmetic and REAL'IMAGE excepted); the handles of open files in
`rt/fileio.c`; the random number generator in `rt/random.c`; the fields of
pieces of signals behind 'EVENT, 'LAST_EVENT and 'LAST_VALUE in `rt/model.c`, and those of
a driver behind 'ACTIVE and 'LAST_ACTIVE; the WebSocket wrapper of `server.c`; the
operators of Verilog in `lib/nvc/verilog-body.vhd`; ranges, array elements,
slices and for loops in `lower.c`, `vcode.c` and `jit-irgen.c`; dates and times in
`rt/stdenv.c` and `lib/std.19/env-body.vhd`; the implicit signals of
`rt/model.c` and `lower.c`; `parse_value` of `common.c`; the images and values of records and
arrays (`lower.c`, `lib/nvc/text_util-body.vhd`), with those of scalars as parameters; the file
names, the table of names and the index of `lib.c`; `rt/copy.c` and `put_effective` of `rt/model.c`; `lib/nvc/psl_support-body.vhd`.

Not modelled: the VHDL, Verilog and PSL front ends (scanner, parser, names,
semantic checks, simplification, elaboration, bounds), lowering to MIR and code
generation (`lower.c`, `vlog-lower.c`, `jit-irgen.c`, `jit-llvm.c`, `jit-x86.c`)
apart from sizes and offsets, copying and rewriting of objects (`object.c`), waveform
dumping, VHPI/VPI, the rest of the server, the contents and positions of files of the run-time, weak memory ordering,
signals and stack scanning of the host.

## Findings

Behaviour of the code as modelled that differs from what one would expect.  Those
with a theorem in the model carry its name.

Hash tables (`hash.c`)
* A table created with size 2 fills up completely and a lookup of a missing key
  never ends (`C04_small_table_refuted`); sizes come from data at `elab.c:1180`,
  `lower.c:12353`, `psl-fsm.c:196` and others; `next_power_of_2(0)` is 0.
* `ghash_put` does not leave its loop after replacing, so it stores duplicates,
  and a deleted key comes back after growth (`C05_ghash_refuted`).
* `ghash_delete` passes a NULL key to the comparison function; the member count
  is never decremented.

Simulation kernel (`rt/model.c`)
* The rejection loop keeps transactions of equal value that are not adjacent to
  the new one (`C07_marking_rule_refuted`).
* A pending null transaction has a negated time and is deleted by later
  assignments (`C47_null_transaction_kept_refuted`); a disconnection at time zero
  is lost (`C47_disconnect_at_time_zero_refuted`).
* A second registration behind a cancelled one leaves a second entry
  (`C11_duplicate_registration_refuted`).
* `clone_source` does not copy `disconnected`, revives a released force, and a
  split while a pseudo source is queued hits an assertion
  (`C12_disconnected_driver_revived_refuted`, `C12_released_force_revived_refuted`,
  `C12_queued_force_aborts_refuted`).
* A memoised resolution hides a resolution function that ends the simulation with
  status zero (`C14_abort_hidden_refuted`).
* A deposit overrides a force, and comes back after the release
  (`C15_deposit_overrides_force_refuted`, `C15_stale_deposit_refuted`).
* A postponed process whose `wait for` times out runs among the ordinary
  processes (`C10_postponed_timeout_refuted`).
* Seen while reading, no theorem: `copy_sub_signal_sources` and
  `get_forcing_value` never advance their count; the null transaction of a wide
  driver dereferences NULL; `copy_value_ptr` and `cmp_values` read a whole 8-byte
  word for narrower values; `x_disconnect` lacks `check_delay`; `x_sched_process`
  lacks the check for postponed processes; stale events cause empty time steps.

Files (`fbuf.c`)
* FASTLZ streams get padding in the middle (`C18_fastlz_padding_refuted`); lengths
  in the header have 32 bits (`C18_4gib_refuted`).

Names (`ident.c`)
* 21 names with the same 32-bit hash make the table grow for ever
  (`C48_progress_refuted`); names with a NUL are hashed up to it
  (`C19_nul_refuted`, `C20_nul_refuted`); the empty name is written like no name
  (`C20_empty_refuted`); names between 60 and 64 KiB hit an assertion on writing
  (`C20_long_refuted`).
* On x86-64 `ident_casecmp` folds ASCII only while the hash folds Latin-1
  (`C49_latin1_x86_refuted`).
* `*` in a glob does not match the empty string (`C21_star_empty_refuted`); the
  literal `'''` swallows the parts after it (`C23_apostrophe_refuted`).

Threads (`thread.c`)
* A 32-bit tag that wraps during one steal hands out a task twice
  (`C39_wrap_refuted`); `workq_scan` looks at the queue of the running thread
  instead of that of the victim and ignores the epoch.

Heap (`mspace.c`)
* `is_mspace_ptr` accepts addresses in the margin behind the heap; with a multiple
  of 64 lines the collector then leaves its tables (`C35_margin_refuted`).  A
  failed allocation collects a second time to no effect.

JIT (`jit-pack.c`, `jit-optim.c`, `jit-code.c`)
* A location without file after one with a file is read back as a bogus line
  (`C24_no_file_refuted`); registers 65533 and 65534 are refused on reading
  (`C24_registers_refuted`); foreign specs with more than 7 arguments are saved as
  raw pointers.
* Copy propagation can put a handle into an integer operand
  (`C25_handles_refuted`); dead-code elimination removes traps
  (`C26_traps_refuted`); liveness overlooks that CCMP and FCCMP read the flag
  (`C31_flags_refuted`); the allocator leaves its arrays when the flag is live
  across blocks or when there are no registers (`C30_flag_refuted`,
  `C30_no_registers_refuted`).
* Value numbering: setting a block of constant size to a negative constant stores
  wrong bytes (`C29_memset_refuted`: four bytes of -1 become 0xfefefeff); folding
  an operation with overflow check loses the flag (`C29_checked_refuted`);
  `MACRO_EXP` with the base 2 in a register shifts register 1
  (`C29_exp_refuted`); a remembered expression is compared with the current
  numbers of its operands, so that code that writes a register twice, which
  mem2reg makes, can get an old value (`C29_rewritten_refuted`); SEND does not
  update its slot (`C29_slot_refuted`).
- `try_promote_allocation` looks at the address of a store, not at the value: a store
  of the allocation's address to other memory does not stop the promotion, so what is
  read back through the stored pointer is lost (`C28_escape_refuted`). Promoted loads
  neither cut nor extend the value (`C28_wide_refuted`).

Layouts (`jit-layout.c`)
* A null range has size and alignment 0 and makes fields overlap
  (`C44_null_refuted`); scalars in arrays of records are not aligned
  (`C44_alignment_refuted`).
* A record is not rounded up to 8 bytes in a layout but is in generated code, so
  what follows a nested record is read from the wrong place
  (`C52_nested_refuted`); arrays of records with open fields and arrays of open
  arrays differ too (`C52_open_refuted`, `C52_bounds_refuted`).

Verilog numbers (`vlog-number.c`)
* Widths 29 to 31 with X or Z lose the upper digits and bits are misplaced when the
  width is above 32 and no multiple of 32 (`C33_pack_refuted`,
  `C33_defined_refuted`, `C33_integer_refuted`).
* In literals (`C33_literal_refuted`): the shift of small numbers ignores the
  carry, so `4'b10zx` becomes `4'bxxxx`; capital letters and underscores in wide
  literals are errors; 2^63 and more saturate; wide decimal literals assert.
* `number_equal` asserts on big numbers and on different kinds; X and Z are not
  extended to the left; `4'd100` keeps the value 100.

UDPs (`vlog-udp.c`)
* `b` never matches (`C34_binary_refuted`) and in an edge reads memory that was not
  set, the letters r, f, p and n are not handled (`C34_edges_refuted`); a row of
  `?` only leaves a block without end (`C34_always_refuted`); z inputs do not count
  as x (`C34_z_refuted`); a sequential UDP keeps its output when no row matches
  (`C34_unmatched_refuted`); the constant `zero` is 1, so outputs are late by 1 fs.

PSL (`psl-fsm.c`, `psl-lower.c`)
* An operand `b[*]` is forgotten (`C45_star_forgotten_refuted`); an empty repetition
  takes a cycle and matches anything in it (`C45_empty_takes_cycle_refuted`,
  `C45_empty_matches_anything_refuted`).
* `assert` wants every choice of a sequence to go on (`C45_assert_choice_refuted`).
* `same_guard` compares a guard with itself, so `&&` loses edges
  (`C45_product_loses_edge_refuted`); `or_guard` with no guard loses the
  unconditional case (read, not modelled).

Native operators (`jit-intrin.c`)
- `ieee_plus_unsigned_natural` calls `__to_unsigned` before it looks at the length:
  for a null vector and a NATURAL other than 0 it warns of truncation, where the
  package body's TO_UNSIGNED returns a null vector first
  (`C54_null_warning_refuted`).
- `__conv_signed` extends the sign with the first element as given, not with its
  converted value.  Sums and products do not notice, but `"="` compares bytes:
  SIGNED'("H1") = SIGNED'("111") is FALSE natively and TRUE in the package body
  (`C59_equal_signed_refuted`).
- `__conv_unsigned` and `__conv_signed` look at `result[pad]`, which for a null operand
  is one past the vector and was never written.  With one null operand the result
  depends on what lies there (`C59_null_refuted`); the package body stops with an
  index error.
- The NEON version of `"xor"` is registered under the name `"neon"` and so never used;
  this costs time only.

Coverage
- `cover_merge_scope` starts to look for the item with index i of the new scope at index
  i - n_added of the old one.  When the new scope has all items of the old one first
  and then more, that index is one past the array: an assertion in a debug build, a
  read behind the array in a release build (`C60_overrun_refuted`; `C60_merge_fault`
  says that this is the only case).  In the other order the same files merge.
- `cover_merge_items` reads the header of the file over the options of the command, so
  report options are lost when there are two or more databases
  (`C60_options_lost_refuted`).
- `interp_sadd` and the LLVM version saturate the counter as `uint32_t` but it is read
  as `int32_t`: a statement executed 2^31 times or more gets a negative count and is
  reported as not covered (`C63_saturation_refuted`, `C63_saturation_range`).
- The LLVM JIT and the x86 JIT compile the address of the counter into the code.
  `jit_get_cover_mem` reallocates when user-defined cover points are created during the
  run, and the code goes on writing to the freed array (`C63_stale_refuted`).
- `x_cover_setup_state_cb` marks the leftmost state as reached without looking at the
  initial value of the signal (`C62_initial_refuted`).
- `_nvc_set_cover_scope_name` gives a scope any name without looking at the names of its
  siblings, so two scopes can get the same name (`C64_rename_refuted`), also when the
  new name was unused at the time (`C64_rename_fresh_refuted`).
- The last column of the report adds `total_functional` where `hit_functional` is meant,
  so functional items always count as covered (`C65_average_refuted`).
- Items directly in the scope of an instance (expressions in its declarations) are in
  none of the numbers (`C65_own_items_refuted`).
- When the limit on printed items is exceeded `curr_item` is advanced twice, so items are
  left out of the totals, too (`C65_limit_refuted`).
- Scopes whose source is not found are left out of the totals of their parents, with a
  warning for the first of a file alone (`C65_source_refuted`).
- Merging can separate items that belong together; the report then reads behind the array
  (`C65_merged_refuted`).
- `loc_file_ref` searches for the name before it squeezes repeated slashes, so a name such
  as `a//b` makes a new entry on each call (`C67_repeated_slash_refuted`).
- `object_read_ref` adds the position in the file to the base of the arena without
  undoing `forward`.  A dependency that was analysed by the same process still has its
  removed objects, so with `nvc -a pkg.vhd -e top`, where `top` was saved before and the
  package is unchanged (same checksum), references into the package can go to other
  objects (`C72_same_process_refuted`).  `object_from_locus` does undo it.
- `object_write` writes 0x0fffffff for a reference to an object of another unit that was
  removed there; reading it is caught only by an assertion on the size of that unit.
  `C72_accepted` excludes it by its last hypothesis.
- `object_read` returns the first object of the unit, not the root that `object_write`
  insists on; they are the same only if no kept object was made before the root.
- A text or number item that was never set crashes `object_write` (`strlen` of NULL);
  `value_fits` excludes it.
- The number of a traversal in `object.c` has 16 bits: marks of a traversal 65536 earlier
  count as marks of this one (`C68_wrap_refuted`).
- A traversal of a unit started while another one of the same unit runs clears its marks
  (`C68_nested_refuted`); `simp.c` does this (`tree_visit` while rewriting).
- `object_visit` takes a kind to mean all kinds when it is the number of kinds of the class of
  the object it meets: visiting T_FOR (34) calls the function for every PSL object, T_NEXT
  (56) for every Verilog object, T_ENUM_LIT (15) for every type (`C70_kind_refuted`).
- `bounds_cover_choice` merges a choice that touches an interval with it and does not look
  at the next interval, so a duplicate is missed, and the count of missing values is too
  low by the same number: 0, 2, 1, 2 is accepted for the values 0 to 3
  (`C73_refuted`).  Array aggregates are checked with the same function.  The branch
  `high == it->low - 1` is never taken.
- The count of missing choices is an `int`: 2^32 missing values are none
  (`C73_wide_refuted`).  Null ranges spoil the intervals (`C73_null_ranges`).
- The count of a case statement on an array uses the number of values of the element
  subtype, but choices may contain other values of its base type
  (`C74_subtype_refuted`).  A hash equal to INT64_MAX stands for "no hash", so
  duplicates of such a choice are not found.
- `simp_match_case_choice` has no `break` after A_RANGE: a constant case statement, or a
  case generate, takes the first alternative with a range choice whatever the value
  (`C75_constant_refuted`).
- Integer arithmetic in `vcode.c` (C76).  `0 - x` is emitted as a negation without overflow
  check (`C76_zero_minus_refuted`).  Division by a negative constant gives the result
  bounds whose low end is above the high end, and range checks on it are dropped
  (`C76_divide_by_negative_refuted`).  Bounds of 64-bit sums, differences and products
  saturate, always fit, and the overflow check is dropped (`C76_sum_64_bits_refuted`).
  Results of negation, abs, mod, rem, division and select get the declared range of the
  type as bounds although they can lie outside it, so that a range check against the
  type is dropped (`C76_negate_unsigned_refuted`, `C76_negate_check_refuted`,
  `C76_absolute_refuted`, `C76_quotient_refuted`).  Types with at most the values 0 and 1
  are checked for overflow with eight bits while their bounds are clamped to one
  (`C76_one_bit_sum_refuted`).  Overflow of two operands known at compile time is folded
  without an error (`C76_folded_sum_refuted`).
- Loads and stores in a block of `vcode.c` (C77).  `emit_load` looks only in its own block
  for the address or context of the variable.  `lower_pcall` and function calls take
  them before later arguments, which may start a new block, as in
  `proc(x, a and b, x + 1); y := x`: the value of x from before the call is reused
  (`C77_earlier_address_refuted`, `C77_earlier_context_refuted`).  `emit_load_indirect`
  does not stop at DEALLOCATE and FILE_OPEN, which store null and the status: a parameter
  read before is not read again (`C77_deallocate_refuted`, `C77_file_open_refuted`).
  `emit_store` does not stop at LOAD_INDIRECT (`C77_dead_store_refuted`).
- MIR builders (C78).  `mir_build_trap_mul` calls `mir_build_sub_op`, so that a checked
  x * x is the constant 0 and the range of a product is the one of the difference
  (`C78_square_refuted`, `C78_product_range_refuted`).  `mir_stamp_union` takes a null
  stamp, which means any value, for no value (`C78_select_refuted`).  `mir_stamp_rem`
  ignores negative divisors (`C78_rem_refuted`).  `mir_build_sub_op` returns x for 0 - x
  (`C78_zero_minus_refuted`); vcode has folded that for integers before, but not for
  reals (read, not modelled: `0.0 - x` gives x, and x - x gives 0.0 for infinite x).
  `mir_const_string` of an empty string makes a stamp with low 255 and high 0, which
  fails an assertion (read only).
- Predefined operators.  `predef_bit_shift` shifts in the rightmost element for `sra` and
  the leftmost one for `sla`; it should be the other way round
  (`C79_arithmetic_refuted`: wrong for every positive count if the ends differ).
  `lower_array_cmp_inner` compares the number of elements of arrays, not their shape
  (`C81_shape_refuted`), and finds a null vector less than a null vector
  (`C81_null_refuted`).  The message for a don't care operand of `?<` is given the length
  `sizeof(msg) - 1` of a pointer, so only `STD_LOG` is printed (read only).
- T'IMAGE and T'VALUE.  `string_to_real` does not read the next character in the loop over
  the exponent: REAL'VALUE("1.0e12") is 1.0e11, REAL'VALUE("1.0e5 ") is 1.0e55 and "1.0e1x"
  is accepted (`C84_exponent_refuted` and following).  `lower_physical_value_helper`
  multiplies without a check: TIME'VALUE("4611686018427387904 ps") is 0 fs
  (`C83_physical_overflow_refuted`).  `canon_value` drops spaces between quotes and within
  words, so CHARACTER'VALUE("' '") fails (`C83_space_literal_refuted`) and
  BOOLEAN'VALUE("t r u e") is TRUE (`C83_inner_space_refuted`); extended identifiers and
  accented letters are folded wrongly (`C83_extended_literal_refuted`,
  `C83_accent_literal_refuted`).  Exponents and based literals are not accepted for
  integers, a fraction or a missing number not for physical types, while underlines are
  accepted anywhere (read off `integer_literal`).
- File handles.  `handle_for` takes the slot of the hint without looking at its generation,
  so the generation wraps to 0 after 65535 closings: in slot 0 the handle is then 0, the
  file that was just opened counts as closed and its slot is lost
  (`C85_generation_refuted`); in other slots handles of closed files come to life again
  (`C85_reuse_refuted`).  `__nvc_file_size` and `__nvc_file_canseek` test `slot->file`
  where `slot` is NULL for a closed file, so they crash instead of reporting an error;
  `clear_file_handles` does nothing (read only).
- Attributes of signals.  A new piece of a signal copies the time of the last event from
  the piece it is cut from, so v(1)'EVENT, asked for the first time in a cycle in which only
  v(0) changed, is TRUE and v(1)'LAST_EVENT is 0 fs (`C87_event_refuted`).  The last value
  is kept by piece: v(0)'LAST_VALUE becomes the present value when v(1) changes
  (`C87_last_value_refuted`), and asking for v(1)'EVENT changes v'LAST_VALUE later
  (`C87_query_changes_refuted`).  Asking for the event of a null slice of a vector of one
  element spoils the cached flag for the rest of the cycle (`C87_null_slice_refuted`).
  Numbers of delta cycles have 16 bits: --stop-delta=65536 means no limit, 70000 means 4464,
  and events after delta cycle 65535 are not seen (`C87_delta_refuted`).
- Activity of signals.  The fast path of `sched_driver` stores the time of the assignment in
  the current transaction at once.  So after an undelayed assignment S'LAST_ACTIVE is 0 fs
  although S was not active (`C88_last_active_refuted`), and S'ACTIVE is TRUE in a cycle where
  S is not active if S was last active in a delta cycle of the same number at an earlier time
  (`C88_active_too_early_refuted`).  Two undelayed assignments of the present value in a cycle
  where S is active make S'ACTIVE FALSE (`C88_active_lost_refuted`), since the second one
  overwrites `was_active`.  An undelayed assignment of the present value that a delayed one
  discards in the same cycle still makes S active (`C88_mixed_refuted`).
- WebSocket.  `ws_poll` stores a NUL after the payload of a text frame, which is the first
  byte of the next frame if that was received already: two commands that arrive together
  fail the assertion on the FIN bit (without assertions the second one is dropped)
  (`C89_two_texts_refuted`).  The 64-bit length is stored in an int: a length of 2^32 + 5
  passes for 5 (`C89_long_refuted`), one of 2^32 - 1 for -1, which becomes the size of the
  payload given to the handler (`C89_negative_refuted`).  A message in several frames fails
  an assertion (`C89_fragment_refuted`).  All of these are under the control of the peer.
- Verilog operators.  `&&` starts from 0 and so is never true (`C90_log_and_refuted`).  `<`
  and `>` of operands of different sizes give the opposite of the right answer whenever the
  extra bits are not all zero (`C90_less_sizes_refuted`); `|` loses the extra bits
  (`C90_or_short_refuted`).  Unknown bits: `0 & x` is x, `1 | x` is x
  (`C90_x_decided_refuted`, `C90_reduce_refuted`), `==` is x although known bits differ
  (`C90_equal_x_refuted`), `<` is decided (`C90_less_x_refuted`), `+` leaves the low bits
  known (`C90_add_x_refuted`).  A z on the first driver of a wire hides the others, an x on
  a later one is ignored (`C90_wire_refuted`; the source says that this is incorrect).
  `vlog_lower_binary` calls functions for `-` and `!=` that the package does not have
  (`C90_missing_refuted`).  `to_string` gives the bits in reverse
  (`C90_to_string_refuted`).
- Ranges.  Only the left bound, the direction and the length of an array are kept, so 'RIGHT
  of a null array 1 to -5 is 0 (`C91_null_right_refuted`).  Lengths of ranges of 64-bit types
  wrap around: a null range can have length 2, the range of all values 0
  (`C91_wide_refuted`); folded at compile time the subtraction overflows in C
  (`C91_length_refuted`).  The direction of a slice is checked only if that of the array is
  known at compile time: A(3 downto 0) of an unconstrained parameter A that is 0 to 3 passes
  both checks and reads behind the array (`C91_slice_direction_refuted`).
- Dates and times.  EPOCH divides 10^9 by the nanoseconds instead of the other way round, so it
  is never what the clock says, and infinite at full seconds (`C92_epoch_refuted`).
  `to_time_t` overflows an int from 2039 on and miscounts leap years before 1969
  (`C92_seconds_late_refuted`, `C92_seconds_early_refuted`); GMTIME converts to int, so it
  fails after 19 January 2038 (`C92_gmtime_late_refuted`).  The sum with a negative number
  takes the remainder by 100000 instead of 1000000: T - 0.25 can come out as T - 0.05, and
  T - 0.5 can fail an assertion (`C92_add_borrow_refuted`).  TO_STRING writes
  month 0 for January (`C92_to_string_refuted`).  EPOCH takes a local time for UTC although
  the package says that it is local (`C92_epoch_local_refuted`), and GMTIME looks the offset
  up at the wrong instant (`C92_gmtime_trec_refuted`).  TIME_TO_SECONDS of a negative time is
  one second too large (`C92_time_to_seconds_refuted`); SECONDS_TO_TIME wraps around instead
  of reporting an error (`C92_seconds_to_time_refuted`).
- Implicit signals. S'DELAYED(T) starts with the default value of the type and not with the
  initial value of S, so it is wrong for the first T units of time, or in the first cycle if T is
  zero (`C93_delayed_initial_refuted`). By reading only: `update_effective` does not visit the
  implicit outputs of a nexus, only the port outputs, so 'STABLE, 'QUIET and 'TRANSACTION of an
  inout port miss a change that comes from outside.
- Values as text (`parse_value`, used by `-g` and `force`). The least integer overflows a signed
  number, and so does any numeral from 2^63 (`C94_integer_least_refuted`, `C94_integer_overflow`). The
  literal `' '` is not recognised. An extended identifier is put into upper case, so `\a\` gives
  `\A\` or an error. Empty text for an enumeration type fails an assertion, and for a real it is
  zero. `-1 fs` is refused since -1 marks a unit that is not known. `ns` without a number is zero.
  Positions of character literals are stored in eight bits (`C94_chars_wide_refuted`). The literals are
  taken from the element type and not from its base, so an array of a subtype, such as
  STD_LOGIC_VECTOR in 1993, ends in an internal error (`C94_chars_subtype_refuted`).
- Images and values of records and arrays. The image of a null array is `)` and `()` is refused
  (`C95_image_null_refuted`, `C95_value_null_refuted`). Text after the closing parenthesis is ignored, and
  `(1)2)` is read as `(1,2)` (`C95_value_separator_refuted`). An
  array in a record is copied with the length of the text, beyond the field if that is more
  (`C95_value_length_refuted`). Commas and parentheses in character literals split the text. The image
  of a character array has quotation marks that 'VALUE refuses; the image of a STRING is
  written with parentheses that 'VALUE reads as characters (`C95_value_string_refuted`). 'VALUE of the
  empty string for a character array reads outside of the string (`C95_value_empty_refuted`).
- Libraries (`lib.c`). `-body` and `.elab` are kept in lower case in file names, so a name that the
  table in memory takes for the same may have another file (`C96_file_found_refuted`). With SSE2
  `ident_casecmp` folds ASCII only, against the hash and the file names (`C96_lookup_sse_refuted`). Bytes
  from 128 in extended identifiers are written with sign, as `ffffffe9` (`C96_hex_refuted`). When the
  index was changed by another process, saving takes the old kind of a unit from the disk in place of
  the one just analysed (`C97_kind_refuted`). A change with the same time and size is not noticed and
  its units are lost (`C97_stamp_refuted`).
- Values of at most eight bytes in waveforms are loaded and compared with the bytes behind them
  (`copy_value_ptr`, `cmp_values`), which in an array are those of other elements. So pulse
  rejection deletes a transaction with the same value (`C98_waveform_refuted`), and the load
  reads beyond the end of the last element. The model of waveforms (C06) compares the values only.
- `lib/nvc/psl_support.vhd` guards the functions on `std_logic_vector` with
  `VHDL_VERSION < "08"`. The scanner compares strings (`scan.c:420`) and the value is `"1993"`
  and the like, so the test is never true and these functions are not declared before VHDL-2008;
  the body tests `< "2008"`. The guarded `countones` is moreover declared with a result of type
  boolean. Found by reading; the conditional is not part of the model of C99.
- Coverage reports by file merge all bits of a vector into one bin; the list of contexts is
  grown without clearing for more than 32 files; the exclude-file parser drops a token
  between commands on one line (read only).  `get_case_choice_char` ignores associations of
  a range in an aggregate, matching case statements count nine values for each '-' even
  where choices overlap, and branches of case choices whose hashes collide have no coverage
  (read only).
- The coverage file does not hold the threshold of an item, and the reader does not set
  it; fields that are not in the file keep what was on the stack (`stale` in C66).

## Theorems

<!-- table begin -->
| id | status | theorems (file) | `Print Assumptions` |
|----|----|----|----|
| C01 | proved | `C01_C02_heap_is_priority_queue` (HeapProps), `C01_extract_returns_earliest` (HeapProps) | closed |
| C02 | proved | `C01_C02_heap_is_priority_queue` (HeapProps) | closed |
| C03 | proved | `C03_masks_are_sets` (MaskProps) | closed |
| C04 | proved | `C04_hash_is_finite_map` (HashProps), `C04_hset_is_set` (HashProps), `C04_ihash_is_finite_map` (HashProps), `C04_shash_is_finite_map` (HashProps), `C04_small_table_refuted` (HashProps) | closed |
| C05 | partial | `C05_ghash_put_get_partial` (HashProps), `C05_ghash_refuted` (HashProps) | closed |
| C06 | proved | `C06_wake_matures` (WaveProps), `C06_waveform_preemption` (WaveProps) | closed |
| C07 | partial | `C07_default_inertial_exact_partial` (WaveProps), `C07_keeps_at_least_lrm_partial` (WaveProps), `C07_marking_rule_refuted` (WaveProps), `C07_transport_exact_partial` (WaveProps) | closed |
| C08 | proved | `C08_not_lost` (KernelProps), `C08_transactions_mature` (KernelProps), `C08_values` (KernelProps) | closed |
| C09 | proved | `C09_time_increases` (KernelProps), `C09_timeouts_are_exact` (KernelProps) | closed |
| C10 | partial | `C10_exactly_once` (KernelProps), `C10_postponed_partial` (KernelProps), `C10_postponed_timeout_refuted` (KernelProps) | closed |
| C11 | partial | `C11_duplicate_registration_refuted` (SenseProps), `C11_event_wakes_registered_partial` (SenseProps), `C11_never_missed_any_history_partial` (SenseProps) | closed |
| C12 | partial | `C12_access_preserves_partial` (NexusProps), `C12_disconnected_driver_revived_refuted` (NexusProps), `C12_every_element_in_a_piece` (NexusProps), `C12_queued_force_aborts_refuted` (NexusProps), `C12_released_force_revived_refuted` (NexusProps) | closed |
| C13 | proved | `C13_index_agrees_with_search` (NexusProps), `C13_lookup_distance` (NexusProps) | closed |
| C14 | proved | `C14_abort_hidden_refuted` (ResolveProps), `C14_memo_equals_call` (ResolveProps), `C14_memo_stops_when_call_aborts` (ResolveProps) | closed |
| C15 | partial | `C15_deposit_overrides_force_refuted` (ResolveProps), `C15_force_release_deposit_partial` (ResolveProps), `C15_stale_deposit_refuted` (ResolveProps) | closed |
| C16 | proved | `C16_sequences` (FbufProps), `C16_signed_round_trip` (FbufProps), `C16_size` (FbufProps), `C16_unsigned_round_trip` (FbufProps) | closed |
| C17 | proved | `C17_detects_one_byte` (AdlerProps), `C17_detects_swap` (AdlerProps), `C17_every_implementation_is_adler` (AdlerProps) | closed |
| C18 | partial | `C18_4gib_refuted` (FbufProps), `C18_blocks` (FbufProps), `C18_corruption_detected` (FbufProps), `C18_fastlz_padding_refuted` (FbufProps), `C18_read_sizes` (FbufProps), `C18_reread` (FbufProps), `C18_truncation_detected` (FbufProps) | closed |
| C19 | proved | `C19_handles_stable` (InternProps), `C19_handles_unique` (InternProps), `C19_nul_refuted` (InternProps), `C19_nul_stops` (InternProps), `C19_pieces_hash` (InternProps) | closed |
| C20 | partial | `C20_empty_refuted` (IdentProps), `C20_long_refuted` (IdentProps), `C20_nul_refuted` (IdentProps), `C20_round_trip` (IdentProps) | closed |
| C21 | proved | `C21_glob` (IdentProps), `C21_star_empty_refuted` (IdentProps) | closed |
| C22 | proved | `C22_distance` (IdentProps), `C22_metric` (IdentProps) | closed |
| C23 | partial | `C23_apostrophe_refuted` (IdentProps), `C23_parts` (IdentProps), `C23_rebuild` (IdentProps) | closed |
| C24 | proved | `C24_no_file_refuted` (PackProps), `C24_registers_refuted` (PackProps), `C24_roundtrip` (PackProps) | closed |
| C25 | proved | `C25_cprop` (JitPassProps), `C25_handles_refuted` (JitPassProps), `C25_labels` (JitPipeProps), `C25_results` (JitPassProps) | closed |
| C26 | partial | `C26_dce_partial` (JitPassProps), `C26_labels` (JitPipeProps), `C26_passes_partial` (JitPipeProps), `C26_registers` (JitPassProps), `C26_traps_refuted` (JitPassProps) | closed |
| C27 | proved | `C27_delete_nops` (JitPassProps), `C27_labels` (JitPipeProps), `C27_no_nops` (JitPassProps) | closed |
| C28 | partial | `C28_early_refuted` (Mem2regProps), `C28_escape_refuted` (Mem2regProps), `C28_frame` (Mem2regProps), `C28_promotion_partial` (Mem2regProps), `C28_wide_refuted` (Mem2regProps) | closed |
| C29 | partial | `C29_checked_refuted` (LvnProps), `C29_exp_refuted` (LvnProps), `C29_lvn_partial` (LvnProps), `C29_memset_partial` (LvnProps), `C29_memset_refuted` (LvnProps), `C29_rewritten_refuted` (LvnProps), `C29_slot_refuted` (LvnProps) | closed |
| C30 | proved | `C30_alloc` (LscanProps), `C30_allocated_code` (LscanProps), `C30_flag_refuted` (LscanProps), `C30_intervals` (LscanProps), `C30_no_registers_refuted` (LscanProps), `C30_no_spills` (LscanProps) | closed |
| C31 | proved | `C31_dead` (CfgProps), `C31_flag_partial` (CfgProps), `C31_flags_refuted` (CfgProps), `C31_live_in` (CfgProps), `C31_live_out` (CfgProps) | closed |
| C32 | proved | `C32_edge_lists` (CfgProps), `C32_edges` (CfgProps), `C32_partition` (CfgProps), `C32_predecessors` (CfgProps), `C32_transfers` (CfgProps) | closed |
| C33 | partial | `C33_defined_partial` (NumberProps), `C33_defined_refuted` (NumberProps), `C33_integer_partial` (NumberProps), `C33_integer_refuted` (NumberProps), `C33_literal_partial` (NumberProps), `C33_literal_refuted` (NumberProps), `C33_pack_partial` (NumberProps), `C33_pack_refuted` (NumberProps) | closed |
| C34 | partial | `C34_always_refuted` (UdpProps), `C34_binary_refuted` (UdpProps), `C34_edges_refuted` (UdpProps), `C34_first_match_partial` (UdpProps), `C34_refuted` (UdpProps), `C34_unmatched_refuted` (UdpProps), `C34_z_refuted` (UdpProps) | closed |
| C35 | proved | `C35_end_pointer` (GcProps), `C35_heap_history` (GcProps), `C35_margin_refuted` (GcProps), `C35_owned` (GcProps) | closed |
| C36 | proved | `C35_heap_history` (GcProps), `C36_all_freed` (GcProps) | closed |
| C37 | proved | `C37_acquire_when_free` (LockProps), `C37_mutual_exclusion` (LockProps) | closed |
| C38 | proved | `C38_free_lock_acquired` (LockProps), `C38_released_lock_has_no_sleeper` (LockProps), `C38_sleeper_has_waker` (LockProps) | closed |
| C39 | proved | `C39_at_most_once` (DequeProps), `C39_exactly_once` (DequeProps), `C39_short_runs` (DequeProps), `C39_wrap_refuted` (DequeProps) | closed |
| C40 | proved | `C40_all_leave` (BarrierProps), `C40_phases` (BarrierProps) | closed |
| C41 | proved | `C41_async_barrier` (WorkqProps), `C41_at_most_once` (WorkqProps), `C41_drain` (WorkqProps), `C41_drain_returns` (WorkqProps) | closed |
| C42 | proved | `C42_dominators` (DomProps), `C42_flow_graph` (DomProps) | closed |
| C43 | proved | `C43_shuffle_is_reordering` (DeferqProps), `C43_shuffle_reaches_every_order` (DeferqProps) | closed |
| C44 | partial | `C44_alignment_refuted` (LayoutProps), `C44_code` (LayoutProps), `C44_integers` (LayoutProps), `C44_no_overlap_partial` (LayoutProps), `C44_null_refuted` (LayoutProps), `C44_parts_partial` (LayoutProps) | closed |
| C45 | partial | `C45_assert_choice_refuted` (PslProps), `C45_empty_matches_anything_refuted` (PslProps), `C45_empty_takes_cycle_refuted` (PslProps), `C45_first_match_reported_partial` (PslProps), `C45_product_loses_edge_refuted` (PslProps), `C45_report_ends_match_partial` (PslProps), `C45_reports_exactly_matches_partial` (PslProps), `C45_star_forgotten_refuted` (PslProps) | closed |
| C46 | partial | `C04_small_table_refuted` (HashProps) | closed |
| C47 | partial | `C47_disconnect_at_time_zero_refuted` (WaveProps), `C47_disconnect_takes_effect_partial` (WaveProps), `C47_null_transaction_kept_refuted` (WaveProps) | closed |
| C48 | partial | `C48_at_most_twenty_collide` (InternProps), `C48_progress_refuted` (InternProps) | closed |
| C49 | partial | `C49_ascii` (IdentProps), `C49_downcase` (IdentProps), `C49_hash_agrees` (IdentProps), `C49_latin1_other` (IdentProps), `C49_latin1_x86_refuted` (IdentProps) | closed |
| C50 | proved | `C50_no_separator` (IdentProps), `C50_split_first` (IdentProps), `C50_split_last` (IdentProps), `C50_starts_with` (IdentProps) | closed |
| C51 | proved | `C51_order_is_irrelevant` (KernelProps) | closed |
| C52 | partial | `C52_agree_partial` (LayoutProps), `C52_bounds_refuted` (LayoutProps), `C52_nested_refuted` (LayoutProps), `C52_open_refuted` (LayoutProps), `C52_signals_partial` (LayoutProps) | closed |
| C53 | proved | `C53_literal` (NumberProps), `C53_pack` (NumberProps), `C53_round_trip` (NumberProps) | closed |
| C54 | proved | `C54_minus` (IntrinProps), `C54_natural_plus` (IntrinProps), `C54_null_warning_refuted` (IntrinProps), `C54_plus` (IntrinProps), `C54_plus_natural` (IntrinProps) | closed |
| C55 | proved | `C55_times` (IntrinProps) | closed |
| C56 | proved | `C56_compare` (IntrinProps) | closed |
| C57 | proved | `C57_resize_signed` (IntrinProps), `C57_resize_unsigned` (IntrinProps), `C57_resize_value` (IntrinProps), `C57_signed_exact` (IntrinProps), `C57_to_01` (IntrinProps), `C57_to_signed` (IntrinProps), `C57_to_unsigned` (IntrinProps) | closed |
| C58 | proved | `C58_equal` (IntrinLogicProps), `C58_logic` (IntrinLogicProps), `C58_to_x01` (IntrinLogicProps) | closed |
| C59 | partial | `C59_both_null` (SynopsysProps), `C59_equal_signed_partial` (SynopsysProps), `C59_equal_signed_refuted` (SynopsysProps), `C59_equal_unsigned` (SynopsysProps), `C59_logic_plus` (SynopsysProps), `C59_minus` (SynopsysProps), `C59_null_refuted` (SynopsysProps), `C59_plus` (SynopsysProps), `C59_plus_logic` (SynopsysProps), `C59_times` (SynopsysProps), `C59_times_null` (SynopsysProps) | closed |
| C60 | partial | `C60_any_order_partial` (CoverProps), `C60_merge_fault` (CoverProps), `C60_merge_files_partial` (CoverProps), `C60_merge_partial` (CoverProps), `C60_merge_total` (CoverProps), `C60_options_lost_refuted` (CoverProps), `C60_options_one` (CoverProps), `C60_overrun_refuted` (CoverProps), `C60_same_design` (CoverProps), `C60_update_counts` (CoverProps) | closed |
| C61 | proved | `C61_constant` (CoverRunProps), `C61_toggle` (CoverRunProps) | closed |
| C62 | partial | `C62_counts` (CoverRunProps), `C62_covered_partial` (CoverRunProps), `C62_initial_refuted` (CoverRunProps) | closed |
| C63 | partial | `C63_array_stays` (CoverRunProps), `C63_counts_partial` (CoverRunProps), `C63_no_new_items` (CoverRunProps), `C63_not_compiled` (CoverRunProps), `C63_saturation_range` (CoverRunProps), `C63_saturation_refuted` (CoverRunProps), `C63_stale_refuted` (CoverRunProps), `C63_statement_partial` (CoverRunProps) | closed |
| C64 | partial | `C64_encoding` (CoverNameProps), `C64_items` (CoverNameProps), `C64_items_total` (CoverNameProps), `C64_rename_fresh_refuted` (CoverNameProps), `C64_rename_refuted` (CoverNameProps), `C64_scopes_partial` (CoverNameProps) | closed |
| C65 | partial | `C65_all_below` (CoverReportProps), `C65_average_partial` (CoverReportProps), `C65_average_refuted` (CoverReportProps), `C65_limit_refuted` (CoverReportProps), `C65_merged_refuted` (CoverReportProps), `C65_own_items_refuted` (CoverReportProps), `C65_source_refuted` (CoverReportProps), `C65_totals_partial` (CoverReportProps) | closed |
| C66 | proved | `C66_round_trip` (CoverFileProps) | closed |
| C67 | partial | `C67_different_paths` (FileRefProps), `C67_path` (FileRefProps), `C67_repeated_slash_always` (FileRefProps), `C67_repeated_slash_refuted` (FileRefProps), `C67_same_reference` (FileRefProps) | closed |
| C68 | partial | `C68_marks` (ObjMarkProps), `C68_nested_refuted` (ObjMarkProps), `C68_wrap_refuted` (ObjMarkProps) | closed |
| C69 | proved | `C69_change` (ObjKindProps), `C69_refused` (ObjKindProps), `C69_sizes` (ObjKindProps) | closed |
| C70 | partial | `C70_items` (ObjGraphProps), `C70_kind_refuted` (ObjGraphProps), `C70_visit` (ObjGraphProps) | closed |
| C71 | proved | `C71_complete` (ObjGraphProps), `C71_kept` (ObjGraphProps) | closed |
| C72 | proved | `C72_accepted` (ObjFileProps), `C72_faithful` (ObjFileProps), `C72_same_process_refuted` (ObjFileProps) | closed |
| C73 | partial | `C73_genuine` (CaseProps), `C73_good_accepted` (CaseProps), `C73_missing` (CaseProps), `C73_ordered_partial` (CaseProps), `C73_refuted` (CaseProps), `C73_wide_refuted` (CaseProps) | closed |
| C74 | proved | `C74_accepted` (CaseProps), `C74_subtype_refuted` (CaseProps), `C74_unknown_length` (CaseProps) | closed |
| C75 | partial | `C75_array` (CaseProps), `C75_constant_partial` (CaseProps), `C75_constant_refuted` (CaseProps), `C75_one` (CaseProps), `C75_scalar` (CaseProps) | closed |
| C76 | partial | `C76_absolute_refuted` (ArithProps), `C76_arithmetic_partial` (ArithProps), `C76_bounds_partial` (ArithProps), `C76_divide_by_negative_refuted` (ArithProps), `C76_folded_sum_refuted` (ArithProps), `C76_negate_check_refuted` (ArithProps), `C76_negate_unsigned_refuted` (ArithProps), `C76_one_bit_sum_refuted` (ArithProps), `C76_quotient_refuted` (ArithProps), `C76_sum_64_bits_refuted` (ArithProps), `C76_zero_minus_refuted` (ArithProps) | closed |
| C77 | partial | `C77_dead_store_refuted` (LoadProps), `C77_deallocate_refuted` (LoadProps), `C77_earlier_address_refuted` (LoadProps), `C77_earlier_context_refuted` (LoadProps), `C77_file_open_refuted` (LoadProps), `C77_memory_partial` (LoadProps), `C77_scalars` (LoadProps) | closed |
| C78 | partial | `C78_arithmetic_partial` (MirProps), `C78_import_partial` (MirProps), `C78_product_range_refuted` (MirProps), `C78_rem_refuted` (MirProps), `C78_select_refuted` (MirProps), `C78_square_refuted` (MirProps), `C78_stamps_partial` (MirProps), `C78_zero_minus_refuted` (MirProps) | closed |
| C79 | partial | `C79_arithmetic_partial` (PredefProps), `C79_arithmetic_refuted` (PredefProps), `C79_shift_partial` (PredefProps) | closed |
| C80 | proved | `C80_match` (PredefProps), `C80_match_bit` (PredefProps), `C80_match_bit_vector` (PredefProps), `C80_match_vector` (PredefProps) | closed |
| C81 | partial | `C81_equal_partial` (PredefProps), `C81_null_refuted` (PredefProps), `C81_order_partial` (PredefProps), `C81_order_total` (PredefProps), `C81_shape_refuted` (PredefProps) | closed |
| C82 | proved | `C82_extreme` (PredefProps), `C82_mixed` (PredefProps), `C82_not` (PredefProps), `C82_reduction` (PredefProps), `C82_vectors` (PredefProps) | closed |
| C83 | partial | `C83_accent_literal_refuted` (TextProps), `C83_enum_image` (TextProps), `C83_enum_round_trip_partial` (TextProps), `C83_enum_sound_partial` (TextProps), `C83_enum_value` (TextProps), `C83_extended_literal_refuted` (TextProps), `C83_inner_space_refuted` (TextProps), `C83_integer_image` (TextProps), `C83_integer_round_trip` (TextProps), `C83_integer_value` (TextProps), `C83_physical_image` (TextProps), `C83_physical_overflow_refuted` (TextProps), `C83_physical_round_trip` (TextProps), `C83_physical_sound_partial` (TextProps), `C83_physical_value_partial` (TextProps), `C83_space_literal_refuted` (TextProps) | closed |
| C84 | partial | `C84_exponent_garbage_refuted` (TextProps), `C84_exponent_refuted` (TextProps), `C84_exponent_space_refuted` (TextProps), `C84_real_partial` (TextProps), `C84_real_sound_partial` (TextProps) | closed |
| C85 | partial | `C85_file_objects_partial` (FileHandleProps), `C85_generation_refuted` (FileHandleProps), `C85_reuse_refuted` (FileHandleProps), `C85_stale_handle_partial` (FileHandleProps) | closed |
| C86 | proved | `C86_range` (RandomProps), `C86_seed` (RandomProps), `C86_sequence` (RandomProps), `C86_unique` (RandomProps) | closed |
| C87 | partial | `C87_delta_refuted` (SigAttrProps), `C87_event_not_missed` (SigAttrProps), `C87_event_partial` (SigAttrProps), `C87_event_refuted` (SigAttrProps), `C87_event_whole` (SigAttrProps), `C87_last_event_not_later` (SigAttrProps), `C87_last_event_partial` (SigAttrProps), `C87_last_value_partial` (SigAttrProps), `C87_last_value_refuted` (SigAttrProps), `C87_last_value_scalar` (SigAttrProps), `C87_now` (SigAttrProps), `C87_null_slice_refuted` (SigAttrProps), `C87_query_changes_refuted` (SigAttrProps), `C87_sync_ok` (SigAttrProps) | closed |
| C88 | partial | `C88_active_lost_refuted` (ActiveProps), `C88_active_partial` (ActiveProps), `C88_active_too_early_refuted` (ActiveProps), `C88_assigned_active` (ActiveProps), `C88_last_active_partial` (ActiveProps), `C88_last_active_refuted` (ActiveProps), `C88_mixed_refuted` (ActiveProps), `C88_no_fault` (ActiveProps), `C88_pending` (ActiveProps) | closed |
| C89 | partial | `C89_end_to_end_partial` (WsProps), `C89_flushed` (WsProps), `C89_fragment_refuted` (WsProps), `C89_long_refuted` (WsProps), `C89_negative_refuted` (WsProps), `C89_received_partial` (WsProps), `C89_sent` (WsProps), `C89_two_texts_refuted` (WsProps) | closed |
| C90 | partial | `C90_add_partial` (VlogProps), `C90_add_x_refuted` (VlogProps), `C90_and_partial` (VlogProps), `C90_binary_partial` (VlogProps), `C90_case_equal` (VlogProps), `C90_equal_partial` (VlogProps), `C90_equal_x_refuted` (VlogProps), `C90_integer` (VlogProps), `C90_less_partial` (VlogProps), `C90_less_same_size` (VlogProps), `C90_less_sizes_refuted` (VlogProps), `C90_less_x_refuted` (VlogProps), `C90_log_and_refuted` (VlogProps), `C90_logical_partial` (VlogProps), `C90_missing_refuted` (VlogProps), `C90_neg_partial` (VlogProps), `C90_net` (VlogProps), `C90_or_partial` (VlogProps), `C90_or_short_refuted` (VlogProps), `C90_reduce_partial` (VlogProps), `C90_reduce_refuted` (VlogProps), `C90_resize` (VlogProps), `C90_round_trip` (VlogProps), `C90_to_string_refuted` (VlogProps), `C90_wire_partial` (VlogProps), `C90_wire_refuted` (VlogProps), `C90_x_decided_refuted` (VlogProps), `C90_xor_not` (VlogProps) | closed |
| C91 | partial | `C91_bounds_partial` (RangeProps), `C91_check` (RangeProps), `C91_element` (RangeProps), `C91_length_partial` (RangeProps), `C91_length_refuted` (RangeProps), `C91_loop` (RangeProps), `C91_loop_bounds` (RangeProps), `C91_narrow` (RangeProps), `C91_null` (RangeProps), `C91_null_right_refuted` (RangeProps), `C91_places` (RangeProps), `C91_slice_direction_refuted` (RangeProps), `C91_slice_partial` (RangeProps), `C91_values` (RangeProps), `C91_wide_refuted` (RangeProps) | closed |
| C92 | partial | `C92_add_borrow_refuted` (CalProps), `C92_add_partial` (CalProps), `C92_back_partial` (CalProps), `C92_calendar` (CalProps), `C92_diff_partial` (CalProps), `C92_epoch_local_refuted` (CalProps), `C92_epoch_refuted` (CalProps), `C92_gmtime_late_refuted` (CalProps), `C92_gmtime_partial` (CalProps), `C92_gmtime_trec_partial` (CalProps), `C92_gmtime_trec_refuted` (CalProps), `C92_localtime` (CalProps), `C92_localtime_trec_partial` (CalProps), `C92_round_trip_partial` (CalProps), `C92_seconds_early_refuted` (CalProps), `C92_seconds_late_refuted` (CalProps), `C92_seconds_partial` (CalProps), `C92_seconds_to_time_partial` (CalProps), `C92_seconds_to_time_refuted` (CalProps), `C92_sub_partial` (CalProps), `C92_time_to_seconds_partial` (CalProps), `C92_time_to_seconds_refuted` (CalProps), `C92_to_string_partial` (CalProps), `C92_to_string_refuted` (CalProps) | closed |
| C93 | partial | `C93_delayed_initial_refuted` (ImplProps), `C93_delayed_late` (ImplProps), `C93_delayed_partial` (ImplProps), `C93_next` (ImplProps), `C93_quiet` (ImplProps), `C93_stable` (ImplProps), `C93_transaction` (ImplProps), `C93_transaction_parity` (ImplProps), `C93_wakes` (ImplProps) | closed |
| C94 | partial | `C94_chars_only` (PvalProps), `C94_chars_partial` (PvalProps), `C94_chars_quoted` (PvalProps), `C94_chars_subtype_refuted` (PvalProps), `C94_chars_wide_refuted` (PvalProps), `C94_enum_char_partial` (PvalProps), `C94_enum_empty_refuted` (PvalProps), `C94_enum_extended_refuted` (PvalProps), `C94_enum_identifier` (PvalProps), `C94_enum_only` (PvalProps), `C94_enum_space_refuted` (PvalProps), `C94_integer_least_refuted` (PvalProps), `C94_integer_only` (PvalProps), `C94_integer_overflow` (PvalProps), `C94_integer_partial` (PvalProps), `C94_physical_minus_refuted` (PvalProps), `C94_physical_number_refuted` (PvalProps), `C94_physical_only` (PvalProps), `C94_physical_partial` (PvalProps), `C94_real_empty_refuted` (PvalProps) | closed |
| C95 | partial | `C95_image_null_refuted` (CompProps), `C95_image_partial` (CompProps), `C95_round_trip_partial` (CompProps), `C95_value_delimiter_refuted` (CompProps), `C95_value_empty_refuted` (CompProps), `C95_value_length_refuted` (CompProps), `C95_value_null_refuted` (CompProps), `C95_value_only` (CompProps), `C95_value_partial` (CompProps), `C95_value_quotes_refuted` (CompProps), `C95_value_rest_refuted` (CompProps), `C95_value_separator_refuted` (CompProps), `C95_value_string_refuted` (CompProps) | closed |
| C96 | partial | `C96_file_distinct` (LibProps), `C96_file_found_partial` (LibProps), `C96_file_found_refuted` (LibProps), `C96_file_legal` (LibProps), `C96_file_same` (LibProps), `C96_hex_refuted` (LibProps), `C96_lookup` (LibProps), `C96_lookup_sse_partial` (LibProps), `C96_lookup_sse_refuted` (LibProps) | closed |
| C97 | partial | `C97_kind_partial` (LibProps), `C97_kind_refuted` (LibProps), `C97_no_loss` (LibProps), `C97_only_saved` (LibProps), `C97_ordered` (LibProps), `C97_reproducible` (LibProps), `C97_stamp_refuted` (LibProps) | closed |
| C98 | partial | `C98_compare` (PutProps), `C98_copy` (PutProps), `C98_update` (PutProps), `C98_waveform_eight` (PutProps), `C98_waveform_partial` (PutProps), `C98_waveform_refuted` (PutProps) | closed |
| C99 | proved | `C99_countones` (OnehotProps), `C99_isunknown` (OnehotProps), `C99_onehot` (OnehotProps), `C99_onehot0` (OnehotProps), `C99_ones_total` (OnehotProps) | closed |
<!-- table end -->
