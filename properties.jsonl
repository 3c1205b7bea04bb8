{"id": "C01", "title": "Replacement memory movers behave exactly like memcpy/memmove/memset", "statement": "Dr. Memory swaps the application's memset, bzero, wmemset, memcpy and memmove for its own. For every buffer content, size, alignment and (for memmove) overlap, after the call the destination holds exactly the bytes the C standard requires, every byte outside the destination range is unchanged, no byte outside the source and destination ranges is touched, and the returned pointer is the destination.", "quantifier": "all memories, source and destination addresses (any alignment and any overlap), sizes and fill values", "why_tests_cant": "correctness depends on the joint choice of alignment, overlap distance and size; tests sample a few combinations", "anchors": ["drmemory/replace.c: replace_memset, replace_bzero, replace_wmemset, replace_memcpy, replace_memmove"]}
{"id": "C02", "title": "Replacement search, length and compare routines return the C-standard answer", "statement": "The replacement strlen, strnlen, wcslen, memchr, memrchr, rawmemchr, strchr, strrchr, strchrnul, strcmp, strncmp, strcasecmp, strncasecmp, memcmp, wide variants, strstr, strspn, strcspn return exactly the result that the C standard assigns (first/last occurrence or NULL; the sign of the first difference; span lengths), for every string content. Two exceptions are decided: strspn/strcspn index one past their table when a 0xff byte is examined, and wmemcmp overflows a signed subtraction for wide characters with the top bit set; without such characters they are exact.", "quantifier": "all memories in which the argument strings are readable; all lengths, bytes and bounds", "why_tests_cant": "an off-by-one at one specific content or boundary is enough to break a program; contents are unbounded", "anchors": ["drmemory/replace.c: replace_memchr, replace_strchr, replace_strrchr, replace_strlen, replace_strcmp, replace_strncmp, replace_strstr, replace_memcmp, replace_strspn, replace_strcspn"]}
{"id": "C03", "title": "Replacement string routines never read or write outside the bytes the C standard entitles them to", "statement": "Whenever the argument strings are readable up to and including their terminator (or up to the byte bound), the replacement routine completes without touching any other byte, so running an application under the tool cannot introduce a new fault and the tool cannot report an error that the application did not make.", "quantifier": "all memories that map only the entitled bytes and fault on every other access", "why_tests_cant": "an over-read is invisible unless the adjacent byte happens to be unmapped", "anchors": ["drmemory/replace.c: replace_strlen .. replace_wmemcmp"]}
{"id": "C04", "title": "Replacement string copy and concatenation routines produce exactly the C-standard destination", "statement": "strcpy, wcscpy, stpcpy, strncpy, strcat and strncat leave in the destination exactly the required characters, terminator and zero padding, return the specified pointer, and leave all other memory unchanged, for all contents and bounds.", "quantifier": "all source and destination contents, bounds n including 0 and n less than, equal and greater than the source length, and disjoint buffers", "why_tests_cant": "the padding/termination rule differs for n<len, n=len, n>len and must hold for all lengths", "anchors": ["drmemory/replace.c: replace_strcpy, replace_strncpy, replace_stpcpy, replace_strcat, replace_strncat, replace_wcscpy"]}
{"id": "C05", "title": "Wildcard matching of module and symbol patterns is exact and terminates", "statement": "A text matches a pattern containing '*' and '?' (case-sensitively or not) exactly when the text can be split so that each '?' takes one character, each '*' takes any run of characters and every other character equals itself. The matcher always terminates, and the list variant answers true exactly when some pattern of the list matches.", "quantifier": "all texts, patterns (any number and nesting of stars) and both case modes", "why_tests_cant": "the implementation is a greedy backtracking loop whose correctness for multiple stars is a theorem about all texts", "anchors": ["common/utils.c: text_matches_pattern, text_matches_any_pattern, text_contains_any_string"]}
{"id": "C06", "title": "The address-interval index finds the interval containing an address after any history", "statement": "After any sequence of insertions of pairwise non-overlapping intervals, removals and clears, looking up an address returns exactly the interval that contains it with its client data, or nothing if no interval contains it; lookup by start address and overlap queries are exact as well; iteration visits exactly the stored intervals in ascending order; min and max are the extremes; the payload of each removed interval is released exactly once and no node leaks. An insertion overlapping a stored interval is refused and returns such an interval. Decided exceptions: the release build refuses only an equal start address (so callers must not insert overlapping intervals), an interval ending exactly at 2^64 cannot be found by address, and a node handle may be invalidated by the removal of another node.", "quantifier": "all sequences of insert/delete/clear operations and all queried addresses", "why_tests_cant": "the state space of tree shapes is unbounded and deletion has several symmetric cases", "anchors": ["common/redblack.c: rb_insert, rb_delete, rb_find, rb_in_node, rb_overlaps_node, rb_iterate, rb_min_node, rb_max_node, rb_clear"]}
{"id": "C07", "title": "The address-interval index stays balanced", "statement": "After any sequence of insertions and removals the tree satisfies the red-black colouring rules, so its height is at most 2*log2(n+1) and every lookup takes logarithmically many steps; each insertion and removal terminates.", "quantifier": "all operation histories", "why_tests_cant": "worst-case shape over unboundedly many histories cannot be enumerated", "anchors": ["common/redblack.c: rb_insert, rb_insert_helper, rb_delete, rb_delete_fixup, rotate_left, rotate_right"]}
{"id": "C08", "title": "Nearest-interval queries", "statement": "The next-lower query returns the interval with the greatest start not above the address, and the next-higher query the interval with the least start among those ending at or after it. Decided: the code violates both. What it does guarantee is proved instead: next-lower answers nothing exactly if no interval starts at or below the address and its answer starts at or below it; next-higher inspects only the root.", "quantifier": "all trees and addresses", "why_tests_cant": "wrong answers only appear for particular tree shapes", "anchors": ["common/redblack.c: rb_next_higher_node, rb_next_lower_node"]}
{"id": "C09", "title": "Heap-region tracking answers 'is this address heap' exactly", "statement": "After any sequence of heap region additions, removals, growth and shrinkage with the documented calling discipline, an address is reported as heap exactly when it lies in a currently registered region, with that region's bounds and flags; iteration visits each region once in address order; the client is told of exactly the additions and removals; region records are neither leaked nor freed twice. Decided exception: a removal spanning two regions changes only one.", "quantifier": "all sequences of add/remove/adjust and all queried addresses", "why_tests_cant": "partial removals split and trim regions; histories are unbounded", "anchors": ["common/heap.c: heap_region_add, heap_region_remove, heap_region_adjust, heap_region_bounds, is_in_heap_region"]}
{"id": "C10", "title": "Anonymous-mapping tracking is exact under map and unmap", "statement": "The set of addresses considered as application anonymous mappings equals the union of mappings added minus those removed since, for every history of maps, partial or spanning unmaps, and remaps, where a new mapping overlaps at most one recorded interval (release build: at most one, with the same start). Decided exceptions: a mapping over two intervals is an assertion failure, in the release build an overlap with another start loses addresses.", "quantifier": "all histories of mmap_add/mmap_remove with arbitrary overlaps", "why_tests_cant": "splitting/merging logic depends on the relative position of unboundedly many intervals", "anchors": ["drmemory/alloc_drmem.c: mmap_tree_add, mmap_tree_remove"]}
{"id": "C11", "title": "Replacement malloc never hands out overlapping, undersized or misaligned memory", "statement": "In every history of malloc/free/realloc/memalign calls, every live allocation has at least the requested size, has the required alignment, lies inside an arena or its own mapping, and no two live allocations (including the redzone on both sides) share a byte; calloc's memory is zero; no call crashes, and NULL is answered only for a reason. Decided exceptions: sizes and alignments near 4GB, redzones not a multiple of 16 or larger than a page, and exhausted memory with several arenas.", "quantifier": "all histories of allocation calls with all sizes, alignments, redzone configurations and arena responses", "why_tests_cant": "fragmentation, splitting and coalescing states are unbounded", "anchors": ["common/alloc_replace.c: replace_alloc_common, find_free_list_entry, search_free_list_bucket, split_piece_for_alloc, coalesce_adjacent_frees, arena_extend"]}
{"id": "C12", "title": "Freed memory is quarantined in FIFO order", "statement": "A freed block is not handed out again until it has left the delay queue: with at most delay_frees blocks and delay_frees_maxsz bytes in quarantine, blocks leave in the order in which they were freed and only when a limit is exceeded, or the kernel has no memory for a new arena.", "quantifier": "all histories and limits", "why_tests_cant": "quarantine order is a property of unbounded call histories", "anchors": ["common/alloc_replace.c: add_to_delay_list, shift_from_delay_list_to_free_list"]}
{"id": "C13", "title": "Invalid frees, double frees and mismatched frees are always detected; valid frees never are", "statement": "free/realloc/size of a pointer raises the invalid-heap-argument report exactly when the pointer is not the start of a currently live allocation nor of a block from before the tool; a mismatch is reported exactly when both kinds are known and differ; after an invalid argument nothing has changed.", "quantifier": "all histories and all pointers", "why_tests_cant": "requires knowledge of the live set after an arbitrary history", "anchors": ["common/alloc_replace.c: is_live_alloc, replace_free_common, check_type_match"]}
{"id": "C14", "title": "realloc preserves contents and reports the right size", "statement": "After realloc(p,n) succeeds the first min(old,n) bytes equal the old contents, the reported usable size is exactly n, and on failure the old block is untouched; no call changes the contents of a block that stays.", "quantifier": "all histories, contents and sizes", "why_tests_cant": "in-place and move paths depend on fragmentation state", "anchors": ["common/alloc_replace.c: replace_realloc_common, replace_size_common"]}
{"id": "C15", "title": "Heap iteration visits exactly the live allocations", "statement": "Iterating the heap reports each live allocation exactly once with its base and requested size, and never a freed block, after any history.", "quantifier": "all histories", "why_tests_cant": "depends on header consistency after unbounded splits and merges", "anchors": ["common/alloc_replace.c: alloc_iter_own_arena, alloc_iterate"]}
{"id": "C16", "title": "Wrap-mode delayed frees: a freed block is released at most once and in order", "statement": "In wrapping mode, after any history of frees of blocks that lie apart from everything still delayed, a free hands the real allocator nothing, the freed block itself, or exactly one block that was delayed and now no longer is; which one is determined: the block delayed N frees ago, or over the byte limit the first large enough block in queue order. The byte counter equals the bytes delayed and never exceeds the limit, and the overlap query says yes exactly when the range touches a delayed block. As long as the byte limit forces out only the oldest block of a full queue, at most N blocks are delayed, each for at most N further delayed frees, and the overlap query describes the block it found. Decided exception: otherwise the oldest block's slot is overwritten, that block is never released, more than N blocks stay delayed and the overlap query describes it with another block's call stack; the search also stops at the end of the array instead of wrapping around.", "quantifier": "all histories of legal frees, capacities and byte limits", "why_tests_cant": "ring-buffer wrap-around and swap conditions arise only in long histories", "anchors": ["drmemory/alloc_drmem.c: client_handle_free, next_to_free, overlaps_delayed_free"]}
{"id": "C17", "title": "Marking an address range sets the state of exactly those bytes", "statement": "Marking a range addressable, uninitialised or defined changes the shadow state of exactly the bytes of the range, for every alignment and size, and leaves every other byte's state unchanged; a byte query returns the last state set for that byte, over any history of shadow calls. Decided exception: the 8-byte query of memory never touched answers that its upper half is defined.", "quantifier": "all ranges, alignments, states and prior shadow contents", "why_tests_cant": "head/tail handling depends on alignment modulo 4 and 16 and on shared special blocks", "anchors": ["drmemory/shadow.c: shadow_set_range, shadow_set_byte, shadow_get_byte, shadow_get_dword"]}
{"id": "C18", "title": "Checking a range finds exactly the first differing byte", "statement": "A range check against an expected state never reports a byte that has the state; it succeeds exactly when all bytes have the state and otherwise reports the first run of differing bytes, provided every 16-aligned chunk of the range that starts with a defined byte is uniformly defined whenever the defined state is involved. The backward check and the forward granule search are exact. Decided exceptions: without the proviso the check skips fifteen bytes after a defined one and may report an end beyond the range; the pointer-sized search answers unaligned addresses and never finds uninitialised words; the backward granule search reads shadow memory that does not exist.", "quantifier": "all ranges and shadow contents", "why_tests_cant": "a violation depends on mixed states inside aligned groups", "anchors": ["drmemory/shadow.c: shadow_check_range, shadow_check_range_backward"]}
{"id": "C19", "title": "Copying shadow state mirrors copying bytes", "statement": "After an application region is moved the shadow state of every destination byte equals the prior state of the corresponding source byte and all other states are unchanged, for sizes below 2^32 and, when source and destination have the same alignment modulo 4, no forward overlap and an unaligned start that reaches the end of its 4-byte granule. Decided exceptions: both same-alignment conditions are necessary.", "quantifier": "all sources, destinations, sizes, overlaps and shadow contents", "why_tests_cant": "alignment and overlap combinations are unbounded", "anchors": ["drmemory/shadow.c: shadow_copy_range", "umbra/umbra_64.c: umbra_shadow_copy_range_arch"]}
{"id": "C20", "title": "Register shadow state is isolated per register and per byte", "statement": "After any history of register-shadow calls (set byte, dword, qword, high half, dqword, assignment, marking, checking, eflags), from the start of a first or a later thread: no access leaves the thread's shadow structures, reading a register or sub-register returns exactly the states last given to its bytes, and checking a register reports exactly when one of the checked bytes is not defined, then marks those bytes and no other defined. Decided exceptions: MMX registers are read together with their neighbour (false report) and MM7 past the structure; checking AH/BH/CH/DH marks the low byte instead; a VEX write of xmm N marks the upper half of ymm N+1 (for xmm15: MM0 and MM1).", "quantifier": "all histories, registers, sub-registers and values, X64", "why_tests_cant": "aliasing between packed 2-bit fields must be excluded for all contents", "anchors": ["drmemory/shadow.c: register_shadow_set_byte, get_shadow_register_common, register_shadow_set_dword"]}
{"id": "C21", "title": "Shadow translation is injective and never lands on application memory", "statement": "On every address-space layout that start-up accepts and that is regular (4MB-aligned segments inside one 2^44 window, none starting at a non-zero multiple of 2^44; the standard Linux layouts, with either PIE segment and with or without vsyscall, are), for every scale and map index: start-up covers every mapped region and separates application, shadow and reserved ranges; the called and the inlined translation give the documented affine address; shadow bytes are never application memory; two application addresses share a shadow byte only if they are in the same granule; two maps of one scale never share a shadow byte; shadow-to-app translation recovers the granule's address modulo 2^44. Decided exceptions: shadow-to-app does not invert app-to-shadow for PIE and stack addresses, unmapped addresses alias the shadow of mapped ones, and a segment at a non-zero multiple of 2^44 is accepted though called and inlined translation disagree there.", "quantifier": "all regions lists, all regular accepted layouts, all application addresses, all scales and map indices", "why_tests_cant": "the address space has 2^48 points", "anchors": ["umbra/umbra_64.c: umbra_xl8_app_to_shadow, umbra_xl8_shadow_to_app, umbra_add_shadow_segment, umbra_add_app_segment, segment_overlap, umbra_insert_app_to_shadow_arch"]}
{"id": "C22", "title": "Shadow memory behaves as a map from application granules to values", "statement": "On a started map, any history of create, delete, set-range, write, read, copy and one-byte search calls on mapped ranges of whole granules succeeds; each call changes exactly the shadow bytes of its range to the required values (deleting restores the default), each read, search and copy sees the values last written or the default, a block gets shadow memory exactly when a call touches it (a search may stop early), and the block query reports this. Decided exceptions: creating shadow for part of a block (also on a fault) zeroes the rest of the block instead of giving it the default; a range whose last byte is the first of a block skips that byte; copying forward onto an overlapping range corrupts the tail; two-byte searches miss values with a high byte above 0x7f; a block whose shadow starts where a reserved range ends is reported as not shadow memory; if the system refuses a block, creation recurses for ever.", "quantifier": "all histories of calls, all scales, map indices and default values below 255, all regular layouts", "why_tests_cant": "states and ranges are unbounded; bitmap indices depend on 40-bit offsets", "anchors": ["umbra/umbra_64.c: umbra_create_shadow_memory_arch, umbra_shadow_set_range_arch, umbra_shadow_copy_range_arch, umbra_value_in_shadow_memory_arch, umbra_read_shadow_memory_arch, umbra_write_shadow_memory_arch, umbra_get_shadow_memory_arch, umbra_handle_fault"]}
{"id": "C23", "title": "Uninitialised data is never laundered through data movement", "statement": "For moves, exchanges, byte swaps, unpacks, inserts/extracts, shuffles and shifts: if the tool marks a destination byte (or the flags) as defined, then that byte's value does not depend on any source byte that was uninitialised. Decided exceptions, where the tool does launder: arithmetic shifts by part of a byte, counts of the operand size or more that the processor masks, zero counts (flags), rotates, packed shifts by an uninitialised or in-memory count, pshuf and other operations marked as initialised by design, xadd, pusha, sign extension, flags as a source, VEX operand order, shufpd selectors other than 0, selectors out of range, 8-byte inserts, movhps loads, and cmpxchg8b with -leave_uninit.", "quantifier": "all instructions of the class, operand sizes, shift counts, immediates, source values and shadow states", "why_tests_cant": "non-interference quantifies over pairs of executions", "anchors": ["drmemory/slowpath_x86.c: map_src_to_dst, map_src_to_dst_shift", "drmemory/slowpath_arch.h: combine_shadows, accum_shadow"]}
{"id": "C24", "title": "Bitwise and/or definedness exceptions are sound in strict mode", "statement": "With strict bit operations, an and/test/or result byte marked as defined does not depend on uninitialised source bytes. Decided exceptions: three constants that are always accepted, and 8-byte operands.", "quantifier": "all values and shadow states of both operands", "why_tests_cant": "quantifies over all pairs of values", "anchors": ["drmemory/slowpath_x86.c: check_andor_sources, check_andor_vals, check_andor_bitmask_immed"]}
{"id": "C25", "title": "Every bad byte of an access is reported exactly once", "statement": "For one memory access, the reported unaddressable ranges and uninitialised ranges are disjoint, are sub-ranges of the access, and together cover exactly the bytes whose state is bad and not excused; the access returns clean exactly if there are none; after a write all written addressable bytes carry the new state. Decided exceptions: word-granular shadow (uninitialised checks off), bytes with the bit-level marker, and overlapping floating-point copies.", "quantifier": "all accesses, sizes, shadow contents and exception oracles", "why_tests_cant": "run merging depends on every pattern of states", "anchors": ["drmemory/slowpath.c: handle_mem_ref_internal, memref_idx"]}
{"id": "C26", "title": "Leak scan: an allocation is classified reachable exactly when a pointer path from the roots exists", "statement": "At a leak check, a live heap block is classified as still reachable exactly when there is a chain of pointers to block starts (or interior pointers the heuristics accept) from registers or non-heap memory, in aligned, defined words; and as possible leak only via interior pointers. A word counts as text, not pointer, exactly at three strings of ten characters or one of more than 128. Decided exceptions: blocks of size zero, and blocks both pointed into from a root and pointed to by a leak, which are never scanned.", "quantifier": "all heap graphs, including cycles and sharing", "why_tests_cant": "graphs are unbounded", "anchors": ["drmemory/leak.c: leak_scan_for_leaks, check_reachability_helper, check_reachability_pointer, queue_add"]}
{"id": "C27", "title": "Leak scan: every leaked byte is attributed exactly once", "statement": "The direct leak sizes plus the indirect bytes reported with them add up to the total size of all unreachable blocks: none is counted twice and none is lost, even with cycles.", "quantifier": "all heap graphs", "why_tests_cant": "cycles and merge order give unboundedly many traversal histories", "anchors": ["drmemory/leak.c: mark_indirect, malloc_iterate_cb, malloc_iterate_identify_indirect_cb"]}
{"id": "C28", "title": "Suppressions match exactly the call stacks their text describes", "statement": "Every suppression file line is read as the frame its text documents, matching always terminates, every call stack whose frames can be aligned from the top with a suppression built of frames and plain '...' ellipses is suppressed, and the verdict is exact for suppressions without an ellipsis and for those whose ellipses are each followed by one frame. The suppressions Dr. Memory writes itself suppress, when read back, every error they were written for. Decided exceptions: '...' followed by two or more frames may also match stacks in which they are not adjacent; 'module!...' accepts zero frames, accepts frames outside any module when its module part matches the empty name, and may miss a described stack; a generated module+offset line for a module whose name contains '+' is rejected.", "quantifier": "all suppressions and call stacks", "why_tests_cant": "multiple ellipses induce unbounded alignments", "anchors": ["drmemory/report.c: stack_matches_suppression, top_frame_matches_suppression_frame, on_suppression_list"]}
{"id": "C29", "title": "Duplicate errors are folded and counted exactly", "statement": "In any history of fewer than 2^32 errors and leaks each distinct (type, call stack) that is not suppressed is printed once (with -show_duplicates errors each time), gets a unique dense error number in its results file, its count equals the number of occurrences, and the unique, total, byte, suppression and throttling counters equal the sums over the history. Decided exceptions: a repeated leak scan, leaks of 2^32 bytes, and reachable-leak bytes across a fork.", "quantifier": "all sequences of reported errors", "why_tests_cant": "history-dependent counters", "anchors": ["drmemory/report.c: record_error, report_error, acquire_error_number"]}
{"id": "C30", "title": "Compressed call stacks decode to the recorded frames", "statement": "Storing a call stack and printing it later, after any further module loads and unloads, yields for each frame the same address, module path and offset that were observed when it was captured. Decided exceptions of the packed form: an offset that is a positive multiple of 0xffffff is shown as in no module; an offset of 129*0xffffff or more overflows an int; a module path reloaded with a larger size than at its first load can be shown as another module.", "quantifier": "all module lists (sizes up to the address space) and all offsets", "why_tests_cant": "the 24-bit offset splitting has boundary values in every 16MB unit", "anchors": ["common/callstack.c: address_to_frame, packed_callstack_frame_modinfo, add_new_module"]}
{"id": "C31", "title": "Call-stack equality, hashing and reference counting are consistent", "statement": "Two stored call stacks compare equal exactly when the same frames were observed (for stacks of the same form without a system call, and for all stacks whose offsets the packed form can express); equal stacks hash alike; clones compare equal; in the shared table two references are the same object exactly when their stacks are equal, the count is one plus the number of holders, and a stack is live exactly as long as it is referenced. Decided exceptions: an empty stack differs from its clone when a zero-size allocation is not NULL; without the offset guard equality is not transitive.", "quantifier": "all call stacks and all histories of references", "why_tests_cant": "quantifies over pairs and triples of stacks and unbounded histories", "anchors": ["common/callstack.c: packed_callstack_cmp, packed_callstack_hash, packed_callstack_clone, packed_callstack_free, packed_callstack_add_ref"]}
{"id": "C32", "title": "Module lookup caches never change the answer", "statement": "After any history of loads, unloads and queries, module_lookup returns exactly the loaded region containing the address and is_in_module says exactly whether there is one (regions of whole pages), whatever its caches hold. Decided exceptions: is_in_module answers for whole pages when a region ends inside a page; module_lookup_user_data never returns the bounds its header promises.", "quantifier": "all histories of load/unload/query", "why_tests_cant": "stale caches appear only in particular interleavings of loads, unloads and queries", "anchors": ["common/callstack.c: module_lookup, is_in_module, callstack_module_load, callstack_module_unload"]}
{"id": "C33", "title": "Exhaustive bit-flip fuzzing enumerates every variant exactly once", "statement": "With ordered bit flipping and sparsity 1 around a fixed seed, iterating to the end produces every other buffer of that size exactly once, in order of the number of flipped bits, and the iteration ends after exactly 2^n - 1 values for n bits; with a larger sparsity it produces every s-th set of each size and the last; positive feedback replaces the seed by the last value. Ordered numbers count up from zero to the maximum and ordered words walk through the dictionary. Exception decided: numbers in a buffer of more than eight bytes are read from beyond an eight-byte variable.", "quantifier": "all seeds, sizes below 2^29 bytes, sparsities with sparsity + bits <= 2^32, and histories of requests and feedback up to the end of the iteration", "why_tests_cant": "2^n variants", "anchors": ["drfuzz/drfuzz_mutator.c: bitflip_increment, bitflip_distribute_index_and_flip, get_next_ordered_number, get_next_ordered_token, drfuzz_mutator_feedback"]}
{"id": "C34", "title": "Random mutations change exactly the requested number of bits inside the buffer", "statement": "The k-th random bit mutation flips exactly as many distinct bits of the buffer as the k-th ordered one and writes nowhere else, for buffers of up to 4096 bytes; random numbers stay below the accepted maximum and fill exactly the buffer; random words are dictionary words placed inside the buffer with separators. Exceptions decided: in larger buffers the 16-bit shuffle entries overflow and a bit outside the buffer is flipped; an accepted dictionary without words divides by zero.", "quantifier": "all buffer contents, random seeds, options accepted by the mutator and histories of requests and feedback", "why_tests_cant": "the random state space has 2^64 seeds", "anchors": ["drfuzz/drfuzz_mutator.c: bitflip_shuffle_and_flip, get_next_random_number, get_next_random_token, write_scalar, drfuzz_mutator_set_options"]}
{"id": "C35", "title": "calloc-style size overflow is detected", "statement": "The multiplication overflow check is true exactly when the product of the two sizes does not fit in the machine word.", "quantifier": "all pairs of machine words, 32-bit and 64-bit", "why_tests_cant": "2^128 pairs", "anchors": ["common/utils.c: unsigned_multiply_will_overflow"]}
{"id": "C36", "title": "Saving and restoring the shadow of a region is lossless", "statement": "Restoring a previously saved region gives each of its bytes the state it had when saved, whatever happened in between, and changes no other byte's state; the save stays inside the buffer it requested. Decided exception: when the number of 4-byte granules is not a multiple of four the save writes beyond the requested buffer.", "quantifier": "all regions, sizes below 2^32, shadow contents at save time and at restore time", "why_tests_cant": "the overrun is hidden by allocator rounding, and states between save and restore are arbitrary", "anchors": ["drmemory/shadow.c: shadow_save_region, shadow_restore_region"]}
{"id": "C37", "title": "The fast path's shadow lookup tables agree with the byte states", "statement": "For every combination of the four states in a shadow byte and every offset: a byte or aligned two-byte access takes the fast path exactly when its bytes are defined (resp. neither unaddressable nor bit-level), whatever the neighbouring bytes are; a two-byte access at an odd offset never does; the dword tables say exactly whether all four bytes are addressable (and not bit-level); the sign-extension tables spread the source's top state.", "quantifier": "all 256 shadow bytes and all offsets of each of the eight tables", "why_tests_cant": "one wrong entry among 4608 is only hit by one combination of states", "anchors": ["drmemory/shadow.c: shadow_dword_is_addressable, shadow_dword_is_addr_not_bit, shadow_2_to_dword, shadow_4_to_dword, shadow_byte_defined, shadow_word_defined, shadow_byte_addr_not_bit, shadow_word_addr_not_bit"]}
{"id": "C38", "title": "The table of large allocations is exact", "statement": "After any history the table of large allocations used for address queries holds exactly the live allocations of at least 12KB, each with its start and requested size.", "quantifier": "all histories, including reallocations across the threshold in place and by moving", "why_tests_cant": "entries are added and removed on six different paths", "anchors": ["common/alloc_replace.c: replace_alloc_common, replace_free_common, replace_realloc_common", "common/alloc.c: malloc_large_add, malloc_large_remove"]}
{"id": "C39", "title": "Stack-pointer changes keep shadow memory in step with the stack", "statement": "On a stack of which exactly the part at and above the stack pointer (and the ABI red zone below it) is accessible, every push, pop, call frame operation and explicit change of the stack pointer leaves exactly the part at and above the new stack pointer (and its red zone) accessible: released bytes become unaddressable, newly covered bytes become undefined (or defined, by mode), pushed bytes defined, all others keep their state, and application memory is not touched; a far move out of the current stack changes nothing. Decided exceptions: enter with a frame, ret with an operand on 64-bit, data that stays in the red zone, a swap to a stack nearer than the threshold, unlisted opcodes, and the swap threshold of the generated code for leave and and.", "quantifier": "all instruction sequences, stack positions, operand values, thresholds, stack regions, and the three architectures (32-bit, 64-bit UNIX, 64-bit Windows)", "why_tests_cant": "the update depends on the distance moved, on wrapping, on the red zone and on a threshold that adapts at run time; tests move the stack in a handful of ways", "anchors": ["drmemory/stack.c: handle_esp_adjust, check_stack_swap, check_stack_size_vs_threshold", "drmemory/stack_x86.c: get_esp_adjust_type, needs_esp_adjust, instrument_esp_adjust_slowpath", "drmemory/slowpath_x86.c: adjust_memop"]}
{"id": "C40", "title": "The generated fast path for stack adjustments does what the slow path does", "statement": "On 32-bit x86, the shared routine generated for each kind of stack adjustment always ends with the stack pointer and EAX as they were on entry; it either returns with the shadow state of every application byte as the C slow path would have set it, or hands over to the slow path with an operand from which the slow path produces the same states and the same threshold state as if it had been called at once. Decided exceptions: new stack that is to be marked defined when the routine gives up, -no_shared_slowpath with sub, and a movement by and of 64K or more.", "quantifier": "all kinds of adjustment, operands, stack pointers, register contents, shadow tables (any mix of writable and read-only blocks), shadow contents, both shadow granularities; no wrap round the address space", "why_tests_cant": "the routine is about a hundred generated instructions with nested loops over block boundaries, alignment and faults; equality with the C code has to hold for every size, alignment and block layout", "anchors": ["drmemory/stack_x86.c: generate_shared_esp_fastpath_helper", "drmemory/fastpath_x86.c: add_shadow_table_lookup", "umbra/umbra_32.c: shadow_table_insert_app_to_shadow_arch", "drmemory/fastpath.c: handle_special_shadow_fault", "drmemory/stack.c: handle_esp_adjust"]}
{"id": "C41", "title": "The generated zeroing loop zeroes new stack and nothing else", "statement": "In leak-only mode on 32-bit x86, the code inserted before an instruction that moves the stack pointer ends, keeps the stack pointer and the registers it does not own, writes only bytes below the old and at or above the new stack pointer, writes zeros, covers all whole dwords down to the first unwritable byte, and writes nothing when the stack shrinks or a swap is possible; for whole dwords of writable stack the result is that of the C slow path. Decided exception: up to three bytes at the bottom of a size that is not a multiple of four.", "quantifier": "all kinds of adjustment, operands and stack pointers with the new stack pointer at least 4, all memory contents and writability", "why_tests_cant": "termination and the bounds depend on unsigned wrapping and on faults inside the loop; a stray write corrupts the application silently", "anchors": ["drmemory/stack_x86.c: insert_zeroing_loop, handle_zeroing_fault", "drmemory/stack.c: handle_esp_adjust"]}
{"id": "C42", "title": "32-bit Umbra is a flat map from application addresses to shadow values", "statement": "Whatever is created, deleted, set, written, copied, searched, shared or cleared, the shadow table of 32-bit Umbra answers as a flat map from shadow byte numbers to values would: each address reads what was last stored for it or the default value, calls that meet a block without shadow stop there and say so, and no call changes other values. The value is where the C lookup, the generated x86 code and the generated ARM code all say. No call reads outside the allocated blocks or writes to a shared one, and redzones keep their contents and protection. Decided exceptions: ranges that end on the first byte of a block, ranges that are not whole granules, overlapping copies upwards, copies by one more than a number of blocks, the value 255, values wider than a byte, and the top of the address space.", "quantifier": "all sequences of calls, all five scales, all options, all addresses at which the allocator places blocks, all lengths and values", "why_tests_cant": "sharing between blocks, copy on write and the splitting of ranges at 64K boundaries interact over whole histories; tests see a few ranges and one allocator", "anchors": ["umbra/umbra_32.c: umbra_create_shadow_memory_arch, umbra_delete_shadow_memory_arch, umbra_shadow_set_range_arch, umbra_read_shadow_memory_arch, umbra_write_shadow_memory_arch, umbra_shadow_copy_range_arch, umbra_value_in_shadow_memory_arch, shadow_table_app_to_shadow, shadow_table_insert_app_to_shadow_arch", "umbra/umbra.c: umbra_shadow_set_range"]}
{"id": "C43", "title": "32-bit Umbra keeps private, shared and redundant blocks apart and frees them all", "statement": "From any reachable state: closing the map frees every block exactly once with the allocator it came from; a shared block that is replaced becomes private and writable at the address returned, with no value changed and no other block moved; a shared block for a value is read-only, full of that value, the same each time it is asked for, and refused only when eight exist; clearing redundant blocks frees exactly the private blocks that hold the default value everywhere, counts them, and changes no value. Decided exceptions: asking for a shared block that does not exist reports success, and faulty redzones of shared blocks can be read.", "quantifier": "all states reached by any calls, all maps and allocators", "why_tests_cant": "the ownership of a block is spread over the table, the list of special blocks and the default block; a leak or double free needs a particular history", "anchors": ["umbra/umbra_32.c: shadow_table_exit, shadow_table_replace_block, shadow_table_create_special_block, umbra_create_shared_shadow_block_arch, umbra_get_shared_shadow_block_arch, umbra_clear_redundant_blocks, shadow_table_init_redzone"]}
{"id": "C44", "title": "32-bit Umbra tells the truth about its shadow memory", "statement": "From any reachable state: the iteration passes every 64K block that has shadow exactly once, in order, described as by umbra_get_shadow_memory, and stops when the callback asks; the type query for an address answers the kind of the block around it and whether it is in the redzone, NOT_SHADOW exactly outside all blocks, and agrees with the query by application address. Decided exception: addresses below the size of a block in a map created on touch without redzones.", "quantifier": "all states reached by any calls, all maps, all allocators, all addresses and callbacks", "why_tests_cant": "the queries search the table and the special blocks by address ranges including redzones; every block layout matters", "anchors": ["umbra/umbra_32.c: umbra_iterate_shadow_memory_arch, umbra_get_shadow_memory_type_arch, umbra_get_shadow_memory_arch, umbra_address_is_app_memory, shadow_table_is_in_special_block, shadow_table_is_in_default_block"]}
{"id": "C45", "title": "The registry of Umbra maps hands out, refuses and reclaims maps as documented", "statement": "For a client that starts Umbra successfully, exits as often as it starts, destroys each map once and before the last exit, and does not create a map after destroying one in the same session: every call answers as an ideal registry of at most two maps of one scale would, each live map sits in its own place, no map is read after it was freed, no lock is waited for in vain, and if no creation fails after allocating, exactly the live maps are allocated. Decided exceptions: creating a map after destroying one reads beyond the table of maps; a second map of another scale is accepted although unsupported; the last exit with a live map deadlocks; a creation that fails late leaks its map; a failed start makes later starts report success without effect; an exit too many keeps the next session from being closed.", "quantifier": "all sequences of start, exit, create and destroy calls, all options, all outcomes of the architecture-specific start", "why_tests_cant": "the table, its count and the lock change together over whole sessions; tests create one map and destroy it", "anchors": ["umbra/umbra.c: umbra_init, umbra_exit, umbra_create_mapping, umbra_destroy_mapping, umbra_map_add, umbra_map_remove, umbra_map_create, umbra_map_compatible"]}
{"id": "C46", "title": "The fast path completes no bad access", "statement": "For each modelled application instruction the generated code exists and never goes wrong (no unwritten scratch value, no jump to a missing label). When it completes without leaving for the slow path, every memory operand was aligned and none of its bytes unaddressable, every addressing register was defined, and no shadow of memory other than the destination dword changed.", "quantifier": "all modelled instructions (opcodes, sizes, registers, memory or constant operands), all addresses, all states of registers, flags and shadow memory, with and without whole-block register sharing", "why_tests_cant": "the generator emits a different sequence for each combination of operands; a test runs a few of them with a few shadow values", "anchors": ["drmemory/fastpath_x86.c: instrument_fastpath, adjust_opnds_for_fastpath, set_reg_shadow_opnds, add_check_datastore, insert_check_defined, add_addressing_register_checks, add_shadow_table_lookup"]}
{"id": "C47", "title": "The fast path propagates definedness byte by byte", "statement": "Copies, arithmetic, extensions to four bytes, movs and setcc: when the code completes, each byte of the destination gets exactly the state the sources give it, other bytes keep theirs, and the flags come out defined exactly when every byte of the result is. If the operands are usable, the code does complete. Decided exceptions: a store or an alu operation of %ah, %bh, %ch or %dh to the first byte of a dword takes the state of another byte; sbb of a register with itself spreads only one byte of undefined flags.", "quantifier": "all modelled instructions of these kinds, all addresses, all shadow states", "why_tests_cant": "which byte of a shadow byte is moved where depends on register halves and address offsets; the wrong lane shows only with undefined data in it", "anchors": ["drmemory/fastpath_x86.c: instrument_fastpath, insert_shadow_op, add_dstX2_shadow_write, add_dst_shadow_write, write_shadow_eflags, subdword_zero_rest_of_dword"]}
{"id": "C48", "title": "The fast path completes checked instructions only on defined data", "statement": "Comparisons, test, and, or, shifts by part of a byte, extensions of one byte to two, exchanges and compare-exchanges: when the code completes, the bytes read were defined, or for and, or and test one of them was defined and alone decides the result. Destination and flags are defined afterwards. If the whole dwords of the operands are defined, the code does complete. Decided exceptions: a checked instruction on one or two bytes also marks the rest of the dword defined, and movs of one or two bytes even marks unaddressable neighbours defined.", "quantifier": "all modelled instructions of these kinds, all addresses, all shadow states, all application values, with and without check_uninit_cmps", "why_tests_cant": "a missed check is silent: the program runs on and no error is reported; the neighbours of an operand are never inspected by tests", "anchors": ["drmemory/fastpath_x86.c: instrument_fastpath, insert_check_defined, set_check_definedness_pre_regs, set_check_definedness_post_regs"]}
{"id": "C49", "title": "The fast path shifts the shadow along with the data", "statement": "shl, shr and sar by a whole number of bytes below four: no byte that is undefined after the shift is marked defined, other bytes keep their state, and for shl and shr of four bytes the result is exact. If the operand is usable, the code does complete. Decided exceptions: excess undefinedness below four bytes and for sar; a count of 32, which the processor takes as zero, clears the shadow; the flags ignore the bytes shifted out; rotations leave the shadow in place.", "quantifier": "all three opcodes, counts 0, 8, 16, 24, registers and memory, all sizes with generated code, all shadow states", "why_tests_cant": "only the shadow is wrong, not the program; tests that shift partly undefined data by whole bytes are few", "anchors": ["drmemory/fastpath_x86.c: insert_shadow_op, adjust_opnds_for_fastpath"]}
{"id": "C50", "title": "What a system call is said to have written was checked before it", "statement": "For any sensible row of the system-call table, what is reported around a call depends on that call alone and not on what earlier calls left in the per-thread state. If its outputs are plain memory, each range marked as written after the call is an output of the row and lies within a range that was reported, and so checked, before the call. A failed call marks nothing. Decided exceptions: an argument ignored because its neighbour is null is marked all the same, and a size of 2^64-1 is checked as no bytes at all.", "quantifier": "all table rows (not only those in the table), all register values, memory contents and results, all states left by earlier calls", "why_tests_cant": "the state kept from the first walk to the second is only wrong after a particular earlier call; a wrong mark hides later errors instead of showing one", "anchors": ["drsyscall/drsyscall.c: sysarg_get_size, should_ignore_arg, process_pre_syscall_reads_and_writes, process_post_syscall_reads_and_writes, handle_cstring, handle_sockaddr, drsys_iterate_memargs, drsys_iterate_args"]}
{"id": "C51", "title": "The Linux system-call table says what the kernel reads and writes", "statement": "For 114 of the 132 system calls with a contract from the manual pages, the walk over the row reports before the call exactly the ranges the kernel reads (to be defined) or may write (to be addressable), and after it exactly the ranges it has written. connect and bind require exactly the significant bytes of the address. Decided exceptions: eighteen rows depart from the manual pages, each shown by a call, and read at the end of a file marks the whole buffer.", "quantifier": "all calls made in earnest: all register values, memory contents, results and string lengths below MAX_PATH; all states left by earlier calls", "why_tests_cant": "a wrong row shows only in a program that passes uninitialised or unaddressable memory to that call; the test suite has such programs for a handful of calls", "anchors": ["drsyscall/table_linux.c: syscall_info", "drsyscall/drsyscall.c: handle_cstring, handle_sockaddr"]}
{"id": "C52", "title": "Around an unknown system call the program finds its own memory, and only written bytes become defined", "statement": "Without sentinels, the program finds the memory exactly as the kernel left it; shadow changes only from undefined to defined, only if the call succeeds, and only for a byte that the kernel changed and that can be reached from an argument (or in the same word with word granularity); and all such bytes become defined if the pointers are in good order, whatever earlier calls left behind. With sentinels and byte granularity, under further stated conditions, the memory is again as the kernel left it, and exactly the undefined bytes within reach that the kernel wrote become defined. Decided exceptions show that each condition is needed.", "quantifier": "all option settings, argument registers, shadow states, memory contents, kernel writes, results, and all states left by earlier calls", "why_tests_cant": "tests cannot enumerate overlaps of arguments, values left by earlier calls, or values that the kernel writes; a lost restore corrupts the program only in data it believes uninitialised", "anchors": ["drsyscall/drsyscall.c: handle_pre_unknown_syscall, handle_post_unknown_syscall, drsys_event_post_syscall_last", "drmemory/syscall.c: client_post_syscall"]}
{"id": "C53", "title": "The MD5 digest is that of RFC 1321 in whatever pieces the bytes come", "statement": "For any sequence of md5_update calls on any context after md5_init, md5_final gives the digest that RFC 1321 defines for the concatenation of the pieces, and no access leaves the buffer; get_md5_for_region gives the digest of its region. The 64 constants are checked against the sine they are defined by.", "quantifier": "all byte sequences of any length, all ways to cut them into pieces, all contents of the uninitialised buffer", "why_tests_cant": "errors at the block and padding boundaries or in the 64-bit count show only for particular lengths; a wrong digest makes the symbol cache accept or reject the wrong module", "anchors": ["common/crypto.c: md5_init, md5_update, md5_pad, md5_final, md5_transform, get_md5_for_region"]}
{"id": "C54", "title": "The CRC of call stacks is the standard one and tells close call stacks apart", "statement": "crc32 computes what shifting in the bits one by one with the CRC-32 generator does (without the final complement). Two blocks that are alike but for bits within a run of 32 never have the same CRC, so crc32_whole_and_half_equal never takes such call stacks to be equal; equal non-empty ones always are. Decided exceptions: the second result is of half the bytes and one more, unlike its comment, and is not set for an empty block.", "quantifier": "all byte sequences, all previous contents of the result", "why_tests_cant": "a wrong entry among 256 in the table would still give a plausible hash; that no two close stacks collide is a statement over all pairs", "anchors": ["common/crypto.c: crctab, crc32, crc32_whole_and_half, crc32_whole_and_half_equal", "drheapstat/drheapstat.c: alloc_stack_table"]}
{"id": "C55", "title": "What is recorded in the symbol cache is what later runs find", "statement": "Over any sequence of module loads, saves and unloads, additions, ends of the process and crashes, each lookup in the symbol cache gives exactly the offsets recorded for that symbol of that module since the last lost run, in order and without repetition, through any number of writes and reads of the cache files, and a recorded \"no such symbol\" is replaced by an offset; no access leaves a buffer. This holds for symbols of less than 256 characters without comma or newline and offsets below 2^32; outside of these limits it is refuted by witnesses.", "quantifier": "all sequences of operations over any number of runs, all modules with different paths and names, all orders in which the hash table is walked", "why_tests_cant": "the text format is written and read by different code, and errors show only in a later run, for particular symbols, numbers of offsets or buffer boundaries", "anchors": ["drsymcache/drsymcache.c: symcache_symbol_add, symcache_write_symfile, symcache_read_symfile, drsymcache_add, drsymcache_lookup, symcache_module_load, symcache_module_save_common", "common/utils.h: BUFFERED_WRITE"]}
{"id": "C56", "title": "A cache file of another version of a module, or a damaged one, is not used", "statement": "Whatever modules share a path or a preferred name and however they change between and within runs, each offset found for a symbol was recorded for that symbol while the cache in use was that of a module of the same file size, timestamp and digest. A cache file that was cut short, or that something was added to, is not used as long as its first two lines are whole and the size differs modulo 2^32. Decided exceptions: a file truncated by a full disk is taken, because the size written in it is that of the truncated file; a file that ends within its first line, and one of whole pages without an end of line, make the reader use a null pointer or leave the mapping.", "quantifier": "all sequences of operations with any modules, all cuts of all files so written", "why_tests_cant": "depends on two versions of a module, two runs and a collision of names; wrong offsets make the tool intercept the wrong function", "anchors": ["drsymcache/drsymcache.c: symcache_read_symfile, symcache_write_symfile, symcache_module_load"]}
{"id": "C57", "title": "In pattern mode what is around blocks holds the pattern and blocks are left alone", "statement": "Over any sequence of allocations, frees, reuses of freed chunks, in-place reallocations, writes and references, every byte of a chunk that the program may not use (redzones, padding, freed blocks) holds the byte of the pattern for its address, unless someone wrote there or a reference began there since. No byte of a live block is changed by the tool, with one exception: when a reference begins there and ends outside of the block while the block holds the pattern, its first byte is cleared (shown by a witness). Bytes a block gains in place, and those of a reused chunk, are zero.", "quantifier": "all runs, all block addresses, sizes and paddings, all patterns of two bytes, all redzone sizes that are multiples of four", "why_tests_cant": "the filling writes words past the end it is given and starts at odd addresses; a byte too many corrupts the program only for particular sizes", "anchors": ["drmemory/pattern.c: pattern_write_pattern, pattern_handle_malloc, pattern_handle_delayed_free, pattern_handle_real_free, pattern_handle_realloc"]}
{"id": "C58", "title": "Pattern mode reports bad references it can see and no good ones", "statement": "In any run, references within live blocks are never reported, whatever data they meet, and what is reported is a reference of the instruction that is not within a block and meets a freed chunk or what surrounds a live block. Conversely, a reference into a readable stretch around a block or in a freed one that no one has touched is reported if it is aligned and of at least two bytes, and more precisely if it begins at an even address with four bytes (two, for small references) before the end of the stretch; and exactly once when neither byte of the pattern is zero. Missed, by witnesses: four bytes at an odd address, the last byte, references that straddle the end of a block, a second error near one already reported, and, with checks of four bytes only, a byte at an even address at the end, because the wrong check is moved back by two.", "quantifier": "all runs, references, stretches, patterns, redzone sizes, both styles of checks", "why_tests_cant": "depends on addresses modulo four, on the neighbours of the reference and on earlier reports; misses are silent", "anchors": ["drmemory/pattern.c: pattern_create_check_opnds, pattern_handle_ill_fault, pattern_handle_mem_ref, pattern_addr_pre_check", "drmemory/alloc_drmem.c: region_in_redzone, overlaps_delayed_free", "common/alloc_replace.c: alloc_replace_overlaps_region"]}
{"id": "C59", "title": "Elided checks are made up for by the ones that remain", "statement": "With -pattern_opt_elide_overlap, for every block of code and every reference [base+disp] in it, any stretch of at least the size of a redzone that the reference falls in has an address at which a remaining check looks, with the same value of the base register, provided no instruction overwrites the base of its only reference. Without that provision it is false: an instruction that loads over its own base registers its check after the invalidation, and the next reference through the new value goes unchecked (witness). Only references of the block are checked.", "quantifier": "all blocks of instructions, all register values, all redzone sizes", "why_tests_cant": "the bookkeeping of two checks per register with removal of earlier ones has many orders of displacements, and a lost check shows only as a missed error", "anchors": ["drmemory/pattern.c: pattern_opt_elide_overlap_update_regs, pattern_opt_elide_overlap_ignore_refs, pattern_opt_elide_overlap_update_checks, pattern_instrument_check, pattern_remove_check"]}
{"id": "C60", "title": "Heap snapshots account for exactly the blocks that are live", "statement": "In Dr. Heapstat, after any sequence of mallocs, frees, in-place reallocs, time ticks and dumps, the live snapshot has one entry for each callstack that still has blocks and none for others, with the number of its blocks and the sums of their requested sizes, paddings and headers, and the totals are the sums over all blocks, each within the width of its field (16 bits for an entry's extra bytes). The count of mallocs is the number of live blocks as long as none is resized in place. By witnesses: an in-place realloc adds one to that count or takes one from it, even below zero; the usable and occupied totals count the requested size twice, because the padded size already includes it; and one block of 64KB shows no extra bytes for its callstack.", "quantifier": "all sequences of operations, all sizes below 2^31, all numbers of callstacks", "why_tests_cant": "errors accumulate over long runs, with entries unlinked and reused, and the reports only look plausible", "anchors": ["drheapstat/drheapstat.c: account_for_bytes_pre, account_for_bytes_post, client_add_malloc_pre, client_remove_malloc_pre, client_handle_realloc", "common/alloc.h: malloc_info_t"]}
{"id": "C61", "title": "The peak snapshot is a real moment and within the threshold of the highest one", "statement": "When snapshots are dumped, at no moment of the run were more bytes occupied than the peak snapshot shows plus the percentage -peak_threshold of it, and the peak snapshot shows the heap exactly as it was at some moment of the run. What is meant to refresh the peak when the number of calls has changed by the threshold does not: the occupied bytes are passed in place of the percentage (witness).", "quantifier": "all runs in which the occupied bytes fit 32 bits and a request that grows does not lose padding, all thresholds", "why_tests_cant": "the peak is only looked at when bytes go down, so missing one of these places loses a peak only in certain orders of calls", "anchors": ["drheapstat/drheapstat.c: check_for_peak, copy_snapshot, account_for_bytes_pre, account_for_bytes_post, snapshot_dump_all"]}
{"id": "C62", "title": "Snapshots stay evenly spaced over the whole run and show the heap of their time", "statement": "However long the run, as long as the frequency fits 32 bits, every multiple of the current frequency up to now has its snapshot; the frequency is the initial one doubled each time the slots were full, so that between half of the slots and all of them are multiples of it; the other stamps are multiples of half of it and no two are equal. Each snapshot shows the heap after the operation in which its time came, all are printed, the search for a slot ends, and with -time_allocs the last stamp is the number of calls, with -time_bytes at most the number of bytes. By witnesses: with an odd number of slots, which is accepted, multiples are missing; when the frequency overflows it becomes zero and is divided by; with -time_bytes what goes past a snapshot is forgotten, so time falls behind.", "quantifier": "all sequences of operations, all even numbers of slots, all initial frequencies, all three kinds of time", "why_tests_cant": "the search for the slot to overwrite depends on how often the slots were full, and goes wrong only after long runs", "anchors": ["drheapstat/drheapstat.c: take_snapshot, account_for_bytes_pre, account_for_bytes_post, snapshot_dump_all", "drheapstat/optionsx.h: snapshots"]}
{"id": "C63", "title": "The packed last-access records of a snapshot give back what was put in", "statement": "For every list of blocks with their callstack, size and last access not after the snapshot, the packed record (19 and 13 bits with an overflow table, and 32 or 64-bit stamps according to the time) is built without running out of room and gives back the callstack, size and last access of each. A last access after the time of the snapshot can be cut (witness).", "quantifier": "all lists of fewer than 2^31 blocks, all callstack numbers and sizes of 32 bits, all times below 2^63", "why_tests_cant": "only blocks of unusual size, or many callstacks, or long runs, take the other encodings", "anchors": ["drheapstat/staleness.c: staleness_take_snapshot, staleness_get_snap_cstack_id, staleness_get_snap_bytes, staleness_get_snap_last_access"]}
{"id": "C64", "title": "Text files are read line by line, whichever way their lines end", "statement": "For every text of lines ended by LF or CR LF, with any number of empty lines between them and possibly a last line without an end, the readers of suppression files and of dictionaries are given exactly the lines that are neither blank nor comments, in order, without the white space around them. Decided otherwise: a file that begins with an empty line makes the byte before the mapping be read; a file whose last byte is both the end of a line and of a page makes the byte after the mapping be read; white space after a last line without an end is kept.", "quantifier": "all texts without zero bytes, any number of lines of any length, all page sizes", "why_tests_cant": "the failures need a first line that is empty or a size that is a multiple of the page size, and then depend on what is mapped next to the file", "anchors": ["common/utils_shared.c: strnchr, find_next_line", "drmemory/report.c: read_suppression_file", "drfuzz/drfuzz_mutator.c: drfuzz_parse_dictionary"]}
{"id": "C65", "title": "A dictionary for fuzzing gives exactly its tokens, and bad ones are refused", "statement": "For every dictionary of lines name=\"token\", blank lines and comments, where the characters of a token are written as themselves, with a backslash or as two hexadecimal digits, parsing succeeds with exactly the tokens in order, and writes nothing past the room of a token. A line with an unknown escape is refused and each token allocated is freed once. A line that does not end with a quote is refused as long as a quote follows somewhere. Decided otherwise: after such a line the last token before it is freed twice; if no quote follows in the file, the search runs past the mapping; a line whose only quote is its last character allocates a token of size -1.", "quantifier": "all dictionaries of any number of lines, tokens up to 65534 characters as written, all page sizes", "why_tests_cant": "errors in a dictionary are the user's, and what is freed twice or read past the end depends on the lines before and after", "anchors": ["drfuzz/drfuzz_mutator.c: drfuzz_parse_dictionary, token_alloc, token_free, drfuzz_mutator_start"]}
{"id": "C66", "title": "Errors are set apart as merely potential exactly as the lists in the options say", "statement": "For all lists of patterns, numbers of frames and callstacks: an error is set apart if it is of a potential kind, or no module of the top N frames is on -lib_allowlist if that is given, or no source file of the top N frames is on -src_allowlist if that is given, or, with no allowlist, there are N frames and each is in a module on -lib_blocklist or its default; otherwise it is reported normally. The top frame does not count if it is in no module or in the tool, and for leaks if malloc is replaced. A module is exempt from checks of uninitialized reads exactly if its name is on -check_uninit_blocklist. Each list is what is between its commas. Decided otherwise: an empty pattern hides all patterns after it, a comma in front switches the list off, and a list that fills its buffer loses its last character.", "quantifier": "all lists of non-empty patterns, all callstacks of any depth, all numbers of frames, both kinds of case comparison", "why_tests_cant": "the outcome depends on the interplay of four lists, three numbers and every frame; a mistake only moves a report to another file", "anchors": ["drmemory/report.c: convert_commas_to_nulls, callstack_module_load_cb, check_src_allowlist, check_blocklist_and_allowlist, error_is_likely_false_positive, leak_is_likely_false_positive", "drmemory/optionsx.h: lib_blocklist, lib_allowlist, src_allowlist"]}
{"id": "C67", "title": "The options in effect are those the user gave, and a line that makes no sense is refused", "statement": "For all tables of options in which no two options answer to the same word, and all lines of settings with any quoting and spacing: each flag, number and string has the value of its last setting, under any of its names, or else its default; an option that can be repeated holds all of its settings in order; and exactly the options that were set are marked as specified. A word no option answers to, and a number that cannot be read, is out of range or has a sign where none is allowed, is refused, whatever precedes and follows it. Decided otherwise: an empty value in quotes is refused if it is the last thing in the line; a quoted string that begins with a dash is taken for the next option; and the word -\"\" is taken for the first option if that is a flag without an alias.", "quantifier": "all tables of options, all lines shorter than MAX_OPTION_LEN, all sequences of settings, both kinds of case comparison", "why_tests_cant": "there are some two hundred options with several types and aliases, and lines of any length; tests use a handful of them, quoted in one way", "anchors": ["drmemory/options.c: get_option_word, option_read_uint, option_read_int, option_read_opstring_t, option_read_multi_opstring_t, options_init", "drmemory/optionsx.h"]}
{"id": "C68", "title": "What the instrumentation overwrites without saving is nothing the program can tell", "statement": "For all blocks of instructions: a register is found dead exactly if it is overwritten before it is read ahead of the next branch, and live exactly if it is read before it is overwritten; all six arithmetic flags are found dead exactly if each is overwritten before it is read up to and including that branch; OF alone is found dead exactly if it is overwritten, not all are, and no flag is read before it is overwritten. If the machine is changed only in what is found dead, everything else stays the same throughout the block and everything is the same at its end. The flags that are not found dead are saved in eax and come back as they were.", "quantifier": "all blocks of any length, all register contents, all instructions about which DynamoRIO tells the truth", "why_tests_cant": "a wrong answer corrupts the application only if the scratch register or flag happens to matter later in the same block", "anchors": ["drmemory/fastpath_x86.c: get_aflags_and_reg_liveness", "drmemory/spill.c: insert_save_aflags_nospill, insert_restore_aflags_nospill, insert_save_aflags, insert_restore_aflags"]}
