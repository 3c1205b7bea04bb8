# Formal model of Dr. Memory in Rocq

Everything in `rocq/theories` is about a *model* of the C sources in `/repo`
(DynamoRIO/drmemory at the pinned commit).  The model is written function by
function; each definition cites the file and lines it transcribes and says
where it simplifies.  Nothing was compiled or run against the real code.

## Layout

Per area `X` of the code there are up to four kinds of files:

* `X_Model.v`  – executable Gallina transcription (no proofs),
* `X_Spec.v`   – independent specification (what a user is entitled to),
* `X_Proofs*.v` – lemmas,
* `X_Props.v`  – the property theorems, concrete non-vacuity `Example`s, and
  `Print Assumptions`.  Theorem names start with the property id.

Undefined behaviour (out-of-bounds access, read of unmapped or freed memory,
division by zero, signed overflow where it matters, abort) is a distinct outcome
`UB` of the model; exhausted fuel is a distinct outcome `Fuel`; the theorems
conclude `Ok …` and so exclude both.  Where the code breaks the property, the
property is decided by a pair: a theorem for everything that does hold, under
the weakest guard found, and a `…_refuted` theorem with a concrete witness
showing why the guard is needed.  The statements in `properties.jsonl` list
these decided exceptions.

## Trusted base

* The Coq 8.16.1 kernel, including its virtual machine (`vm_compute` evaluates
  closed terms in `Example`s and `_refuted` witnesses).
* The reading of the C sources that produced the model, and the
  simplifications listed per area below.
* Axioms: none.  `Print Assumptions` answers "Closed under the global context"
  for every theorem named in `MANIFEST.json`, unless the table at the end says
  otherwise.
* `coqchk` also lists seven parameters of the standard library's own
  `Coq.ssr.ssrunder`, loaded with the tactics; no theorem uses them.
* x86-64 Linux build configuration unless stated otherwise: 8-byte pointers,
  little endian, `TOOL_DR_MEMORY`, release build (`ASSERT` is a no-op).

## Areas: what is modelled, what is not, how it is proved, what was found

### MulOverflow (C35) — `common/utils.c:515-550`

* Modelled: `unsigned_multiply_will_overflow`, both word sizes, wrap-around written out.
* Not modelled: nothing of the function.
* Proof: nonlinear arithmetic over all pairs of words.
* Findings (code contradicts the plain property; each decided by the named theorem):
  * 64-bit: the final sum test omits the `<< 32`, so an overflow caused only by the last carry is missed (`C35_mul_overflow_x64_complete_refuted`).

### Glob (C05) — `common/utils.c:562-651`

* Modelled: `text_matches_pattern`, `text_matches_any_pattern` as the pointer loop with star backtracking; `tolower` is a parameter.
* Not modelled: locale details of `tolower`.
* Proof: equivalence with an inductive glob relation; termination by a lexicographic measure.

### Replace (C01–C04) — `drmemory/replace.c:178-845`

* Modelled: memset, memcpy, memmove, mem/str/wcs search, length, compare, copy and concatenate routines over a byte memory where unmapped bytes fault.
* Not modelled: the routines' registration and wrapping, `rawmemchr` variants identical to a modelled one, allocation in `strdup`.
* Proof: loop invariants; the footprint is shown by unmapping everything outside the entitled ranges.
* Findings (code contradicts the plain property; each decided by the named theorem):
  * `strspn`/`strcspn` treat bytes ≥ 0x80 wrongly (`C02_strspn_refuted`).
  * `wmemcmp` subtracts signed values and overflows (`C02_wmemcmp_refuted`).

### Redblack (C06–C08) — `common/redblack.c`

* Modelled: the pointer-level tree (parent pointers, sentinel, allocation and free), DEBUG and release variants.
* Not modelled: ASSERTs, the DEBUG_UNIT_TEST printers, allocation failure.
* Proof: separation-style heap invariant, refinement to a finite map of intervals for all histories, colour/black-height invariant.
* Findings (code contradicts the plain property; each decided by the named theorem):
  * release build stores overlapping intervals silently (`C06_release_insert_overlap_refuted`).
  * an interval ending at the top of memory is never found (`C06_top_of_memory_refuted`).
  * node handles do not survive deletion of another node (`C06_handle_stability_refuted`).
  * next-lower and next-higher are not the nearest (`C08_*_refuted`).

### Supp (C28) — `drmemory/report.c:333-1155`

* Modelled: parsing of suppression frames, matching with ellipses, generation of suppressions.
* Not modelled: file reading, version lines, the match cache counters; symbol lookup is an input.
* Proof: inductive alignment relation; termination; round trip of generated suppressions.
* Findings (code contradicts the plain property; each decided by the named theorem):
  * a plain ellipsis can match a stack the documentation excludes (`C28_ellipsis_refuted`).
  * `m!...` accepts zero frames, misses described stacks, swallows module-less frames (`C28_module_ellipsis_*_refuted`).
  * generated `<mod+off>` suppressions for names containing `+` are rejected (`C28_generated_offset_refuted`).

### Callstack (C30–C32) — `common/callstack.c`

* Modelled: module table, lookup caches, packed and full call stacks, comparison, hash, clone, reference counts.
* Not modelled: the stack walk that produces program counters, symbolisation, printing, locks.
* Proof: cache coherence invariant over load/unload/query histories; round trip of packing; equality decided up to denotation.
* Findings (code contradicts the plain property; each decided by the named theorem):
  * offsets that are positive multiples of 0xffffff decode as module-less (`C30_boundary_refuted`); large offsets overflow an int (`C30_overflow_refuted`); a module reloaded larger decodes as another (`C30_regrown_refuted`).
  * clone of an empty stack differs from it (`C31_empty_clone_refuted`); equality is not transitive without the guard (`C31_transitive_refuted`).
  * page cache answers for a partial page (`C32_in_module_partial_page_refuted`); `module_lookup_user_data` leaves its outputs unset (`C32_user_data_bounds_refuted`).

### Umbra (C21–C22) — `umbra/umbra_64.c, umbra/umbra.c`

* Modelled: segments, address translation (called and inlined), start-up reservation, create/delete/set/read/write/copy/search, block queries and fault handling, one map.
* Not modelled: locks, 32-bit umbra, more than two maps at a time (two maps of one scale only for separation), the operating system's region scan (given as a list), granularities above one byte in set/copy.
* Proof: interval reasoning over all addresses; history refinement to a map from granules to bytes.
* Findings (code contradicts the plain property; each decided by the named theorem):
  * `C21_inverse_refuted`, `C21_alias_refuted`, `C21_inline_refuted`, `C22_partial_create_refuted`, `C22_fault_refuted`, `C22_last_byte_refuted`, `C22_copy_overlap_refuted`, `C22_find2_refuted`, `C22_edge_refuted`, `C22_no_memory_refuted`: see the statements of C21 and C22.

### Shadow (C17–C19, C36) — `drmemory/shadow.c:57-960`

* Modelled: two-bit bitmaps, byte/dword/qword accessors with the block cache, set, copy, non-matching set, check forwards and backwards, the dword/pointer searches, save and restore; all on top of the Umbra model.
* Not modelled: MAP_4B_TO_1B mode, 32-bit special blocks, logging, concurrency.
* Proof: each accessor refines one field of one shadow byte; histories refine a map from addresses to four states.
* Findings (code contradicts the plain property; each decided by the named theorem):
  * `shadow_check_range` compares a one-byte state with dword patterns, so after a defined byte at a 16-aligned address it skips 15 unchecked bytes (`C18_skip_refuted`) and can report an end beyond the range (`C18_end_refuted`).
  * `shadow_next_ptrsz` returns unaligned addresses and never finds uninitialised words (`C18_ptrsz_refuted`); `shadow_prev_dword` reads unallocated shadow memory and answers unaligned addresses (`C18_prev_refuted`).
  * `shadow_get_qword` of untouched memory says the upper half is defined (`C17_qword_refuted`).
  * `shadow_copy_range` of fewer bytes than reach the granule's end overwrites the rest of the granule (`C19_small_refuted`); forward overlap shifts the tail (`C19_overlap_refuted`).
  * `shadow_save_region` writes whole 32-bit words into a buffer of single bytes (`C36_overrun_refuted`; the allocator's rounding to 8 bytes hides it in practice).
  * size arguments of 2^32 or more never terminate (32-bit loop index; excluded by the guards).

### RegShadow (C20) — `drmemory/shadow.c:1482-1996, drmemory/slowpath.c:407-436, 1829-1862, slowpath_x86.c:2019-2040`

* Modelled: the two shadow structures as byte memories, address of a register's shadow, every getter and setter, thread start, the tail of the slow path's destination assignment, `register_shadow_mark_defined`, `check_register_defined` without its exceptions.
* Not modelled: the TLS slot, code the fast path emits to reach it, `check_undefined_reg_exceptions` (taken as never applying), 32-bit and ARM layouts.
* Proof: layout injectivity; history refinement to a map from register bytes to states.
* Findings (code contradicts the plain property; each decided by the named theorem):
  * MMX shadows are two bytes but are read as four: a defined MM0 is reported when MM1 is undefined (`C20_mmx_neighbour_refuted`), MM7 is read past the structure (`C20_mmx7_refuted`).
  * checking a high-byte register marks the low byte defined: AH is reported again and again, an undefined AL is silently defined (`C20_high_byte_refuted`).
  * a VEX write of xmm N marks the upper half of ymm N+1, for xmm15 MM0 and MM1 (`C20_vex_refuted`).

### ShadowTables (C37) — `drmemory/shadow.c:1024-1478`

* Modelled: the eight tables, transcribed by script.
* Not modelled: the emitted instructions that index them.
* Proof: exhaustive computation, lifted to a statement over states.

### DelayFree (C16) — `drmemory/alloc_drmem.c:99-147, 666-924, 1024-1089`

* Modelled: `client_handle_free`, `next_to_free`, the search over the byte limit, `overlaps_delayed_free` in wrapping mode, on the red-black tree model (release build).
* Not modelled: locks, statistics, shadow and pattern updates, call-stack reference counts (a stack is a label), Windows heap destruction and auxiliary arguments, several malloc routine sets.
* Proof: ring invariant with holes and passed-over blocks, refinement of every history to a list of serial-numbered blocks.
* Findings (code contradicts the plain property; each decided by the named theorem):
  * a full queue over its byte limit whose oldest block is too small to swap loses that block for ever and exceeds its capacity (`C16_lost_block_refuted`, `C16_never_released`).
  * the search for a block to swap stops at the end of the array (part of the list description, `candidate`).

### Mutator (C33, C34) — `drfuzz/drfuzz_mutator.c:43-130, 392-934`

* Modelled: the option checks, `drfuzz_mutator_start`, `has_next_value`, `get_next_value`, `feedback`, the bit flipper with its combination index, sparsity and shuffle, numbers, words, the xorshift generator.
* Not modelled: the textual option parser (C65 has the dictionary parser), allocation and logging; uninitialised index entries are an arbitrary value; the caller's buffer has the mutator's size.
* Proof: successor function on increasing lists against the lexicographic enumeration, correspondence of sets of bits and buffers by their XOR, injectivity invariant of the partial Fisher-Yates shuffle.
* Findings (code contradicts the plain property; each decided by the named theorem):
  * buffers above 4096 bytes overflow the 16-bit shuffle entries and flip bits outside the buffer (`C34_large_buffer_refuted`).
  * ordered numbers wider than eight bytes read past a local variable (`C33_wide_number_refuted`).
  * a dictionary without words divides by zero (`C34_empty_dictionary_refuted`).
  * `EXCEEDS_CAPACITY` shifts by 64 or more for every buffer above eight bytes (unspecified value, harmless: `C34_numbers` holds for any).
  * a random word never ends exactly at the end of the buffer (`some_word`: the offset stays below size - length).
  * a sparsity within 8*size of 2^32 wraps the index (excluded by hypothesis `good_start`); random seed 0 always yields 0.

### Regions (C09, C10) — `common/heap.c:740-1036, drmemory/alloc_drmem.c:273-341, 1119-1205`

* Modelled: both tables on top of the red-black tree model, with debug assertions, the per-region records (allocation, cloning, freeing) and the client callbacks.
* Not modelled: locks, the start-up walk over existing heaps, `heap_region_set_heap`/`get_heap`, the system calls themselves (a failed munmap re-adds the whole range; a file mapping placed over an anonymous one is not removed).
* Proof: refinement of histories to a list of regions and to a set of addresses; termination of the removal loop by the number of intervals met.
* Findings (code contradicts the plain property; each decided by the named theorem):
  * removing a range that spans two regions changes only one of them (`C09_spanning_removal_refuted`).
  * a mapping placed over two mapped intervals hits an assertion (`C10_debug_two_refuted`); in the release build even a mapping over one interval with another start loses addresses (`C10_release_overlap_refuted`).

### Error recording (C29) — `drmemory/report.c:46-66, 93-113, 236-317, 1110-1201, 1668-1750, 2099-2229, 2580-2608, 2686-2855, 3241-3519`

* Modelled: `record_error`, `acquire_error_number`, `report_error`, `report_leak` with all counters (32-bit), throttling, whole-module suppression, suppression use counts, leak-scan checkpoint and revert, fork.
* Not modelled: the call stack is a label (its comparison is C31), the hash table is a list searched by key, the suppression match (C28) and the likely-false-positive test are inputs; text of the reports, locks, thread table, suppression-file generation.
* Proof: one invariant relating all counters to the list of recorded occurrences, kept by each kind of step; density and uniqueness of numbers from it.
* Findings (code contradicts the plain property; each decided by the named theorem):
  * after a nudge a leak already known is counted among the potential errors, because `ERROR_SET(err)` tests a pointer, report.c:3472 (`C29_rescan_unique_refuted`).
  * a potential leak that gets no number makes the total wrap to 2^32-1 at the second scan (`C29_rescan_total_refuted`).
  * byte counts are 32 bits: a leak of 2^32 bytes gives NO ERRORS FOUND (`C29_huge_leak_refuted`).
  * the fork handler leaves the bytes of reachable leaks (`C29_fork_reachable_refuted`).

### Leak scan (C26, C27) — `drmemory/leak.c:276-290, 390-527, 801-863, 877-1199, 1225-1293, 1363-1534`

* Modelled: `mark_indirect`, `check_reachability_pointer`, the walks over registers, roots, reachable, unreachable and maybe-reachable blocks, both reporting passes; `check_reachability_helper` (which words are looked at: mappings, defined ranges, stacks, heap regions, alignment) and `is_part_of_string_ascii`.
* Not modelled: the interval tree is a list searched in order (C06), the malloc table likewise; `is_midchunk_pointer_legitimate` and the readability of a word are inputs; answers of memory queries, shadow queries and the heap-region table are inputs required to be true (record `agrees`); addresses do not wrap at the top of the address space; Windows encoded pointers and wide strings; the clearing of flags for the next scan.
* Proof: the scan of a word is a step on an abstract list of pointers found; invariants for the primary scan (queue and flags) and the secondary scans (groups with an owner, parent links of bounded depth, bytes of a group), then the sums.
* Findings (code contradicts the plain property; each decided by the named theorem):
  * a block of size zero is reported as leak even if registers or memory point to it, since the interval lookup never finds an empty interval (`C26_empty_refuted`).
  * a block that is pointed into by the roots and pointed to by a leak is never scanned: blocks it points to become direct leaks, blocks it points into do not become possible leaks (`C26_unscanned_refuted`).

### Replacement allocator (C11, C12, C13, C14, C15, C38) — `common/alloc_replace.c:113-338, 766-1140, 1142-1644, 1666-2245, 2296-2376, 5259-5321`

* Modelled: function by function: headers and their union, free lists, delay list, splitting, coalescing, giving back memory, arenas (brk and mmap), own mappings, `replace_alloc_common`, `replace_free_common`, `replace_realloc_common`, `replace_size_common`, `is_live_alloc`, `check_type_match`, iteration, initialization; 32-bit `heapsz_t` arithmetic; the bytes of memory that header writes touch.
* Not modelled: headers are records found by the chunk's address: a store of the application into its own blocks is assumed not to forge a header (magic 0x5244 and flags), and stores outside its blocks are not modelled; the kernel answers each call freely within `kernel_ok` (fresh page-aligned mappings over no region in use); `call_ok`, `memory_ok` and `config_ok` are the guards, each shown necessary by a witness; locks, client callbacks, statistics; Windows heaps, macOS zones; `pre_us_table` is a function that never changes, as in the code; heap regions are a list (C09 is about the tree); out-of-fuel is excluded by `C11_no_crash`.
* Proof: one invariant ties arenas to a tiling by chunks, free lists and delay list to doubly linked lists over the tiles, headers to tile kinds (and stale headers to freed ones); every function preserves it; histories by induction, against the client's own list of blocks computed from calls and answers.
* Findings (code contradicts the plain property; each decided by the named theorem):
  * a request of 0xfffffff1 to 0xffffffff bytes gets a chunk of 16 bytes: rounding to 16 wraps in `heapsz_t` (`C11_near_4gb_refuted`).
  * a request such that chunk size plus inter-chunk space is 2^32 moves `next_chunk` by 0, so the next allocation gets the same address (`C11_overlap_refuted`).
  * memalign with an alignment of 4GB or more: the padding is lost in 32 bits and the block lies outside the heap (`C11_alignment_refuted`).
  * options.c:525 allows redzones of 8 mod 16 bytes in pattern mode, for which own mappings are 8 bytes short (`C11_pattern_redzone_refuted`).
  * with redzones over 3700 bytes the arena's first page does not hold the first redzone, and the last redzone lies beyond the brk (`C11_large_redzone_refuted`).
  * out of memory with two arenas and a quarantined chunk in an earlier one, `next_chunk_forward` starts at the last arena, and `container->prev_free_sz` dereferences NULL (`C11_oom_refuted`).
  * blocks from before the tool are never marked freed, so freeing them twice is not reported (`C13_before_tool_refuted`).
  * realloc checks for a mismatch of kinds on Windows only, and realloc in place keeps the old kind (as `C13_realloc`, `C14_realloc` state).

### Checking one memory access (C25) — `drmemory/slowpath.c:1412-1747, drmemory/stack.c:162-254`

* Modelled: `memref_idx`, `handle_push_addressable`, the byte loop of `handle_mem_ref_internal` with its bad-run bookkeeping, early abort, word-granular skipping, push/pop red zone moves, copies through `mem2fpmm_source` and the final reports.
* Not modelled: the exception routines `check_unaddressable_exceptions` and `check_undefined_exceptions` are oracles giving, per byte, an answer and the states they store; `is_part_of_heap_redzone`-style classification inside the report, `report_unaddressable_access` and its de-duplication are not modelled (a report is a kind, start and length); shadow memory is a function of the address (C01 to C08 are about its representation); address wrap-around at the end of memory is not modelled.
* Proof: one loop rule with an invariant relating the pending run, the reports made so far and the maximal runs of a specification that has no loop; frame and ownership lemmas for the shadow stores.
* Findings (code contradicts the plain property; each decided by the named theorem):
  * with uninitialised checks off one shadow state stands for a word, and `i = ALIGN_FORWARD(..)` followed by the loop's own `i++` lands on the second byte of the next word: a last byte alone in its word is never checked, so a 4-byte access at 1 mod 4 that runs off a block by one byte is missed (`C25_word_missed_refuted`); and consecutive bad words are reported separately, each without its first byte (`C25_word_split_refuted`).
  * a byte with the bit-level marker makes a checked read not clean without any report, and a write does not update it (`C25_bitlevel_read_refuted`, `C25_bitlevel_write_refuted`).
  * the copy of an fld/fstp pair takes states one by one in order, so a destination that overlaps its source launders uninitialised bytes (`C25_overlapping_copy_refuted`); if the fstp is never reached, `mem2fpmm_source` stays set and is used for a later one.
  * a write to an unaddressable byte that is excused does not store the new state (as `expected` says).

### Propagation of definedness (C23, C24) — `drmemory/slowpath_x86.c:228-286, 359-460, 925-1530, 1683-2040, drmemory/slowpath.c:209-243, 284-418, 655-889, drmemory/slowpath_arch.h:34-90`

* Modelled: `combine_shadows`, `accum_shadow`, `map_src_to_dst` with `map_src_to_dst_shift`, `integrate_register_shadow`, the source and destination loops of the slow path, flags as source and destination, sub-register merging through the bit-level marker, `assign_register_shadow`, `check_andor_vals`, `check_andor_bitmask_immed`, `check_andor_sources`.
* Not modelled: operands are records (sizes, states, register number) instead of DynamoRIO's `opnd_t`; opcodes that share a case are one constructor; whether an operand or the instruction is checked instead of propagated is given; `check_and_not_test` and `check_xor_bitfield` are oracles (off in strict mode); ymm destinations, string operations' registers, conditional moves and the fast path's generated code are not modelled; immediates are as given (sign extension by the decoder is not).
* Proof: a two-execution reading: destination bytes marked as initialised agree whenever the source bytes so marked do.  A state once UNDEFINED in the array stays so (one preservation lemma per helper), so it suffices that some step puts the state of each byte a result depends on there; results are stated from the destination's side, shifts bit by bit, with a theorem that this is multiplication and division of numbers.
* Findings (code contradicts the plain property; each decided by the named theorem):
  * sar (and psraw, psrad) by a count that is not whole bytes: the sign byte's low bits move into a byte that is marked as initialised (`C23_sar_refuted`, `C23_psra_refuted`).
  * shift counts are not masked: a count of 32 marks an unchanged register as initialised (`C23_count_refuted`); a shift by 0 marks uninitialised flags as initialised (`C23_zero_count_flags_refuted`); rotates and double shifts keep every byte's state in place (`C23_rotate_refuted`).
  * packed shifts: an uninitialised count register is not noticed (`C23_packed_count_refuted`), and a 16-byte count in memory cannot be read, which marks everything as initialised (`C23_packed_memory_count_refuted`); pshuf*, blends, palignr and shrinking conversions are marked as initialised as the comments say (`C23_pshuf_refuted`).
  * xadd to memory ignores the memory operand (`C23_xadd_refuted`); pusha and popa are laid out in the wrong direction (`C23_pusha_refuted`); movsx, cwde, cdq in the slow path leave the upper bytes initialised (`C23_sign_extend_refuted`).
  * the flags' shadow has only two bits but is read as if it had two per byte: sbb eax, eax with an uninitialised carry marks bytes 1 to 3 as initialised (`C23_flags_source_refuted`).
  * the VEX forms of the unpacks and shuffles name their sources in the other order (`C23_vex_unpack_refuted`); shufpd compares the whole selector with a lane number (`C23_shuffle_pd_refuted`).
  * selectors of extracts and inserts are not masked: an extract then marks its result as initialised (`C23_extract_refuted`), an insert writes outside of the 32-entry array (`C23_insert_refuted`); pinsrq is treated as pinsrd (`C23_insert_quad_refuted`); a load into the high half of an xmm register (movhps) marks the low half (`C23_load_high_refuted`); with -leave_uninit, cmpxchg8b marks the exchanged bytes as initialised (`C23_cmpxchg8b_leave_refuted`).
  * and/test: the constants 0x81010100, 0x80808080 and 0x8080 are accepted in strict mode too (`C24_magic_refuted`); for 8-byte operands `DWORD2BYTE` shifts an int by 32 bits or more (`C24_quad_refuted`); the strict exception for or compares a byte with ~0 and never applies (`C24_exact`).

### Stack-pointer changes (C39) — `drmemory/stack.c:63-166, 281-369, drmemory/stack_x86.c:53-345, 1241-1299, drmemory/slowpath.c:1387-1409, drmemory/slowpath_x86.c:297-353`

* Modelled: `get_esp_adjust_type`, `needs_esp_adjust`, the operand of `instrument_esp_adjust_slowpath`, `handle_esp_adjust` with its three actions, `check_stack_swap`, `check_stack_size_vs_threshold`, `update_stack_swap_threshold` and what it patches, `adjust_memop`; pushes and pops go through the access model of the area above.
* Not modelled: 16-bit writes of the stack pointer; the bounds query is an oracle (`k_bounds`); `int` overflow of the threshold; the shadow is the byte-indexed function proved of the tables elsewhere; push and pop theorems are for one state per byte (not MAP_4B_TO_1B).
* Proof: per instruction: the wrapped arithmetic equals the true movement when the movement is less than half of the address space; the range updates are then compared pointwise with the specification by cases on the position of a byte.  Pushes and pops by induction over the access loop.  Runs by induction with `stack_ok` as invariant.
* Findings (code contradicts the plain property; each decided by the named theorem):
  * `enter` with a frame: the adjustment is applied at the stack pointer from before the push: the saved frame pointer becomes uninitialised and the last word of the frame stays unaddressable (`C39_enter_refuted`).
  * `ret n` on 64-bit adds 4 instead of 8 for the return address (stack.c:325): four released bytes stay accessible (`C39_ret_imm_64_refuted`).
  * any explicit adjustment makes data that stays in the red zone uninitialised (`C39_red_zone_refuted`).
  * the bounds of the current stack are only asked beyond the threshold: a swap to a nearby stack makes live data of the old stack unaddressable (`C39_near_swap_refuted`).
  * opcodes that are not listed are taken for an addition of the first source (`C39_unlisted_refuted`).
  * a changed threshold is patched into the generated code for absolute moves only; the code for `leave` and `and` keeps the old one (`C39_patch_refuted`).

### Generated stack-adjustment code (C40, C41) — `drmemory/stack_x86.c:347-500, 676-1239, drmemory/fastpath_x86.c:2061-2223, umbra/umbra_32.c:304-341, drmemory/fastpath.c:202-232, drmemory/shadow.h:67-92`

* Modelled: the instruction sequences emitted by `generate_shared_esp_fastpath_helper` and `insert_zeroing_loop`, in order, with labels, spill slots, table lookup and fault recovery, and a small machine that runs them (registers, spill slots, memory with unwritable bytes, the operands of the last comparison).
* Not modelled: saving and restoring of the arithmetic flags; statistics counters; the code at the call site that loads ECX and EDX; 64-bit.  Reading flags that no modelled comparison has set is `UB`, so the theorems show it does not happen.  Shadow tables are any layout that satisfies `tables` (a writable block belongs to one 64K block of the application, blocks are writable as a whole).
* Proof: symbolic execution instruction by instruction; the inner loops by induction on the dwords left in the block, the outer loop by induction on the dwords left, with the painted part of the shadow as invariant; signed and unsigned comparisons by bounds on the words.
* Findings (code contradicts the plain property; each decided by the named theorem):
  * the routine for stack that is to be defined gives up to the slow path for undefined stack (stack_x86.c:1217); modules such as rsaenh.dll use it (i#412): new stack then becomes undefined (`C40_defined_refuted`).
  * without -shared_slowpath the negated operand of `sub` is passed to a handler that negates it again; live stack becomes unaddressable (`C40_not_shared_refuted`).
  * for `and`, the code at a block boundary adds the new stack pointer to the old one (stack_x86.c:1004-1021): with -stack_swap_threshold of 64K or more, states of unrelated memory are overwritten (`C40_and_refuted`).
  * sizes that are not a multiple of four leave the lowest bytes of the new stack unzeroed, unlike the slow path (`C41_odd_size_refuted`).

### 32-bit Umbra (C42-C44) — `umbra/umbra_32.c, umbra/umbra.c:51-69, 416-762`

* Modelled: the shadow table with default, special and normal blocks, redzones with their protection, both allocators, creation, deletion, set, read, write, copy, search, iteration, type queries, replacement and sharing of blocks, clearing of redundant blocks, exit; the generated x86 and ARM lookups as address computations.  A read or write outside a block or against its protection is `Bad`, running out of the loop bound is `Stuck`, and the theorems exclude both.
* Not modelled: locks and threads; `value_size` other than one; debug-build assertions; 64-bit (C21, C22); faults on special blocks (C40 has their handler).  DynamoRIO's allocators are an arbitrary function with the property `mo_alloc`: blocks in user space, apart from those in use.
* Proof: one invariant over table, special blocks, default block and live regions with a ghost flat map; each operation preserves it and is simulated by the flat map; loops over ranges by induction with the part done so far.
* Findings (code contradicts the plain property; each decided by the named theorem):
  * a range that ends on the first byte of a 64K block loses that byte, with success reported (`C42_last_byte_refuted`): the loops compare block starts with the last byte by `<`.
  * a copy upwards between overlapping ranges that needs several parts writes its tail to a wrong address (`C42_copy_overlap_refuted`): the destination had been advanced already.
  * a copy by one more than a multiple of 64K loses a byte at the crossing (`C42_copy_one_refuted`).
  * a range that is not made of whole granules loses the granule of its last byte (`C42_granule_refuted`).
  * the value 255 can be set but not created (`C42_value_255_refuted`); a search for 0x155 finds 0x55 (`C42_find_wide_refuted`); a range up to the top of the address space can be created but not set (`C42_top_refuted`).
  * `umbra_get_shared_shadow_block` reports success when there is no such block and leaves the result unset (`C43_get_shared_refuted`).
  * faulty redzones around shared blocks are readable (`C43_faulty_redzone_refuted`): the protection of the whole allocation is set after that of the redzones.
  * with blocks created on touch and no redzones, low addresses count as shadow that is not allocated (`C44_low_refuted`).

### The registry of Umbra maps (C45) — `umbra/umbra.c:41-235, 295-406`

* Modelled: the table of maps, its counter, the use count, the global mutex, allocation of maps, start, exit, create and destroy.  An access outside the table, to freed memory or to a lock that does not exist is `Bad`; waiting for a mutex held by the same thread is `Hang`.
* Not modelled: threads; event registration; the architecture-specific parts, whose answer is an arbitrary function (C21, C22, C42-C44 have them); a null `ops`; use of a map after its destruction (a client error).
* Proof: one relation between the code's state and the ideal registry, preserved by every careful call; the exceptions for every history follow from the same relation.
* Findings (code contradicts the plain property; each decided by the named theorem):
  * `num_umbra_maps` is decremented on destroy and never incremented, so after a destroy it is 2^32 - 1 and the next create reads beyond `umbra_maps` (`C45_recreate_refuted`); before that it is 0, so the check that all maps have one scale never runs (`C45_scales_refuted`).
  * the last `umbra_exit` with a map left calls `umbra_destroy_mapping` while holding the mutex that it takes (`C45_exit_refuted`).
  * a map whose creation fails after the allocation is neither freed nor entered in the table (`C45_leak_refuted`).
  * `umbra_init` counts a failed start, so the next one returns success at once (`C45_failed_init_refuted`); `umbra_exit` counts below zero (`C45_extra_exit_refuted`).

### The fast path (C46-C49) — `drmemory/fastpath_x86.c:322-480, 768-1104, 1438-1705, 1850-2330, 2361-2420, 2940-2990, 3017-4440`

* Modelled: the generator `instrument_fastpath` with operand adjustment, table lookup, alignment and offset computation, definedness and addressability checks through the shadow tables, propagation, shadow shifts, destination and flag writes, in the order of emission; and a machine that runs the emitted instructions.  A read of a scratch value that was not computed, an unknown zero flag or a missing label is `Stuck`, and the theorems exclude it.  Register names become roles: the three scratch registers are distinct, the third is %ecx when offsets are needed.
* Not modelled: pushes and pops, cmovcc, two destinations, mmx and xmm registers, operands of eight bytes and more, shared translations, the heap-routine exemption, spilling of scratch registers and of the application's flags, 64-bit and ARM, the slow path's code itself (C23 has its propagation), non-default options.  Opcodes that take the same branches are one constructor.
* Proof: the emitted code is run on a machine whose registers are named apart and whose shadow bytes are eight symbolic bits; a simulation lemma carries the outcome to all register assignments and addresses.
* Findings (code contradicts the plain property; each decided by the named theorem):
  * a store of %ah to the first byte of a dword takes the state of %al (`C47_high_store_refuted`, `C47_high_add_refuted`).
  * checked instructions on bytes and words write a whole shadow byte of zero and so mark three or two neighbours defined (`C48_neighbours_refuted`, `C48_neighbours_always_refuted`), movsb and movsw even unaddressable ones (`C48_redzone_refuted`).
  * `shl $32`: the count is capped at 32 instead of taken modulo 32 (`C49_modulo_refuted`); carry and rotation are not followed (`C49_carry_refuted`, `C49_rotate_refuted`); `sbb %eax,%eax` (`C47_flag_spread_refuted`).

### Memory arguments of known system calls (C50-C51) — `drsyscall/drsyscall.c:797-855, 1029-1228, 1241-1707, 1816-1956; drsyscall/drsyscall_linux.c:1878-1954, 1976-1985; drsyscall/table_linux.c`

* Modelled: the walk over the table entries before and after a call, with sizes taken from constants, other arguments, a length in memory, the result or a field of the structure; the state carried from one walk to the next; strings and socket addresses; all 152 rows of the 64-bit Linux table that have memory arguments.
* Not modelled: Windows-only branches, secondary tables (ioctl, ipc and the like), the per-call code of drsyscall_linux.c, struct msghdr, struct msgbuf, arrays of strings.  `kernel_contracts` is a transcription of the manual pages and so part of what is trusted.
* Proof: two walks that start in states agreeing on the outputs agree on all they report; per row, a boolean check against the contract is proved sound and then evaluated.
* Findings (code contradicts the plain property; each decided by the named theorem):
  * recvfrom with a null address marks the length although it was not checked and is not written.
  * A size of 2^64-1 is taken for the marker of a size that is found out later.
  * read that returns 0 marks the whole buffer as written, because a size of 0 means that the size of the first entry holds.
  * capget and capset use the size of a pointer typedef instead of the structure.
  * adjtimex and keyctl never mark what the kernel writes.
  * Abstract AF_UNIX names are not checked, and an unreadable one makes the tool fault.

### Unknown system calls (C52) — `drsyscall/drsyscall.c:328, 344-374, 389-598, 2008-2009; drmemory/syscall.c:384-388, 524-530`

* Modelled: the search for memory arguments before a call, the copies and sentinels, the comparison after it with what Dr. Memory does with the reports, and the final restore; the arrays kept from call to call.
* Not modelled: other threads, addresses that wrap around at 2^64, arguments on the stack (Windows), the reuse of copy buffers, the driver.
* Proof: the slots are related to the memory before by an invariant over the walk; a set of bytes taken as written composes over words and arguments; each slot put back is seen at one byte.
* Findings (code contradicts the plain property; each decided by the named theorem):
  * If the kernel writes 0xab to an undefined byte while sentinels are on, the old value is put back over it.
  * Sentinels with word granularity leave sentinels in memory next to a written byte, and mark them as defined.
  * When an argument overlaps an earlier one at its first byte, sysarg_sz keeps the value of an earlier call, and sentinels are written that far and never put back.
  * A null slot with such a size makes a pointer below 2048 look like an overlap.
  * If a client iterates over the memory arguments twice before a call, the sentinels are saved as the program's values and stay.
  * The comment at drsyscall.c:518 says that parameters are analysed even if the call failed; Dr. Memory only iterates if it succeeded.

### Digests (C53-C54) — `common/crypto.c:85-310, 323-336, 359-460`

* Modelled: md5_init, md5_update, md5_pad, md5_final, md5_transform (its 64 lines as a program), get_md5_for_region, crc32 with its table, crc32_whole_and_half.
* Not modelled: the big-endian branch, the clearing of the context, the two hash functions for tables.
* Proof: a context stands for the message seen so far; each line of the program is one operation of RFC 1321 up to renaming of registers, with constants computed from the sine; the CRC is linear, and each shift is injective.
* Findings (code contradicts the plain property; each decided by the named theorem):
  * crc32_whole_and_half computes the second CRC over len/2 + 1 bytes; its comment says len/2.
  * For an empty block crc32_whole_and_half leaves the second result unset.

### Symbol cache (C55-C56) — `drsymcache/drsymcache.c:80-400, 406-634, 723-735, 771-1007; common/utils.h:541-577`

* Modelled: symcache_symbol_add with its offset list and table, the writer with its buffer, the reader with strchr and sscanf over the mapped pages, module load, save and unload, drsymcache_add, drsymcache_lookup, the two queries, exit.
* Not modelled: the Windows and Mac branches of the header line, drsymcache_free_lookup, locks, symcache_module_save_symcache as called by other libraries than through its common part. dr_sscanf is taken to be the C standard's sscanf, dr_snprintf the C standard's snprintf, and dr_map_file to fill the last page with zeroes.
* Proof: the written pieces concatenate to a text whose size is known in advance; reading consumes that text line by line; a simulation against maps from paths to symbols to offsets; and an invariant over the history for the versions.
* Findings (code contradicts the plain property; each decided by the named theorem):
  * A symbol that contains a comma (C++ template names do) is lost from the file, with every symbol after it; so is one of 256 characters or more. One of 4096 makes BUFFERED_WRITE write one byte behind its buffer.
  * Offsets are written by %x, so those of 2^32 and above are cut; one cut to 0 makes the next load stop the tool.
  * When the disk fills up the truncated file is made consistent by the size patched into it, and its last offset is read cut short.
  * symcache_module_has_data leaves *res unset for a module that is not cached although it reports success; alloc.c reads it uninitialised.

### Pattern mode (C57-C59) — `drmemory/pattern.c:51-52, 122-398, 452-693, 935-999, 1061-1178, 1265-1547; drmemory/alloc_drmem.c:1017-1053, 2646-2714; common/alloc_replace.c:2472-2503; drmemory/options.c:520-533`

* Modelled: the fill, the handlers of malloc, delayed free, reuse and in-place realloc, the operands of the checks, the fault of a check that matches, the look at its surroundings, the lookup among the chunks of an arena, and the elision of checks in a block.
* Not modelled: the malloc tree (-pattern_use_malloc_tree), blocks without redzones, splits and merges of free chunks and large blocks outside of arenas, the code emitted for a check other than its comparison, ARM, rep string loops, races. check_unaddressable_exceptions is a parameter. Which registers an instruction writes is DynamoRIO's instr_writes_to_reg, taken to count overlapping registers. Addresses do not wrap.
* Proof: the value of the pattern by its two bytes; a fill specification; an invariant over runs with the set of touched bytes; counting of words for the surroundings; and for elision an invariant that each reference seen is enclosed by two remaining checks no further apart than a redzone.
* Findings (code contradicts the plain property; each decided by the named theorem):
  * pattern.c:358 moves refs[1] back by two where refs[2] is meant: a one-byte reference to an even address in the last two bytes of a redzone is missed once the tool has switched to four-byte checks.
  * pattern_opt_elide_overlap_update_regs runs before the instruction's own check is recorded, so `mov eax,[eax+4]` followed by `mov ebx,[eax+4]` checks only the first.
  * A reported reference clears its first byte, also when that is the program's own data, and can keep a second error next to it from being reported (the latter is known to the source).

### Dr. Heapstat (C60-C63) — `drheapstat/drheapstat.c:77-79, 119-124, 189-210, 238-278, 469-717, 734-903, 926-950; drheapstat/staleness.c:454-588`

* Modelled: the accounting of mallocs, frees and in-place reallocs, the per-callstack entries, the peak, the slots and their frequency, the three kinds of time, the final dump, and the packed last-access records.
* Not modelled: -dump mode, nudges and reset_to_time_zero, the sweep of staleness and its shadow memory, leak checks, printing, the hashing of callstacks (a number stands for a callstack), wrap-around of the 64-bit stamp, and sizes of 2^31 and more (a FIXME in the source). Blocks are told apart by a handle; the allocator's sizes are inputs.
* Proof: sums over the list of live blocks as the specification; an invariant that the live snapshot shows it; for the peak, that it is near all moments so far; for the slots, an invariant with two phases per filling and divisibility of the stamps.
* Findings (code contradicts the plain property; each decided by the named theorem):
  * account_for_bytes_pre is given pad_size, which already includes request_size (alloc.h:133), and adds both: bytes_asked is counted twice in usable and occupied totals.
  * In-place realloc changes tot_mallocs by +1 or -1.
  * extra_usable and extra_occupied of a callstack are 16 bits wide and wrap.
  * check_for_peak passes snap_peak.tot_bytes_occupied as the percentage of the comparison of calls.
  * dump_freq is 32 bits: with 64 snapshots it overflows after 2^37 units, and becomes 0 or a wrong multiple; an odd -snapshots is accepted.

### Text files and dictionaries (C64-C65) — `common/utils_shared.c:31-47, 112-146; drfuzz/drfuzz_mutator.c:175-205, 207-302, 455-467; drmemory/report.c:828-838`

* Modelled: the search for a line, its trimming, the loop over lines shared by the two readers, the parser of a dictionary line with its escapes, the allocation of tokens and which are freed.
* Not modelled: failures to open and map files, logging, empty files. dr_sscanf is a parameter that is only assumed to read two hexadecimal digits; what it makes of anything else after \x is not decided. Memory past the end of the file is zero up to the end of its page (dr_map_file). What the suppression reader does with its lines is C28.
* Proof: texts are lists of contents and ends; each loop by induction on the part of the text it passes over.
* Findings (code contradicts the plain property; each decided by the named theorem):
  * find_next_line reads *(newline-1) without a check: a file that begins with a newline reads the byte before the mapping.
  * find_next_line skips line ends without looking at eof: a file of a multiple of 4096 bytes that ends with a newline reads past the mapping.
  * drfuzz_parse_dictionary leaves `token` set after appending it: an error on a later line frees it, and dictionary_free frees it again.
  * `while (*c != '"')` has no bound; `name="` gives token_alloc(-1).

### Separation of potential errors (C66) — `drmemory/report.c:1207-1239, 1255-1311, 1335-1388; common/callstack.c:2641-2647, 2698-2714`

* Modelled: the splitting of the lists, the flags computed for a module when it is loaded, the three loops over frames and their order, and which top frame is skipped.
* Not modelled: the cache of the last query in module_is_on_check_uninit_blocklist (1313-1333; module_lookup_user_data never fills it in, so it has no effect), truncation of file names, modules without a name. FILESYS_CASELESS, tolower and the name of the tool's library are parameters. C29 takes the outcome as an input.
* Proof: each loop is described by the indices it reaches; the walk over frames is related to the frames as described by their modules; matching itself is C05.
* Findings (code contradicts the plain property; each decided by the named theorem):
  * a callstack with fewer than N frames after the skipped one is never set apart by the blocklist, even if all of its frames are on it.
  * a top frame outside of all modules is taken for a system call, so generated code as the top frame is skipped too.
  * an empty pattern ("a,,b") ends the list, a comma in front disables it, and a list within two bytes of the size of the buffer loses its last character: its last pattern then matches other files.

### Options (C67) — `drmemory/options.c:168-191, 210-320, 339-382`

* Modelled: the splitting of the line into words, the matching of each word against every option in order with -no_ and aliases, the reading of numbers, strings and repeated strings, and the marks of what was specified.
* Not modelled: what options_init does after the loop (383 on: options that follow from others), the printing of errors, the widths of numbers. dr_sscanf is a parameter; the only demand is that a numeral is read as its number (what it makes of digits followed by other characters is left open). isspace is that of the C locale; dr_snprintf is taken to write at most n characters and a terminator only if there is room. tolower or nothing (options.c:64) is a parameter. The table is a parameter too; that no two of the options in optionsx.h answer to the same word was found by a script over that file, not proved.
* Proof: reading a word is inverse to showing it; a buffer of repeated strings is described by the words it holds; one induction over the settings.
* Findings (code contradicts the plain property; each decided by the named theorem):
  * an empty value in quotes at the very end of the line is a usage error, though it is accepted anywhere else: get_option_word returns NULL as if there were no word.
  * -logdir '-light' leaves -logdir empty and turns on -light: quotes do not protect a dash.
  * the test #altname[0] != '\0' never fails: for an option without an alias, altname is the token "" and #altname the string of two quotes. So the word -"" is accepted, and sets the first option in the table if that is a flag.
  * a buffer of repeated strings would not end in two zeros if it were filled; a line shorter than MAX_OPTION_LEN cannot fill it (part of C67_options).

### Liveness of registers and flags (C68) — `drmemory/fastpath_x86.c:138-203; drmemory/spill.c:899-964`

* Modelled: the forward scan with its three outcomes for each register and its masks for the flags, the variant for eax only, and the four instructions that save and restore the flags.
* Not modelled: which scratch registers are picked (spill.c:586-835), the spill slots, and where along the block flags are saved. What DynamoRIO says of an instruction (instr_reads_from_reg, instr_writes_to_exact_reg, instr_get_arith_flags, instr_is_cti) is a parameter, and C68_same assumes that it is true ([faithful]). Masks are modelled by the bits of the six flags only. The semantics of lahf, seto, add and sahf is that of the processor manual.
* Proof: dead and live are described by the first instruction that matters; the scan is related to them by one induction; two runs are then compared step by step.
* Findings (code contradicts the plain property; each decided by the named theorem):
  * the program is assumed to run to the end of the block: at a fault in its middle, registers found dead hold other values (the source says so at spill.c:602).
  * if an instruction both reads a flag and writes others, the outcome has further bits beside EFLAGS_READ_6 (after adc it is EFLAGS_READ_6|EFLAGS_WRITE_6), unlike what the comment at fastpath_x86.c:138 says; every use of it only tests for EFLAGS_WRITE_6 and EFLAGS_WRITE_OF, apart from a log message.

## Planned, not yet proved

| id | model | proof |
|----|-------|-------|

## Assumptions of each theorem

`Print Assumptions` follows every theorem in the `_Props.v` files.

| property | theorems | assumptions |
|---|---|---|
| C01 | `C01_memset`, `C01_bzero`, `C01_memcpy`, `C01_memmove`, `C01_wmemcpy`, `C01_wmemset` | none (closed under the global context) |
| C02 | `C02_memchr`, `C02_wmemchr`, `C02_memrchr`, `C02_rawmemchr`, `C02_strchr`, `C02_strrchr`, `C02_strchrnul`, `C02_strlen`, `C02_strnlen`, `C02_strcmp`, `C02_strncmp`, `C02_strcasecmp`, `C02_strncasecmp`, `C02_memcmp`, `C02_wmemcmp_guarded`, `C02_wmemcmp_refuted`, `C02_strspn_guarded`, `C02_strcspn_guarded`, `C02_strspn_refuted`, `C02_strstr` | none (closed under the global context) |
| C03 | `C03_unary`, `C03_bounded`, `C03_memchr`, `C03_compare`, `C03_compare_bounded`, `C03_memcmp`, `C03_strstr`, `C03_movers`, `C03_strcpy`, `C03_strncpy` | none (closed under the global context) |
| C04 | `C04_strcpy`, `C04_stpcpy`, `C04_strncpy`, `C04_strcat`, `C04_strncat` | none (closed under the global context) |
| C05 | `C05_text_matches_pattern_exact`, `C05_text_matches_any_pattern_exact` | none (closed under the global context) |
| C06 | `C06_history_exact`, `C06_lookup_address_exact`, `C06_lookup_start_exact`, `C06_lookup_overlap_exact`, `C06_lookup_client_exact`, `C06_iterate_exact`, `C06_extremes_exact`, `C06_insert_result_exact`, `C06_payload_released_once`, `C06_no_node_leak`, `C06_release_any_history`, `C06_release_insert_overlap_refuted`, `C06_top_of_memory_refuted`, `C06_handle_stability_refuted` | none (closed under the global context) |
| C07 | `C07_operations_terminate`, `C07_balanced`, `C07_lookup_steps_logarithmic` | none (closed under the global context) |
| C08 | `C08_next_lower_sound`, `C08_next_lower_refuted`, `C08_next_higher_characterised`, `C08_next_higher_refuted` | none (closed under the global context) |
| C09 | `C09_history`, `C09_iterate`, `C09_records`, `C09_spanning_removal_refuted` | none (closed under the global context) |
| C10 | `C10_history`, `C10_debug_two_refuted`, `C10_release_overlap_refuted` | none (closed under the global context) |
| C11 | `C11_no_crash`, `C11_blocks`, `C11_redzones`, `C11_malloc`, `C11_near_4gb_refuted`, `C11_overlap_refuted`, `C11_alignment_refuted`, `C11_pattern_redzone_refuted`, `C11_large_redzone_refuted`, `C11_oom_refuted` | none (closed under the global context) |
| C12 | `C12_free`, `C12_malloc`, `C12_realloc`, `C12_limits`, `C12_apart` | none (closed under the global context) |
| C13 | `C13_free`, `C13_realloc`, `C13_size`, `C13_before_tool_refuted` | none (closed under the global context) |
| C14 | `C14_realloc`, `C14_size`, `C14_kept` | none (closed under the global context) |
| C15 | `C15_iterate` | none (closed under the global context) |
| C16 | `C16_history_exact`, `C16_release_sound`, `C16_overlap_exact`, `C16_bounded`, `C16_never_released`, `C16_lost_block_refuted` | none (closed under the global context) |
| C17 | `C17_history`, `C17_set`, `C17_get`, `C17_qword_refuted` | none (closed under the global context) |
| C18 | `C18_check`, `C18_check_backward`, `C18_skip_refuted`, `C18_end_refuted`, `C18_ptrsz_refuted`, `C18_prev_refuted` | none (closed under the global context) |
| C19 | `C19_copy`, `C19_small_refuted`, `C19_overlap_refuted` | none (closed under the global context) |
| C20 | `C20_history_first`, `C20_history_later`, `C20_mmx_read`, `C20_mmx_neighbour_refuted`, `C20_mmx7_refuted`, `C20_high_byte_refuted`, `C20_vex_refuted` | none (closed under the global context) |
| C21 | `C21_startup_separates`, `C21_startup_covers`, `C21_translation`, `C21_two_maps`, `C21_inverse_refuted`, `C21_alias_refuted`, `C21_inline_refuted` | none (closed under the global context) |
| C22 | `C22_history`, `C22_partial_create_refuted`, `C22_fault_refuted`, `C22_last_byte_refuted`, `C22_copy_overlap_refuted`, `C22_find2_refuted`, `C22_edge_refuted`, `C22_no_memory_refuted` | none (closed under the global context) |
| C23 | `C23_bytewise`, `C23_flags`, `C23_exchange`, `C23_cmpxchg8b`, `C23_byte_swap`, `C23_unpack`, `C23_shuffle_ps`, `C23_shuffle_pd`, `C23_byte_shift`, `C23_extract`, `C23_insert`, `C23_insert3`, `C23_insert_ps`, `C23_into_high`, `C23_from_high`, `C23_low_half`, `C23_shift`, `C23_shift_flags`, `C23_shift_meaning`, `C23_carry_meaning`, `C23_packed`, `C23_cmpxchg8b_leave_refuted`, `C23_sar_refuted`, `C23_psra_refuted`, `C23_count_refuted`, `C23_rotate_refuted`, `C23_zero_count_flags_refuted`, `C23_packed_count_refuted`, `C23_packed_memory_count_refuted`, `C23_pshuf_refuted`, `C23_xadd_refuted`, `C23_pusha_refuted`, `C23_sign_extend_refuted`, `C23_flags_source_refuted`, `C23_vex_unpack_refuted`, `C23_shuffle_pd_refuted`, `C23_extract_refuted`, `C23_insert_refuted`, `C23_insert_quad_refuted`, `C23_load_high_refuted` | none (closed under the global context) |
| C24 | `C24_strict`, `C24_exact`, `C24_magic_refuted`, `C24_quad_refuted`, `C24_bitmask` | none (closed under the global context) |
| C25 | `C25_exactly_once`, `C25_maximal_runs`, `C25_shadow`, `C25_push`, `C25_pop`, `C25_word_mode`, `C25_word_missed_refuted`, `C25_word_split_refuted`, `C25_bitlevel_read_refuted`, `C25_bitlevel_write_refuted`, `C25_overlapping_copy_refuted` | none (closed under the global context) |
| C26 | `C26_classified`, `C26_words`, `C26_memory`, `C26_text`, `C26_empty_refuted`, `C26_unscanned_refuted` | none (closed under the global context) |
| C27 | `C27_attributed` | none (closed under the global context) |
| C28 | `C28_matching_terminates`, `C28_described_is_suppressed`, `C28_exact`, `C28_parse_exact`, `C28_list_exact`, `C28_generated_suppresses`, `C28_ellipsis_refuted`, `C28_module_ellipsis_zero_refuted`, `C28_module_ellipsis_missed_refuted`, `C28_module_ellipsis_nomodule_refuted`, `C28_generated_offset_refuted`, `C28_read_closed` | none (closed under the global context) |
| C29 | `C29_history`, `C29_numbers`, `C29_fork`, `C29_rescan_unique_refuted`, `C29_rescan_total_refuted`, `C29_huge_leak_refuted`, `C29_fork_reachable_refuted` | none (closed under the global context) |
| C30 | `C30_decode_exact`, `C30_boundary_refuted`, `C30_overflow_refuted`, `C30_regrown_refuted` | none (closed under the global context) |
| C31 | `C31_compare_exact`, `C31_clone_equal`, `C31_empty_clone_refuted`, `C31_sharing_exact`, `C31_transitive_refuted` | none (closed under the global context) |
| C32 | `C32_lookup_exact`, `C32_in_module_exact`, `C32_in_module_partial_page_refuted`, `C32_user_data_bounds_refuted` | none (closed under the global context) |
| C33 | `C33_history_exact`, `C33_complete`, `C33_numbers`, `C33_words`, `C33_wide_number_refuted` | none (closed under the global context) |
| C34 | `C34_bits`, `C34_numbers`, `C34_words`, `C34_large_buffer_refuted`, `C34_empty_dictionary_refuted` | none (closed under the global context) |
| C35 | `C35_mul_overflow_x86_exact`, `C35_mul_overflow_x64_sound`, `C35_mul_overflow_x64_complete_guarded`, `C35_mul_overflow_x64_complete_refuted` | none (closed under the global context) |
| C36 | `C36_save_restore`, `C36_overrun_refuted` | none (closed under the global context) |
| C37 | `C37_byte_defined`, `C37_byte_addr_not_bit`, `C37_word_defined`, `C37_word_addr_not_bit`, `C37_dword`, `C37_movsx` | none (closed under the global context) |
| C38 | `C38_large` | none (closed under the global context) |
| C39 | `C39_step`, `C39_run`, `C39_moved`, `C39_swap`, `C39_threshold`, `C39_enter_refuted`, `C39_ret_imm_64_refuted`, `C39_red_zone_refuted`, `C39_near_swap_refuted`, `C39_unlisted_refuted`, `C39_patch_refuted` | none (closed under the global context) |
| C40 | `C40_fast_is_slow`, `C40_defined_refuted`, `C40_not_shared_refuted`, `C40_and_refuted` | none (closed under the global context) |
| C41 | `C41_zeroing`, `C41_zero_is_slow`, `C41_odd_size_refuted` | none (closed under the global context) |
| C42 | `C42_history`, `C42_last_byte_refuted`, `C42_copy_overlap_refuted`, `C42_copy_one_refuted`, `C42_granule_refuted`, `C42_value_255_refuted`, `C42_find_wide_refuted`, `C42_top_refuted` | none (closed under the global context) |
| C43 | `C43_exit`, `C43_replace`, `C43_shared`, `C43_clear`, `C43_get_shared_refuted`, `C43_faulty_redzone_refuted` | none (closed under the global context) |
| C44 | `C44_iterate`, `C44_type`, `C44_agree`, `C44_low_refuted` | none (closed under the global context) |
| C45 | `C45_registry`, `C45_no_leak`, `C45_recreate_refuted`, `C45_scales_refuted`, `C45_exit_refuted`, `C45_leak_refuted`, `C45_failed_init_refuted`, `C45_extra_exit_refuted` | none (closed under the global context) |
| C46 | `C46_access` | none (closed under the global context) |
| C47 | `C47_copies`, `C47_arithmetic`, `C47_extensions`, `C47_string`, `C47_flag_bytes`, `C47_high_store_refuted`, `C47_high_add_refuted`, `C47_flag_spread_refuted` | none (closed under the global context) |
| C48 | `C48_compare`, `C48_test`, `C48_logic`, `C48_shift`, `C48_widen`, `C48_exchange`, `C48_cmpxchg`, `C48_neighbours_refuted`, `C48_neighbours_always_refuted`, `C48_redzone_refuted` | none (closed under the global context) |
| C49 | `C49_shifts`, `C49_narrow`, `C49_excess_refuted`, `C49_modulo_refuted`, `C49_carry_refuted`, `C49_rotate_refuted` | none (closed under the global context) |
| C50 | `C50_history`, `C50_within`, `C50_failed`, `C50_before`, `C50_rows`, `C50_ignored_refuted`, `C50_huge_refuted` | none (closed under the global context) |
| C51 | `C51_table`, `C51_unread_length`, `C51_address`, `C51_departures_refuted`, `C51_departures_listed`, `C51_end_of_file_refuted`, `C51_abstract_name_refuted`, `C51_unreadable_name_refuted`, `C51_keyctl_refuted` | none (closed under the global context) |
| C52 | `C52_untouched`, `C52_marks_only`, `C52_marks_all`, `C52_sentinels_memory`, `C52_sentinels_marks`, `C52_kernel_sentinel_refuted`, `C52_sentinel_words_refuted`, `C52_stale_size_refuted`, `C52_history_refuted`, `C52_low_refuted`, `C52_twice_refuted` | none (closed under the global context) |
| C53 | `C53_pieces`, `C53_region` | none (closed under the global context) |
| C54 | `C54_crc`, `C54_burst`, `C54_apart`, `C54_whole_and_half`, `C54_same`, `C54_half_refuted`, `C54_empty_refuted` | none (closed under the global context) |
| C55 | `C55_persist`, `C55_comma_refuted`, `C55_long_refuted`, `C55_offset_refuted`, `C55_abort_refuted`, `C55_twice_refuted`, `C55_buffer_refuted`, `C55_unset_refuted` | none (closed under the global context) |
| C56 | `C56_version`, `C56_cut`, `C56_full_refuted`, `C56_short_refuted`, `C56_page_refuted` | none (closed under the global context) |
| C57 | `C57_filled`, `C57_live`, `C57_grow`, `C57_reuse`, `C57_live_refuted` | none (closed under the global context) |
| C58 | `C58_silent`, `C58_sound`, `C58_reported`, `C58_aligned`, `C58_odd_refuted`, `C58_last_refuted`, `C58_four_refuted`, `C58_straddle_refuted`, `C58_second_refuted` | none (closed under the global context) |
| C59 | `C59_guarded`, `C59_real`, `C59_base_refuted` | none (closed under the global context) |
| C60 | `C60_shows`, `C60_mallocs`, `C60_mallocs_refuted`, `C60_usable_refuted`, `C60_extra_refuted` | none (closed under the global context) |
| C61 | `C61_peak`, `C61_real`, `C61_calls_refuted` | none (closed under the global context) |
| C62 | `C62_kept`, `C62_stamps`, `C62_taken`, `C62_printed`, `C62_runs`, `C62_calls`, `C62_bytes`, `C62_bytes_refuted`, `C62_odd_refuted`, `C62_overflow_refuted` | none (closed under the global context) |
| C63 | `C63_kept`, `C63_late_refuted` | none (closed under the global context) |
| C64 | `C64_lines`, `C64_first_refuted`, `C64_page_refuted`, `C64_last_refuted` | none (closed under the global context) |
| C65 | `C65_tokens`, `C65_last`, `C65_escape`, `C65_unterminated`, `C65_free_refuted`, `C65_quote_refuted`, `C65_lone_refuted` | none (closed under the global context) |
| C66 | `C66_list`, `C66_errors`, `C66_leaks`, `C66_uninit`, `C66_gap_refuted`, `C66_front_refuted`, `C66_full_refuted` | none (closed under the global context) |
| C67 | `C67_words`, `C67_options`, `C67_unknown`, `C67_number`, `C67_empty_refuted`, `C67_quotes_refuted`, `C67_dash_refuted` | none (closed under the global context) |
| C68 | `C68_registers`, `C68_flags`, `C68_same`, `C68_saved` | none (closed under the global context) |
