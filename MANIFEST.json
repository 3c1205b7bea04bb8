{
 "claims": [
  {
   "property": "C01",
   "status": "proved",
   "theorems": [
    "C01_memset",
    "C01_bzero",
    "C01_memcpy",
    "C01_memmove",
    "C01_wmemcpy",
    "C01_wmemset"
   ],
   "note": ""
  },
  {
   "property": "C02",
   "status": "proved",
   "theorems": [
    "C02_memchr",
    "C02_wmemchr",
    "C02_memrchr",
    "C02_rawmemchr",
    "C02_strchr",
    "C02_strrchr",
    "C02_strchrnul",
    "C02_strlen",
    "C02_strnlen",
    "C02_strcmp",
    "C02_strncmp",
    "C02_strcasecmp",
    "C02_strncasecmp",
    "C02_memcmp",
    "C02_wmemcmp_guarded",
    "C02_wmemcmp_refuted",
    "C02_strspn_guarded",
    "C02_strcspn_guarded",
    "C02_strspn_refuted",
    "C02_strstr"
   ],
   "note": "strspn/strcspn and wmemcmp: exact under the stated guard, refuted outside it (witness theorems). The order of wide strings is the unsigned one used by the code."
  },
  {
   "property": "C03",
   "status": "proved",
   "theorems": [
    "C03_unary",
    "C03_bounded",
    "C03_memchr",
    "C03_compare",
    "C03_compare_bounded",
    "C03_memcmp",
    "C03_strstr",
    "C03_movers",
    "C03_strcpy",
    "C03_strncpy"
   ],
   "note": "stated by unmapping every byte outside the entitled ranges; strspn/strcspn (0xff bytes) and wmemcmp are covered by the guards of C02."
  },
  {
   "property": "C04",
   "status": "proved",
   "theorems": [
    "C04_strcpy",
    "C04_stpcpy",
    "C04_strncpy",
    "C04_strcat",
    "C04_strncat"
   ],
   "note": ""
  },
  {
   "property": "C05",
   "status": "proved",
   "theorems": [
    "C05_text_matches_pattern_exact",
    "C05_text_matches_any_pattern_exact"
   ],
   "note": ""
  },
  {
   "property": "C06",
   "status": "proved",
   "theorems": [
    "C06_history_exact",
    "C06_lookup_address_exact",
    "C06_lookup_start_exact",
    "C06_lookup_overlap_exact",
    "C06_lookup_client_exact",
    "C06_iterate_exact",
    "C06_extremes_exact",
    "C06_insert_result_exact",
    "C06_payload_released_once",
    "C06_no_node_leak",
    "C06_release_any_history",
    "C06_release_insert_overlap_refuted",
    "C06_top_of_memory_refuted",
    "C06_handle_stability_refuted"
   ],
   "note": "DEBUG build for all histories of valid intervals; release build for histories without overlapping insertions (its actual same-start behaviour is proved for all histories). Exceptions decided by the _refuted theorems."
  },
  {
   "property": "C07",
   "status": "proved",
   "theorems": [
    "C07_operations_terminate",
    "C07_balanced",
    "C07_lookup_steps_logarithmic"
   ],
   "note": "for all histories, including overlapping and wrapping intervals."
  },
  {
   "property": "C08",
   "status": "proved",
   "theorems": [
    "C08_next_lower_sound",
    "C08_next_lower_refuted",
    "C08_next_higher_characterised",
    "C08_next_higher_refuted"
   ],
   "note": "decided negatively: both header promises are refuted by witnesses; the guarantees that hold are proved."
  },
  {
   "property": "C09",
   "status": "proved",
   "theorems": [
    "C09_history",
    "C09_iterate",
    "C09_records",
    "C09_spanning_removal_refuted"
   ],
   "note": "all three operations, all queries, both builds; the calling discipline (an added range is free, a removed range touches one region, an adjusted region stays clear of others) is the hypothesis, its violation by a spanning removal a _refuted witness."
  },
  {
   "property": "C10",
   "status": "proved",
   "theorems": [
    "C10_history",
    "C10_debug_two_refuted",
    "C10_release_overlap_refuted"
   ],
   "note": "all histories of map, unmap and remap; a mapping placed over more than one kept interval (release build: over one with another start) is decided by _refuted witnesses."
  },
  {
   "property": "C11",
   "status": "proved",
   "theorems": [
    "C11_no_crash",
    "C11_blocks",
    "C11_redzones",
    "C11_malloc",
    "C11_near_4gb_refuted",
    "C11_overlap_refuted",
    "C11_alignment_refuted",
    "C11_pattern_redzone_refuted",
    "C11_large_redzone_refuted",
    "C11_oom_refuted"
   ],
   "note": "all histories of calls and stores, all answers of a kernel whose mappings do not overlap, all redzone sizes that are multiples of 16; sizes and alignments near 4GB, 8-byte redzones (pattern mode), redzones over a page, and exhausted memory are decided by _refuted witnesses."
  },
  {
   "property": "C12",
   "status": "proved",
   "theorems": [
    "C12_free",
    "C12_malloc",
    "C12_realloc",
    "C12_limits",
    "C12_apart"
   ],
   "note": "all histories and limits; leaving the quarantine early, when the kernel has no memory, is part of the statement."
  },
  {
   "property": "C13",
   "status": "proved",
   "theorems": [
    "C13_free",
    "C13_realloc",
    "C13_size",
    "C13_before_tool_refuted"
   ],
   "note": "all histories and pointers; exact list of reports for free, realloc and size. Blocks from before the tool are never reported (_refuted witness)."
  },
  {
   "property": "C14",
   "status": "proved",
   "theorems": [
    "C14_realloc",
    "C14_size",
    "C14_kept"
   ],
   "note": "all histories, contents and sizes, in place and moved; failure leaves blocks and contents as they were."
  },
  {
   "property": "C15",
   "status": "proved",
   "theorems": [
    "C15_iterate"
   ],
   "note": "all histories; blocks of pre_us_table are listed from that table and are not part of the theorem."
  },
  {
   "property": "C16",
   "status": "proved",
   "theorems": [
    "C16_history_exact",
    "C16_release_sound",
    "C16_overlap_exact",
    "C16_bounded",
    "C16_never_released",
    "C16_lost_block_refuted"
   ],
   "note": "over all histories of legal frees; heap destruction (Windows only) is not modelled; the lost-block exception is a _refuted witness with a theorem that such a block is never released."
  },
  {
   "property": "C17",
   "status": "proved",
   "theorems": [
    "C17_history",
    "C17_set",
    "C17_get",
    "C17_qword_refuted"
   ],
   "note": "over all histories of set, get, copy, check and search calls; the 8-byte query exception is a _refuted witness."
  },
  {
   "property": "C18",
   "status": "proved",
   "theorems": [
    "C18_check",
    "C18_check_backward",
    "C18_skip_refuted",
    "C18_end_refuted",
    "C18_ptrsz_refuted",
    "C18_prev_refuted"
   ],
   "note": "exact under the uniform-chunk proviso, never a false alarm without it; exceptions decided by _refuted witnesses. The backward granule search and the pointer-sized search are only refuted, not guarded."
  },
  {
   "property": "C19",
   "status": "proved",
   "theorems": [
    "C19_copy",
    "C19_small_refuted",
    "C19_overlap_refuted"
   ],
   "note": "under the stated guards, each shown necessary by a _refuted witness."
  },
  {
   "property": "C20",
   "status": "proved",
   "theorems": [
    "C20_history_first",
    "C20_history_later",
    "C20_mmx_read",
    "C20_mmx_neighbour_refuted",
    "C20_mmx7_refuted",
    "C20_high_byte_refuted",
    "C20_vex_refuted"
   ],
   "note": "over all histories from both kinds of thread start; the exceptions are _refuted witnesses."
  },
  {
   "property": "C21",
   "status": "proved",
   "theorems": [
    "C21_startup_separates",
    "C21_startup_covers",
    "C21_translation",
    "C21_two_maps",
    "C21_inverse_refuted",
    "C21_alias_refuted",
    "C21_inline_refuted"
   ],
   "note": "on regular layouts (a boolean check evaluated on the standard layouts); two maps of different scales are not modelled; exceptions decided by _refuted witnesses."
  },
  {
   "property": "C22",
   "status": "proved",
   "theorems": [
    "C22_history",
    "C22_partial_create_refuted",
    "C22_fault_refuted",
    "C22_last_byte_refuted",
    "C22_copy_overlap_refuted",
    "C22_find2_refuted",
    "C22_edge_refuted",
    "C22_no_memory_refuted"
   ],
   "note": "copying is proved for down-scaling maps and destinations that do not start inside the source; exceptions decided by _refuted witnesses."
  },
  {
   "property": "C23",
   "status": "proved",
   "theorems": [
    "C23_bytewise",
    "C23_flags",
    "C23_exchange",
    "C23_cmpxchg8b",
    "C23_byte_swap",
    "C23_unpack",
    "C23_shuffle_ps",
    "C23_shuffle_pd",
    "C23_byte_shift",
    "C23_extract",
    "C23_insert",
    "C23_insert3",
    "C23_insert_ps",
    "C23_into_high",
    "C23_from_high",
    "C23_low_half",
    "C23_shift",
    "C23_shift_flags",
    "C23_shift_meaning",
    "C23_carry_meaning",
    "C23_packed",
    "C23_cmpxchg8b_leave_refuted",
    "C23_sar_refuted",
    "C23_psra_refuted",
    "C23_count_refuted",
    "C23_rotate_refuted",
    "C23_zero_count_flags_refuted",
    "C23_packed_count_refuted",
    "C23_packed_memory_count_refuted",
    "C23_pshuf_refuted",
    "C23_xadd_refuted",
    "C23_pusha_refuted",
    "C23_sign_extend_refuted",
    "C23_flags_source_refuted",
    "C23_vex_unpack_refuted",
    "C23_shuffle_pd_refuted",
    "C23_extract_refuted",
    "C23_insert_refuted",
    "C23_insert_quad_refuted",
    "C23_load_high_refuted"
   ],
   "note": "per instruction family, for all operand sizes, selectors, counts, shadow states and pairs of executions, within the guards of each theorem; the guarded-out cases are decided against the tool by the C23_*_refuted witnesses."
  },
  {
   "property": "C24",
   "status": "proved",
   "theorems": [
    "C24_strict",
    "C24_exact",
    "C24_magic_refuted",
    "C24_quad_refuted",
    "C24_bitmask"
   ],
   "note": "all values and states, operands of up to 4 bytes; the three constants the tool always accepts and 8-byte operands are decided by _refuted witnesses; C24_exact says exactly which bytes are marked."
  },
  {
   "property": "C25",
   "status": "proved",
   "theorems": [
    "C25_exactly_once",
    "C25_maximal_runs",
    "C25_shadow",
    "C25_push",
    "C25_pop",
    "C25_word_mode",
    "C25_word_missed_refuted",
    "C25_word_split_refuted",
    "C25_bitlevel_read_refuted",
    "C25_bitlevel_write_refuted",
    "C25_overlapping_copy_refuted"
   ],
   "note": "all accesses, sizes, shadow contents and exception routines (which may store states of their own); word-granular mode, bit-level marker and overlapping copies are decided by _refuted witnesses and by C25_word_mode."
  },
  {
   "property": "C26",
   "status": "proved",
   "theorems": [
    "C26_classified",
    "C26_words",
    "C26_memory",
    "C26_text",
    "C26_empty_refuted",
    "C26_unscanned_refuted"
   ],
   "note": "all heaps of disjoint blocks, all contents of memory and registers; blocks of size zero and blocks never scanned are decided by _refuted witnesses."
  },
  {
   "property": "C27",
   "status": "proved",
   "theorems": [
    "C27_attributed"
   ],
   "note": "all heaps of disjoint, not empty blocks; the attribution is by a map from unreachable blocks to the reported leak that leads to them."
  },
  {
   "property": "C28",
   "status": "proved",
   "theorems": [
    "C28_matching_terminates",
    "C28_described_is_suppressed",
    "C28_exact",
    "C28_parse_exact",
    "C28_list_exact",
    "C28_generated_suppresses",
    "C28_ellipsis_refuted",
    "C28_module_ellipsis_zero_refuted",
    "C28_module_ellipsis_missed_refuted",
    "C28_module_ellipsis_nomodule_refuted",
    "C28_generated_offset_refuted",
    "C28_read_closed"
   ],
   "note": "completeness for plain ellipses, exactness on the documented simple forms, generated suppressions; the documented promises the matcher breaks are decided by _refuted witnesses."
  },
  {
   "property": "C29",
   "status": "proved",
   "theorems": [
    "C29_history",
    "C29_numbers",
    "C29_fork",
    "C29_rescan_unique_refuted",
    "C29_rescan_total_refuted",
    "C29_huge_leak_refuted",
    "C29_fork_reachable_refuted"
   ],
   "note": "all histories of fewer than 2^32 errors and leaks with leak checking on; repeated leak scans, byte counts of 2^32 and the fork of a process with reachable leaks are decided by _refuted witnesses."
  },
  {
   "property": "C30",
   "status": "proved",
   "theorems": [
    "C30_decode_exact",
    "C30_boundary_refuted",
    "C30_overflow_refuted",
    "C30_regrown_refuted"
   ],
   "note": "for all histories before and after recording, under the stated guards; each guard is shown necessary by a _refuted witness."
  },
  {
   "property": "C31",
   "status": "proved",
   "theorems": [
    "C31_compare_exact",
    "C31_clone_equal",
    "C31_empty_clone_refuted",
    "C31_sharing_exact",
    "C31_transitive_refuted"
   ],
   "note": "exact comparison, hashing, cloning and sharing for all histories and all bucket assignments; exceptions decided by _refuted witnesses."
  },
  {
   "property": "C32",
   "status": "proved",
   "theorems": [
    "C32_lookup_exact",
    "C32_in_module_exact",
    "C32_in_module_partial_page_refuted",
    "C32_user_data_bounds_refuted"
   ],
   "note": "page-granular guard for is_in_module; exceptions decided by _refuted witnesses."
  },
  {
   "property": "C33",
   "status": "proved",
   "theorems": [
    "C33_history_exact",
    "C33_complete",
    "C33_numbers",
    "C33_words",
    "C33_wide_number_refuted"
   ],
   "note": "from start-up over all histories of requests and feedback that do not run past the end; the exception is a _refuted witness."
  },
  {
   "property": "C34",
   "status": "proved",
   "theorems": [
    "C34_bits",
    "C34_numbers",
    "C34_words",
    "C34_large_buffer_refuted",
    "C34_empty_dictionary_refuted"
   ],
   "note": "from start-up over all histories; the exceptions are _refuted witnesses."
  },
  {
   "property": "C35",
   "status": "proved",
   "theorems": [
    "C35_mul_overflow_x86_exact",
    "C35_mul_overflow_x64_sound",
    "C35_mul_overflow_x64_complete_guarded",
    "C35_mul_overflow_x64_complete_refuted"
   ],
   "note": "32-bit check exact; the 64-bit check is sound, complete under the carry-free guard and refuted in general (witness theorem)."
  },
  {
   "property": "C36",
   "status": "proved",
   "theorems": [
    "C36_save_restore",
    "C36_overrun_refuted"
   ],
   "note": "the overrun is proved for every size outside the guard."
  },
  {
   "property": "C37",
   "status": "proved",
   "theorems": [
    "C37_byte_defined",
    "C37_byte_addr_not_bit",
    "C37_word_defined",
    "C37_word_addr_not_bit",
    "C37_dword",
    "C37_movsx"
   ],
   "note": "exhaustive over all table entries, stated over states rather than bit patterns."
  },
  {
   "property": "C38",
   "status": "proved",
   "theorems": [
    "C38_large"
   ],
   "note": "all histories."
  },
  {
   "property": "C39",
   "status": "proved",
   "theorems": [
    "C39_step",
    "C39_run",
    "C39_moved",
    "C39_swap",
    "C39_threshold",
    "C39_enter_refuted",
    "C39_ret_imm_64_refuted",
    "C39_red_zone_refuted",
    "C39_near_swap_refuted",
    "C39_unlisted_refuted",
    "C39_patch_refuted"
   ],
   "note": "all instructions the code handles, all states and all runs; each exception is decided by a C39_*_refuted witness."
  },
  {
   "property": "C40",
   "status": "proved",
   "theorems": [
    "C40_fast_is_slow",
    "C40_defined_refuted",
    "C40_not_shared_refuted",
    "C40_and_refuted"
   ],
   "note": "instruction-level model of the routine for every kind of adjustment against the C slow path of C39; each exception is decided by a C40_*_refuted witness."
  },
  {
   "property": "C41",
   "status": "proved",
   "theorems": [
    "C41_zeroing",
    "C41_zero_is_slow",
    "C41_odd_size_refuted"
   ],
   "note": "the odd-size exception is decided by C41_odd_size_refuted."
  },
  {
   "property": "C42",
   "status": "proved",
   "theorems": [
    "C42_history",
    "C42_last_byte_refuted",
    "C42_copy_overlap_refuted",
    "C42_copy_one_refuted",
    "C42_granule_refuted",
    "C42_value_255_refuted",
    "C42_find_wide_refuted",
    "C42_top_refuted"
   ],
   "note": "refinement of a flat map over all histories of ten calls; each exception in the statement is decided by a C42_*_refuted witness."
  },
  {
   "property": "C43",
   "status": "proved",
   "theorems": [
    "C43_exit",
    "C43_replace",
    "C43_shared",
    "C43_clear",
    "C43_get_shared_refuted",
    "C43_faulty_redzone_refuted"
   ],
   "note": "exceptions decided by C43_get_shared_refuted and C43_faulty_redzone_refuted."
  },
  {
   "property": "C44",
   "status": "proved",
   "theorems": [
    "C44_iterate",
    "C44_type",
    "C44_agree",
    "C44_low_refuted"
   ],
   "note": "exception decided by C44_low_refuted."
  },
  {
   "property": "C45",
   "status": "proved",
   "theorems": [
    "C45_registry",
    "C45_no_leak",
    "C45_recreate_refuted",
    "C45_scales_refuted",
    "C45_exit_refuted",
    "C45_leak_refuted",
    "C45_failed_init_refuted",
    "C45_extra_exit_refuted"
   ],
   "note": "refinement of an ideal registry over all careful call sequences; each exception is decided by a C45_*_refuted theorem, two of them for every history."
  },
  {
   "property": "C46",
   "status": "proved",
   "theorems": [
    "C46_access"
   ],
   "note": "for every instruction of `family`; the cases where code goes to the slow path are shown beside it."
  },
  {
   "property": "C47",
   "status": "proved",
   "theorems": [
    "C47_copies",
    "C47_arithmetic",
    "C47_extensions",
    "C47_string",
    "C47_flag_bytes",
    "C47_high_store_refuted",
    "C47_high_add_refuted",
    "C47_flag_spread_refuted"
   ],
   "note": "exact for all but the stated exceptions, each decided by a C47_*_refuted theorem."
  },
  {
   "property": "C48",
   "status": "proved",
   "theorems": [
    "C48_compare",
    "C48_test",
    "C48_logic",
    "C48_shift",
    "C48_widen",
    "C48_exchange",
    "C48_cmpxchg",
    "C48_neighbours_refuted",
    "C48_neighbours_always_refuted",
    "C48_redzone_refuted"
   ],
   "note": "for every instruction of these kinds; the effect on neighbouring bytes is part of the theorems and decided by the C48_*_refuted theorems."
  },
  {
   "property": "C49",
   "status": "proved",
   "theorems": [
    "C49_shifts",
    "C49_narrow",
    "C49_excess_refuted",
    "C49_modulo_refuted",
    "C49_carry_refuted",
    "C49_rotate_refuted"
   ],
   "note": "never too little, exact for four-byte shl and shr; each exception is decided by a C49_*_refuted theorem."
  },
  {
   "property": "C50",
   "status": "proved",
   "theorems": [
    "C50_history",
    "C50_within",
    "C50_failed",
    "C50_before",
    "C50_rows",
    "C50_ignored_refuted",
    "C50_huge_refuted"
   ],
   "note": "for all rows; every row of the Linux table is sensible, and all but seven (socket addresses, msghdr, msgbuf) have plain outputs. Exceptions are decided by the C50_*_refuted theorems."
  },
  {
   "property": "C51",
   "status": "proved",
   "theorems": [
    "C51_table",
    "C51_unread_length",
    "C51_address",
    "C51_departures_refuted",
    "C51_departures_listed",
    "C51_end_of_file_refuted",
    "C51_abstract_name_refuted",
    "C51_unreadable_name_refuted",
    "C51_keyctl_refuted"
   ],
   "note": "for all rows with a contract; the eighteen departures are decided by C51_departures_refuted, other exceptions by further C51_*_refuted theorems."
  },
  {
   "property": "C52",
   "status": "proved",
   "theorems": [
    "C52_untouched",
    "C52_marks_only",
    "C52_marks_all",
    "C52_sentinels_memory",
    "C52_sentinels_marks",
    "C52_kernel_sentinel_refuted",
    "C52_sentinel_words_refuted",
    "C52_stale_size_refuted",
    "C52_history_refuted",
    "C52_low_refuted",
    "C52_twice_refuted"
   ],
   "note": "for all states; the conditions under which it holds are stated in the theorems and shown necessary by the C52_*_refuted theorems."
  },
  {
   "property": "C53",
   "status": "proved",
   "theorems": [
    "C53_pieces",
    "C53_region"
   ],
   "note": "for all messages and pieces."
  },
  {
   "property": "C54",
   "status": "proved",
   "theorems": [
    "C54_crc",
    "C54_burst",
    "C54_apart",
    "C54_whole_and_half",
    "C54_same",
    "C54_half_refuted",
    "C54_empty_refuted"
   ],
   "note": "for all blocks; the exceptions are decided by the C54_*_refuted theorems."
  },
  {
   "property": "C55",
   "status": "proved",
   "theorems": [
    "C55_persist",
    "C55_comma_refuted",
    "C55_long_refuted",
    "C55_offset_refuted",
    "C55_abort_refuted",
    "C55_twice_refuted",
    "C55_buffer_refuted",
    "C55_unset_refuted"
   ],
   "note": "for all runs within the stated limits; the cases outside of them are decided by the C55_*_refuted theorems."
  },
  {
   "property": "C56",
   "status": "proved",
   "theorems": [
    "C56_version",
    "C56_cut",
    "C56_full_refuted",
    "C56_short_refuted",
    "C56_page_refuted"
   ],
   "note": "for all runs; the exceptions are decided by the C56_*_refuted theorems."
  },
  {
   "property": "C57",
   "status": "proved",
   "theorems": [
    "C57_filled",
    "C57_live",
    "C57_grow",
    "C57_reuse",
    "C57_live_refuted"
   ],
   "note": "for all runs; the exception is decided by C57_live_refuted."
  },
  {
   "property": "C58",
   "status": "proved",
   "theorems": [
    "C58_silent",
    "C58_sound",
    "C58_reported",
    "C58_aligned",
    "C58_odd_refuted",
    "C58_last_refuted",
    "C58_four_refuted",
    "C58_straddle_refuted",
    "C58_second_refuted"
   ],
   "note": "for all runs; what is missed is decided by the C58_*_refuted theorems."
  },
  {
   "property": "C59",
   "status": "proved",
   "theorems": [
    "C59_guarded",
    "C59_real",
    "C59_base_refuted"
   ],
   "note": "for all blocks that meet the provision; C59_base_refuted decides the rest."
  },
  {
   "property": "C60",
   "status": "proved",
   "theorems": [
    "C60_shows",
    "C60_mallocs",
    "C60_mallocs_refuted",
    "C60_usable_refuted",
    "C60_extra_refuted"
   ],
   "note": "for all runs; C60_mallocs_refuted, C60_usable_refuted and C60_extra_refuted decide the parts that do not hold."
  },
  {
   "property": "C61",
   "status": "proved",
   "theorems": [
    "C61_peak",
    "C61_real",
    "C61_calls_refuted"
   ],
   "note": "for all runs; C61_calls_refuted decides the refresh by the number of calls."
  },
  {
   "property": "C62",
   "status": "proved",
   "theorems": [
    "C62_kept",
    "C62_stamps",
    "C62_taken",
    "C62_printed",
    "C62_runs",
    "C62_calls",
    "C62_bytes",
    "C62_bytes_refuted",
    "C62_odd_refuted",
    "C62_overflow_refuted"
   ],
   "note": "for all runs with an even number of slots and stamps below c_n*2^31 (runs go on below c_n*2^30); the rest is decided by the C62_*_refuted theorems."
  },
  {
   "property": "C63",
   "status": "proved",
   "theorems": [
    "C63_kept",
    "C63_late_refuted"
   ],
   "note": "for all lists; C63_late_refuted shows why last accesses must not be later than the snapshot."
  },
  {
   "property": "C64",
   "status": "proved",
   "theorems": [
    "C64_lines",
    "C64_first_refuted",
    "C64_page_refuted",
    "C64_last_refuted"
   ],
   "note": "for all texts; C64_first_refuted, C64_page_refuted and C64_last_refuted decide the exceptions."
  },
  {
   "property": "C65",
   "status": "proved",
   "theorems": [
    "C65_tokens",
    "C65_last",
    "C65_escape",
    "C65_unterminated",
    "C65_free_refuted",
    "C65_quote_refuted",
    "C65_lone_refuted"
   ],
   "note": "for all dictionaries of the format; the C65_*_refuted theorems hold for all files of their kind."
  },
  {
   "property": "C66",
   "status": "proved",
   "theorems": [
    "C66_list",
    "C66_errors",
    "C66_leaks",
    "C66_uninit",
    "C66_gap_refuted",
    "C66_front_refuted",
    "C66_full_refuted"
   ],
   "note": "for all lists and callstacks; C66_gap_refuted, C66_front_refuted and C66_full_refuted hold for all lists of their kind."
  },
  {
   "property": "C67",
   "status": "proved",
   "theorems": [
    "C67_words",
    "C67_options",
    "C67_unknown",
    "C67_number",
    "C67_empty_refuted",
    "C67_quotes_refuted",
    "C67_dash_refuted"
   ],
   "note": "for all tables and lines; the three _refuted theorems decide the cases in which the claim fails (C67_dash_refuted by a witness)."
  },
  {
   "property": "C68",
   "status": "proved",
   "theorems": [
    "C68_registers",
    "C68_flags",
    "C68_same",
    "C68_saved"
   ],
   "note": "for all blocks and machine states."
  }
 ]
}