{
 "claims": [
  {
   "property": "C01",
   "status": "partial",
   "theorems": [
    "C01_lookup_best_match_partial",
    "C01_lookup_best_match_distinct_head",
    "C01_lookup_best_match_refuted"
   ],
   "note": "False as documented when the run of best matches starts at index 0 and there is no exact match (refuted with a witness); the exact behaviour is proved for every sorted table, and the full claim for tables whose first two keys differ."
  },
  {
   "property": "C02",
   "status": "proved",
   "theorems": [
    "C02_lowest_match"
   ],
   "note": ""
  },
  {
   "property": "C03",
   "status": "proved",
   "theorems": [
    "C03_uleb128_roundtrip",
    "C03_sleb128_roundtrip",
    "C03_uleb128_consumes",
    "C03_uleb128_total",
    "C03_uleb128_overlong_refuted",
    "C03_sleb128_overlong_refuted"
   ],
   "note": "Round trip for every value and padding up to 10 bytes in both arithmetic modes. Over-long encodings (more than 10 bytes) are outside of the claim; refutations show what happens there."
  },
  {
   "property": "C04",
   "status": "proved",
   "theorems": [
    "C04_results_in_input_order",
    "C04_results_in_input_order_map",
    "C04_handle_error",
    "C04_reorder"
   ],
   "note": ""
  },
  {
   "property": "C05",
   "status": "partial",
   "theorems": [
    "C05_hex_value",
    "C05_hex_reject",
    "C05_hex_checked",
    "C05_hex_long_refuted"
   ],
   "note": "Proved up to 16 digits; more than 16 digits are silently truncated in a release build (refuted)."
  },
  {
   "property": "C06",
   "status": "proved",
   "theorems": [
    "C06_cache_refcounts",
    "C06_reference_count_exact"
   ],
   "note": ""
  },
  {
   "property": "C07",
   "status": "proved",
   "theorems": [
    "C07_fresh_version",
    "C07_provenance",
    "C07_pinned_stable",
    "C07_no_reload_stable"
   ],
   "note": ""
  },
  {
   "property": "C08",
   "status": "proved",
   "theorems": [
    "C08_evict"
   ],
   "note": ""
  },
  {
   "property": "C09",
   "status": "proved",
   "theorems": [
    "C09_failed_lookup",
    "C09_failed_init_retries"
   ],
   "note": ""
  },
  {
   "property": "C10",
   "status": "partial",
   "theorems": [
    "C10_attribution",
    "C10_unique_mapping",
    "C10_own_build_id",
    "C10_build_id_refuted"
   ],
   "note": "Offset and path are proved right for all address spaces, lists of addresses, options and the four ways of reading the map. The build ID in the meta data is proved to be the mapping's own one if everything known about a path agrees; refuted otherwise (two incarnations of a file mapped under one path)."
  },
  {
   "property": "C11",
   "status": "partial",
   "theorems": [
    "C11_unmapped",
    "C11_unknown_unchanged",
    "C11_never_aborts",
    "C11_never_aborts_unsorted",
    "C11_no_mappings_refuted",
    "C11_past_all_refuted",
    "C11_vdso_refuted"
   ],
   "note": "Unmapped addresses are proved to be reported unchanged and not to abort the batch as long as the pass finds a first mapping. Refuted: a process without relevant mappings, or (query interface) only addresses past the last mapping, abort the batch; unknown vDSO addresses are reported as a vDSO file address."
  },
  {
   "property": "C12",
   "status": "proved",
   "theorems": [
    "C12_meta",
    "C12_shared"
   ],
   "note": ""
  },
  {
   "property": "C13",
   "status": "proved",
   "theorems": [
    "C13_sorted_same",
    "C13_unsorted_no_result",
    "C13_unsorted_error"
   ],
   "note": "Unsorted input never gives a result; the error is InvalidInput unless reading a file or the mappings fails first."
  },
  {
   "property": "C14",
   "status": "partial",
   "theorems": [
    "C14_sources_agree_partial",
    "C14_kernel_interfaces_partial",
    "C14_past_all_refuted",
    "C14_execute_only_refuted"
   ],
   "note": "Proved from the kernel's mappings, through both the text and the query interface, under the hypotheses that executable mappings are readable, the kernel's build IDs are those of the files, names survive printing, and a readable mapping ends above the smallest address. Refuted without the first and the last."
  },
  {
   "property": "C15",
   "status": "proved",
   "theorems": [
    "C15_members",
    "C15_member_unique",
    "C15_untranslated",
    "C15_broken_archive_refuted",
    "C15_archives",
    "C24_member_mapping"
   ],
   "note": "An archive that cannot be iterated fails the batch (refutation of the stronger claim that other addresses are unaffected)."
  },
  {
   "property": "C16",
   "status": "partial",
   "theorems": [
    "C16_found",
    "C16_unknown",
    "C16_disjoint_found",
    "C16_sound",
    "C16_nested_refuted",
    "C16_misaligned_refuted"
   ],
   "note": "Proved for every well-formed file (all address widths, encodings, sizes) and, for soundness, for arbitrary bytes. Refuted: an address of an outer function behind a nested one is unknown; bytes that are not aligned in memory are misread."
  },
  {
   "property": "C17",
   "status": "partial",
   "theorems": [
    "C17_total",
    "C17_terminates",
    "C17_overflow_refuted"
   ],
   "note": "Proved for arbitrary bytes in a release build. With overflow checks enabled a crafted file panics (refuted). Stack exhaustion by deeply nested inline records is not modelled."
  },
  {
   "property": "C18",
   "status": "partial",
   "theorems": [
    "C18_line",
    "C18_no_row",
    "C18_trailing_refuted"
   ],
   "note": "Proved for all well-formed line programs ending with a row; state changes after the last row leak into the result (refuted)."
  },
  {
   "property": "C19",
   "status": "partial",
   "theorems": [
    "C19_chain",
    "C19_no_chain",
    "C19_no_line_refuted",
    "C19_unnamed_root_refuted"
   ],
   "note": "Proved for all well-formed inline trees; refuted: inline information is dropped without line information, and an unnamed root record makes the callee's name replace the function's."
  },
  {
   "property": "C20",
   "status": "partial",
   "theorems": [
    "C19_chain",
    "C22_inlined",
    "C20_dwarf",
    "C20_dwarf_refuted"
   ],
   "note": "The location of every frame is proved for the Gsym, Breakpad and DWARF sources. Refuted for DWARF if it is not recorded where the outermost call was made: the location of the address is then shown in the function that is not inlined, and not in the innermost frame."
  },
  {
   "property": "C21",
   "status": "partial",
   "theorems": [
    "C21_found",
    "C21_closest",
    "C21_sound",
    "C21_unknown",
    "C21_nested_refuted",
    "C21_overflow_refuted"
   ],
   "note": "Proved from the text of the file for functions that do not overlap, and for any functions for the one starting closest. Refuted for addresses of an outer function behind a nested one, and for functions reaching the end of the address space (panic with overflow checks)."
  },
  {
   "property": "C22",
   "status": "partial",
   "theorems": [
    "C22_line",
    "C22_no_line",
    "C22_inlined",
    "C22_inline_only_refuted",
    "C22_overlap_refuted"
   ],
   "note": "Proved for records of a function that do not overlap (per depth). Refuted: inlined calls are dropped without a line record, and of overlapping calls at one depth the covering one may be missed."
  },
  {
   "property": "C23",
   "status": "partial",
   "theorems": [
    "C23_records",
    "C23_order",
    "C23_terminates",
    "C23_sorted",
    "C23_blank_refuted"
   ],
   "note": "Proved for the whole record grammar with records in their contexts, and termination for arbitrary bytes. Refuted: a blank line among the lines of a function invalidates the file."
  },
  {
   "property": "C24",
   "status": "proved",
   "theorems": [
    "C24_total",
    "C24_sound",
    "C24_in_bounds",
    "C24_directory",
    "C24_malformed",
    "C24_member_mapping"
   ],
   "note": ""
  },
  {
   "property": "C25",
   "status": "partial",
   "theorems": [
    "C25_found",
    "C25_comment",
    "C25_rejected",
    "C25_missing",
    "C25_consistent",
    "C25_comment_refuted"
   ],
   "note": "Proved for every comment in which no other end record is found; refuted for comments that contain one, which is then used instead."
  },
  {
   "property": "C26",
   "status": "partial",
   "theorems": [
    "C26_kernel_line_partial",
    "C26_kernel_file_partial",
    "C26_trailing_space_refuted",
    "C26_deleted_name_refuted",
    "C26_accepted",
    "C26_never_panics",
    "C26_malformed_refuted"
   ],
   "note": "Proved for all lines and files in the kernel's format whose names neither start nor end in white space; refuted for names ending in white space, live files called '... (deleted)', and for some malformed lines (empty numbers, arbitrary permission letters), which are accepted."
  },
  {
   "property": "C27",
   "status": "partial",
   "theorems": [
    "C27_unreadable",
    "C27_find_sym",
    "C27_symbolize",
    "C27_found",
    "C27_rejected",
    "C27_total",
    "C27_missed_refuted",
    "C27_nested_refuted",
    "C27_hidden_refuted",
    "C27_overflow_refuted",
    "C27_file_refuted"
   ],
   "note": "Proved from the bytes of the file: the symbol found is the one starting closest that covers the address (or has no size), and a symbol covering the address is found if none starts in between. Refuted: several symbols at the lowest address of the table, addresses of an outer symbol behind a nested one, a symbol of the dynamic table hidden by one of the other, a symbol reaching the end of the address space with overflow checks, and files that are read from (only /proc/kcore) claiming absurd numbers of sections."
  },
  {
   "property": "C28",
   "status": "partial",
   "theorems": [
    "C28_to_virt",
    "C28_to_file",
    "C28_inverse",
    "C28_inverse_back",
    "C28_sections",
    "C28_empty_refuted",
    "C28_overflow_refuted"
   ],
   "note": "Proved for loadable segments that are disjoint and do not wrap around. Refuted: a segment without any contents in the file still translates an offset, and segments wrapping around panic with overflow checks."
  },
  {
   "property": "C29",
   "status": "partial",
   "theorems": [
    "C29_symtab",
    "C29_dynsym",
    "C29_unreadable",
    "C29_alias_refuted",
    "C29_type_refuted"
   ],
   "note": "Proved for all tables: precisely the wanted symbols, of the dynamic table only if there are none in the symbol table. Refuted: a dynamic alias of a symbol of the symbol table is not found, and the requested type is ignored. C29_unreadable: symbols of the symbol table with names that are no UTF-8 hide no dynamic symbols."
  },
  {
   "property": "C30",
   "status": "partial",
   "theorems": [
    "C30_unreadable",
    "C30_visits",
    "C30_stop_refuted"
   ],
   "note": "Which symbols are visited is proved; refuted: asking to stop ends the visit of one table only."
  },
  {
   "property": "C31",
   "status": "partial",
   "theorems": [
    "C31_first",
    "C31_bounds",
    "C31_total",
    "C31_vendor_refuted",
    "C31_crash_refuted"
   ],
   "note": "Proved for all note sections. Refuted: a note of another vendor with the same type is taken for the build ID; with overflow checks a crafted note panics."
  },
  {
   "property": "C32",
   "status": "partial",
   "theorems": [
    "C32_parse",
    "C32_sound",
    "C32_found",
    "C32_none",
    "C32_overflow_refuted",
    "C32_nested_refuted"
   ],
   "note": "Proved from the text of /proc/modules for disjoint modules that end below the end of the address space. Refuted: a module reaching that end, and modules inside of others."
  },
  {
   "property": "C33",
   "status": "partial",
   "theorems": [
    "C33_load",
    "C33_found",
    "C33_none",
    "C33_by_name",
    "C33_lowest_refuted"
   ],
   "note": "Proved from the text of /proc/kallsyms. Which of several symbols at one address is reported is stated exactly; refuted: at the lowest address it is not the first listed one as it is elsewhere."
  },
  {
   "property": "C34",
   "status": "partial",
   "theorems": [
    "C34_module",
    "C34_no_file",
    "C34_image",
    "C34_sizeless",
    "C34_fallback",
    "C34_list_only",
    "C34_sources",
    "C34_required",
    "C34_low_refuted",
    "C34_zst_refuted"
   ],
   "note": "Proved for arbitrary symbol sources. Refuted: addresses below the offset fail instead of falling back, and modules compressed with zstd are not decompressed as the extension tested for is not the one in use."
  },
  {
   "property": "C35",
   "status": "partial",
   "theorems": [
    "C35_found",
    "C35_missing",
    "C35_total",
    "C35_wide_refuted",
    "C35_panic_refuted"
   ],
   "note": "Proved for all index files whose nodes have fewer than 256 children, and for arbitrary bytes that searches end and, without overflow checks, do not panic. Refuted: nodes with 256 children, and panics with overflow checks."
  },
  {
   "property": "C36",
   "status": "partial",
   "theorems": [
    "C36_kcore_partial",
    "C36_unstated",
    "C36_other_lines_partial",
    "C36_stext",
    "C36_no_stext",
    "C36_kallsyms",
    "C36_total",
    "C36_position_refuted",
    "C36_fallback_refuted",
    "C36_shared_refuted"
   ],
   "note": "The two partial theorems assume that the note's position in the file is inside of the size of its segment; refuted otherwise. Refuted, too: comparing symbols if the core file is missing or has no such note; an offset once found is used for every other image."
  },
  {
   "property": "C37",
   "status": "partial",
   "theorems": [
    "C37_parse",
    "C37_sound",
    "C37_closest",
    "C37_found",
    "C37_unknown",
    "C37_path",
    "C37_nested_refuted",
    "C37_overflow_refuted",
    "C37_malformed_refuted"
   ],
   "note": "Proved from the text of the map for well formed lines and functions that do not overlap. Refuted: addresses of an outer function behind a nested one, a function reaching the end of the address space, and one malformed line, which makes the whole map fail."
  },
  {
   "property": "C38",
   "status": "partial",
   "theorems": [
    "C38_consulted",
    "C38_last_refuted",
    "C38_last_wrapping"
   ],
   "note": "Proved for all units whose own entry has no attribute twice and whose range does not overflow. Refuted: looking up the last address of the address space panics with overflow checks; without them no unit is consulted, correctly."
  },
  {
   "property": "C39",
   "status": "partial",
   "theorems": [
    "C39_sound",
    "C39_found",
    "C39_none",
    "C39_inlined",
    "C39_lookup",
    "C39_lookup_found",
    "C39_symbol",
    "C39_fallback",
    "C39_language",
    "C39_language_refuted",
    "C39_pieces_refuted"
   ],
   "note": "The language is the one the unit states; refuted for split units, whose main half states none (reported as unknown). That the parts of a lookup have results is assumed here and follows from C79 for readable sections. Proved for entry trees of any shape, for functions whose ranges do not overlap and calls that do not at one depth. Refuted: a function whose ranges are in a list is reported to start at 0, or, with a lower address in addition, may be reported to start after the address."
  },
  {
   "property": "C40",
   "status": "partial",
   "theorems": [
    "C40_accepted",
    "C40_found",
    "C40_outside",
    "C40_total",
    "C40_file_refuted",
    "C40_empty_refuted"
   ],
   "note": "Proved for line programs whose sequences do not overlap and have ascending addresses. Refuted: a row naming a file that does not exist panics, and an empty sequence inside of another one hides the other's end."
  },
  {
   "property": "C41",
   "status": "partial",
   "theorems": [
    "C41_finite",
    "C41_order",
    "C41_first",
    "C41_checksum",
    "C41_used",
    "C41_spelling",
    "C41_linking",
    "C41_stale_refuted",
    "C41_relative_refuted"
   ],
   "note": "Proved: finite for any input, documented order for absolute paths of the linking file, never the (canonical) linking file, first existing one used, wrong checksum is an error. Refuted: a stale file found first makes the search fail even if a matching one would follow; for a relative path of a file that does not exist the first directory is dropped."
  },
  {
   "property": "C42",
   "status": "partial",
   "theorems": [
    "C42_found",
    "C42_sound",
    "C42_cycle",
    "C42_end",
    "C42_total",
    "C42_function",
    "C42_inlined",
    "C42_units",
    "C42_dangling_refuted"
   ],
   "note": "Proved for all reference graphs over units that follow each other, for any limit. Refuted: a function that has a linkage name of its own does not get it if it refers to an entry that does not exist before that attribute; no function of the unit is read then."
  },
  {
   "property": "C43",
   "status": "partial",
   "theorems": [
    "C43_batch",
    "C43_length",
    "C43_process",
    "C43_missing_refuted",
    "C43_dispatch_refuted",
    "C43_links_refuted"
   ],
   "note": "Proved for every source other than processes without conditions, and for processes whose files are known by one name each, whose debug files are other files, and whose dispatcher depends on the name only. Refuted without these; and for processes an error of one address fails the batch."
  },
  {
   "property": "C44",
   "status": "partial",
   "theorems": [
    "C44_rejected",
    "C44_rejected_single",
    "C44_elf",
    "C44_accepted",
    "C44_elf_refuted"
   ],
   "note": "Proved for all sources but ELF files without conditions. ELF files are opened before the kind is looked at, so the error may be that of opening (refuted)."
  },
  {
   "property": "C45",
   "status": "partial",
   "theorems": [
    "C45_as_is",
    "C45_elf_offset",
    "C45_apk",
    "C45_process",
    "C45_wrapping",
    "C45_after_refuted",
    "C45_kernel_refuted"
   ],
   "note": "Proved for every resolver. Refuted: symbols reported to start after the address, which panic with overflow checks, and kernel images with an offset, where the offset is from the address in memory while the symbol's address is the one in the file."
  },
  {
   "property": "C46",
   "status": "partial",
   "theorems": [
    "C46_file",
    "C46_fresh",
    "C46_debug",
    "C46_gone",
    "C46_process",
    "C46_process_failed",
    "C46_evict_ok",
    "C46_evict",
    "C46_evict_process",
    "C46_broken_refuted",
    "C46_pins_refuted",
    "C46_again_refuted"
   ],
   "note": "Proved for all histories of operations and file systems. Refuted: caching fails for a file that became invalid and the earlier data is not used anymore; failing to cache pins data that was not cached explicitly; without automatic reloads caching again does nothing."
  },
  {
   "property": "C47",
   "status": "proved",
   "theorems": [
    "C47_taken",
    "C47_bounds",
    "C47_versions",
    "C47_too_small",
    "C47_old_process",
    "C47_layout",
    "C47_no_padding",
    "C47_process",
    "C47_kernel",
    "C47_symbolizer",
    "C47_normalize",
    "C47_gap_refuted",
    "C47_pointer_refuted",
    "C47_pointer"
   ],
   "note": "Proved for every input structure, declared size and content. The statement is proved. Refuted beyond it: padding between members that is documented to be zero (_reserved of the symbolizer's options) is not checked for clients that declare the full size; and for older clients a pointer past their structure is computed (not read)."
  },
  {
   "property": "C48",
   "status": "proved",
   "theorems": [
    "C48_results",
    "C48_meta_sym",
    "C48_infos",
    "C48_no_memory",
    "C48_reserved_refuted",
    "C48_offset_refuted",
    "C48_size_refuted"
   ],
   "note": "Layout proved for every list of results that fits into an allocation. Refuted beyond the statement: reserved bytes of known symbols are not initialised; a missing file offset is the offset 0; sizes saturate."
  },
  {
   "property": "C49",
   "status": "partial",
   "theorems": [
    "C49_map",
    "C49_map_ok",
    "C49_constrain",
    "C49_nested",
    "C49_empty_refuted",
    "C49_reversed_refuted",
    "C49_overflow_refuted"
   ],
   "note": "Proved for views of non-empty files and ranges in order whose end does not overflow; refuted for empty files, reversed ranges and overflowing ends."
  },
  {
   "property": "C50",
   "status": "partial",
   "theorems": [
    "C50_tag",
    "C50_only",
    "C50_display",
    "C50_roundtrip",
    "C50_plus_refuted",
    "C50_panic_refuted"
   ],
   "note": "Proved for names of ASCII characters without a plus sign. Refuted: a plus sign is accepted as part of a tag, and a name with other characters can panic."
  },
  {
   "property": "C51",
   "status": "partial",
   "theorems": [
    "C51_relocate",
    "C51_linked",
    "C51_32bit_refuted"
   ],
   "note": "Proved for 64 bit files with and without addends, and for 32 bit files as far as the symbols have the value of the first one; refuted otherwise for 32 bit files, where the symbol is ignored."
  },
  {
   "property": "C52",
   "status": "proved",
   "theorems": [
    "C52_once"
   ],
   "note": ""
  },
  {
   "property": "C53",
   "status": "partial",
   "theorems": [
    "C53_parsed",
    "C53_truncated",
    "C53_file",
    "C53_no_sections",
    "C53_unreadable_refuted"
   ],
   "note": "Parsing of section contents is proved fully, and for files whose section can be read. Refuted: if the section's data cannot be read (size past the end of the file) looking for the link panics instead of giving an error."
  },
  {
   "property": "C54",
   "status": "proved",
   "theorems": [
    "C54_align_up",
    "C54_align_up_overflow_refuted"
   ],
   "note": ""
  },
  {
   "property": "C55",
   "status": "proved",
   "theorems": [
    "C55_names",
    "C55_for_each"
   ],
   "note": ""
  },
  {
   "property": "C56",
   "status": "partial",
   "theorems": [
    "C56_safe",
    "C56_self_refuted"
   ],
   "note": "Proved for all histories if debug files are different files from the module. Refuted: a package of debug information that is a link to the module itself panics."
  },
  {
   "property": "C57",
   "status": "partial",
   "theorems": [
    "C57_lines",
    "C57_some_program",
    "C57_unique",
    "C57_symbol",
    "C57_same_tag_refuted",
    "C57_history_refuted",
    "C57_reload_refuted",
    "C57_vanishing_refuted",
    "C57_old_kernel_refuted"
   ],
   "note": "Proved for all programs, line tables and sequences of questions, if tags tell programs apart and the set of programs does not change. Refuted without: a program loaded twice has one tag, and addresses in one copy get lines of the other, depending on what was asked before; a program loaded anew is not found by tags remembered; a program vanishing during the search fails it; kernels without line information panic."
  },
  {
   "property": "C58",
   "status": "proved",
   "theorems": [
    "C58_reported",
    "C58_batch",
    "C58_elf_offset",
    "C58_one_name"
   ],
   "note": "Proved for every resolver, and for batches of all sources other than archives and processes (whose resolvers are used by the same function); demanglers are arbitrary functions."
  },
  {
   "property": "C59",
   "status": "partial",
   "theorems": [
    "C33_by_name",
    "C59_for_each",
    "C59_variables",
    "C59_others_refuted"
   ],
   "note": "Names and iteration are proved from the text of /proc/kallsyms. Refuted: looking up a name gives symbols of other names, too, all those after it in the order of names."
  },
  {
   "property": "C60",
   "status": "partial",
   "theorems": [
    "C60_used",
    "C60_present",
    "C60_new",
    "C60_missing",
    "C60_link_refuted",
    "C60_other_refuted"
   ],
   "note": "Proved for all histories and file systems. Refuted as documented (data per path): registering fails if there is data for another path of the same file, and what is registered is used for those paths as well."
  },
  {
   "property": "C61",
   "status": "partial",
   "theorems": [
    "C61_member",
    "C61_between",
    "C61_unreadable",
    "C61_debug_refuted",
    "C43_batch"
   ],
   "note": "Proved for archives looked at for the first time, any earlier history, dispatchers and members whose data ends below 2^64. Refuted for later lookups: the resolver of a member stays the one made first, also if debug symbols are wanted now and were not then."
  },
  {
   "property": "C62",
   "status": "partial",
   "theorems": [
    "C62_for_each",
    "C62_lookup",
    "C62_variables",
    "C62_second_refuted",
    "C62_pieces_refuted",
    "C62_text_refuted",
    "C62_broken_refuted"
   ],
   "note": "Proved for all units whose functions can be read and are in one piece: each function once, the first of a name per unit. Refuted: further functions of the name in the same unit are not found; functions in several pieces are reported at address 0 with size 0; a name that is no UTF-8 makes iteration panic; one unreadable unit makes all lookups by name fail."
  },
  {
   "property": "C63",
   "status": "partial",
   "theorems": [
    "C63_uncached",
    "C63_vmas",
    "C63_no_files",
    "C63_exited_refuted",
    "C63_lines_refuted",
    "C63_identity_refuted",
    "C63_archive_refuted",
    "C63_other_vdso_refuted",
    "C63_named_refuted"
   ],
   "note": "Proved for all histories with identifiable files, one vDSO, and no build IDs for archives. Refuted: with queries, cached mappings are of no use once the process is gone; with cached mappings a malformed line fails all addresses; a file that changes without its identity changing keeps its build ID, and archives their members even with caching disabled; the vDSO of another process is never looked at, our own is used; debug builds panic if the kernel has a build ID for a file named like an archive."
  },
  {
   "property": "C64",
   "status": "partial",
   "theorems": [
    "C64_lookup",
    "C64_for_each",
    "C64_plain",
    "C64_debug_refuted",
    "C64_name_refuted"
   ],
   "note": "Proved for all histories in which files that changed can be told by their identity and have one name each, and debug information of a file that did not change did not change either and is in another file. Refuted without: a separate debug file that shows up or changes later is not noticed, and a file with two names is reported under the first one used."
  },
  {
   "property": "C65",
   "status": "partial",
   "theorems": [
    "C65_symbolize",
    "C65_single",
    "C65_elf",
    "C65_breakpad",
    "C65_gsym",
    "C65_dispatch_refuted",
    "C65_debug_refuted"
   ],
   "note": "Proved for all histories without cache() and register_elf_resolver() in which files that changed can be told by their identity and have one name each, debug information of a file that did not change did not change either, an archive is always asked for in the same way, the own process has one vDSO, and the dispatcher says the same about mappings of the same name. Refuted without: what the dispatcher said of a component of one process is used for those of all, and debug files that show up later are not used. Caches of the kernel are not part of the state. The vDSO of other processes is taken to be the own one, as in create_vdso_parser."
  },
  {
   "property": "C66",
   "status": "partial",
   "theorems": [
    "C66_history",
    "C66_bounded",
    "C66_unpack_refuted",
    "C66_modules_refuted",
    "C66_reload_refuted"
   ],
   "note": "Proved for all histories in which files that changed can be told by their identity, debug information of a file that did not change did not change either, modules and the index of depmod are the same, and the offset of the kernel does not depend on the sources. Then results are those of Kernel (C34-C36) in the current world, and files kept are at most those looked at. Refuted without: modules loaded later are not seen; a compressed module is unpacked for each address looked up, and every copy is kept open; lists of symbols and images are read again although reloading was switched off in the builder. Offsets remembered for other sources: C36_shared_refuted."
  },
  {
   "property": "C67",
   "status": "proved",
   "theorems": [
    "C67_history",
    "C67_memory",
    "C67_zero_in_name"
   ],
   "note": "C67_history: for every history, allocator and heap to start with. C67_memory: running out of memory (which ends the process) is only due to the allocator. The hypotheses are that paths contain no zero (they cannot, coming from lines of /proc/<pid>/maps; C67_zero_in_name says what happens otherwise) and that symbols are as in C48. Memory is modelled as pieces of known layout; symbols as bytes as in C48."
  },
  {
   "property": "C68",
   "status": "partial",
   "theorems": [
    "C68_codes",
    "C68_arrays",
    "C68_call",
    "C68_threads",
    "C68_null",
    "C68_total",
    "C68_empty_refuted",
    "C68_names_refuted"
   ],
   "note": "Proved for all calls with valid arguments, all results of the library and all interleavings. Refuted: symbolizing no addresses returns NULL although there was no error (comments say NULL is for errors), and names of symbols that are not UTF-8 end the process in blaze_inspect_syms_elf. Not modelled: the callback of blaze_symbolizer_dispatch. What conversions of results look like in memory is C48 and C67."
  },
  {
   "property": "C69",
   "status": "partial",
   "theorems": [
    "C69_lines",
    "C69_plain",
    "C69_taken",
    "C69_events",
    "C69_zero_refuted",
    "C69_unfinished_refuted"
   ],
   "note": "Proved for all texts and pieces; lines with a zero arrive cut at the zero and without line feed (C69_zero_refuted), and a text not ending in a line feed is lost with its writer (C69_unfinished_refuted). That the tracing library writes events with a line feed at the end is not modelled."
  },
  {
   "property": "C70",
   "status": "proved",
   "theorems": [
    "C70_shape",
    "C70_kind",
    "C70_texts",
    "C70_made",
    "C70_boxed",
    "C70_boxed_refuted"
   ],
   "note": "For all errors and contexts. Without any context, {:#} shows an error of another library as that library does with {:#}; if that library is blazesym itself (an Error boxed or put in an io::Error), kinds are lost and causes are shown twice (C70_boxed_refuted), but once if a context is on top (C70_boxed). Not modelled: {:#?}, widths and other flags of formatters."
  },
  {
   "property": "C71",
   "status": "partial",
   "theorems": [
    "C71_direct",
    "C71_remote",
    "C71_batch",
    "C71_map_files_debug_refuted",
    "C71_apk_to_elf_refuted",
    "C71_execute_only_refuted"
   ],
   "note": "For all memory maps, addresses, states and files, without dispatchers, perf maps and with vdso set. With the same paths in the same world (C71_direct, C71_batch) also with debug symbols; elsewhere (C71_remote) without. False with debug symbols and map_files, since debug links are searched relative to the path reported; with apk_to_elf, whose paths name no file; and for execute-only memory if the kernel's query interface is used."
  },
  {
   "property": "C72",
   "status": "partial",
   "theorems": [
    "C72_total",
    "C72_elf",
    "C72_elf_offset",
    "C72_apk",
    "C72_apk_none",
    "C72_process",
    "C72_process_apk",
    "C72_process_apk_none",
    "C72_vdso",
    "C72_unmapped",
    "C72_gsym",
    "C72_gsym_unknown",
    "C72_gsym_data",
    "C72_breakpad",
    "C72_breakpad_unknown",
    "C72_perf",
    "C72_unreadable",
    "C72_unreadable_among"
   ],
   "note": "For all files of the formats and all addresses, with a new symbolizer, no debug symbols and no dispatchers; Gsym and Breakpad functions without line information. What C27 says of the first symbol of an ELF file is excepted (not_in), functions of Breakpad files and perf maps must not overlap (C21, C37)."
  },
  {
   "property": "C73",
   "status": "partial",
   "theorems": [
    "C73_elf",
    "C73_unreadable",
    "C73_some",
    "C73_apk",
    "C73_apk_none",
    "C73_apk_itself",
    "C73_vdso",
    "C73_unmapped",
    "C73_later",
    "C73_member_refuted"
   ],
   "note": "For all files of the formats and all addresses, a new normalizer, and maps read from /proc/<pid>/maps (for the query interface see C14). C73_apk is for a single address, as files in archives may share a path; the others are for any list. Refuted: a file in an archive that build IDs cannot be read from (byte code, say) fails the whole call, although other files do not. A build ID is that of the first such note, provided that notes of the type are GNU's (C31)."
  },
  {
   "property": "C74",
   "status": "partial",
   "theorems": [
    "C74_symbolize",
    "C74_error",
    "C74_process",
    "C74_unambiguous",
    "C74_headers",
    "C74_columns",
    "C74_columns_refuted",
    "C74_build_id",
    "C74_build_id_unambiguous",
    "C74_normalize",
    "C74_normalize_unambiguous",
    "C74_normalize_refuted",
    "C74_lookup",
    "C74_dump",
    "C74_infos_unambiguous",
    "C74_addr",
    "C74_addr_printed",
    "C74_addr_only",
    "C74_addr_refuted",
    "C74_pid"
   ],
   "note": "Standard output as bytes. Refuted: normalize panics if an address is in the vDSO; names of inlined functions are not below that of the function they are inlined in for addresses of 2^56 and more, like those of the kernel; an address may have more than one 0x prefix. C74_process is subject to the conditions of C43. Parsing of the command line by clap, traces on standard error and errors as text are not modelled; paths that are not UTF-8 are printed with replacements, which is not modelled either."
  },
  {
   "property": "C75",
   "status": "partial",
   "theorems": [
    "C75_lookup",
    "C75_visit",
    "C75_lookup_breakpad",
    "C75_visit_breakpad",
    "C75_steady",
    "C75_first",
    "C75_total",
    "C75_print_lookup",
    "C75_print_dump",
    "C75_stop_refuted"
   ],
   "note": "ELF files without use of debug information, and Breakpad files. Refuted: the callback asking to stop ends the symbol table only, dynamic symbols still follow (C75_stop_refuted). Dynamic symbols may be missing where the symbol table has another one for the address (see C29). Debug information is not covered."
  },
  {
   "property": "C76",
   "status": "partial",
   "theorems": [
    "C76_symbolize",
    "C76_single",
    "C76_missing",
    "C76_no_source",
    "C76_offset_refuted"
   ],
   "note": "Without use of debug information. Refuted: for kernels that were moved and for modules the offset reported is too large by the kernel's offset or the module's address (C76_offset_refuted). Lists of symbols with names that make the parser panic are left out (C50), as are core files whose note lies far into the file (C36)."
  },
  {
   "property": "C77",
   "status": "proved",
   "theorems": [
    "C77_single",
    "C77_symbolize"
   ],
   "note": "ELF files without use of debug information; source lines and inlined functions are those of Gsym and Breakpad files (inlined functions only where there is a line for the address, see C19 and C22). Lists are not empty. No dispatchers of archives and processes."
  },
  {
   "property": "C78",
   "status": "proved",
   "theorems": [
    "C78_options",
    "C78_options_refused",
    "C78_default",
    "C78_refused",
    "C78_error",
    "C78_no_memory",
    "C78_nothing",
    "C78_symbolize"
   ],
   "note": "The answers are those of C77, with its conditions (ELF files without use of debug information; no dispatcher). Results whose layout is not over isize::MAX. Paths are shorter than the fuel of reading strings, which is arbitrary. The kernel's function is not among those here (C47, C68). That the library's symbolizer is used by the program with the configuration it was created with is by the model's types."
  },
  {
   "property": "C79",
   "status": "partial",
   "theorems": [
    "C79_units",
    "C79_function",
    "C79_location",
    "C79_symbol",
    "C79_bounds_refuted",
    "C79_text_refuted"
   ],
   "note": "That lookups succeed is proved for everything readable in the sense of DwarfReadSpec.v; refuted for names that are not UTF-8 text and for bounds in the wrong order, which the code does not handle. The last address of the address space is left out. The symbols of the file with the debug information, which are asked for when it has no function, are assumed to be readable."
  },
  {
   "property": "C80",
   "status": "partial",
   "theorems": [
    "C80_single",
    "C80_symbolize",
    "C80_error",
    "C80_module_refuted"
   ],
   "note": "Refuted for the module: without a function in the debug information, the path of the debug file is reported. gimli's reading of sections, checksums and canonical paths are given (debug_env); what has to hold of the sections is as in C79. Functions with one range. Members of archives and packages of debug information are included; split units as in C39. For lists of addresses in processes, no file is both mapped and another one's debug file. No dispatchers. Not for C programs (C78)."
  },
  {
   "property": "C81",
   "status": "partial",
   "theorems": [
    "C81_lookup",
    "C81_visit",
    "C81_error",
    "C81_steady",
    "C81_print_lookup",
    "C81_print_dump",
    "C81_all_refuted"
   ],
   "note": "Refuted: symbols found by name are not all iterated over. gimli's reading of sections, checksums and canonical paths are given (debug_env), as for C80. Functions are in one piece and names are text (C62 says what happens otherwise). For histories, the host does not change (or is as C64 asks for)."
  },
  {
   "property": "C82",
   "status": "partial",
   "theorems": [
    "C82_output",
    "C82_free",
    "C82_free_null",
    "C82_session",
    "C82_normalize",
    "C82_normalize_opts",
    "C82_refused",
    "C82_options",
    "C82_options_refused",
    "C82_default_refuted",
    "C82_nul",
    "C82_nul_refuted"
   ],
   "note": "Refuted: paths may have zero bytes, which CString::new refuses, so that the call panics (C82_nul); build IDs are read by default, but not with zeroed options. The allocator is any that is sound; running out of memory ends the program, as in Rust. Allocations are the heap of the model: that Rust's allocator is the one C programs see is assumed. The query interface (PROCMAP_QUERY) is not part of the host."
  },
  {
   "property": "C83",
   "status": "partial",
   "theorems": [
    "C83_made",
    "C83_makes",
    "C83_held",
    "C83_null",
    "C83_lookup",
    "C83_error",
    "C83_refused",
    "C83_history",
    "C83_elf",
    "C83_debug",
    "C83_build_id",
    "C83_build_id_error",
    "C83_build_id_file",
    "C83_build_id_none",
    "C83_build_id_crash_refuted"
   ],
   "note": "Refuted: reading a build ID panics on files with notes out of bounds. Results are at most 2^63 - 8 bytes in size. Symbols must not be below the addresses of their sections (placed), where subtractions overflow. Names that are not text end the program by the code's own unwrap and are excluded."
  },
  {
   "property": "C84",
   "status": "partial",
   "theorems": [
    "C84_dispatch",
    "C84_memory",
    "C84_component",
    "C84_nul",
    "C84_registered",
    "C84_lent",
    "C84_process",
    "C84_history",
    "C84_replaced"
   ],
   "note": "C84_history and C84_replaced are about functions whose choice depends on the paths only and histories without explicit caching in which nothing gets in the way of remembering (undisturbed, as in C65); a function that runs out of memory may return NULL in C84_dispatch and C84_memory. The heap and the Symbolizer are put together by dispatched, the answer in both; opening the replacement (opens) is elf_alone of HistorySpec.v, opening without a cache. Memory of resolvers and errors is not modelled. C84_lent: returning what malloc did not allocate is undefined behaviour."
  },
  {
   "property": "C85",
   "status": "partial",
   "theorems": [
    "C85_to_virt",
    "C85_to_file",
    "C85_missing",
    "C85_error",
    "C85_elf",
    "C85_process",
    "C85_process_error",
    "C85_missing_refuted",
    "C85_invented_refuted",
    "C85_batch_refuted"
   ],
   "note": "For mapped files; the other way of reading is in use for /proc/kcore only (C36). Refuted for 64 bit files, of which one fails all addresses of a process in a batch (C85_batch_refuted). On a host (C85_elf, C85_process) with a new symbolizer and no debug symbols. Nothing is said in general about 64 bit files of 64 * e_phoff bytes or more: the outcome depends on their bytes, see C85_invented_refuted."
  },
  {
   "property": "C86",
   "status": "partial",
   "theorems": [
    "C86_find_sym",
    "C86_rest",
    "C86_offsets",
    "C86_elf",
    "C86_process",
    "C86_invented_refuted"
   ],
   "note": "For mapped files on a little endian machine; on a host (C86_elf, C86_process) with a new symbolizer and no debug symbols. Larger files are not covered, nor 32 bit files with section headers at multiples of 256, for which it is false."
  },
  {
   "property": "C87",
   "status": "partial",
   "theorems": [
    "C87_refused",
    "C87_error",
    "C87_file",
    "C87_process",
    "C87_process_failed",
    "C87_process_unset",
    "C87_contents",
    "C87_debug",
    "C87_again",
    "C87_null_refuted",
    "C87_failed_refuted"
   ],
   "note": "C87_contents is about a file cached first thing with a new symbolizer and answers without debug symbols; C87_file covers any earlier calls. Calls of programs are those of C78 (no kernel addresses, no dispatch callback) and the caching ones. Undefined behaviour (reading a NULL string) is Panic."
  }
 ]
}