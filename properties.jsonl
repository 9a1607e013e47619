{"id": "C01", "title": "Address lookup picks the first best-matching entry of a sorted table", "statement": "Looking an address up in a sorted symbol/module/line table yields the first entry whose start equals the address; if there is none it yields the first of all entries sharing the greatest start below the address; it yields nothing exactly when every start lies above the address (or the table is empty).", "quantifier": "every table sorted by start (any length, any duplicates) and every address", "why_tests_cant": "Tests use a handful of tables; the run-of-duplicates and boundary cases depend on position and length of the run.", "anchors": ["src/util.rs: find_match_or_lower_bound_by_key", "src/util.rs: find_lowest_match_by"]}
{"id": "C02", "title": "Exact-match lookup returns the lowest match", "statement": "Exact lookup in a sorted table returns the lowest index of a matching entry, and reports nothing if and only if no entry matches.", "quantifier": "every sorted table and every key", "why_tests_cant": "The claim is an iff over unboundedly many tables.", "anchors": ["src/util.rs: find_lowest_match_by, find_lowest_match_by_key"]}
{"id": "C03", "title": "Variable length integers decode to the encoded value and consume exactly their bytes", "statement": "Decoding the LEB128 encoding (minimal or padded up to the type's width) of any 64-bit unsigned or signed value yields that value and leaves the reader exactly after the encoding; a truncated encoding is rejected and never read past the end.", "quantifier": "every u64/i64 value, every padding that fits, every trailing data", "why_tests_cant": "2^64 values times paddings; round-trip tests sample a few.", "anchors": ["src/util.rs: ReadRaw::read_u64_leb128, read_i64_leb128"]}
{"id": "C04", "title": "Results are reported in the order of the inputs", "statement": "Normalizing or symbolizing a batch of addresses that internally gets processed in sorted order returns exactly one result per input, and the i-th result is the one computed for the i-th input address, for every order and multiplicity of inputs.", "quantifier": "every input list (any permutation, duplicates) and every per-address processing function", "why_tests_cant": "The in-place cycle permutation must be right for all n! orders of every length, including that its inner loop terminates.", "anchors": ["src/util.rs: reorder, with_ordered_elems", "src/normalize/normalizer.rs: normalize_user_addrs_opts", "src/symbolize/symbolizer.rs: symbolize_user_addrs"]}
{"id": "C05", "title": "Hexadecimal fields are parsed exactly", "statement": "Parsing a hexadecimal text of at most 16 digits yields its numeric value; any non-hex byte makes the parse fail; longer texts never produce a wrong value silently.", "quantifier": "every byte string", "why_tests_cant": "Unbounded strings; the overflow case depends on arithmetic mode.", "anchors": ["src/util.rs: from_radix_16, ascii_to_hexdigit", "src/breakpad/parser.rs: hex_str"]}
{"id": "C06", "title": "File cache reference counting is exact for every history", "statement": "For every sequence of lookups, pins, unpins and evictions, interleaved with arbitrary changes of the files on disk, each cached file version is kept exactly as long as some not-yet-evicted path has referred to it, the cache's internal lookups never fail, and reference counts never underflow.", "quantifier": "every finite history of API calls and file system changes (content changes, symlink flips, hard links, deletions)", "why_tests_cant": "Histories are unbounded; tests exercise a few short ones.", "anchors": ["src/file_cache.rs: FileCache::entry, get_or_insert, evict, PathEntry::metas"]}
{"id": "C07", "title": "File cache hands out data for the right version of a file", "statement": "With auto reload on, looking up an unpinned path always hands out the slot belonging to the identity (device, inode, size, mtime) the path has at that moment; a pinned path, or any known path with auto reload off, keeps handing out the slot that was current when it was pinned/first loaded, whatever happens to the file.", "quantifier": "every history and every file system state", "why_tests_cant": "Depends on full history of file system states.", "anchors": ["src/file_cache.rs: FileCache::entry, pin, unpin"]}
{"id": "C08", "title": "Eviction removes all and only the data of the evicted path", "statement": "After evicting a path, every version of data reachable only through it is gone and every version reachable through another path is still available with its contents; eviction reports true exactly if something was removed, and evicting an unknown path changes nothing.", "quantifier": "every cache state reachable by any history and every path", "why_tests_cant": "Quantifies over sharing patterns between arbitrarily many paths.", "anchors": ["src/file_cache.rs: FileCache::evict"]}
{"id": "C09", "title": "Failed file lookups leave the cache unchanged", "statement": "If looking up a path fails (file missing or not openable), no path or data entry is created, and all other cached data stays available.", "quantifier": "every reachable cache state and every failure", "why_tests_cant": "Needs every reachable state.", "anchors": ["src/file_cache.rs: FileCache::entry, get_or_insert"]}
{"id": "C10", "title": "Normalization attributes every address to the mapping containing it", "statement": "For each user address, the normalized output is the file offset (address - mapping start + mapping offset) together with meta data for exactly the mapping that contains the address.", "quantifier": "every list of addresses and every sorted, non-overlapping memory map", "why_tests_cant": "Merge-style walk over two unbounded sequences.", "anchors": ["src/normalize/user.rs: normalize_sorted_user_addrs_with_entries, handle_entry_addr"]}
{"id": "C11", "title": "Addresses outside every mapping are reported as unknown, unchanged", "statement": "An address that lies in no (relevant) mapping is reported with reason Unmapped and with its numeric value as given in the input; it never aborts the batch and is never attributed to a mapping.", "quantifier": "every list of addresses and every memory map, including addresses past the last mapping and empty maps", "why_tests_cant": "Quantifies over gaps and boundaries of arbitrary maps.", "anchors": ["src/normalize/user.rs: normalize_sorted_user_addrs_with_entries, add_unknown_addr"]}
{"id": "C12", "title": "Normalization meta data is well-indexed and free of duplicates", "statement": "Every output's meta index is in range, each mapped path contributes at most one meta entry, each unknown reason contributes at most one, and all addresses of the same path/reason share that entry.", "quantifier": "every address list and every memory map", "why_tests_cant": "An invariant over every prefix of processing.", "anchors": ["src/normalize/user.rs: add_unknown_addr, add_normalized_offset"]}
{"id": "C13", "title": "Sorted-input contract of normalization", "statement": "If the caller promises sorted input and the input is sorted, the result equals that of the unsorted API; if it is not sorted, the call fails with an invalid-input error rather than returning a result.", "quantifier": "every address list and every memory map", "why_tests_cant": "Quantifies over all lists; failing position arbitrary.", "anchors": ["src/normalize/normalizer.rs: normalize_user_addrs_opts", "src/normalize/user.rs: normalize_sorted_user_addrs_with_entries"]}
{"id": "C14", "title": "All ways of reading the memory map agree", "statement": "Normalizing with the textual memory map, with the kernel query interface, and with cached mappings yields the same outputs for the same address space.", "quantifier": "every address space and every address list", "why_tests_cant": "Two different iteration protocols must agree on all inputs.", "anchors": ["src/normalize/normalizer.rs: normalize_user_addrs_iter", "src/normalize/ioctl.rs: query_procmap"]}
{"id": "C15", "title": "Addresses in APK members are translated to the member's own offsets", "statement": "A file offset that falls into the data of a stored archive member is reported relative to that member, naming that member; an offset in no member is reported as unknown/untranslated.", "quantifier": "every archive directory and every offset", "why_tests_cant": "Quantifies over all archive layouts.", "anchors": ["src/normalize/normalizer.rs: translate_apk_to_elf", "src/symbolize/symbolizer.rs: create_apk_resolver"]}
{"id": "C16", "title": "Gsym address lookup is sound and complete", "statement": "Looking up an address in a Gsym table returns a symbol only if the address is at or after the symbol's start and within its size (or the size is zero), and the reported symbol is the entry with the greatest start not above the address; an address covered by the table is found.", "quantifier": "every Gsym header, address table and address", "why_tests_cant": "Ranges over all tables and all addresses, including duplicates and boundaries.", "anchors": ["src/gsym/parser.rs: find_addr, addr_at, addr_info", "src/gsym/resolver.rs: find_sym"]}
{"id": "C17", "title": "Gsym parsing is total on arbitrary bytes", "statement": "Opening and querying arbitrary bytes as Gsym data terminates and reports either a result or an error; no access beyond the data is ever made.", "quantifier": "every byte string and every address", "why_tests_cant": "Adversarial inputs are unbounded; fuzzing samples.", "anchors": ["src/gsym/parser.rs", "src/gsym/linetab.rs", "src/gsym/inline.rs", "src/gsym/resolver.rs"]}
{"id": "C18", "title": "Gsym line lookup reports the row in effect at the address", "statement": "For a line program with monotone addresses the reported line is that of the last row whose address does not exceed the queried address; addresses before the first row get no line.", "quantifier": "every line program (opcode sequence) and every address", "why_tests_cant": "Unbounded opcode sequences.", "anchors": ["src/gsym/linetab.rs: run_op", "src/gsym/resolver.rs: parse_line_tab_info"]}
{"id": "C19", "title": "Gsym inline information is exactly the chain of inlined calls covering the address", "statement": "The inlined functions reported for an address are the chain of nested inline records covering the address, outermost first, skipping any record (with its whole subtree) that does not cover it.", "quantifier": "every inline tree, its encoding and every address", "why_tests_cant": "Unbounded nesting depth and breadth; skipping and parsing must consume the same bytes.", "anchors": ["src/gsym/inline.rs: InlineInfo::skip, parse_into_stack, parse_inline_stack"]}
{"id": "C20", "title": "Source locations are attributed to the right frame of an inline chain", "statement": "Given the location of the address itself and the call sites of the inlined functions, each frame of the reported chain carries the location at which it was executing: the outer function the call site of the outermost inlined function, each inlined function the call site of the next one, and the innermost the location of the address.", "quantifier": "every chain length and every presence/absence pattern of locations", "why_tests_cant": "Unbounded chain length and optional fields.", "anchors": ["src/dwarf/resolver.rs: Units::fill_code_info", "src/gsym/resolver.rs: fill_code_info", "src/breakpad/resolver.rs: fill_code_info"]}
{"id": "C21", "title": "Breakpad function lookup is sound and complete", "statement": "An address covered by a function record of a symbol file is resolved to a function covering it, and an address covered by no record is reported unknown.", "quantifier": "every set of function records and every address", "why_tests_cant": "All tables, including nested and overlapping records.", "anchors": ["src/breakpad/types.rs: SymbolFile::find_function", "src/breakpad/resolver.rs: find_sym"]}
{"id": "C22", "title": "Breakpad line and inline lookup", "statement": "For an address in a function, the reported line is that of the line record covering the address and the reported inlinees are, per depth, the records covering the address, consecutive from depth zero.", "quantifier": "every function record with arbitrary line and inline records and every address", "why_tests_cant": "Quantifies over all record sets.", "anchors": ["src/breakpad/types.rs: Function::find_line, find_inlinee_at_depth, find_inlinees"]}
{"id": "C23", "title": "Breakpad parsing recovers exactly the records written", "statement": "Parsing a symbol file consisting of well-formed records yields exactly those records (functions with their lines and inlines, sorted by address), independent of order and of interleaved ignorable records; parsing of arbitrary bytes terminates.", "quantifier": "every well-formed record sequence; every byte string for termination", "why_tests_cant": "Round trip over all files.", "anchors": ["src/breakpad/parser.rs: SymbolParser::parse, finish, parse_func_subline"]}
{"id": "C24", "title": "Zip directory reading stays in bounds and reports true data offsets", "statement": "Every archive member reported has its data fully inside the archive, its data offset and contents agree with the archive bytes, and a malformed directory yields an error instead of out-of-bounds data.", "quantifier": "every byte string as archive", "why_tests_cant": "Adversarial archives are unbounded.", "anchors": ["src/zip.rs: Archive::entries, parse_entry_at_offset, find_cd"]}
{"id": "C25", "title": "Zip end-of-directory search finds the record", "statement": "If an archive ends with a valid end-of-central-directory record (with any comment up to the format's limit) the directory is found, and what is found is consistent with the archive's bytes.", "quantifier": "every archive and every comment length", "why_tests_cant": "Comment length and position vary over the full range.", "anchors": ["src/zip.rs: find_cd, try_parse_end_of_cd"]}
{"id": "C26", "title": "Memory map lines are parsed faithfully", "statement": "Parsing a line of a process memory map in the kernel's format returns precisely the range, permissions, offset and path it was printed from, for every path including ones with spaces and the deleted suffix; malformed lines give errors.", "quantifier": "every mapping and path; every byte string for malformed lines", "why_tests_cant": "All addresses, permissions and path strings.", "anchors": ["src/maps.rs: parse_maps_line, parse_path_name, parse_mode_str"]}
{"id": "C27", "title": "ELF symbol lookup by address is sound and complete", "statement": "Address lookup in an ELF symbol table returns a defined symbol starting at or before the address that covers it (or has no size and is the closest one), and finds a symbol whenever a defined one with a size covers the address.", "quantifier": "every symbol table and every address", "why_tests_cant": "All tables, with duplicates, zero sizes, overlaps and undefined symbols.", "anchors": ["src/elf/parser.rs: find_sym, create_by_addr_idx, Symbolize for ElfParser"]}
{"id": "C28", "title": "File offset and virtual offset translations are inverse", "statement": "Translating a file offset of a loadable segment to a virtual offset and back gives the original; a file offset outside every segment is reported as untranslatable.", "quantifier": "every program header table and every offset", "why_tests_cant": "All segment layouts.", "anchors": ["src/elf/parser.rs: find_file_offset, file_offset_to_virt_offset, file_offset"]}
{"id": "C29", "title": "ELF symbol lookup by name returns exactly the symbols of that name", "statement": "Looking up a name returns precisely the symbols with that name (and requested type) present in the symbol table, falling back to dynamic symbols.", "quantifier": "every symbol table, every name", "why_tests_cant": "All tables with duplicates.", "anchors": ["src/elf/parser.rs: find_addr_impl, find_addr, create_str2sym"]}
{"id": "C30", "title": "Symbol iteration visits every symbol once and stops on request", "statement": "Iterating over symbols visits exactly the defined symbols of the requested kind, and no further symbol is reported after the callback asked to stop.", "quantifier": "every symbol table and every callback behaviour", "why_tests_cant": "All callbacks and tables.", "anchors": ["src/elf/parser.rs: for_each_sym_impl, for_each"]}
{"id": "C31", "title": "Build IDs are read from well-formed notes only", "statement": "Reading a build ID returns the descriptor of the first build-ID note in note sections, never bytes outside the section, and malformed notes do not crash.", "quantifier": "every note section contents", "why_tests_cant": "Adversarial note data.", "anchors": ["src/normalize/buildid.rs: read_build_id"]}
{"id": "C32", "title": "Kernel module lookup by address", "statement": "An address is attributed to a kernel module iff it falls in the module's [base, base+size) range as listed by the kernel.", "quantifier": "every module list and address", "why_tests_cant": "All lists, boundaries, duplicates.", "anchors": ["src/kernel/modmap.rs: from_reader, find_module"]}
{"id": "C33", "title": "Kernel symbol lookup returns the closest preceding symbol", "statement": "A kernel address resolves to a symbol with the greatest start not above it; lookups in an empty list and below the first symbol are reported as unknown with the right reason.", "quantifier": "every kernel symbol list and address", "why_tests_cant": "All lists with duplicates.", "anchors": ["src/kernel/ksym.rs: load_from_reader, find_ksym"]}
{"id": "C34", "title": "Kernel source precedence", "statement": "Kernel addresses in a module are resolved from that module only; others prefer the kernel image (corrected by the address-space offset) unless it only has a size-less symbol, and otherwise fall back to the kernel symbol list.", "quantifier": "every combination of available sources and lookup outcomes", "why_tests_cant": "All combinations of resolver behaviours.", "anchors": ["src/kernel/resolver.rs: find_sym"]}
{"id": "C35", "title": "Module path index lookup", "statement": "Looking a module name up in the index file yields exactly the path stored for that name, and nothing for names not stored; arbitrary file contents never cause non-termination or out-of-bounds access.", "quantifier": "every index trie, every name; every byte string", "why_tests_cant": "Unbounded tries and adversarial files.", "anchors": ["src/kernel/depmod.rs: find_path"]}
{"id": "C36", "title": "Kernel address-space offset discovery", "statement": "The kernel offset is taken from the core file's notes if one of them states it, otherwise from comparing the kernel start symbol; notes anywhere in the note segment are considered.", "quantifier": "every core file layout and source availability", "why_tests_cant": "All segment offsets and note sequences.", "anchors": ["src/kernel/kaslr.rs: read_kcore_kaslr_offset, find_kaslr_offset"]}
{"id": "C37", "title": "Perf map lookup", "statement": "An address resolves to a map entry covering it; every line of the map is honoured; in maps without overlaps every covered address is found.", "quantifier": "every perf map text and address", "why_tests_cant": "All maps with duplicates and zero sizes.", "anchors": ["src/perf_map.rs: parse_perf_map, find_sym"]}
{"id": "C38", "title": "Compilation unit lookup finds exactly the units covering an address", "statement": "The units consulted for an address are exactly those one of whose ranges contains the address, whatever overlaps exist.", "quantifier": "every set of unit ranges and every address", "why_tests_cant": "Needs the running-maximum pruning to be right for all range sets.", "anchors": ["src/dwarf/units.rs: Units::parse, find_units_range"]}
{"id": "C39", "title": "Debug info function and inline lookup", "statement": "An address is resolved to a function whose range contains it if ranges are disjoint, and inlined calls reported are the chain covering the address at consecutive depths.", "quantifier": "every set of disjoint ranges, every properly nested inline tree, every address", "why_tests_cant": "All nesting structures.", "anchors": ["src/dwarf/function.rs: find_address, find_inlined_functions"]}
{"id": "C40", "title": "Debug info line lookup reports the row in effect", "statement": "For line sequences as produced by a line program, the location reported for an address in a sequence is that of the last row at or before it; addresses outside of every sequence get no location.", "quantifier": "every line program row stream and address", "why_tests_cant": "All row streams.", "anchors": ["src/dwarf/lines.rs: Lines::parse, find_location"]}
{"id": "C41", "title": "Separate debug file search", "statement": "The candidate list for a separate debug file is finite, in the documented order, and never includes the file containing the link itself; a found file whose checksum differs is rejected.", "quantifier": "every set of directories, link names, build IDs and paths", "why_tests_cant": "State machine over arbitrary lists of directories and path depths.", "anchors": ["src/dwarf/debug_link.rs: DebugFileIter, parse_debug_link_section_data", "src/dwarf/resolver.rs: try_deref_debug_link"]}
{"id": "C42", "title": "Function name resolution terminates", "statement": "Resolving a function's name through references terminates for every reference graph including cycles, and a name reachable within the limit along the reference chain is found.", "quantifier": "every reference graph", "why_tests_cant": "Cyclic graphs of any shape.", "anchors": ["src/dwarf/function.rs: name_entry, name_attr"]}
{"id": "C43", "title": "Batch symbolization returns one result per address and agrees with single lookups", "statement": "Symbolizing a batch gives one result per address in order, each equal to what symbolizing that address alone gives, with a single address' error reported as unknown without affecting others.", "quantifier": "every source behaviour and every batch", "why_tests_cant": "Quantifies over arbitrary batches and failing positions.", "anchors": ["src/symbolize/symbolizer.rs: symbolize, symbolize_single, symbolize_impl"]}
{"id": "C44", "title": "Supported input kinds per source", "statement": "Each symbolization source accepts exactly the input kinds documented for it, and rejects others with an unsupported error before doing any lookup.", "quantifier": "every source kind and input kind", "why_tests_cant": "A finite table, but must hold for all addresses.", "anchors": ["src/symbolize/symbolizer.rs: symbolize_impl"]}
{"id": "C45", "title": "Reported offset and symbol address are consistent", "statement": "For every successfully symbolized address, symbol address plus reported offset equals the looked-up (normalized) address.", "quantifier": "every resolver and address", "why_tests_cant": "All sources and addresses.", "anchors": ["src/symbolize/symbolizer.rs: symbolize_with_resolver"]}
{"id": "C46", "title": "Explicit caching pins, and failing to cache leaves cached data usable", "statement": "After caching a source, later symbolization uses the cached version irrespective of file changes until it is cached again or evicted.", "quantifier": "every history of caching, file changes, lookups and evictions", "why_tests_cant": "Histories are unbounded.", "anchors": ["src/symbolize/symbolizer.rs: cache, evict", "src/file_cache.rs"]}
{"id": "C47", "title": "C structs of older and newer clients are handled compatibly", "statement": "A structure from an older client behaves as if the missing tail were zero; one from a newer client is accepted iff the unknown tail is zero.", "quantifier": "every declared size and content", "why_tests_cant": "All sizes and contents.", "anchors": ["capi/src/lib.rs: input_zeroed!, input_sanitize!", "capi/src/util.rs: is_mem_zero"]}
{"id": "C48", "title": "C result buffers are laid out in bounds without overlap", "statement": "Every pointer in the result handed to C points to a NUL terminated copy of the right string or an array of the right length inside the single allocation, parts never overlap, and freeing uses the allocation's size.", "quantifier": "every list of results", "why_tests_cant": "All result shapes.", "anchors": ["capi/src/symbolize.rs: convert_symbolizedresults_to_c, convert_sym, make_cstr", "capi/src/inspect.rs: convert_syms_list_to_c"]}
{"id": "C49", "title": "Restricting a mapped file to a member's range", "statement": "Restricting a mapping to a range succeeds iff the range lies inside the current view and then exposes exactly those bytes; nested restrictions compose.", "quantifier": "every mapping size and every range", "why_tests_cant": "All ranges, nested.", "anchors": ["src/mmap.rs: Mmap::constrain, Deref"]}
{"id": "C50", "title": "BPF program tags in kernel symbol names", "statement": "A kernel symbol name is recognised as a BPF program iff it has the prescribed prefix and a 16 digit hex tag; the tag parsed prints back to the same text.", "quantifier": "every name", "why_tests_cant": "All strings.", "anchors": ["src/kernel/bpf/prog.rs: BpfTag::from_str, BpfProg::parse"]}
{"id": "C51", "title": "Relocations are applied to the right place with the right value", "statement": "Reading a field at an offset with a relocation returns symbol value plus addend (plus stored value if implicit); other fields are returned unchanged.", "quantifier": "every relocation table, symbol table and offset; 32 and 64 bit, with and without addend", "why_tests_cant": "All tables.", "anchors": ["src/elf/relocations.rs", "src/elf/parser.rs: parse_section_relocs", "src/elf/types.rs"]}
{"id": "C52", "title": "One-time initialisation", "statement": "Lazily computed data is computed at most once successfully, failures are not remembered, and all later users observe the first successful value.", "quantifier": "every sequence of attempts", "why_tests_cant": "All histories.", "anchors": ["src/util.rs: OnceCellExt::get_or_try_init_", "src/insert_map.rs"]}
{"id": "C53", "title": "Debug link section parsing", "statement": "The debug link section is parsed to the file name up to its NUL and the checksum at the next four byte boundary; truncated sections give an error.", "quantifier": "every section contents", "why_tests_cant": "All byte strings.", "anchors": ["src/dwarf/debug_link.rs: parse_debug_link_section_data"]}
{"id": "C54", "title": "Alignment helper", "statement": "Aligning a value up yields the least multiple of the alignment not below the value whenever that is representable.", "quantifier": "every value and every power of two", "why_tests_cant": "2^32/2^64 values.", "anchors": ["src/util.rs: align_up_u32, align_up_usize"]}
{"id": "C55", "title": "Breakpad names", "statement": "Looking up a name in a Breakpad file reports exactly the functions of that name, in address order; iterating reports every function exactly once.", "quantifier": "every file and every name, incl. several functions of one name", "why_tests_cant": "All tables, incl. duplicates and name prefixes of each other.", "anchors": ["src/breakpad/types.rs: create_by_name_idx, find_addr", "src/breakpad/resolver.rs: Inspect"]}
{"id": "C56", "title": "Looking up an ELF file never panics", "statement": "Getting hold of the resolver of an ELF file, with or without debug information, ends with a resolver or an error, whatever was looked up, cached, registered or evicted before and whatever files have become in between.", "quantifier": "every history of operations, every file system and every contents of files", "why_tests_cant": "The cache's cells are filled by nested lookups (links to debug files and packages); which states of a cell are reachable depends on the whole history.", "anchors": ["src/elf/resolver.rs: ElfResolverCache::elf_resolver, register", "src/dwarf/resolver.rs: from_parser, try_deref_debug_link, try_find_dwp"]}
{"id": "C57", "title": "Source lines of BPF programs", "statement": "Source information reported for an address in a BPF program is that of the line record of this program with the greatest address not above it; there is none if the program has no BTF or all records are above; whatever was asked before.", "quantifier": "every set of loaded programs with any line information, every sequence of addresses asked about", "why_tests_cant": "The set of programs, their line tables and the state of the two caches are arbitrary.", "anchors": ["src/kernel/bpf/prog.rs: BpfInfoCache::lookup, query_line_info, retrieve_code_info", "src/kernel/bpf/btf.rs", "src/kernel/bpf/sys.rs: bpf_line_info"]}
{"id": "C58", "title": "What is reported for a symbol found", "statement": "A symbol reported has the module, address, size and source information that the source has for it; its name and those of inlined functions are demangled by the language's scheme if demangling is enabled (Rust, then C++, for an unknown language), unchanged if they are not mangled or demangling is disabled. Source information is asked for if enabled, inlined functions if both are. Reasons and errors are passed on.", "quantifier": "every resolver, address, name, language and configuration", "why_tests_cant": "All combinations of options, languages and outcomes of demangling; arbitrary many inlined functions.", "anchors": ["src/symbolize/symbolizer.rs: maybe_demangle, symbolize_with_resolver, Builder::build"]}
{"id": "C59", "title": "Kernel symbols by name and iteration", "statement": "Looking up a name in /proc/kallsyms gives the symbols of that name, the lowest address first; iterating gives every symbol exactly once, until told to stop; there are no kernel variables.", "quantifier": "every kallsyms file, every name, every visitor", "why_tests_cant": "All symbol lists including several symbols of one name; visitors that stop anywhere.", "anchors": ["src/kernel/ksym.rs: KsymResolver::find_addr, for_each"]}
{"id": "C60", "title": "Registered ELF resolvers", "statement": "A resolver registered for a path is used by later requests for that path as long as the path refers to the same file and is not evicted. Registering fails if there is already data of that file, which stays in use; it succeeds for files not looked at before and fails with the file system's error for files that do not exist.", "quantifier": "every history of lookups, caching, registrations and evictions; every file system", "why_tests_cant": "Depends on the whole history of the cache, and on files replaced in between.", "anchors": ["src/elf/resolver.rs: ElfResolverCache::register", "src/symbolize/symbolizer.rs: Symbolizer::register_elf_resolver"]}
{"id": "C61", "title": "Members of archives", "statement": "Symbolizing an offset in an archive uses the resolver the application's dispatcher provides for the member at this offset, the default one if there is no dispatcher or it declines; offsets in no member are reported as invalid, errors are passed on, and debug symbols are used iff requested.", "quantifier": "every archive, dispatcher, offset and history", "why_tests_cant": "Arbitrary members and dispatchers; resolvers are remembered per member.", "anchors": ["src/symbolize/symbolizer.rs: create_apk_resolver, apk_resolver, ApkDispatch"]}
{"id": "C62", "title": "Symbols of debug information by name, and all of them", "statement": "Inspecting a file with debug symbols: looking up a name gives the functions of that name, with their start address, size and file offset, or what the symbol table has if debug information does not know the name; iterating gives every named function with code of every unit exactly once, in order, until told to stop. Variables are refused.", "quantifier": "every tree of debug information entries, any number of units, every name, every visitor", "why_tests_cant": "All trees, naming schemes (linkage names, references to other entries) and visitors that stop anywhere.", "anchors": ["src/dwarf/resolver.rs: function_to_sym_info, find_addr, for_each", "src/dwarf/units.rs: find_name, for_each_function", "src/dwarf/unit.rs: find_name", "src/dwarf/function.rs: Functions::parse", "src/inspect/inspector.rs"]}
{"id": "C63", "title": "A Normalizer used for many calls", "statement": "Whatever calls were made before, and whatever caching is enabled, a call of a Normalizer gives what it would give on its own without any caches, provided files that changed can be told from what they were by their identity (device, inode, size, time of modification). The only exception is caching of memory mappings, with which a call uses the mappings read by the first call for the same process that was able to. If neither build IDs nor members of archives are asked for, no file is used.", "quantifier": "every history of calls with a separate world (files, mappings, vDSO) for each, every setting of the builder, every set of addresses and options", "why_tests_cant": "Histories of arbitrary length, with files and processes changing in between, are out of reach of tests; so is every combination of the caches.", "anchors": ["src/normalize/normalizer.rs: Builder::build, normalize_user_addrs_iter, read_build_id, translate_apk_to_elf, vdso_parser", "src/normalize/user.rs: handle_entry_addr, add_normalized_offset", "src/vdso.rs: create_vdso_parser", "src/file_cache.rs", "src/insert_map.rs: get_or_try_insert"]}
{"id": "C64", "title": "An Inspector used for many calls", "statement": "Whatever was inspected before, looking up names with an Inspector gives what a new one would give with the files as they are now: one list per name, in the order of the names, with the symbols the source has of that name, or else the error of the first name that fails. Iterating over symbols calls back for the same symbols as a new Inspector would.", "quantifier": "every history of lookups and iterations over ELF and Breakpad files, with and without debug symbols, with a separate file system for each call", "why_tests_cant": "Histories of arbitrary length with files changing in between are out of reach of tests.", "anchors": ["src/inspect/inspector.rs: Inspector::new, lookup, for_each, breakpad_resolver", "src/elf/resolver.rs: FileCache<ElfResolverData>::elf_resolver", "src/dwarf/resolver.rs: DwarfResolver::from_parser", "src/file_cache.rs: entry"]}
{"id": "C65", "title": "A Symbolizer used for many calls", "statement": "Whatever was symbolized or evicted before, symbolizing with a Symbolizer gives what a new one would give with the files and processes as they are now: for ELF, Breakpad and Gsym files, what the file at the path says about the address; for archives and processes, what a new Symbolizer says.", "quantifier": "every history of batches, single lookups and evictions over all sources except the kernel, with a separate world (files, processes) for each call", "why_tests_cant": "Histories of arbitrary length with files changing in between are out of reach of tests.", "anchors": ["src/symbolize/symbolizer.rs: symbolize, symbolize_single, evict, apk_resolver, process_dispatch_resolver, vdso_parser, perf_map_resolver", "src/elf/resolver.rs: FileCache<ElfResolverData>::elf_resolver", "src/file_cache.rs: entry, evict"]}
{"id": "C66", "title": "Kernel addresses symbolized time and again", "statement": "Whatever kernel addresses were symbolized before with whichever kernel sources, symbolizing kernel addresses gives what it would give with a new Symbolizer, with the files as they are now; and what is kept in memory is bounded by the number of files looked at, not of lookups.", "quantifier": "every history of symbolizations with kernel sources (kallsyms, vmlinux, offset, debug symbols), with a separate world (files, modules, temporary files) for each address", "why_tests_cant": "Histories of arbitrary length with files changing in between, and memory kept after arbitrarily many lookups, are out of reach of tests.", "anchors": ["src/kernel/cache.rs: elf_resolver, ksym_resolver, modmap, depmod, kaslr_offset", "src/kernel/resolver.rs: new, find_sym, decompress_into_tmp", "src/symbolize/symbolizer.rs: Builder::build"]}
{"id": "C67", "title": "Results of normalization in C are given back completely", "statement": "A C program may normalize addresses and free the results in any order (and free NULL): nothing is freed twice or with another size or alignment than it was allocated with, results not freed yet keep showing what was handed out, memory of others is not touched, and once all results are freed everything that was allocated for them is free again.", "quantifier": "every history of normalizations with arbitrary results (any number and kind of meta data, any paths, build IDs and symbols) and of frees in any order, with every allocator that only hands out unused memory", "why_tests_cant": "Leaks, double frees and mismatched layouts depend on the combination of kinds of meta data, on lengths (zero in particular) and on the order of calls; tests can only run some of them under a sanitizer.", "anchors": ["capi/src/normalize.rs: blaze_user_meta::from, blaze_user_meta::free, blaze_normalized_user_output::from, blaze_user_output_free", "capi/src/symbolize.rs: blaze_sym conversions"]}
{"id": "C68", "title": "Errors and results of the C API", "statement": "A function of the C API returns what the library gave and sets the calling thread's last error to OK; or it returns NULL (false, nothing) and sets the last error to the number the header has for the kind of the library's error. Structures with unknown members that are not zero are rejected as invalid input, arrays are read whatever their alignment, and the last error of a thread is not affected by other threads.", "quantifier": "every function, every result of the library, every memory, address and content of arrays and structures, and every interleaving of calls by threads", "why_tests_cant": "Stale or mixed-up errors show only in particular sequences of calls in particular threads; unaligned arrays and structures of other versions of the header are not what tests compiled with today's header use.", "anchors": ["capi/src/error.rs: blaze_err, set_last_err, blaze_err_last, blaze_err_str", "capi/src/util.rs: slice_from_user_array", "capi/src/symbolize.rs: blaze_symbolize_impl, blaze_symbolizer_new_opts, blaze_symbolize_cache_elf", "capi/src/normalize.rs: blaze_normalize_user_addrs_impl", "capi/src/inspect.rs: blaze_inspect_syms_elf", "capi/src/helper.rs"]}
{"id": "C69", "title": "Lines of traces in C", "statement": "However the text of traces is written in pieces, the callback gets exactly its complete lines, each once and in order, as strings that end in a line feed.", "quantifier": "every text without zeros, every way to cut it into pieces, and every sequence of events", "why_tests_cant": "The unit test cuts one text at random; whether lines are lost, repeated or joined depends on where pieces end.", "anchors": ["capi/src/trace.rs: LineWriter::write, blaze_trace"]}
{"id": "C70", "title": "Contexts of errors", "statement": "Adding contexts to an error, any number of times, changes neither its kind nor its backtrace, and nothing if there is no error. {} shows the context added last, {:#} all contexts from the last to the first, then the error and its causes, each once, and {:?} the same in lines with the backtrace of the original error.", "quantifier": "every error of another library with any chain of causes, every sequence of contexts, borrowed or owned", "why_tests_cant": "Unit tests add one or two contexts to particular errors; which text is lost or repeated depends on the shape of the whole chain.", "anchors": ["src/error.rs: ErrorImpl::kind, ErrorImpl::backtrace, Debug and Display for ErrorImpl, StdError::source, Error::layer_context, ErrorExt for Result, IntoError::ok_or_error"]}
{"id": "C71", "title": "Normalizing first and symbolizing later", "statement": "Normalizing addresses of a process and looking up each outcome as a file offset in the file that its meta data names gives what symbolizing the addresses with the process as source gives; and the same but for the module if the lookup is done by another symbolizer elsewhere, with copies of the files at other paths.", "quantifier": "every memory map, every list of addresses, every state of the symbolizer, every file system on either side, every choice of map_files on either side", "why_tests_cant": "Tests do both for one address of one process; two long paths through the code, with caches, archives, translations of addresses and the vDSO, must agree for all memory maps.", "anchors": ["src/normalize/user.rs: NormalizationHandler::handle_entry_addr, normalize_sorted_user_addrs_with_entries", "src/normalize/meta.rs: UserMeta", "src/symbolize/symbolizer.rs: SymbolizeHandler, symbolize_impl, symbolize_single"]}
{"id": "C72", "title": "From the contents of files to answers", "statement": "Without debug information, what symbolizing reports for an address or file offset is determined by the bytes of the files involved the way their formats say: the closest symbol of the ELF file at the path, of the ELF file stored at that offset of an archive, of the file mapped there by a process according to its /proc maps (deleted files included, if opened by what is mapped), of the vDSO; the function of the Gsym, Breakpad or perf map file; and the reason given otherwise is the one that applies.", "quantifier": "every file system contents, every ELF file and archive and maps text of the formats, every address, every set of options without debug symbols, both arithmetic modes", "why_tests_cant": "Tests look up a few addresses in a few files made by one toolchain; here the whole path from bytes to the answer must be right for all files of the formats.", "anchors": ["src/symbolize/symbolizer.rs: symbolize_impl, symbolize_single, elf_resolver, apk_resolver, gsym_resolver, breakpad_resolver, perf_map_resolver, vdso_parser, SymbolizeHandler", "src/elf/parser.rs: ElfParser::from_file, find_sym, file_offset_to_virt_offset", "src/zip.rs: Archive", "src/maps.rs: parse_filtered", "src/vdso.rs: create_vdso_parser"]}
{"id": "C73", "title": "From the contents of files to normalized addresses", "statement": "What normalizing reports for an address of a process is determined by its maps and the bytes of the files mapped: the offset in the program or library mapped there, the path, and the build ID found in the notes of that very file (none if the file is gone or no ELF file); in an archive, the offset in the file stored there, with that one's path and build ID; in the vDSO, the symbol. A file that build IDs cannot be read from fails nothing else. On any other host with the same file, that offset leads to the symbol the address was in.", "quantifier": "every file system contents, every ELF file and archive and maps text of the formats, every list of addresses, every set of options, both arithmetic modes", "why_tests_cant": "Tests normalize a few addresses of the test process; here the whole path from bytes to the report must be right for all files of the formats.", "anchors": ["src/normalize/normalizer.rs: normalize_user_addrs_opts, read_build_id, translate_apk_to_elf, vdso_parser", "src/normalize/user.rs: NormalizationHandler::handle_entry_addr, handle_vdso_addr", "src/normalize/buildid.rs: read_build_id, read_elf_build_id_from_mmap"]}
{"id": "C74", "title": "What the command line tool prints", "statement": "For each address, in the order given, blazecli symbolize prints a line with the address, the name, the symbol's address, the offset in it and, if known, file, line and column, and below it one indented line per function inlined there; normalize prints a line with file, offset and build ID; inspect prints a line per symbol, ordered by address, in aligned columns. Provided that names and paths have no separators in them, all that was asked for and answered can be told from the text: two different sets of answers are never printed the same. Addresses printed can be passed in again. The tool does not crash.", "quantifier": "every list of addresses and answers, every file, every process", "why_tests_cant": "The tool has next to no tests; that different answers never look the same is about all pairs of outputs.", "anchors": ["cli/src/main.rs: print_frame, symbolize, normalize, inspect, print_sym_infos, format_build_id", "cli/src/args.rs: parse_addr, parse_pid", "src/symbolize/mod.rs: CodeInfo::to_path"]}
{"id": "C75", "title": "Inspecting files: from bytes to symbols", "statement": "Looking up names in an ELF or Breakpad file gives, per name and in their order, exactly the symbols with that name which the bytes of the file at the path encode (dynamic symbols being looked at if the symbol table has none), with address, size, type, file offset and module; iterating reports every symbol in the file exactly once until the callback asks to stop, and none thereafter. This is so however the inspector was used before, as long as files that changed look changed, and blazecli prints just those. No file makes an inspector crash.", "quantifier": "every file, every list of names, every callback, every history of calls", "why_tests_cant": "Tests inspect a handful of fixed test files with new inspectors; what a name gives for any file after any other calls is beyond them.", "anchors": ["src/inspect/inspector.rs: Inspector::lookup, Inspector::for_each", "src/elf/parser.rs: ElfParser::find_addr, ElfParser::for_each", "src/breakpad/resolver.rs: impl Inspect for BreakpadResolver", "cli/src/main.rs: inspect"]}
{"id": "C76", "title": "Kernel addresses: from bytes to symbols", "statement": "Symbolizing kernel addresses gives, for each address, what the files in use encode: an address in a loaded module (as /proc/modules has it) gets the closest symbol of the module's file found through the index of modules, unpacked if need be, for the address relative to the module; other addresses get the closest symbol of the kernel image, for the address less the offset stated in the core file (or by comparing _stext if reading that is not permitted); the list of symbols is used where the image has no symbol, or one without size. Sources that were not asked for explicitly may be missing, others may not. This is so whatever was symbolized before, as long as files that changed look changed and the modules stay the same. The offset reported is how far into the symbol the address is.", "quantifier": "every system (list of symbols, image, core file, modules, index), every list of addresses, every history of calls", "why_tests_cant": "Tests use the kernel of the machine they run on, if any, and seldom with an image; module loading, offsets and histories are beyond them.", "anchors": ["src/kernel/resolver.rs: KernelResolver::find_sym", "src/kernel/cache.rs: KernelCache", "src/symbolize/symbolizer.rs: create_kernel_resolver, symbolize_with_resolver", "src/kernel/kaslr.rs: find_kaslr_offset", "src/kernel/depmod.rs: DepMod::with_system_default", "src/symbolize/mod.rs: Sym::offset"]}
{"id": "C77", "title": "Programs, libraries and processes: from bytes to symbols, over and over again", "statement": "A symbolizer that was used before, in any way that does not force what it remembers, symbolizes a list of addresses of an ELF file, an archive, a Gsym or Breakpad file, or a process to exactly what the contents of the files say about each of them: the closest symbol or function, its source line, and the calls inlined at the address with where each is called from, or the reason why nothing is known; one result per address, in order. This is so as long as files that changed look changed.", "quantifier": "every history of calls, every host (files, processes), every list of addresses, every configuration of code information and demangling", "why_tests_cant": "Tests start from new symbolizers, or repeat a call once or twice, with files prepared by hand.", "anchors": ["src/symbolize/symbolizer.rs: Symbolizer::symbolize, symbolize_single, symbolize_impl, symbolize_with_resolver", "src/file_cache.rs: FileCache", "src/gsym/resolver.rs: GsymResolver", "src/breakpad/resolver.rs: BreakpadResolver"]}
{"id": "C78", "title": "C programs get, from memory to memory, what files say", "statement": "A C program that creates a symbolizer with options and calls the functions for processes, ELF files and Gsym data or files gets, in memory it can read by the header and free by one call, exactly what the contents of files say about each of its addresses, whatever calls it made before with the same symbolizer and whichever versions of the header it was compiled with. Structures with unknown members are refused without effect. Errors of the library, and failing allocations, give NULL and the error; options select code information, inlined functions, demangling, reloading and directories as the header says, and members the program's header lacks are off.", "quantifier": "every memory of the program, every sequence of calls (with structures of any size), every host, every list of addresses, every allocator", "why_tests_cant": "Tests of the C interface use one header, the library's, on new symbolizers and look at few members of results.", "anchors": ["capi/src/symbolize.rs: blaze_symbolizer_new, blaze_symbolizer_new_opts, blaze_symbolize_process_abs_addrs, blaze_symbolize_elf_virt_offsets, blaze_symbolize_elf_file_offsets, blaze_symbolize_gsym_data_virt_offsets, blaze_symbolize_gsym_file_virt_offsets, blaze_symbolize_impl, convert_symbolizedresults_to_c", "src/symbolize/symbolizer.rs: Builder, Symbolizer::symbolize"]}
{"id": "C79", "title": "Readable debug information answers every address", "statement": "If the sections with debug information can be read (entries, ranges, names, references and line programs are there and as the DWARF standard has them), then opening them succeeds and every address that is asked about is answered, with any selection of code information and inlined functions: no error and no panic. What has to hold is a statement about the sections only. Names that are not text, or bounds in the wrong order, are not harmless: one name prevents the answer about every function around it, and bounds make the lookup panic or report a size of almost 2^64 bytes.", "quantifier": "every set of units, entry trees of any shape and depth, line programs, ranges, addresses and options", "why_tests_cant": "Tests use the output of one or two compilers; the conditions under which a lookup cannot fail are not visible in any number of successful ones.", "anchors": ["src/dwarf/units.rs: Units::parse, find_function, find_location", "src/dwarf/function.rs: Functions::parse, Function::parse_inlined_functions", "src/dwarf/lines.rs: Lines::parse", "src/dwarf/resolver.rs: DwarfResolver::find_sym"]}
{"id": "C80", "title": "Debug information of files on a host is found and used, whatever happened before", "statement": "Symbolizing addresses or file offsets of an ELF file, of members of an archive, or addresses of a process, with debug information wanted: the file with the debug information is the file itself, or the first existing one of the documented places for the name in the link section, if its checksum is right. What is then said about the address (function, bounds, source line, inlined functions with their call sites) is what the units, entries and line programs of that file say; without a function it is the closest symbol. This is so for lists of addresses as for single ones, and whatever was asked before with the same symbolizer, as long as files that did not change are the same files. Something wrong with the file linked to (section not as it should be, file cannot be opened, checksum wrong), with the package of debug information beside the file, or with the sections of debug information, is an error for ELF files, members of archives and processes alike, and not the answer without debug information. The module reported is the file asked about; this is not so if the debug information has no function at the address.", "quantifier": "every host (contents of all files, and of all processes' maps), every set of units, every history of calls, every address", "why_tests_cant": "Tests have one binary with a debug link and look up a few functions, with new symbolizers.", "anchors": ["src/dwarf/resolver.rs: try_deref_debug_link, try_find_dwp, DwarfResolver::from_parser, find_sym", "src/dwarf/debug_link.rs: read_debug_link, DebugFileIter", "src/elf/resolver.rs: ElfResolver::from_parser, find_sym", "src/symbolize/symbolizer.rs: elf_resolver, create_elf_resolver, default_apk_dispatcher, symbolize, symbolize_single"]}
{"id": "C81", "title": "Inspecting a file with debug information reports its functions, whatever was inspected before", "statement": "Looking up names in an ELF file with debug information (its own, or that of the file its debug link leads to) reports, for every name and in order, the first function of that name of each unit, with address, size, offset in the file asked about, and that file as module; or, if no unit has such a function, the symbols of that name in the file with the debug information. Iterating reports all named functions with code, unit by unit, until the callback says to stop, and no symbols. If there is something wrong with the debug information, that error is reported by both. This holds after any calls to the inspector as long as files do not change, and is what the command line tool prints. Not so: that lookups could be done on top of iterating.", "quantifier": "every host (contents of all files), every set of units, every history of calls, every list of names, every callback", "why_tests_cant": "Tests look up one or two functions of one binary with new inspectors.", "anchors": ["src/inspect/inspector.rs: Inspector::lookup, Inspector::for_each, elf_resolver", "src/dwarf/resolver.rs: DwarfResolver::find_addr, for_each, function_to_sym_info", "src/elf/parser.rs: find_file_offset, find_addr", "cli/src/main.rs: inspect"]}
{"id": "C82", "title": "A C program can read every normalization result it holds, and freeing gives back exactly its memory", "statement": "A successful call of blaze_normalize_user_addrs or blaze_normalize_user_addrs_opts returns a pointer to a blaze_normalized_user_output from which all outputs and meta data of the library's answer can be read: kinds, paths, build IDs, symbols, reasons, and zero in reserved bytes. Everything is in newly allocated memory and nothing else in memory changes. Any number of results can be held and freed in any order: those not freed stay readable, blaze_user_output_free gives back exactly the allocations of its result (with the sizes they were allocated with), and when all are freed what was allocated before is left and is unchanged. A failing call returns NULL, sets the last error and allocates nothing. Not so: that the call returns whenever the library answers (a file in an archive whose name has a zero byte ends the program), and that options with nothing set are the default options of normalizers.", "quantifier": "every result, every allocator that hands out aligned memory not in use, every sequence of calls and frees, every host, process, address array and option structure of any declared size", "why_tests_cant": "Tests convert and free one meta data of each kind, and one result, with the system's allocator; a wrong size in a deallocation goes unnoticed.", "anchors": ["capi/src/normalize.rs: blaze_normalized_user_output::from, blaze_user_meta::from, blaze_user_output_free, blaze_normalize_user_addrs_impl, blaze_normalizer_new_opts"]}
{"id": "C83", "title": "A C program can read and give back everything it holds, and inspection gives it the symbols of the file", "statement": "A C program may hold any number of symbolization results, inspection results, normalization results and build IDs at a time, give them back in any order and write to memory of its own in between: everything held stays readable as it was handed out and can be given back with the function meant for it, what was allocated before stays allocated, and when everything is given back nothing else is left allocated. blaze_inspect_syms_elf returns, for each name, the symbols that an inspector of the library reports: with the tables of an ELF file those of its symbol tables, with debug information those of it or of the file with symbols; whatever was asked before, calls that were refused included. Otherwise it returns NULL and the last error. blaze_read_elf_build_id returns the build ID of the file in memory from malloc and writes its length, if wanted; NULL without an error and length zero if there is none; and otherwise NULL and the error. Not so: that reading a build ID always returns (notes out of the bounds of a file end the program).", "quantifier": "every sequence of getting, giving back, and writing; every sound allocator; every host, file, list of names and structure of any declared size; every history of calls of the inspector", "why_tests_cant": "Tests inspect one binary and free the result right away, and read one build ID; what several results do to each other's memory is not tested.", "anchors": ["capi/src/inspect.rs: blaze_inspect_syms_elf, convert_syms_list_to_c, blaze_inspect_syms_free", "capi/src/helper.rs: blaze_read_elf_build_id", "capi/src/symbolize.rs: convert_symbolizedresults_to_c, blaze_syms_free", "capi/src/normalize.rs: blaze_user_output_free"]}
{"id": "C84", "title": "The function a C program registers decides which files processes are symbolized with, and no memory is lost", "statement": "A function registered with blaze_symbolizer_opts::process_dispatch is called, for a mapped file of a process, with the path in /proc/<pid>/map_files and the symbolic path as strings, and the registered pointer. If it returns a path, the address is looked up in the file at this path at the same offset, as with a symbolizer used for that file; if this file cannot be opened, that is the error; if it returns NULL, the result is the one without such a function. Whatever the function does to memory otherwise, exactly the two strings lent to it and the string it returned are freed, also in case of errors; so that if it does nothing else, the memory of the program is as before. It is not called for members that are not files, nor for paths with zero bytes, which are an error.", "quantifier": "every function that keeps to the documented contract, whatever else it does to memory; every sound allocator; every pair of paths; every process, address and earlier use of the symbolizer", "why_tests_cant": "The one test registers a function that returns one path for one process; freeing is not observable in it.", "anchors": ["capi/src/symbolize.rs: blaze_symbolizer_new_opts, blaze_symbolizer_dispatch", "src/symbolize/symbolizer.rs: process_dispatch_resolver", "src/elf/resolver.rs: ElfResolver::open, ElfResolver::open_with_debug_dirs"]}
{"id": "C85", "title": "A program without section headers has no symbols, but offsets in it are still translated", "statement": "In an ELF file without a section header table (e_shoff, e_shnum and e_shstrndx are 0, as after sstrip), file offsets and addresses are translated with the program headers as in any other file. There being no sections, symbolizing says that symbols are missing, lookups and enumerations find nothing, and there is no build ID. True of 32 bit files and of files without program headers. False for other 64 bit files: e_phoff is taken for the number of sections, and the file header and what follows for their headers, so that symbolization, lookups, enumeration and reading the build ID fail with an error (always if the file has less than 64 * e_phoff bytes), or report symbols that are none.", "quantifier": "every such file, of any class, header contents and segments; every address, name, callback", "why_tests_cant": "No test file lacks section headers; which of the outcomes there is depends on the length of the file and on bytes that have nothing to do with symbols.", "anchors": ["src/elf/parser.rs: Cache::parse_ehdr, Cache::read_first_shdr, Cache::parse_shdrs, Cache::parse_phdrs, Cache::find_section, ElfParser::find_sym, ElfParser::find_addr, ElfParser::for_each, ElfParser::find_file_offset, ElfParser::file_offset_to_virt_offset", "src/normalize/buildid.rs: read_build_id"]}
{"id": "C86", "title": "No symbols are reported from a program of the other byte order", "statement": "On a little endian machine, symbolizing with a big endian ELF file, looking for names in it, enumerating its symbols, reading its build ID and translating offsets in it all fail with an invalid data error, instead of reporting nonsense. (If the file has exactly 256 sections, symbolization may say that symbols are missing.) The byte order in the identification is not looked at; this is so because the offsets of the header tables, read in the wrong order, are past the end of the file: true of 64 bit files up to 4 GiB, and of 32 bit files up to 16 MiB whose section headers are not at a multiple of 256. False for other 32 bit files, where symbols can be made up.", "quantifier": "every such file, whatever its contents; every address, name and callback", "why_tests_cant": "Test files are all of the byte order of the machine, and that a byte that is never looked at causes no nonsense is a matter of all possible contents.", "anchors": ["src/elf/parser.rs: Cache::parse_ehdr, Cache::read_first_shdr, Cache::parse_shdrs, Cache::parse_phdrs, ElfParser::find_sym, ElfParser::find_addr, ElfParser::for_each, ElfParser::find_file_offset, ElfParser::file_offset_to_virt_offset", "src/normalize/buildid.rs: read_build_id"]}
{"id": "C87", "title": "What a C program has cached stays in use, whatever becomes of the file or process", "statement": "blaze_symbolize_cache_elf and blaze_symbolize_cache_process say by the last error whether what the program's structure names was cached, and refuse structures with members they do not know without caching anything. After a file was cached, blaze_symbolize_elf_* calls without debug symbols return the same results for it whatever the program does in between and whatever happens to the file (it may be gone), until the program asks for the file to be cached again; a file cached with a new symbolizer is described by what was in it at that time, in the memory the program gets. After the mappings of a process were cached, the process is seen as having these even if it exited. Caching mappings has an effect only if it succeeds, and none if the flag is not set, e.g. because the program's header does not have it. False: caching a file may fail and still decide which contents are used from then on, and a structure that ends before the path is not refused but dereferenced as NULL.", "quantifier": "every sequence of calls of a C program, structure of older or newer headers, host, file contents and addresses", "why_tests_cant": "The effect of caching shows in calls made later, after changes to files at any time in between; tests look at one order of events with one version of the header.", "anchors": ["capi/src/symbolize.rs: blaze_symbolize_cache_elf, blaze_symbolize_cache_process, From<blaze_cache_src_elf>, From<blaze_cache_src_process>", "src/symbolize/symbolizer.rs: Symbolizer::cache", "capi/src/lib.rs: input_zeroed, input_sanitize"]}
