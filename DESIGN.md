# Formal model of blazesym in Rocq

## Trusted base

* Coq 8.16.1's kernel (no `native_compute`, no kernel check switched off, no axiom of our own).
* What `Print Assumptions` lists for each theorem.  Every `PropX.v` prints it
  for each of its theorems; the answer is "Closed under the global context"
  everywhere, i.e. no theorem depends on any axiom.
* The faithfulness of the model to the Rust source.  The model is written by
  hand from the source text; every definition cites the file and lines it
  follows.  Nothing links the model to the compiled program.
* Rust's standard library (`sort`, `partition_point`, `HashMap`, slices,
  integer semantics), the `gimli`, `nom`, `memmap2`/`libc`, `miniz`, `zstd`
  crates, the kernel, and the C compiler.  They are modelled by their
  documented contract only, or by an arbitrary function ("oracle") that the
  theorems quantify over.

## Modelling conventions

* Machine words are `N`; where wrap-around matters the model has an explicit
  arithmetic mode: `Checked` (debug builds; overflow panics) and `Wrapping`
  (the shipped release profile, which leaves overflow checks off).
* Bytes are `N` below 256, byte strings are `list N`.
* `res A := Ok a | Err kind | Panic`.  `Panic` is used for every `unwrap`,
  slice index, arithmetic overflow that can panic in Rust.
* Loops that are not structurally recursive take fuel; running out of fuel is
  a distinguished result and there is a theorem that excludes it.
* `sort_by` is a stable insertion sort; where the code uses `sort_unstable_by`
  theorems are stated for *every* sorted permutation instead whenever the
  tie order could matter.
* File system, `stat`, `open`, the map iteration source and external parsers
  are function parameters; theorems quantify over them.

## Files

`X.v` is the model of an area, `XSpec.v` the specification the theorems are
stated with (formats, meanings of tables), `XProofs.v`/`XFormat.v` the proofs,
`PropX.v` the theorems with an example for each and its assumptions.

| file | models |
|---|---|
| `Base.v` | result monad, arithmetic modes, list/sortedness facts |
| `Util.v` | `src/util.rs` |
| `ByName.v`, `Frames.v`, `Amap.v`, `Total.v`, `Bytes.v` | shared lemmas: name index, frame locations, maps, totality, packed structures |
| `FileCache.v` | `src/insert_map.rs`, `src/file_cache.rs` |
| `Maps.v` | `src/maps.rs`, `src/normalize/ioctl.rs` |
| `Text.v` | UTF-8 |
| `Sym.v` | result types shared by symbol sources |
| `Normalize.v` | `src/normalize/user.rs`, `normalizer.rs`, `meta.rs` |
| `NormCache.v` | the same with the caches of `Normalizer`, `Builder`; `src/vdso.rs` `create_vdso_parser` |
| `Gsym.v` | `src/gsym/*.rs` |
| `Nom.v`, `Breakpad.v` | the parts of `nom` in use, `src/breakpad/*.rs` |
| `Mmap.v`, `Zip.v` | `src/mmap.rs`, `src/zip.rs` |
| `Inspect.v` | types of `src/inspect/mod.rs` shared by symbol sources |
| `Elf.v` | `src/elf/types.rs`, `src/elf/parser.rs` |
| `BuildId.v` | `src/normalize/buildid.rs`: reading build IDs of ELF files |
| `Lists.v`, `Num.v` | shared: stable sorting, numbers and words in texts |
| `PerfMap.v` | `src/perf_map.rs` |
| `Search.v` | `slice::binary_search_by` and `sort_unstable_by`, with whatever result they may have |
| `Dwarf.v` | `src/dwarf/*.rs` except for `debug_link.rs` and `reader.rs` |
| `DebugLink.v` | `src/dwarf/debug_link.rs`, and the search for debug files in `src/dwarf/resolver.rs` |
| `ModMap.v`, `Ksym.v`, `Depmod.v`, `Kaslr.v`, `Kernel.v` | `src/kernel/*.rs` and the tags of `src/kernel/bpf/prog.rs` |
| `Bpf.v` | line information in `src/kernel/bpf/{prog,btf,sys}.rs` |
| `Symbolizer.v` | `src/symbolize/symbolizer.rs`, `ElfResolverCache` of `src/elf/resolver.rs`, `DwarfResolver::from_parser` of `src/dwarf/resolver.rs`; `src/vdso.rs` |
| `KernelCache.v` | `src/kernel/cache.rs`, and `src/kernel/resolver.rs` with it |
| `CapiHeap.v` | `capi/src/normalize.rs` (memory handed to C programs) |
| `CapiCalls.v` | `capi/src/error.rs`, arrays of `capi/src/util.rs`, and how the functions of the C API report errors |
| `CapiTrace.v` | `LineWriter` of `capi/src/trace.rs` |
| `Errors.v` | `src/error.rs` |
| `Inspector.v` | `src/inspect/inspector.rs` |
| `Host.v` | how `src/symbolize/symbolizer.rs` opens files: `elf_resolver`, `apk_resolver`, `gsym_resolver`, `breakpad_resolver`, `perf_map_resolver`, `vdso_parser` with `from_file`/`from_mem` of each format; `Inspect` for `BreakpadResolver`, `ElfParser::for_each` (src/elf/parser.rs, src/breakpad/resolver.rs) |
| `HostNorm.v` | how `src/normalize/normalizer.rs` opens files: `read_build_id`, `translate_apk_to_elf`, `vdso_parser`, with `src/normalize/buildid.rs` |
| `HostKernel.v` | how `src/symbolize/symbolizer.rs` and `src/kernel/{cache,modmap,depmod}.rs` open files for kernel addresses |
| `CapiEnd.v` | capi/src/symbolize.rs: `blaze_symbolizer_new`, `blaze_symbolizer_new_opts`, the `blaze_symbolize_*` functions for processes, ELF and Gsym, `blaze_symbolize_impl`; `Builder::default` of src/symbolize/symbolizer.rs |
| `HostDebug.v` | src/dwarf/resolver.rs lines 105-299 (around the models of links and units): `find_debug_file`, `try_deref_debug_link`, `try_find_dwp`, `DwarfResolver::from_parser`; src/elf/resolver.rs lines 236-270 with debug information; src/symbolize/symbolizer.rs `default_apk_dispatcher` |
| `Cli.v` | cli/src/main.rs (output), cli/src/args.rs (parse_addr, parse_pid), src/symbolize/mod.rs (CodeInfo::to_path) |
| `Demangle.v` | `maybe_demangle` and the options of `Builder` in `src/symbolize/symbolizer.rs` |
| `CapiIn.v` | `capi/src/lib.rs`: `input_zeroed!`, `input_sanitize!`; the input structures of `capi/src/{symbolize,normalize,inspect}.rs`; `is_mem_zero` |
| `CapiOut.v` | conversion of results to C in `capi/src/{symbolize,normalize,inspect}.rs`, sizes in `capi/src/util.rs` |

`ElfSpec.v` says what an ELF file is (System V ABI), `ElfExample.v` builds such
files for examples, `ElfTotal.v` is about arbitrary bytes, `RelocSpec.v` and
`PropReloc.v` about relocations.

## What is modelled, what is not

* **Util**: all of `src/util.rs` except for `Debug`-style formatting helpers and the
  `bytes_to_path`/OS string conversions. 64 bit `usize`.
* **FileCache**: `InsertMap` and `FileCache` with an arbitrary file system
  (`stat` results and contents change arbitrarily between calls). Not
  modelled: memory addresses of entries (stability of references is by
  construction of the arena in Rust), threads.
* **Maps**: parsing of `/proc/<pid>/maps` and the `PROCMAP_QUERY` ioctl's
  result; the kernel's side of both is in the specification. Not modelled:
  reading the file in chunks, `ioctl` itself.
* **Normalize**: the pass over sorted addresses, the four sources of maps,
  all options, APK translation, meta data. Build IDs, archives and the vDSO
  are arbitrary functions. Not modelled: error texts, `PathBuf` equality modulo
  redundant separators, `debug_assert`s (but see `NormCache.v`); caches are in `NormCache.v`.
* **Gsym**: opening a file from bytes, lookup, line tables, inline
  information, both arithmetic modes, alignment of the bytes in memory. Not
  modelled: stack exhaustion by deeply nested inline records, overflow of a
  counter of line table rows (more than 2^31 rows), big endian files.
* **Breakpad**: parsing the text from its bytes, lookups, name lookup,
  iteration. Not modelled: `PUBLIC` records' data (discarded by the program,
  too), error texts, `mmap`. `slice::binary_search_by_key` may return any
  match; the theorems quantify over that choice.
* **Mmap, Zip**: mapping and restricting files, finding and iterating the
  directory of an archive, on arbitrary bytes. 64 bit `usize`. Not modelled:
  files changing while mapped, `Debug` output.
* **ELF**: parsing headers, sections, symbols, notes and relocations from
  bytes, for 32 and 64 bit files, both arithmetic modes, alignment in memory;
  lookup by address and by name, iteration, translation of offsets. Arbitrary
  functions: decompressors, and the order in which `sort_unstable_by` leaves
  equal elements. Not modelled: `xz` embedded symbol tables' own opening
  beyond decompression, byte order (the program does not look at `EI_DATA`,
  either), caching of parsed parts (every part is a function of the bytes),
  I/O errors other than reading past the end.
* **Perf maps**: parsing of the text from its bytes, lookup. Not modelled: reading
  in chunks, error texts, the path of the file.
* **Kernel**: `/proc/modules`, `/proc/kallsyms`, the index of depmod and
  `/proc/kcore` from their bytes; names and tags of BPF programs; which source
  an address is resolved from, for arbitrary sources, and which sources are
  opened. Arbitrary functions: the file system, decompressors, resolvers for
  ELF files, answers of BPF system calls. Not modelled: deletion of temporary files, caches of files (see FileCache),
  allocation failures. `Path::extension` is modelled for paths that do not end
  in a slash or dots.
* **BPF programs**: tags from names, the search for programs and its cache, line
  information and BTF from bytes. The kernel is what its system calls answer
  (see `BpfSpec.v` for answers of a kernel that runs given programs); the
  answers for one program do not change while it exists. Not modelled: the
  encoding of system calls' arguments, file descriptors.
* **DWARF**: everything the program does with what the library `gimli` reads:
  the input are the units, entries with their attributes, ranges and rows of
  line programs as `gimli` returns them, or its errors. Decoding of sections
  is `gimli`'s and not modelled; neither are split packages (the split unit is
  given) and the caching of parsed units (every part is a function of the
  input). The order in which equal elements are sorted and which one of them
  a search finds are arbitrary.
* **Debug links**: the section from its bytes, the iterator over candidates as
  a state machine, the choice among them. Paths are lists of components, as
  compared by `Path`'s equality. Arbitrary functions: which files exist and
  their contents and build IDs, `canonicalize`, the checksum. Not modelled:
  split packages (`try_find_dwp`).
* **Symbolizer**: all operations of `Symbolizer` on its state: batches and
  single addresses for every source, caching, evicting, registering; the caches
  of files with an arbitrary file system per operation, the cells of ELF
  resolvers, archives, dispatchers. Arbitrary functions: resolvers of all kinds
  (each is modelled elsewhere), parsing, the search for debug files, kernel
  sources with their caches, reading of maps, demangling. `CacheViews.v`,
  `SymbolizerElf.v`, `SymbolizerApk.v` describe lookups by what the state says
  about a file, `SymbolizerState.v` has the invariant of the state,
  `SymbolizerProcess.v` the pass over a process' mappings. Paths are compared
  as bytes (`PathBuf` compares components). Not modelled: texts of errors,
  threads.
* **C API**: memory is a partial function from addresses to bytes, one block
  per allocation, and accesses outside of the block, misaligned stores and
  reads of bytes that were not written are `Panic`. Structure layouts are
  computed from the members by the rules of `repr(C)` on a 64 bit machine.
  `CapiSpec.v` reads results the way a C program does. Inputs: what the checks
  accept and the structure that is used afterwards. `CapiHeap.v`: the heap as
  pieces with a layout, for the output of normalization. `CapiCalls.v`: what the
  functions do around calls of the library, which is an arbitrary function.
  Not modelled: the tracing library. (The callback of `blaze_symbolizer_dispatch` is in C84.)

## Plan per property

* C01, C02 — model `find_match_or_lower_bound_by_key` and the
  `partition_point` contract (as a binary search as in core); specification is
  "least index such that", proved by induction.  C01 is false as documented
  for a duplicate run that starts at index 0 (refutation theorem), the rest
  is proved with exact conditions.
* C03 — model the two LEB128 loops; specification is an independent encoder
  with padding; proof by induction over the number of groups.
* C04 — model `reorder`'s nested loops on a list with swaps; invariant: the
  set of fixed points grows; prove result is the inverse permutation and fuel
  suffices.
* C05 — digits-to-number spec; refuted for >16 digits in wrapping mode.
* C06–C09 — transition system over cache operations with arbitrary file
  system; inductive invariant on reference counts.
* C10–C13 — model the sorted walk; specification is a per-address
  `find` over the list of mappings.
* C14 — model the query protocol as an oracle derived from the same VMA list;
  prove agreement and refute where it fails.
* C15 — model member search; specification by containment.
* C17 — all gsym parser functions on arbitrary bytes; prove never `Panic` in
  wrapping mode and fuel always suffices.
* C16/C18/C19 — lookup vs. specification on tables/op lists/inline trees with
  an independent encoder.
* C20 — location shifting vs. declarative spec; refuted when call locations
  are missing.
* C21–C23, C55 — grammar of the records as a relation between records and
  bytes; lookups against the records; parser combinators as in `nom`.
* C24/C25 — zip directory on bytes.
* C26 — printer/parser round trip.
* C27–C31, C51 — ELF tables after decoding.
* C32–C36 — kernel sources.
* C37 — perf map.
* C38–C40, C42 — DWARF data structures.
* C41, C53 — GDB's documented list of candidates, and section layout, as
  relations; the iterator's runs by induction over directories.
* C43–C46, C56 — symbolizer with arbitrary resolvers and histories of
  operations; lookups commute if they concern different files, by views of the
  caches; an invariant of reachable states.
* C47 — a structure is what its first bytes declare; older and newer clients'
  structures by number of bytes declared.
* C48 — reading the memory back as C does gives the results, with the list of
  regions read, which are disjoint and inside of the allocation.
* C49, C50, C52, C54 — small utilities.
* C58 — what is shown for a symbol found, field by field; demanglers are
  arbitrary functions.
* C59 — visitors are arbitrary functions over a state; iteration is compared
  with `ElfSpec.visit` over the visible entries.
* C60 — data of a file stays in its slot (`kept`) along any history that does
  not evict the path.
* C61 — who is responsible for a member of an archive as a relation; dispatchers
  are arbitrary functions.
* C57 — a kernel is a list of programs with lines, the model is run on system
  calls that answer accordingly; sequences of questions by an invariant of the
  cache and of each program's cell.
* C62 — the functions read are those of a walk through the tree, by induction
  over how trees are stored; iteration against `ElfSpec.visit`.
* C63 — simulation: every step of the handler with caches against that of
  `Normalize` without; an invariant of caches says that slots hold the file of
  that identity and what was read from it, and that mappings are those of the
  first call able to read them. An open file stands for its contents: a file
  overwritten in place while mapped is not modelled.
* C64 — an invariant of caches of resolvers: every slot holds the file of that
  identity, and what reading it without any caches gives. What symbols a
  resolver has is a parameter (see C27, C29, C30, C55, C62).
* C65 — the invariant of C64 for all caches of a [Symbolizer]; lookups have the
  same result in all states that have it, which includes the initial one.
* C66 — `kr_find_sym` with caches against `find_with` of `Kernel.v` without, by
  an invariant on caches; memory by counting entries.
* C67 — the heap as a function from addresses to pieces with layout and content;
  `hrun` runs histories of conversions and frees; freeing what is not allocated
  with that layout is `Panic`. Proved with footprints: each result owns a list of
  addresses, lists of different results are disjoint.
* C68 — `exec` models each function with the library as an argument; `does` says
  what has to come of a call; histories of threads by induction on `seen`.
* C69 — `lw_run` against the decomposition of a text into lines.
* C70 — `first` says what an error was made from; `display` and `debug` loop over
  sources as the code does and are compared with lists of texts.
* C71 — `later` does with the output of normalization what the documentation
  of `UserMeta` says. `same_vdso`: the image read for normalization and the one read for
  symbolizing are the same. `path_is_module`: the resolvers use the path they are given only
  to report it (true of `ElfParser` without debug links; C41 and C53 are about those).
* C72 — `Host.v` makes the `world` of the symbolizer model of the models of the
  formats (Elf, Zip, Mmap, Maps, Gsym, Breakpad, PerfMap), given the contents of all files. `HostSpec.v`
  says what the answer is, by means of the formats' specifications only. Simplifications: open files
  are an address and contents that do not change; the own process goes by its number in paths
  below /proc; opening files fails rather than panics, which C72_total justifies. Debug information,
  kernel sources, dispatchers and `Inspect::for_each` are arbitrary (taken from another world).
* C73 — `HostNorm.v` makes the `nenv` of the normalization model of the models of
  the formats (BuildId, Zip, Mmap, Elf), given the contents of all files; `HostNormSpec.v` says what
  is to be reported. Files whose notes are out of bounds, which make the code panic (C31), are taken
  to fail here; no theorem speaks of them. C11 now only asks for what has to be read for the sake of
  the addresses given (`served`).
* C74 — `Cli.v` models cli/src/main.rs and args.rs, the text printed being a list
  of bytes; `CliSpec.v` says which lines show which answer, with numbers as in Num.v. That texts are
  unambiguous is stated for that relation alone, and the tool's text is shown to be in it.
  `Path::display` is taken to be the identity (true for UTF-8); clap is not modelled.
* C75 — `Host.v` also has `Inspect` for the ELF and Breakpad resolvers, with what the
  callback got so far also upon errors; `HostInspSpec.v` puts the symbols to be reported in terms of the formats'
  specifications (ElfSpec.v, BreakpadSpec.v). Combined with C64 for histories and C74 for the text printed.
* C76 — `HostKernel.v` ties the kernel's caches (C66) to the models of `/proc/kallsyms`,
  `/proc/modules`, `modules.dep.bin`, `/proc/kcore` and ELF files, as `Host.v` does for user space; unpacking of
  modules is a parameter. `HostKernelSpec.v` says which files are in use, how far the kernel was moved, where an address
  is, and what is to be answered, in terms of the formats' specifications only.
* C77 — `HostUserSpec.v` collects what files say about an address, for every source of user addresses (the
  conditions are those of C72, and of C18, C19 and C22 for lines and inlined functions). `PropHostUser.v` has the
  theorems, by C72, C65 (histories) and C43 (lists); C43's conditions on processes follow from C65's.
* C78 — `CapiEnd.v` puts the models of the C interface (C47, C48, C68) around that of the symbolizer: a call takes a
  structure of the program, reads paths, data and addresses in its memory, symbolizes, and lays results out in memory.
  `CapiEndSpec.v` says what a structure asks for and what a program gets. `PropCapiEnd.v` proves, with C47, C48, C68 and
  C77, that it gets what files say; that numbers in results are of their C types follows from the formats.
* C79 — `DwarfReadSpec.v` says when debug information is readable, in terms of sections alone. `PropDwRead.v` proves
  that the model of C37-C42 then answers everything, which also discharges the assumptions of C39 that lookups in units
  have results. Two conditions that the standard does not guarantee for arbitrary files are shown to be needed.
* C80 — `HostDebug.v` fills the parts of `Host.v` that are about debug information with the models of debug links (C41,
  C53), build IDs (C31) and of DWARF lookups (C37-C42): which file has the debug information, whether its checksum is
  right, and the resolver made of its sections. `DwarfAnswerSpec.v` collects what the sections say about an address, and
  `HostDebugSpec.v` which sections are to be used and what results say. `DwarfAnswer.v` derives from C37-C42 and C79 that
  lookups have these results, and `PropHostDebug.v` carries this over files, archives and processes and histories of
  calls (C65). The reported module is a finding: `C80_module_refuted`.
* C81 — `PropHostDebugInsp.v` ties C62 (functions of debug information by name, and all of them), C28 (offsets), C29
  (symbols by name) and C80 (which debug information is used) to the inspector of C64 and the command line tool of C74.
  `HostDebugInspSpec.v` says what functions units list and what is reported of them, without the resolver. That files do
  not change (`quiet`) is enough for what is remembered to be no problem (`C81_steady`).
* C82 — `CapiNorm.v` models capi/src/normalize.rs on a heap of many allocations (C48/C51 are about results in one
  block), with an allocator that is any function handing out aligned memory that is not in use (`sound`). Writing outside
  of allocations, and freeing with a size or alignment other than that of the allocation, is `Panic`.
  `CapiNormSpec.v` says with numbers (offsets of the header file) what a C program reads; `C82_session` is about
  all sequences of conversions and frees, and the calls are those of C73's computer, so that C73_* say what is in results.
* C83 — `CapiInsp.v` puts the conversions of C48/C51 (results in one block) on the heap of C82, adds `malloc`/`free`, the
  calls of capi/src/inspect.rs and `blaze_read_elf_build_id`. `program` is any sequence of getting and giving back things of
  all four kinds (`thing`), with writes of the program to its own memory. `C83_history` turns calls of C programs into
  those of C64, so that C75 and C81 say what is reported (`C83_elf`, `C83_debug`). C67 is about which allocations are made
  and freed, C82 about contents of normalization results, C83 about all results at once.
* C84 — `CapiDisp.v` is the closure in `blaze_symbolizer_new_opts` on the heap of C82, with `malloc`/`free` of C83. The
  program's function is any `callback`; `obeys` (CapiDispSpec.v) is the documented contract, with a relation `does` for
  what else it does. `dispatched` is the answer, independent of memory; `C84_dispatch` says the closure gives it, and
  `C84_process` that a `Symbolizer` with it as its dispatcher (`w_dispatch`) symbolizes with the file chosen.
* C85 — `bare_file` (ElfBareSpec.v) is `elf_file` of C27 for an image without sections. The functions are those of
  `Elf.v`/`BuildId.v`. The file header decoded as a section header has `e_version` (32 bit) or `e_phoff` (64 bit) for its
  size (`first_size`), which is what `parse_ehdr` takes for the number of sections.
* C86 — `big_file` (ElfBigSpec.v) is a file starting with a big endian file header (`big_header`); nothing is required of
  the rest. The functions are those of `Elf.v`/`BuildId.v`, which decode little endian numbers (`field`).
* C85 and C86 on a host — `PropHostBare.v` has them for `symbolize_single` with files of the host of C72 (`host_world`).
* `PropExamples.v` holds examples for C08, C12 and C34 (`C08_ex`, `C12_ex`, `C34_sources_ex`), and `Print Assumptions` for the theorems that have none where they are proved.
* C87 — `CapiCache.v` models `blaze_symbolize_cache_elf`/`_process` on top of CapiIn.v (structures), CapiCalls.v (strings) and
  `cache` of Symbolizer.v; programs are lists of `request`s, mixing these calls with those of CapiEnd.v. `CapiCacheSpec.v` says
  what a structure stands for (`wants`), when it is too new (`newer`), and what a program does in terms of the library (`does`).
  The world of every call is its own, so files and processes may change at any time. C87_debug adds answers
  with debug symbols (which may still depend on other files), C87_again a second request after the file is gone: it fails and
  what was cached before stays in use.
* `PropElfUnread.v` has C29 for symbol tables with names that are no UTF-8 (`C29_unreadable`): these hide no dynamic symbols,
  but looking up their addresses fails (`C27_unreadable`), and so does going over all symbols (`C30_unreadable`).
  `PropHostUnread.v` has this for files of a host (C72): an error for one address, `IgnoredError` for it among others.
