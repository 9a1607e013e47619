(** * The world a [Symbolizer] lives in, made of the contents of files

    Ties [Symbolizer] to the models of the file formats. Open files are pairs
    of contents and the address they are mapped at; mappings share both for as
    long as the file is open ([Mmap] is copy on write for others' changes, see
    Mmap.v). *)

From Verif Require Import Base Util Maps Sym Inspect Mmap Elf FileCache Normalize Symbolizer.
From Verif Require Zip Gsym Breakpad PerfMap.
Local Open Scope N_scope.

Record host := Host {
  h_stat : path -> outcome file_meta;
  h_open : path -> outcome (N * list N);
  (* the text of /proc/<pid>/maps *)
  h_maps : pid -> outcome (list N);
  (* own memory, from the one address to the other *)
  h_memory : N -> N -> list N;
  (* the number of the own process, where byte strings of the caller are *)
  h_pid : N;
  h_data_at : list N -> N
}.

(** The inverse of [path_of] *)
Fixpoint unpath_loop (fuel : nat) (p : path) : list N :=
  match fuel with
  | O => []
  | S fuel => if p =? 0 then [] else (p mod 257 - 1) :: unpath_loop fuel (p / 257)
  end.
Definition unpath (p : path) : list N := unpath_loop (N.to_nat (N.size p)) p.

(** Opening files does not panic ([C72_total]). *)
Definition to_outcome {A} (r : res A) : outcome A :=
  match r with Ok a => Good a | Err k => Bad k | Panic | NoFuel => Bad EInvalidData end.

Section Host.
  Context (x : ext) (m : mode) (pick : N -> N -> N).
  (** What is not modelled here: debug information, the kernel, dispatchers *)
  Context (rest : world (N * list N) parser).

  (** src/elf/parser.rs lines 1344-1401, as [Elf.for_each], with the symbols
      the callback got so far ([seen]) also upon errors *)
  Fixpoint elf_calls_loop (opts : find_addr_opts) (go : list sym_info -> bool) (shdrs : list shdr)
      (l : list (list N * esym)) (seen : list sym_info) : list sym_info * res unit :=
    match l with
    | [] => (seen, Ok tt)
    | (n, s) :: l =>
        if matches (fa_sym_type opts) s && negb (st_shndx s =? SHN_UNDEF) then
          match make_info m opts shdrs None n s with
          | Ok i => if go (seen ++ [i]) then elf_calls_loop opts go shdrs l (seen ++ [i]) else (seen ++ [i], Ok tt)
          | Err k => (seen, Err k)
          | Panic => (seen, Panic)
          | NoFuel => (seen, NoFuel)
          end
        else elf_calls_loop opts go shdrs l seen
    end.
  (** A table's symbols by name, if they can be read *)
  Definition elf_calls_table (b : backend) (opts : find_addr_opts) (go : list sym_info -> bool)
      (idx : res (list (list N * esym))) (seen : list sym_info) : list sym_info * res unit :=
    match (let* idx := idx in let* shdrs := parse_shdrs b in Ok (shdrs, idx)) with
    | Ok (shdrs, idx) => elf_calls_loop opts go shdrs idx seen
    | Err k => (seen, Err k)
    | Panic => (seen, Panic)
    | NoFuel => (seen, NoFuel)
    end.
  Definition elf_calls (p : parser) (opts : find_addr_opts) (go : list sym_info -> bool) : list sym_info * res unit :=
    let b := p_backend p in
    let '(seen, r) := elf_calls_table b opts go (let* st := ensure_symtab x b in str2symtab x st) [] in
    match r with
    | Ok _ => elf_calls_table b opts go (let* st := ensure_symtab x b in let* dt := ensure_dynsym b in str2dynsym x m st dt) seen
    | e => (seen, e)
    end.

  (** src/elf/resolver.rs lines 234-273 with [ElfBackend::Elf] *)
  Definition elf_resolver_of (p : parser) : resolver :=
    Resolver (fun addr _ => elf_find_sym x m p addr) (file_offset_to_virt_offset m (p_backend p))
      (fun name opts => Elf.find_addr x m p opts name) (elf_calls p).
  (** src/elf/parser.rs lines 1193-1196 [ElfParser::from_file] *)
  Definition elf_from_file (f : N * list N) (module : path) : outcome parser :=
    Good (Parser (Some (unpath module)) (Mem (fst f) (snd f))).

  (** src/symbolize/symbolizer.rs lines 894-903, with the members as read by
      lines 837-854 *)
  Definition member_of (ptr : N) (v : mmap) (e : Zip.entry) : member :=
    Member (Zip.e_path e) (Zip.e_data_offset e) (nlen (Zip.e_data e))
      (match constrain m v (Zip.e_data_offset e) (Zip.e_data_offset e + nlen (Zip.e_data e)) with
       | Ok (Some v') => Some (ptr + mm_start v', deref v')
       | _ => None
       end).
  Definition archive_of (f : N * list N) : outcome (list (outcome member)) :=
    to_outcome (
      let* a := Zip.with_mmap (map_file (snd f)) in
      let* es := Zip.entries a in
      Ok (map (fun r => to_outcome (let* e := r in Ok (member_of (fst f) (Zip.a_mmap a) e))) es)).
  (** lines 264-283 [default_apk_dispatcher] *)
  Definition default_member (apk : path) (mb : member) (debug : bool) : outcome resolver :=
    if debug then w_apk_default rest apk mb debug
    else
      match mb_mmap mb with
      | Some (ptr, data) => Good (elf_resolver_of (Parser (Some (create_apk_elf_path (unpath apk) (mb_path mb))) (Mem ptr data)))
      | None => Bad EInvalidInput
      end.

  (** Those that only do [Symbolize] *)
  Definition symbolize_only (find : N -> find_opts -> find_result) : resolver :=
    Resolver find (fun _ => Err EUnsupported) no_find_addr no_for_each.
  (** src/gsym/resolver.rs lines 70-89 [from_file], 93-103 [with_data] *)
  Definition gsym_of (ptr : N) (data : list N) : outcome resolver :=
    to_outcome (let* g := Gsym.parse_header ptr data in Ok (symbolize_only (Gsym.find_sym m g))).
  (** src/breakpad/resolver.rs lines 38-51 [SymInfo::from] *)
  Definition func_info (f : Breakpad.func) : sym_info :=
    SymInfo (Breakpad.fn_name f) (Breakpad.fn_addr f) (Some (Breakpad.fn_size f)) TFunction None None.
  (** lines 224-238 [find_addr] *)
  Definition breakpad_find_addr (sf : Breakpad.symbol_file) (name : list N) (opts : find_addr_opts) : res (list sym_info) :=
    match fa_sym_type opts with
    | TVariable => Err EUnsupported
    | _ => Ok (map func_info (Breakpad.find_addr sf name))
    end.
  (** lines 241-255 [for_each] *)
  Fixpoint breakpad_calls_loop (go : list sym_info -> bool) (l : list Breakpad.func) (seen : list sym_info) : list sym_info :=
    match l with
    | [] => seen
    | f :: l =>
        let seen := seen ++ [func_info f] in
        if go seen then breakpad_calls_loop go l seen else seen
    end.
  Definition breakpad_calls (sf : Breakpad.symbol_file) (opts : find_addr_opts) (go : list sym_info -> bool) : list sym_info * res unit :=
    match fa_sym_type opts with
    | TVariable => ([], Err EUnsupported)
    | _ => (breakpad_calls_loop go (Breakpad.for_each sf) [], Ok tt)
    end.
  (** lines 74-95 [from_file] *)
  Definition breakpad_of (f : N * list N) : outcome resolver :=
    to_outcome (let* sf := Breakpad.from_bytes (snd f) in
                Ok (Resolver (Breakpad.find_sym m pick sf) (fun _ => Err EUnsupported) (breakpad_find_addr sf) (breakpad_calls sf))).
  (** src/perf_map.rs lines 139-155 [from_file] *)
  Definition perf_map_of (f : N * list N) : outcome resolver :=
    to_outcome (let* fns := PerfMap.parse_perf_map (snd f) in
                Ok (symbolize_only (fun addr _ => PerfMap.perf_find_sym m fns addr))).

  Definition host_world (h : host) : world (N * list N) parser :=
    World (Fs (h_stat h) (h_open h)) elf_from_file elf_resolver_of
      (w_elf_cache rest) (w_link rest) (w_crc rest) (w_dwp rest) (w_dwarf rest)
      archive_of (w_apk_dispatch rest) default_member
      (fun f _ => breakpad_of f) (fun f _ => gsym_of (fst f) (snd f)) (fun f _ => perf_map_of f)
      (fun data => gsym_of (h_data_at h data) data)
      (w_kernel rest)
      (* src/maps.rs lines 401-410 [parse_filtered], see Maps.v; the own process
         goes by its number in paths below /proc *)
      (fun p => match h_maps h p with
                | Good text => Good (parse_filtered m text (match p with Pid n => n | Slf => h_pid h end))
                | Bad k => Bad k
                end)
      (* src/vdso.rs lines 60-68 *)
      (fun start end_ => elf_resolver_of (Parser (Some str_vdso) (Mem start (h_memory h start end_))))
      (w_dispatch rest).
End Host.
