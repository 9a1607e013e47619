(** * Debug information of the files of a host

    Ties [Host] to the models of debug links ([DebugLink]) and of debug
    information ([Dwarf]). *)

From Verif Require Import Base Util Sym Inspect Search Elf FileCache Symbolizer Host Dwarf.
From Verif Require DebugLink BuildId Nom.
From Coq Require Import String.
Local Close Scope string_scope.
Local Open Scope N_scope.

(** What the functions of src/dwarf are given by others: the path of a file
    without links in it, checksums (src/dwarf/debug_link.rs lines 233-235), and
    gimli's reading of sections, of a file and of a package of debug
    information if there is one. *)
Record debug_env := DebugEnv {
  de_canonical : DebugLink.path -> DebugLink.canonical;
  de_crc : list N -> N;
  de_gimli : list N -> option (list N) -> res sections;
  de_sort : sorter;
  de_pick : N -> N;
  (* the directories with debug files *)
  de_dirs : list (list N)
}.

(** A path as text; one made of others is like that except for how often it
    has slashes, and for dots. *)
Fixpoint joined (l : list (list N)) : list N :=
  match l with
  | [] => []
  | [c] => c
  | c :: l => c ++ 47 :: joined l
  end.
Definition render (p : DebugLink.path) : list N := (if DebugLink.p_abs p then [47] else []) ++ joined (DebugLink.p_comps p).
Definition dotdwp : list N := Nom.bs ".dwp"%string.

Section Debug.
  Context (x : ext) (m : mode) (d : debug_env) (h : host).

  (** src/dwarf/resolver.rs lines 105-141: of the file system *)
  Definition exists_ (p : DebugLink.path) : bool :=
    match h_stat h (path_of (render p)) with Good _ => true | Bad _ => false end.
  (** src/normalize/buildid.rs lines 95-102 [read_elf_build_id]; errors are like
      there being none *)
  Definition build_id_at (p : DebugLink.path) : option (list N) :=
    match h_open h (path_of (render p)) with
    | Good (ptr, data) => match BuildId.read_build_id x m (Mem ptr data) with Ok id => id | _ => None end
    | Bad _ => None
    end.
  Definition contents_at (p : DebugLink.path) : res (list N) :=
    let* '(_, data) := of_outcome (h_open h (path_of (render p))) in Ok data.
  Definition link_fs : DebugLink.dfs := DebugLink.DFs (de_canonical d) build_id_at exists_ contents_at.

  (** src/dwarf/resolver.rs lines 149-156, without opening the file *)
  Definition link_of (p : parser) : res (option (path * N)) :=
    let* link := DebugLink.read_debug_link x m (p_backend p) in
    match link with
    | None => Ok None
    | Some (file, checksum) =>
        let* found := DebugLink.find_debug_file link_fs (DebugLink.parse_path file)
                        (option_map DebugLink.parse_path (p_module p)) (map DebugLink.parse_path (de_dirs d)) in
        Ok (option_map (fun q => (path_of (render q), checksum)) found)
    end.
  Definition contents (p : parser) : list N := match p_backend p with Mem _ data => data | FileIo data => data end.
  Definition crc_of (p : parser) : N := de_crc d (contents p).
  (** lines 192-200 *)
  Definition dwp_of (p : parser) : option path := option_map (fun n => path_of (n ++ dotdwp)) (p_module p).

  (** lines 436-455 [for_each], as [Dwarf.each_fn], with what the callback got
      so far also upon errors; whether to stop *)
  Fixpoint calls_fns (r : dresolver) (off : bool) (go : list sym_info -> bool) (l : list dfn) (seen : list sym_info)
    : list sym_info * res bool :=
    match l with
    | [] => (seen, Ok false)
    | fn :: l =>
        match function_to_sym_info r fn off with
        | Ok None => calls_fns r off go l seen
        | Ok (Some i) => if go (seen ++ [i]) then calls_fns r off go l (seen ++ [i]) else (seen ++ [i], Ok true)
        | Err k => (seen, Err k)
        | Panic => (seen, Panic)
        | NoFuel => (seen, NoFuel)
        end
    end.
  Fixpoint calls_units (r : dresolver) (off : bool) (go : list sym_info -> bool) (l : list dunit) (seen : list sym_info)
    : list sym_info * res unit :=
    match l with
    | [] => (seen, Ok tt)
    | u :: l =>
        match unit_functions m (de_sort d) (de_pick d) (dr_units r) u with
        | Ok fs =>
            match calls_fns r off go (fs_fns fs) seen with
            | (seen, Ok stop) => if stop : bool then (seen, Ok tt) else calls_units r off go l seen
            | (seen, Err k) => (seen, Err k)
            | (seen, Panic) => (seen, Panic)
            | (seen, NoFuel) => (seen, NoFuel)
            end
        | Err k => (seen, Err k)
        | Panic => (seen, Panic)
        | NoFuel => (seen, NoFuel)
        end
    end.
  Definition dwarf_calls (r : dresolver) (opts : find_addr_opts) (go : list sym_info -> bool) : list sym_info * res unit :=
    match fa_sym_type opts with
    | TVariable => ([], Err EUnsupported)
    | _ => calls_units r (fa_file_offset opts) go (us_units (dr_units r)) []
    end.
  (** src/elf/resolver.rs lines 236-270 with [ElfBackend::Dwarf]; [q] is the
      file the debug information is in. *)
  Definition dresolver_of (p q : parser) (us : units) : dresolver :=
    DResolver us (p_module p) (find_file_offset m (p_backend p)) (fun addr _ => elf_find_sym x m q addr)
      (fun name opts => Elf.find_addr x m q opts name).
  Definition dwarf_resolver_of (p q : parser) (us : units) : resolver :=
    let r := dresolver_of p q us in
    Resolver (dwarf_find_sym m (de_sort d) (de_pick d) r) (file_offset_to_virt_offset m (p_backend p))
      (dwarf_find_addr m (de_sort d) (de_pick d) r) (dwarf_calls r).
  (** src/dwarf/resolver.rs lines 248-299 [from_parser], given the other
      files *)
  Definition dwarf_of (p : parser) (link dwp : option parser) : res resolver :=
    let q := match link with Some q => q | None => p end in
    let* sc := de_gimli d (contents q) (option_map contents dwp) in
    let* us := units_parse m (de_sort d) (de_pick d) sc in
    Ok (dwarf_resolver_of p q us).

  (** The same without a cache, lines 144-189 and 190-219 *)
  Definition open_parser (q : path) : res parser :=
    let* f := of_outcome (h_open h q) in of_outcome (elf_from_file f q).
  Definition uncached_link (p : parser) : res (option parser) :=
    let* link := link_of p in
    match link with
    | None => Ok None
    | Some (q, checksum) =>
        let* l := open_parser q in
        if crc_of l =? checksum then Ok (Some l) else Err EInvalidData
    end.
  Definition uncached_dwp (p : parser) : res (option parser) :=
    match dwp_of p with
    | None => Ok None
    | Some q =>
        match open_parser q with
        | Ok p => Ok (Some p)
        | Err ENotFound => Ok None
        | Err k => Err k
        | Panic => Panic
        | NoFuel => NoFuel
        end
    end.
  Definition uncached_dwarf (p : parser) : res resolver :=
    let* l := uncached_link p in
    let* dwp := uncached_dwp p in
    dwarf_of p l dwp.

  (** What [host_world] is to use. The remaining things are as in [rest]. *)
  Definition debug_rest (rest : world (N * list N) parser) : world (N * list N) parser :=
    World (w_fs rest) (w_elf_parse rest) (w_elf_plain rest) (w_elf_cache rest)
      link_of crc_of dwp_of (fun p link dwp => to_outcome (dwarf_of p link dwp))
      (w_archive rest) (w_apk_dispatch rest)
      (* src/symbolize/symbolizer.rs lines 264-283 [default_apk_dispatcher] *)
      (fun apk mb _ =>
         match mb_mmap mb with
         | Some (ptr, data) =>
             to_outcome (uncached_dwarf (Parser (Some (Normalize.create_apk_elf_path (unpath apk) (mb_path mb))) (Mem ptr data)))
         | None => Bad EInvalidInput
         end)
      (w_breakpad rest) (w_gsym rest) (w_perf_map rest) (w_gsym_data rest) (w_kernel rest) (w_maps rest)
      (w_image rest) (w_dispatch rest).
End Debug.
