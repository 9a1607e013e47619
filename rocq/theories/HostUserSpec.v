(** * What is known about addresses of programs, libraries and processes,
      from the contents of files *)

From Verif Require Import Base Maps Sym Frames Elf ElfSpec FileCache Symbolizer Host HostSpec.
From Verif Require ZipSpec PropNormalize Normalize GsymSpec BreakpadSpec Breakpad PerfSpec PerfMap.
Local Open Scope N_scope.

(** The result for an address in a function, at line [loc], in which functions
    [names] are inlined, each into the one before, at [sites] *)
Definition framed (cf : config) (name : list N) (module : option (list N)) (addr start size : N)
    (loc : code_info) (names : list (list N)) (sites : list code_info) (r : symbolized) : Prop :=
  exists y, r = Known y /\ sy_name y = cf_demangle cf name LangUnknown /\ sy_module y = module /\
    sy_addr y = start /\ sy_offset y = addr - start /\ sy_size y = Some size /\
    map if_name (sy_inlined y) = map (fun n => cf_demangle cf n LangUnknown) names /\
    frame_locs (Some loc) (map Some sites) (sy_code_info y :: map if_code_info (sy_inlined y)).

(** ** Gsym *)
Section Gsym.
  Import GsymSpec.
  Context (cf : config) (d : gfile) (addr : N).
  Definition in_func (f : fentry) (name : list N) : Prop := nearest d addr f /\ covers d addr f /\ name_at d (f_name f) name.
  Definition lines_ok (f : fentry) : Prop := Forall (info_ok (gf_base d + f_start f)) (f_infos f).
  Definition in_line (f : fentry) (loc : code_info) : Prop :=
    exists r, row_of (gf_base d + f_start f) addr (f_infos f) r /\ loc_at d (ls_file r) (Z.to_N (ls_line r)) loc.
  Inductive gsym_describes : (symbolized -> Prop) -> Prop :=
  | GdUnknown : (forall f, nearest d addr f -> ~ covers d addr f) -> gsym_describes (eq (Unknown UnknownAddr))
  | GdPlain : forall f name, in_func f name ->
      cf_opts cf = Basic \/ lines_ok f /\ no_row (gf_base d + f_start f) addr (f_infos f) ->
      gsym_describes (eq (answer cf name None addr (gf_base d + f_start f) (Some (f_size f))))
  | GdLine : forall f name loc, in_func f name -> lines_ok f -> in_line f loc ->
      cf_opts cf = WithCode \/ cf_opts cf = WithInlined /\ chain_of (gf_base d + f_start f) addr (f_infos f) = [] ->
      gsym_describes (framed cf name None addr (gf_base d + f_start f) (f_size f) loc [] [])
  | GdInlined : forall f name loc root calls rname names sites, in_func f name -> lines_ok f -> in_line f loc ->
      cf_opts cf = WithInlined -> chain_of (gf_base d + f_start f) addr (f_infos f) = root :: calls ->
      name_at d (c_name root) rname ->
      Forall2 (fun c n => name_at d (c_name c) n) calls names ->
      Forall2 (fun c s => loc_at d (c_file c) (c_line c) s) calls sites ->
      gsym_describes (framed cf rname None addr (gf_base d + f_start f) (f_size f) loc names sites).
End Gsym.
Definition gsym_ok (ptr : N) (data : list N) (d : GsymSpec.gfile) : Prop :=
  GsymSpec.is_gsym data d /\ ptr mod 8 = 0 /\ GsymSpec.sorted_funcs d /\ GsymSpec.no_wrap d.

(** ** Breakpad *)
Section Breakpad.
  Import BreakpadSpec Breakpad.
  Context (cf : config) (rs : list brec) (addr : N).
  Definition within (f : func) : Prop := In f (functions rs) /\ func_at addr f.
  Definition at_line (f : func) (loc : code_info) : Prop :=
    no_overlap line_at (fn_lines f) /\ exists l, In l (fn_lines f) /\ line_at addr l /\ source_at rs (sl_file l) (sl_line l) loc.
  Inductive breakpad_describes : (symbolized -> Prop) -> Prop :=
  | BdUnknown : (forall f, In f (functions rs) -> ~ func_at addr f) ->
      breakpad_describes (eq (Unknown (match functions rs with [] => MissingSyms | _ => UnknownAddr end)))
  | BdPlain : forall f, within f -> cf_opts cf = Basic \/ (forall l, In l (fn_lines f) -> ~ line_at addr l) ->
      breakpad_describes (eq (answer cf (fn_name f) (module_of rs) addr (fn_addr f) (Some (fn_size f))))
  | BdLine : forall f loc, within f -> at_line f loc -> cf_opts cf = WithCode ->
      breakpad_describes (framed cf (fn_name f) (module_of rs) addr (fn_addr f) (fn_size f) loc [] [])
  | BdInlined : forall f loc calls names sites, within f -> at_line f loc -> cf_opts cf = WithInlined ->
      inlinees_apart (fn_inlinees f) -> nlen (fn_inlinees f) < 2 ^ 32 -> inlined_at f addr calls ->
      Forall2 (fun i n => origin_of (in_origin i) rs = Some n) calls names ->
      Forall2 (fun i c => source_at rs (in_file i) (in_line i) c) calls sites ->
      breakpad_describes (framed cf (fn_name f) (module_of rs) addr (fn_addr f) (fn_size f) loc names sites).
End Breakpad.
Definition breakpad_ok (data : list N) (rs : list BreakpadSpec.brec) : Prop :=
  BreakpadSpec.is_breakpad data rs /\ BreakpadSpec.no_overlap BreakpadSpec.func_at (BreakpadSpec.functions rs) /\
  Forall BreakpadSpec.fits (BreakpadSpec.functions rs).

(** ** Files of ELF objects and archives of them, by file offset *)
Section Files.
  Context (x : ext) (cf : config).
  (** [module] is the path to report. *)
  Inductive object_describes (module : list N) (ptr : N) (data : list N) (off : N) : (symbolized -> Prop) -> Prop :=
  | OdElf : forall e st dt, elf_program x ptr data e st dt ->
      object_describes module ptr data off (elf_offset_answer cf module e st dt off).
  Inductive archive_describes (module : list N) (ptr : N) (data : list N) (off : N) : (symbolized -> Prop) -> Prop :=
  | AdMember : forall rs1 c rs2 name start contents P, HostSpec.archive data (rs1 ++ c :: rs2) ->
      Forall (elsewhere data off) rs1 -> stored data c name start contents -> start <= off < start + nlen contents ->
      object_describes (PropNormalize.member_path module name) (ptr + start) contents (off - start) P ->
      archive_describes module ptr data off P
  | AdNone : forall rs, HostSpec.archive data rs -> Forall (elsewhere data off) rs ->
      archive_describes module ptr data off (eq (Unknown InvalidFileOffset)).
End Files.

(** ** Everything: what a host's files say about an address *)
Section Describes.
  Context (x : ext) (h : host) (cf : config).
  (** In a process *)
  Inductive process_describes (p : pid) (o : popts) (vs : list (Maps.vma * (bool * PropMaps.layout))) (a : N) : (symbolized -> Prop) -> Prop :=
  | PdFile : forall v q ptr data P, mapped_at vs v a -> a < two64 -> of_file v q -> is_bytes q ->
      mapped_file h o p v q ptr data ->
      (PropNormalize.is_archive q /\ archive_describes x cf q ptr data (a - Maps.vma_start v + Maps.vma_offset v) P) \/
      (~ PropNormalize.is_archive q /\ object_describes x cf q ptr data (a - Maps.vma_start v + Maps.vma_offset v) P) ->
      process_describes p o vs a P
  | PdVdso : forall v start data P, mapped_at vs v a -> a < two64 -> po_vdso o = true -> is_vdso v -> vdso_image h p v start data ->
      object_describes x cf Normalize.str_vdso start data (a - Maps.vma_start v + Maps.vma_offset v) P -> process_describes p o vs a P
  | PdPerf : forall v ptr data es f, mapped_at vs v a -> a < two64 -> Maps.vma_name v = [] -> po_perf_map o = true ->
      perf_file cf h p ptr data -> PerfSpec.perf_text es data -> Forall PerfSpec.fits es -> PerfSpec.disjoint_fns es ->
      In f es -> PerfSpec.at_fn f a ->
      process_describes p o vs a (eq (answer cf (PerfMap.pf_name f) None a (PerfMap.pf_addr f) (Some (PerfMap.pf_size f))))
  | PdUnmapped : (forall v, ~ mapped_at vs v a) -> process_describes p o vs a (eq (Unknown Unmapped)).

  Inductive describes : source -> kind -> N -> (symbolized -> Prop) -> Prop :=
  | DsElf : forall p ptr data e st dt addr, is_bytes p -> file_at h p ptr data -> elf_program x ptr data e st dt ->
      describes (SElf (path_of p) false) VirtOffset addr (elf_answer cf p st dt addr)
  | DsElfOffset : forall p ptr data off P, is_bytes p -> file_at h p ptr data -> object_describes x cf p ptr data off P ->
      describes (SElf (path_of p) false) FileOffset off P
  | DsApk : forall p ptr data off P, is_bytes p -> file_at h p ptr data -> archive_describes x cf p ptr data off P ->
      describes (SApk (path_of p) false) FileOffset off P
  | DsGsym : forall p ptr data d addr P, file_at h p ptr data -> gsym_ok ptr data d -> gsym_describes cf d addr P ->
      describes (SGsymFile (path_of p)) VirtOffset addr P
  | DsGsymData : forall data d addr P, gsym_ok (h_data_at h data) data d -> gsym_describes cf d addr P ->
      describes (SGsymData data) VirtOffset addr P
  | DsBreakpad : forall p ptr data rs addr P, file_at h p ptr data -> breakpad_ok data rs -> breakpad_describes cf rs addr P ->
      describes (SBreakpad (path_of p)) FileOffset addr P
  | DsProcess : forall p o vs a P, process h p vs -> (exists v, In v (map fst vs) /\ accessible v) -> po_debug o = false ->
      process_describes p o vs a P -> describes (SProcess p o) AbsAddr a P.
End Describes.
