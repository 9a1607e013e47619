(** * Which debug information is used for a file *)

From Verif Require Import Base Bytes Sym Elf ElfSpec FileCache Symbolizer SymbolizerSpec HistorySpec SymHistorySpec Host HostSpec HostUserSpec HostDebug.
From Verif Require DebugLink DebugLinkSpec BuildIdSpec Dwarf DwarfSpec DwarfAnswerSpec Maps PropNormalize.
Local Open Scope N_scope.

Section Files.
  Context (x : ext) (d : debug_env) (h : host).
  Import DebugLinkSpec.
  Definition present (q : DebugLink.path) : Prop := exists meta, h_stat h (path_of (render q)) = Good meta.
  (** The build ID of a file, if it can be read and has one *)
  Inductive id_at (q : DebugLink.path) : option (list N) -> Prop :=
  | IdUnreadable : forall k, h_open h (path_of (render q)) = Bad k -> id_at q None
  | IdNotes : forall ptr data e l, h_open h (path_of (render q)) = Good (ptr, data) -> elf_file ptr data e ->
      BuildIdSpec.notes e l -> (forall n, In n l -> BuildIdSpec.nt_type n = 3 -> BuildIdSpec.nt_name n = BuildIdSpec.GNU) ->
      id_at q (option_map BuildIdSpec.nt_desc (find BuildIdSpec.is_build_id l)).
  (** The section with the link can be read. *)
  Definition link_section_of (e : image) (data : list N) : Prop :=
    exists s, section_named e DebugLink.n_debuglink = Some s /\ sh_type (s_hdr s) <> SHT_NOBITS /\
      N.land (sh_flags (s_hdr s)) SHF_COMPRESSED = 0 /\ data = s_data s /\ link_length_ok data.
  (** Where a debug file of the given name is looked for, for the file at path
      [p]: in all documented places, except that a file is not its own debug
      file. *)
  Definition searched (p name : list N) (l : list DebugLink.path) : Prop :=
    exists dir file id all,
      de_canonical d (DebugLink.parse_path p) = DebugLink.Canonical (DebugLink.Path true (dir ++ [file])) /\
      Forall plain dir /\ plain file /\
      id_at (DebugLink.Path true (dir ++ [file])) id /\ (forall i, id = Some i -> is_bytes i) /\
      documented (map DebugLink.parse_path (de_dirs d)) (Some (dir, file)) name id all /\
      without (Some (DebugLink.Path true (dir ++ [file]))) all l.

  (** The file with the debug information for the one at path [p], if it is
      another one: path and contents *)
  Inductive debug_of (p : list N) (ptr : N) (data : list N) : option (list N * N * list N) -> Prop :=
  | DoOwn : forall e, elf_file ptr data e -> section_named e DebugLink.n_debuglink = None -> debug_of p ptr data None
  | DoMissing : forall e sect name sum l, elf_file ptr data e -> link_section_of e sect -> link_section sect name sum -> plain name ->
      searched p name l -> Forall (fun q => ~ present q) l -> debug_of p ptr data None
  | DoLink : forall e sect name sum pre q post ptr' data', elf_file ptr data e -> link_section_of e sect -> link_section sect name sum ->
      plain name -> searched p name (pre ++ q :: post) -> Forall (fun q => ~ present q) pre ->
      is_bytes (render q) -> file_at h (render q) ptr' data' -> de_crc d data' = sum ->
      debug_of p ptr data (Some (render q, ptr', data')).
  (** When there is something wrong with it *)
  Inductive debug_error (p : list N) (ptr : N) (data : list N) : ekind -> Prop :=
  | EbSection : forall e sect, elf_file ptr data e -> link_section_of e sect -> (forall name sum, ~ link_section sect name sum) ->
      debug_error p ptr data EInvalidData
  | EbOpen : forall e sect name sum pre q post k, elf_file ptr data e -> link_section_of e sect -> link_section sect name sum ->
      plain name -> searched p name (pre ++ q :: post) -> Forall (fun q => ~ present q) pre ->
      present q -> h_open h (path_of (render q)) = Bad k -> debug_error p ptr data k
  | EbChecksum : forall e sect name sum pre q post ptr' data', elf_file ptr data e -> link_section_of e sect -> link_section sect name sum ->
      plain name -> searched p name (pre ++ q :: post) -> Forall (fun q => ~ present q) pre ->
      file_at h (render q) ptr' data' -> de_crc d data' <> sum -> debug_error p ptr data EInvalidData.
  (** The package that goes with the file *)
  Inductive package_of (p : list N) : option (list N) -> Prop :=
  | PkNone : h_stat h (path_of (p ++ dotdwp)) = Bad ENotFound -> h_open h (path_of (p ++ dotdwp)) = Bad ENotFound -> package_of p None
  | PkSome : forall ptr data, file_at h (p ++ dotdwp) ptr data -> package_of p (Some data).

  (** A file with path [p] has debug information [sc], in the file [o] if that
      is another one. *)
  Definition debugged (p : list N) (ptr : N) (data : list N) (o : option (list N * N * list N)) (sc : Dwarf.sections) : Prop :=
    debug_of p ptr data o /\
    exists pkg, package_of p pkg /\ de_gimli d (match o with Some (_, _, data') => data' | None => data end) pkg = Ok sc.
  (** There is something wrong with debug information: the link, the package, or
      the sections. *)
  Inductive debug_fails (p : list N) (ptr : N) (data : list N) : ekind -> Prop :=
  | DfError : forall k, debug_error p ptr data k -> debug_fails p ptr data k
  | DfPackaged : forall o k, debug_of p ptr data o -> k <> ENotFound ->
      (exists meta, h_stat h (path_of (p ++ dotdwp)) = Good meta) \/ h_stat h (path_of (p ++ dotdwp)) = Bad k ->
      h_open h (path_of (p ++ dotdwp)) = Bad k -> debug_fails p ptr data k
  | DfSections : forall o pkg k, debug_of p ptr data o -> package_of p pkg ->
      de_gimli d (match o with Some (_, _, data') => data' | None => data end) pkg = Err k -> debug_fails p ptr data k.
  Definition symbols_in (p : list N) (ptr : N) (data : list N) (o : option (list N * N * list N)) : list N * N * list N :=
    match o with Some f => f | None => (p, ptr, data) end.
End Files.

(** ** Answers *)

(** An address, or the one that a segment puts a file offset at *)
Inductive asks_for (e : image) : kind -> N -> N -> Prop :=
| AskAddr : forall a, asks_for e VirtOffset a a
| AskOffset : forall off p, loads e p -> in_file p off ->
    (forall p', loads e p' -> in_file p' off -> off - p_offset p' + p_vaddr p' = off - p_offset p + p_vaddr p) ->
    asks_for e FileOffset off (off - p_offset p + p_vaddr p).

Section Answers.
  Import Dwarf DwarfSpec DwarfAnswerSpec.
  Context (cf : config) (us : units) (b main : body) (a : N).
  (** About the function [f] from [lo] to [hi] of the file [p] *)
  Record function_answer (p : list N) (f : tree) (lo hi : N) (y : sym) : Prop := FunctionAnswer {
    fa_name : forall s lang, DwarfAnswerSpec.has_name us b f s -> in_language main lang -> sy_name y = cf_demangle cf s lang;
    fa_module : sy_module y = Some p;
    fa_addr : sy_addr y = lo;
    fa_offset : sy_offset y = a - lo;
    fa_size : sy_size y = Some (hi - lo);
    fa_plain : cf_opts cf = Basic -> sy_code_info y = None;
    fa_no_frames : cf_opts cf <> WithInlined -> sy_inlined y = [];
    fa_no_row : no_row main a -> sy_code_info y = None /\ sy_inlined y = [];
    fa_code : cf_opts cf = WithCode -> forall q row, b_lines main = Some q -> row_at q a row ->
      exists code, sy_code_info y = Some code /\ code_at main q row code;
    fa_frames : cf_opts cf = WithInlined -> forall q row chain lang, b_lines main = Some q -> row_at q a row ->
      inlined_at b main q f a chain -> in_language main lang ->
      frames_at us b main q chain row (sy_code_info y) (sy_inlined y) (fun s => cf_demangle cf s lang)
  }.
  (** What symbols say, with code information in addition *)
  Definition plus_code (r r' : symbolized) : Prop :=
    match r, r' with
    | Known y, Known y' =>
        sy_name y' = sy_name y /\ sy_module y' = sy_module y /\ sy_addr y' = sy_addr y /\ sy_offset y' = sy_offset y /\ sy_size y' = sy_size y /\
        (cf_opts cf = Basic \/ no_row main a -> y' = y) /\
        (cf_opts cf <> Basic -> forall q row, b_lines main = Some q -> row_at q a row ->
           sy_inlined y' = [] /\ exists code, sy_code_info y' = Some code /\ code_at main q row code)
    | Unknown reason, Unknown reason' => reason = reason'
    | _, _ => False
    end.
End Answers.

Section Describes.
  Import DwarfAnswerSpec.
  Context (x : ext) (m : mode) (d : debug_env) (h : host) (cf : config).
  (** The sections can be read. *)
  Definition informed (p : list N) (ptr : N) (data : list N) (o : option (list N * N * list N)) (us : Dwarf.units)
      (sets : list Dwarf.aset) (hs : list Dwarf.uheader) : Prop :=
    exists sc, debugged d h p ptr data o sc /\ Dwarf.units_parse m (de_sort d) (de_pick d) sc = Ok us /\ info_ok sc us sets hs.
  (** What the file with path [p] says *)
  Inductive debug_describes (p : list N) (ptr : N) (data : list N) (k : kind) (n : N) : (symbolized -> Prop) -> Prop :=
  | DdFunction : forall e o us sets hs hd b main t f lo hi a, elf_file ptr data e -> segments_ok e -> asks_for e k n a -> a + 1 < two64 ->
      informed p ptr data o us sets hs -> only_unit us sets hs hd b main t a -> only_function b t f lo hi a ->
      debug_describes p ptr data k n (fun r => exists y, r = Known y /\ function_answer cf us b main a p f lo hi y)
  (* Without a function, symbols are those of the file with the debug
     information. *)
  | DdSymbol : forall e o us sets hs hd b main t a q ptr' data' e' st dt, elf_file ptr data e -> segments_ok e -> asks_for e k n a -> a + 1 < two64 ->
      informed p ptr data o us sets hs -> only_unit us sets hs hd b main t a -> no_function b t a ->
      symbols_in p ptr data o = (q, ptr', data') -> elf_program x ptr' data' e' st dt ->
      debug_describes p ptr data k n (fun r => exists r0, elf_answer cf q st dt a r0 /\ plus_code cf main a r0 r)
  | DdNoUnit : forall e o us sets hs a q ptr' data' e' st dt, elf_file ptr data e -> segments_ok e -> asks_for e k n a -> a + 1 < two64 ->
      informed p ptr data o us sets hs -> no_unit sets hs a ->
      symbols_in p ptr data o = (q, ptr', data') -> elf_program x ptr' data' e' st dt ->
      debug_describes p ptr data k n (elf_answer cf q st dt a)
  | DdOutside : forall e o us sets hs, elf_file ptr data e -> segments_ok e -> k = FileOffset -> (forall s, loads e s -> ~ in_file s n) ->
      informed p ptr data o us sets hs -> debug_describes p ptr data k n (eq (Unknown InvalidFileOffset)).

  (** In an archive *)
  Inductive debug_archive (module : list N) (ptr : N) (data : list N) (off : N) : (symbolized -> Prop) -> Prop :=
  | DaMember : forall rs1 c rs2 name start contents P, HostSpec.archive data (rs1 ++ c :: rs2) ->
      Forall (elsewhere data off) rs1 -> stored data c name start contents -> start <= off < start + nlen contents ->
      debug_describes (PropNormalize.member_path module name) (ptr + start) contents FileOffset (off - start) P ->
      debug_archive module ptr data off P
  | DaNone : forall rs, HostSpec.archive data rs -> Forall (elsewhere data off) rs ->
      debug_archive module ptr data off (eq (Unknown InvalidFileOffset)).
  (** Files, archives and processes, with debug information; other things *)
  Inductive debug_source : source -> kind -> N -> (symbolized -> Prop) -> Prop :=
  | DbElf : forall p ptr data k n P, is_bytes p -> file_at h p ptr data -> debug_describes p ptr data k n P ->
      debug_source (SElf (path_of p) true) k n P
  | DbApk : forall p ptr data off P, is_bytes p -> file_at h p ptr data -> debug_archive p ptr data off P ->
      debug_source (SApk (path_of p) true) FileOffset off P
  | DbProcess : forall p o vs v a q ptr data P, process h p vs -> po_debug o = true ->
      mapped_at vs v a -> a < two64 -> of_file v q -> is_bytes q -> mapped_file h o p v q ptr data ->
      (PropNormalize.is_archive q /\ debug_archive q ptr data (a - Maps.vma_start v + Maps.vma_offset v) P) \/
      (~ PropNormalize.is_archive q /\ debug_describes q ptr data FileOffset (a - Maps.vma_start v + Maps.vma_offset v) P) ->
      debug_source (SProcess p o) AbsAddr a P
  | DbElsewhere : forall p o vs a P, process h p vs -> (exists v, In v (map fst vs) /\ accessible v) ->
      (forall v q, mapped_at vs v a -> ~ of_file v q) -> process_describes x h cf p o vs a P -> debug_source (SProcess p o) AbsAddr a P
  | DbWithout : forall src k a P, describes x h cf src k a P -> debug_source src k a P.
End Describes.

(** Sources about which there is no answer for such a reason *)
Inductive failing_source (d : debug_env) (h : host) : source -> kind -> N -> ekind -> Prop :=
| FsElf : forall p ptr data k n e, is_bytes p -> file_at h p ptr data -> debug_fails d h p ptr data e ->
    failing_source d h (SElf (path_of p) true) k n e
| FsApk : forall p ptr data off e rs1 c rs2 name start contents, is_bytes p -> file_at h p ptr data ->
    HostSpec.archive data (rs1 ++ c :: rs2) -> Forall (elsewhere data off) rs1 -> stored data c name start contents ->
    start <= off < start + nlen contents ->
    debug_fails d h (PropNormalize.member_path p name) (ptr + start) contents e ->
    failing_source d h (SApk (path_of p) true) FileOffset off e
| FsProcess : forall p o vs v a q ptr data e, process h p vs -> po_debug o = true ->
    mapped_at vs v a -> a < two64 -> of_file v q -> is_bytes q -> mapped_file h o p v q ptr data ->
    ~ PropNormalize.is_archive q -> debug_fails d h q ptr data e -> failing_source d h (SProcess p o) AbsAddr a e.

(** Nothing is asked for that is used as a file with debug information by
    something else that is asked for. *)
Definition debug_apart (hist : list (@SymbolizerSpec.op (N * list N) parser)) : Prop :=
  forall w p r P q p' r' mt, worlds hist w -> reads_elf hist p r true -> parsed w p r = Ok P -> debug_file w P q ->
    reads_elf hist p' r' true -> fs_stat (w_fs w) p' = Good mt -> fs_stat (w_fs w) q <> Good mt.
