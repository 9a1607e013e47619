(** * From the contents of files to answers *)

From Verif Require Import Base Bytes Maps Sym Inspect Elf ElfSpec FileCache Symbolizer Host.
From Verif Require ZipSpec PropZip PropMaps PropNormalize Normalize.
Local Open Scope N_scope.

(** The file at a path has contents [data], to be found at address [ptr] once
    mapped. *)
Definition file_at (h : host) (p : list N) (ptr : N) (data : list N) : Prop :=
  (exists meta, h_stat h (path_of p) = Good meta) /\ h_open h (path_of p) = Good (ptr, data).

(** What is to be known about a function at [value], for address [addr] *)
Definition answer (cf : config) (name : list N) (module : option (list N)) (addr value : N) (size : option N) : symbolized :=
  Known (Sym (cf_demangle cf name LangUnknown) module value (addr - value) size None []).

(** ** ELF files *)

(** A program or library with symbol tables [st] and [dt] *)
Definition elf_program (x : ext) (ptr : N) (data : list N) (e : image) (st dt : symtab) : Prop :=
  elf_file ptr data e /\ segments_ok e /\ symtab_of x e st /\ dynsym_of e dt /\
  in_space st /\ in_space dt /\ names_ok st /\ names_ok dt.
(** No symbol covers the address; what covers it and is the very first symbol
    may be missed (see C27). *)
Definition not_in (kind : table_kind) (t : symtab) (addr : N) : Prop :=
  forall z, closest_symbol kind t TUndefined addr z -> lowest t z /\ st_value z <> addr.
(** The answer for an address: the closest symbol, those of the dynamic table
    being second choice *)
Definition elf_answer (cf : config) (module : list N) (st dt : symtab) (addr : N) (r : symbolized) : Prop :=
  let is_symbol t s := exists name, has_name t s name /\
    r = answer cf name (Some module) addr (st_value s) (if st_size s =? 0 then None else Some (st_size s)) in
  (exists s, closest_symbol Symtab st TUndefined addr s /\ is_symbol st s) \/
  (not_in Symtab st addr /\ exists s, closest_symbol Dynsym dt TUndefined addr s /\ is_symbol dt s) \/
  (not_in Symtab st addr /\ not_in Dynsym dt addr /\
   r = Unknown (match t_syms st with [] => MissingSyms | _ => UnknownAddr end)).
(** The answer for a file offset: that for the address which the segment the
    offset is in puts it at *)
Definition elf_offset_answer (cf : config) (module : list N) (e : image) (st dt : symtab) (off : N) (r : symbolized) : Prop :=
  (exists p, loads e p /\ in_file p off /\ elf_answer cf module st dt (off - p_offset p + p_vaddr p) r) \/
  ((forall p, loads e p -> ~ in_file p off) /\ r = Unknown InvalidFileOffset).

(** ** Archives: records [rs] of the central directory *)
Definition archive (data : list N) (rs : list ZipSpec.cdrec) : Prop :=
  is_bytes data /\ nlen data < two64 /\
  exists p z, PropZip.last_record data p z /\ nlen data <= p + 22 + 2 ^ 16 /\ ZipSpec.single_file z /\
    z.(ZipSpec.z_offset) + 46 * z.(ZipSpec.z_records) <= nlen data /\
    ZipSpec.directory_at data (ZipSpec.z_offset z) rs /\ nlen rs = ZipSpec.z_records z.
(** The record's file starts at [start] and has the given name and
    contents. *)
Definition stored (data : list N) (c : ZipSpec.cdrec) (name : list N) (start : N) (contents : list N) : Prop :=
  exists l, ZipSpec.member_at data (ZipSpec.r_offset c) l contents /\ name = ZipSpec.l_name l /\
    start = ZipSpec.data_start (ZipSpec.r_offset c) l.
(** Other files, which the offset is not in *)
Definition elsewhere (data : list N) (off : N) (c : ZipSpec.cdrec) : Prop :=
  exists name start contents, stored data c name start contents /\ ~ (start <= off < start + nlen contents).

(** ** Processes: mappings [vs], as the kernel prints them *)
Definition process (h : host) (p : pid) (vs : list (Maps.vma * (bool * PropMaps.layout))) : Prop :=
  h_maps h p = Good (PropNormalize.maps_text vs) /\ PropNormalize.wf_vmas (map fst vs) /\
  Forall (fun '(v, (sh, l)) => PropMaps.wf_layout (PropNormalize.printed_of v sh) l /\ PropMaps.wf_name (Maps.vma_name v) /\
            PropMaps.no_lf (Maps.vma_name v)) vs.
(** The number the process goes by *)
Definition number (h : host) (p : pid) : N := match p with Slf => h_pid h | Pid n => n end.
(** Mappings that are neither readable nor executable do not count. *)
Definition accessible (v : Maps.vma) : Prop := N.testbit (Maps.vma_flags v) 0 = true \/ N.testbit (Maps.vma_flags v) 2 = true.
Definition mapped_at (vs : list (Maps.vma * (bool * PropMaps.layout))) (v : Maps.vma) (a : N) : Prop :=
  In v (map fst vs) /\ accessible v /\ Maps.vma_start v <= a < Maps.vma_end v.
(** The mapping is of the file that is or was at the path. *)
Definition of_file (v : Maps.vma) (q : list N) : Prop :=
  hd_error q = Some 47 /\
  (Maps.vma_name v = q /\ (forall r, q <> r ++ PropMaps.str_deleted) \/ Maps.vma_name v = q ++ PropMaps.str_deleted).
(** The file of a mapping is opened by what it is mapped at or else by its
    path. *)
Definition mapped_file (h : host) (o : popts) (p : pid) (v : Maps.vma) (q : list N) (ptr : N) (data : list N) : Prop :=
  forall f, PropMaps.is_map_file (number h p) (Maps.vma_start v) (Maps.vma_end v) f ->
    file_at h (if po_map_files o then f else q) ptr data.
(** The vDSO, which is that of the own process, being the same for all *)
Definition is_vdso (v : Maps.vma) : Prop := Maps.vma_name v = Normalize.str_vdso.
Definition vdso_image (h : host) (p : pid) (v : Maps.vma) (start : N) (data : list N) : Prop :=
  exists end_, data = h_memory h start end_ /\
  match p with
  | Slf => start = Maps.vma_start v /\ end_ = Maps.vma_end v
  | Pid _ => exists vs' v', process h Slf vs' /\ In v' (map fst vs') /\ accessible v' /\ is_vdso v' /\
      (forall u, In u (map fst vs') -> is_vdso u -> u = v') /\ start = Maps.vma_start v' /\ end_ = Maps.vma_end v'
  end.

(** ** Perf maps: "/tmp/perf-<pid>.map" *)
Definition str_perf : list N := [47; 116; 109; 112; 47; 112; 101; 114; 102; 45].
Definition str_map : list N := [46; 109; 97; 112].
Definition perf_file (cf : config) (h : host) (p : pid) (ptr : N) (data : list N) : Prop :=
  exists digits, PropMaps.shortest_text 10 digits (match p with Slf => cf_self cf | Pid n => n end) /\
    file_at h (str_perf ++ digits ++ str_map) ptr data.
