(** * Model of /repo/src/elf/parser.rs, types.rs and relocations.rs

    Simplifications:
    - The 32 and 64 bit variants of a structure ([ElfN]) are one record with
      64 bit fields ([to_64bit]).
    - What the code caches in [OnceCell]s is computed anew: a parser's data
      does not change.
    - Symbols are used in place of their index into the symbol table.
    - Error contexts are left out. *)

From Verif Require Import Base Util Bytes Text Amap Sym Inspect.
From Verif Require Gsym Nom.
From Coq Require Import String.
Local Close Scope string_scope.
Local Open Scope N_scope.

(** ** types.rs: structures. [c] is whether a file is a 32 bit one. *)

(** lines 136-173; only the fields in use *)
Record ehdr := Ehdr {
  e_32 : bool;
  e_type : N;
  e_phoff : N;
  e_shoff : N;
  e_phnum : N;
  e_shnum : N;
  e_shstrndx : N
}.
Definition dec_ehdr (c : bool) (d : list N) : ehdr :=
  if c then
    Ehdr true (field 16 2 d) (field 28 4 d) (field 32 4 d) (field 44 2 d)
      (field 48 2 d) (field 50 2 d)
  else
    Ehdr false (field 16 2 d) (field 32 8 d) (field 40 8 d) (field 56 2 d)
      (field 60 2 d) (field 62 2 d).
Definition ehdr_size (c : bool) : N := if c then 52 else 64.

(** lines 242-287 *)
Record phdr := Phdr {
  p_type : N;
  p_flags : N;
  p_offset : N;
  p_vaddr : N;
  p_paddr : N;
  p_filesz : N;
  p_memsz : N;
  p_align : N
}.
Definition dec_phdr (c : bool) (d : list N) : phdr :=
  if c then
    Phdr (field 0 4 d) (field 24 4 d) (field 4 4 d) (field 8 4 d) (field 12 4 d)
      (field 16 4 d) (field 20 4 d) (field 28 4 d)
  else
    Phdr (field 0 4 d) (field 4 4 d) (field 8 8 d) (field 16 8 d) (field 24 8 d)
      (field 32 8 d) (field 40 8 d) (field 48 8 d).
Definition phdr_size (c : bool) : N := if c then 32 else 56.

(** lines 329-379 *)
Record shdr := Shdr {
  sh_name : N;
  sh_type : N;
  sh_flags : N;
  sh_addr : N;
  sh_offset : N;
  sh_size : N;
  sh_link : N;
  sh_info : N;
  sh_addralign : N;
  sh_entsize : N
}.
Definition dec_shdr (c : bool) (d : list N) : shdr :=
  if c then
    Shdr (field 0 4 d) (field 4 4 d) (field 8 4 d) (field 12 4 d) (field 16 4 d)
      (field 20 4 d) (field 24 4 d) (field 28 4 d) (field 32 4 d) (field 36 4 d)
  else
    Shdr (field 0 4 d) (field 4 4 d) (field 8 8 d) (field 16 8 d) (field 24 8 d)
      (field 32 8 d) (field 40 4 d) (field 44 4 d) (field 48 8 d) (field 56 8 d).
Definition shdr_size (c : bool) : N := if c then 40 else 64.

(** lines 495-535, 573-590 *)
Record esym := ESym {
  st_name : N;
  st_info : N;
  st_other : N;
  st_shndx : N;
  st_value : N;
  st_size : N
}.
Definition dec_sym (c : bool) (d : list N) : esym :=
  if c then
    ESym (field 0 4 d) (field 12 1 d) (field 13 1 d) (field 14 2 d) (field 4 4 d) (field 8 4 d)
  else
    ESym (field 0 4 d) (field 4 1 d) (field 5 1 d) (field 6 2 d) (field 8 8 d) (field 16 8 d).
Definition sym_size (c : bool) : N := if c then 16 else 24.

(** lines 726-813: relocations. [r_addend] is the bit pattern of the [i64],
    sign-extended for a 32 bit file. *)
Record rela := Rela {
  r_offset : N;
  r_info : N;
  r_addend : N
}.
Definition sign_extend32 (v : N) : N := if v <? 2 ^ 31 then v else v + (two64 - two32).
Definition dec_rela (c : bool) (d : list N) : rela :=
  if c then Rela (field 0 4 d) (field 4 4 d) (sign_extend32 (field 8 4 d))
  else Rela (field 0 8 d) (field 8 8 d) (field 16 8 d).
Definition rela_size (c : bool) : N := if c then 12 else 24.
Definition dec_rel (c : bool) (d : list N) : rela :=
  if c then Rela (field 0 4 d) (field 4 4 d) 0
  else Rela (field 0 8 d) (field 8 8 d) 0.
Definition rel_size (c : bool) : N := if c then 8 else 16.
(** lines 763-767 [Elf64_Rela::sym], 811-813 [Elf64_Rel::sym] *)
Definition r_sym (r : rela) : N := (r_info r / two32) mod two32.

(** Alignment of all of the above structures. *)
Definition word_align (c : bool) : N := if c then 4 else 8.

(** lines 476-493 *)
Definition elf_type_matches (elf_ty : N) (type : sym_type) : bool :=
  let is_func := (elf_ty =? 2) || (elf_ty =? 10) || (elf_ty =? 0) in
  let is_var := (elf_ty =? 1) || (elf_ty =? 0) in
  match type with
  | TUndefined => is_func || is_var
  | TFunction => is_func
  | TVariable => is_var
  end.
Definition st_type (s : esym) : N := N.land (st_info s) 15.
Definition matches (type : sym_type) (s : esym) : bool := elf_type_matches (st_type s) type.
(** lines 547-570 [SymType::try_from] *)
Definition type_of_elf (t : N) : option sym_type :=
  if t =? 0 then Some TUndefined
  else if (t =? 2) || (t =? 10) then Some TFunction
  else if t =? 1 then Some TVariable
  else None.

Definition SHF_COMPRESSED : N := 2048.
Definition SHN_UNDEF : N := 0.
Definition SHN_LORESERVE : N := 65280.
Definition SHN_XINDEX : N := 65535.
Definition SHT_RELA : N := 4.
Definition SHT_NOTE : N := 7.
Definition SHT_NOBITS : N := 8.
Definition SHT_REL : N := 9.
Definition PT_LOAD : N := 1.
Definition PN_XNUM : N := 65535.
Definition ET_REL : N := 1.

(** ** parser.rs lines 1073-1129: the backends

    [Mem]: data in memory, at address [ptr] (a memory mapping, static memory
    or decompressed data). [FileIo]: a file that is read from. *)
Inductive backend :=
| Mem (ptr : N) (data : list N)
| FileIo (data : list N).

Definition read_pod_obj (b : backend) (size al off : N) : res (list N) :=
  match b with
  | Mem ptr data =>
      let* r := of_option EInvalidData (get_from off data) in
      let* '(d, _) := ok_or EInvalidData (read_slice size r) in
      if (ptr + off) mod al =? 0 then Ok d else Err EInvalidData
  | FileIo data =>
      if 2 ^ 63 <=? off then Err EInvalidInput
      else
        let* '(d, _) := ok_or EUnexpectedEof (read_slice size (ndrop off data)) in
        Ok d
  end.
(** A vector of more than [isize::MAX] bytes is a "capacity overflow" panic. *)
Definition read_pod_slice (b : backend) (size al off count : N) : res (list (list N)) :=
  match b with
  | Mem ptr data =>
      let* r := of_option EInvalidData (get_from off data) in
      let* '(d, _) := ok_or EInvalidData (Gsym.read_pod_slice_ref size al (ptr + off) count r) in
      Ok d
  | FileIo data =>
      if 2 ^ 63 <=? off then Err EInvalidInput
      else if 2 ^ 63 <=? size * count then Panic
      else
        let* '(d, _) := ok_or EUnexpectedEof (read_slice (size * count) (ndrop off data)) in
        Ok (Gsym.chunks (List.length d) size d)
  end.
(** [read_pod_slice::<u8>] *)
Definition read_bytes (b : backend) (off count : N) : res (list N) :=
  match b with
  | Mem ptr data =>
      let* r := of_option EInvalidData (get_from off data) in
      let* '(d, _) := ok_or EInvalidData (read_slice count r) in
      Ok d
  | FileIo data =>
      if 2 ^ 63 <=? off then Err EInvalidInput
      else if 2 ^ 63 <=? count then Panic
      else
        let* '(d, _) := ok_or EUnexpectedEof (read_slice count (ndrop off data)) in
        Ok d
  end.

(** ** External code: decompression, and where in memory its output lives;
    the order in which [sort_unstable_by] leaves equal elements. *)
Record ext := Ext {
  x_zlib : list N -> res (list N);
  x_zstd : list N -> res (list N);
  x_xz : list N -> res (list N);
  x_heap : list N -> N;
  x_sort : forall A : Type, (A -> A -> bool) -> list A -> list A
}.

(** lines 616-634 [read_first_shdr] *)
Definition read_first_shdr (b : backend) (eh : ehdr) : res shdr :=
  let* d := read_pod_obj b (shdr_size (e_32 eh)) (word_align (e_32 eh)) (e_shoff eh) in
  Ok (dec_shdr (e_32 eh) d).

(** lines 336-345 [EhdrExt]: the header with the real number of headers *)
Record ehdr_ext := EhdrExt {
  x_ehdr : ehdr;
  x_shnum : N;
  x_phnum : N
}.

(** lines 637-704 [parse_ehdr] *)
Definition parse_ehdr (b : backend) : res ehdr_ext :=
  let* ident := read_bytes b 0 16 in
  if negb (beq (ntake 4 ident) [127; 69; 76; 70]) then Err EInvalidData
  else
    let* class := unwrap (nnth 4 ident) in
    if negb ((class =? 1) || (class =? 2)) then Err EUnsupported
    else
      let c := class =? 1 in
      let* d := read_pod_obj b (ehdr_size c) (word_align c) 0 in
      let eh := dec_ehdr c d in
      let* shnum :=
        if e_shnum eh =? 0 then
          let* sh := read_first_shdr b eh in Ok (sh_size sh)
        else Ok (e_shnum eh) in
      let* phnum :=
        if e_phnum eh =? PN_XNUM then
          let* sh := read_first_shdr b eh in Ok (sh_info sh)
        else Ok (e_phnum eh) in
      Ok (EhdrExt eh shnum phnum).

(** lines 710-727 [parse_shdrs] *)
Definition parse_shdrs (b : backend) : res (list shdr) :=
  let* x := parse_ehdr b in
  let c := e_32 (x_ehdr x) in
  let* ds := read_pod_slice b (shdr_size c) (word_align c) (e_shoff (x_ehdr x)) (x_shnum x) in
  Ok (map (dec_shdr c) ds).

(** lines 733-750 [parse_phdrs] *)
Definition parse_phdrs (b : backend) : res (list phdr) :=
  let* x := parse_ehdr b in
  let c := e_32 (x_ehdr x) in
  let* ds := read_pod_slice b (phdr_size c) (word_align c) (e_phoff (x_ehdr x)) (x_phnum x) in
  Ok (map (dec_phdr c) ds).

(** lines 525-532 [section_hdr] *)
Definition section_hdr (b : backend) (idx : N) : res shdr :=
  let* shdrs := parse_shdrs b in
  of_option EInvalidInput (nnth idx shdrs).

(** lines 541-551 [section_data_raw] *)
Definition section_data_raw (b : backend) (idx : N) : res (list N) :=
  let* sh := section_hdr b idx in
  if negb (sh_type sh =? SHT_NOBITS) then read_bytes b (sh_offset sh) (sh_size sh)
  else Ok [].

(** lines 558-614 [section_data], together with the memory address of the
    data. [debug_assert_eq] panics in debug builds only. *)
Definition section_data (x : ext) (m : mode) (b : backend) (idx : N) : res (N * list N) :=
  let* sh := section_hdr b idx in
  if negb (sh_type sh =? SHT_NOBITS) then
    let* eh := parse_ehdr b in
    let* data := read_bytes b (sh_offset sh) (sh_size sh) in
    if negb (N.land (sh_flags sh) SHF_COMPRESSED =? 0) then
      let* '(ch_type, ch_size, data) :=
        if e_32 (x_ehdr eh) then
          let* '(d, r) := ok_or EInvalidData (read_slice 12 data) in
          Ok (field 0 4 d, field 4 4 d, r)
        else
          let* '(d, r) := ok_or EInvalidData (read_slice 24 data) in
          Ok (field 0 4 d, field 8 8 d, r) in
      let* out :=
        if ch_type =? 1 then x_zlib x data
        else if ch_type =? 2 then x_zstd x data
        else Err EUnsupported in
      match m with
      | Checked => if nlen out =? ch_size then Ok (x_heap x out, out) else Panic
      | Wrapping => Ok (x_heap x out, out)
      end
    else
      match b with
      | Mem ptr _ => Ok (ptr + sh_offset sh, data)
      | FileIo _ => Ok (x_heap x data, data)
      end
  else Ok (1, []).

(** lines 754-771 [shstrndx] *)
Definition shstrndx (b : backend) (eh : ehdr) : res N :=
  if e_shstrndx eh =? SHN_XINDEX then
    let* sh := read_first_shdr b eh in Ok (sh_link sh)
  else Ok (e_shstrndx eh).

(** lines 773-778 [parse_shstrtab] *)
Definition parse_shstrtab (b : backend) : res (list N) :=
  let* x := parse_ehdr b in
  let* idx := shstrndx b (x_ehdr x) in
  section_data_raw b idx.

(** A string of a string table: the common part of [symbol_name],
    [section_name] and [create_str2sym]. *)
Definition str_at (strs : list N) (off : N) : res (list N) :=
  let* r := of_option EInvalidInput (get_from off strs) in
  let* '(s, _) := ok_or EInvalidInput (read_cstr r) in
  Ok s.
Definition to_str (s : list N) : res (list N) :=
  if utf8_valid s then Ok s else Err EInvalidData.

(** lines 785-798 [section_name] *)
Definition section_name (b : backend) (idx : N) : res (list N) :=
  let* sh := section_hdr b idx in
  let* strs := parse_shstrtab b in
  let* s := str_at strs (sh_name sh) in
  to_str s.

(** lines 813-821 [find_section]. The loop goes over [1..shnum]; the section
    headers, of which there are [shnum], are read first thing in its first
    iteration. [l] has the headers left, to bound the iterations. *)
Fixpoint find_section_loop (b : backend) (name : list N) (l : list shdr) (i : N) : res (option N) :=
  match l with
  | [] => Ok None
  | _ :: l =>
      let* s := section_name b i in
      if beq s name then Ok (Some i) else find_section_loop b name l (i + 1)
  end.
Definition find_section (b : backend) (name : list N) : res (option N) :=
  let* x := parse_ehdr b in
  if x_shnum x <=? 1 then Ok None
  else
    let* shdrs := parse_shdrs b in
    find_section_loop b name (tl shdrs) 1.

(** lines 835-883 [parse_section_data] *)
Definition parse_section_data {T} (size : bool -> N) (dec : bool -> list N -> T)
    (b : backend) (idx : N) : res (list T) :=
  let* x := parse_ehdr b in
  let c := e_32 (x_ehdr x) in
  let* sh := section_hdr b idx in
  if sh_type sh =? SHT_NOBITS then Ok []
  else if negb (sh_size sh mod size c =? 0) then Err EInvalidData
  else
    let count := sh_size sh / size c in
    if count =? 0 then Ok []
    else
      let* ds := read_pod_slice b (size c) (word_align c) (sh_offset sh) count in
      Ok (map (dec c) ds).
Definition parse_syms_for_idx := parse_section_data sym_size dec_sym.
Definition parse_relas_for_idx := parse_section_data rela_size dec_rela.
Definition parse_rels_for_idx := parse_section_data rel_size dec_rel.

(** lines 823-833 [parse_syms] *)
Definition parse_syms (b : backend) (section : list N) : res (list esym) :=
  let* _ := parse_ehdr b in
  let* o := find_section b section in
  match o with
  | Some idx => parse_syms_for_idx b idx
  | None => Ok []
  end.
(** lines 951-958 [parse_strs] *)
Definition parse_strs (b : backend) (section : list N) : res (list N) :=
  let* o := find_section b section in
  match o with
  | Some idx => section_data_raw b idx
  | None => Ok []
  end.

Definition n_symtab : list N := Nom.bs ".symtab"%string.
Definition n_strtab : list N := Nom.bs ".strtab"%string.
Definition n_dynsym : list N := Nom.bs ".dynsym"%string.
Definition n_dynstr : list N := Nom.bs ".dynstr"%string.
Definition n_debugdata : list N := Nom.bs ".gnu_debugdata"%string.

(** lines 897-907 [parse_debugdata] *)
Definition parse_debugdata (x : ext) (b : backend) : res (list N) :=
  let* o := find_section b n_debugdata in
  match o with
  | Some idx => let* data := section_data_raw b idx in x_xz x data
  | None => Ok []
  end.

(** lines 387-400 [SymbolTableCache] *)
Record symtab := SymTab {
  t_syms : list esym;
  t_strs : list N
}.

(** lines 909-931 [ensure_symtab_cache] *)
Definition ensure_symtab (x : ext) (b : backend) : res symtab :=
  let* syms := parse_syms b n_symtab in
  let* strs := parse_strs b n_strtab in
  match syms with
  | _ :: _ => Ok (SymTab syms strs)
  | [] =>
      let* data := parse_debugdata x b in
      match data with
      | [] => Ok (SymTab syms strs)
      | _ :: _ =>
          let b' := Mem (x_heap x data) data in
          let* syms := parse_syms b' n_symtab in
          let* strs := parse_strs b' n_strtab in
          Ok (SymTab syms strs)
      end
  end.

(** lines 933-943 [ensure_dynsym_cache] *)
Definition ensure_dynsym (b : backend) : res symtab :=
  let* syms := parse_syms b n_dynsym in
  let* strs := parse_strs b n_dynstr in
  Ok (SymTab syms strs).

(** ** Symbol lookup *)

(** lines 135-146 [symbol_name] *)
Definition symbol_name (strs : list N) (s : esym) : res (list N) :=
  let* n := str_at strs (st_name s) in to_str n.

(** lines 405-429 [create_by_addr_idx] *)
Definition addr_leb (a b : esym) : bool :=
  match st_value a ?= st_value b with
  | Lt => true
  | Eq => st_size b <=? st_size a
  | Gt => false
  end.
Definition by_addr (x : ext) (t : symtab) : list esym :=
  x_sort x esym addr_leb (filter (matches TUndefined) (t_syms t)).

(** lines 149-155 [SymTab] *)
Inductive table_kind := Symtab | Dynsym.

(** lines 176-229: the loop of [find_sym] *)
Fixpoint find_sym_loop (m : mode) (module : option (list N)) (strs : list N)
    (kind : table_kind) (addr : N) (type : sym_type) (l : list esym) : res (option resolved_sym) :=
  match l with
  | [] => Ok None
  | s :: l =>
      if addr <? st_value s then Ok None
      else
        let* matches_addr :=
          if st_size s =? 0 then
            Ok (match kind with Symtab => true | Dynsym => addr =? st_value s end)
          else
            let* limit := add64 m (st_value s) (st_size s) in Ok (addr <? limit) in
        if matches type s && negb (st_shndx s =? SHN_UNDEF) && matches_addr then
          let* n := symbol_name strs s in
          Ok (Some (ResolvedSym n module (st_value s)
                (if st_size s =? 0 then None else Some (st_size s)) LangUnknown None []))
        else find_sym_loop m module strs kind addr type l
  end.
(** lines 157-232 [find_sym] *)
Definition find_sym (m : mode) (module : option (list N)) (idx : list esym) (strs : list N)
    (kind : table_kind) (addr : N) (type : sym_type) : res (option resolved_sym) :=
  match find_match_or_lower_bound_by_key idx addr st_value with
  | None => Ok None
  | Some i => find_sym_loop m module strs kind addr type (skipn i idx)
  end.

(** lines 240-277 [file_offset]; the [debug_assert] is left out, the callers
    check. *)
Definition file_offset (m : mode) (shdrs : list shdr) (s : esym) : res (option N) :=
  if SHN_LORESERVE <=? st_shndx s then Ok None
  else
    let* sh := of_option EInvalidInput (nnth (st_shndx s) shdrs) in
    if sh_type sh =? SHT_NOBITS then Ok None
    else
      let offset := ((st_value s + (two64 - sh_addr sh)) mod two64 + sh_offset sh) mod two64 in
      let* limit := add64 m (sh_offset sh) (sh_size sh) in
      if (offset <? limit) || ((offset =? limit) && (st_size s =? 0)) then Ok (Some offset)
      else Ok None.

(** lines 446-464: names of the symbols *)
Fixpoint name_syms (strs : list N) (keep : esym -> res bool) (l : list esym)
  : res (list (list N * esym)) :=
  match l with
  | [] => Ok []
  | s :: l =>
      let* k := keep s in
      if k then
        let* n := str_at strs (st_name s) in
        let* r := name_syms strs keep l in
        Ok ((n, s) :: r)
      else name_syms strs keep l
  end.
Definition name_leb (a b : list N * esym) : bool :=
  match bcmp (fst a) (fst b) with Gt => false | _ => true end.
(** lines 435-467 [create_str2sym] *)
Definition str2sym (x : ext) (t : symtab) (keep : esym -> res bool) : res (list (list N * esym)) :=
  let* l := name_syms (t_strs t) keep (by_addr x t) in
  Ok (x_sort x _ name_leb l).

(** lines 960-964 [ensure_str2symtab] *)
Definition str2symtab (x : ext) (t : symtab) : res (list (list N * esym)) :=
  str2sym x t (fun _ => Ok true).
(** lines 966-992 [ensure_str2dynsym]: [st] is the symbol table, [dt] the
    dynamic one. *)
Definition not_in_symtab (x : ext) (m : mode) (st : symtab) (s : esym) : res bool :=
  let* type := unwrap (type_of_elf (st_type s)) in
  match find_sym m None (by_addr x st) (t_strs st) Symtab (st_value s) type with
  | Ok (Some _) => Ok false
  | Ok None => Ok true
  | Err _ => Ok true
  | Panic => Panic
  | NoFuel => NoFuel
  end.
Definition str2dynsym (x : ext) (m : mode) (st dt : symtab) : res (list (list N * esym)) :=
  str2sym x dt (not_in_symtab x m st).

(** src/util.rs lines 355-390 [find_match_or_lower_bound_by_key], for names *)
Fixpoint flb_scan_name {A} (f : A -> list N) (l : list A) (cmp_e : list N) (n idx : nat) : option nat :=
  match n with
  | O => Some idx
  | S i =>
      match nth_error l i with
      | None => None
      | Some e => if beq (f e) cmp_e then flb_scan_name f l cmp_e i idx else Some (S i)
      end
  end.
Definition find_name_or_lower_bound {A} (l : list A) (item : list N) (f : A -> list N)
  : option nat :=
  let idx := partition_point (fun e => is_lt (bcmp (f e) item)) l in
  let lower :=
    match idx with
    | O => None
    | S idx' =>
        match nth_error l idx' with
        | None => None
        | Some e => flb_scan_name f l (f e) idx' idx'
        end
    end in
  match nth_error l idx with
  | Some e => if beq (f e) item then Some idx else lower
  | None => lower
  end.

(** The [SymInfo] made of a symbol (lines 1294-1309, 1359-1375) *)
Definition make_info (m : mode) (opts : find_addr_opts) (shdrs : list shdr)
    (module : option (list N)) (name : list N) (s : esym) : res sym_info :=
  let* name := to_str name in
  let* type := unwrap (type_of_elf (st_type s)) in
  let* off := if fa_file_offset opts then file_offset m shdrs s else Ok None in
  Ok (SymInfo name (st_value s) (Some (st_size s)) type off module).

(** lines 1287-1311: the loop of [find_addr_impl] *)
Fixpoint find_addr_loop (m : mode) (opts : find_addr_opts) (shdrs : list shdr)
    (module : option (list N)) (name : list N) (l : list (list N * esym)) : res (list sym_info) :=
  match l with
  | [] => Ok []
  | (n, s) :: l =>
      if negb (beq n name) then Ok []
      else if negb (st_shndx s =? SHN_UNDEF) then
        let* i := make_info m opts shdrs module n s in
        let* r := find_addr_loop m opts shdrs module name l in
        Ok (i :: r)
      else find_addr_loop m opts shdrs module name l
  end.
(** lines 1273-1319 [find_addr_impl] *)
Definition find_addr_impl (m : mode) (opts : find_addr_opts) (shdrs : list shdr)
    (module : option (list N)) (name : list N) (idx : list (list N * esym)) : res (list sym_info) :=
  match find_name_or_lower_bound idx name fst with
  | Some i => find_addr_loop m opts shdrs module name (skipn i idx)
  | None => Ok []
  end.

(** lines 1133-1151 [ElfParser] *)
Record parser := Parser {
  p_module : option (list N);
  p_backend : backend
}.

(** lines 1321-1342 [find_addr] *)
Definition find_addr (x : ext) (m : mode) (p : parser) (opts : find_addr_opts) (name : list N)
  : res (list sym_info) :=
  let b := p_backend p in
  let* shdrs := parse_shdrs b in
  let* st := ensure_symtab x b in
  let* idx := str2symtab x st in
  let* syms := find_addr_impl m opts shdrs (p_module p) name idx in
  match syms with
  | _ :: _ => Ok syms
  | [] =>
      let* dt := ensure_dynsym b in
      let* idx := str2dynsym x m st dt in
      find_addr_impl m opts shdrs (p_module p) name idx
  end.

(** lines 1344-1384 [for_each_sym_impl] *)
Fixpoint for_each_loop {S} (m : mode) (opts : find_addr_opts) (shdrs : list shdr)
    (f : for_each_fn S) (l : list (list N * esym)) (state : S) : res S :=
  match l with
  | [] => Ok state
  | (n, s) :: l =>
      if matches (fa_sym_type opts) s && negb (st_shndx s =? SHN_UNDEF) then
        let* i := make_info m opts shdrs None n s in
        let '(state, break) := f state i in
        if break then Ok state else for_each_loop m opts shdrs f l state
      else for_each_loop m opts shdrs f l state
  end.
Definition for_each_sym_impl {S} (m : mode) (b : backend) (opts : find_addr_opts)
    (f : for_each_fn S) (idx : list (list N * esym)) (state : S) : res S :=
  let* shdrs := parse_shdrs b in
  for_each_loop m opts shdrs f idx state.

(** lines 1387-1401 [for_each] *)
Definition for_each {S} (x : ext) (m : mode) (p : parser) (opts : find_addr_opts)
    (f : for_each_fn S) (state : S) : res S :=
  let b := p_backend p in
  let* st := ensure_symtab x b in
  let* idx := str2symtab x st in
  let* state := for_each_sym_impl m b opts f idx state in
  let* dt := ensure_dynsym b in
  let* idx := str2dynsym x m st dt in
  for_each_sym_impl m b opts f idx state.

(** lines 1513-1556 [Symbolize::find_sym] *)
Definition elf_find_sym (x : ext) (m : mode) (p : parser) (addr : N) : find_result :=
  let b := p_backend p in
  let* st := ensure_symtab x b in
  let* o := find_sym m (p_module p) (by_addr x st) (t_strs st) Symtab addr TUndefined in
  match o with
  | Some s => Ok (inl s)
  | None =>
      let* dt := ensure_dynsym b in
      let* o := find_sym m (p_module p) (by_addr x dt) (t_strs dt) Dynsym addr TUndefined in
      match o with
      | Some s => Ok (inl s)
      | None => Ok (inr (match t_syms st with [] => MissingSyms | _ => UnknownAddr end))
      end
  end.

(** ** Offsets *)

(** lines 1410-1419, the closure of [find_file_offset], for the program
    headers in turn *)
Fixpoint find_file_offset_loop (m : mode) (l : list phdr) (addr size : N) : res (option N) :=
  match l with
  | [] => Ok None
  | p :: l =>
      if p_type p =? PT_LOAD then
        let* limit := add64 m (p_vaddr p) (p_filesz p) in
        if ((p_vaddr p <=? addr) && (addr <? limit)) || ((addr =? limit) && (size =? 0)) then
          let* d := sub64 m addr (p_vaddr p) in
          let* o := add64 m d (p_offset p) in
          Ok (Some o)
        else find_file_offset_loop m l addr size
      else find_file_offset_loop m l addr size
  end.
(** lines 1406-1420 [find_file_offset] *)
Definition find_file_offset (m : mode) (b : backend) (addr size : N) : res (option N) :=
  let* phdrs := parse_phdrs b in
  find_file_offset_loop m phdrs addr size.

(** lines 1441-1454 [file_offset_to_virt_offset] *)
Fixpoint to_virt_loop (m : mode) (l : list phdr) (offset : N) : res (option N) :=
  match l with
  | [] => Ok None
  | p :: l =>
      if p_type p =? PT_LOAD then
        let* limit := add64 m (p_offset p) (p_filesz p) in
        if (p_offset p <=? offset) && (offset <? limit) then
          let* d := sub64 m offset (p_offset p) in
          let* a := add64 m d (p_vaddr p) in
          Ok (Some a)
        else to_virt_loop m l offset
      else to_virt_loop m l offset
  end.
Definition file_offset_to_virt_offset (m : mode) (b : backend) (offset : N) : res (option N) :=
  let* phdrs := parse_phdrs b in
  to_virt_loop m phdrs offset.

(** ** relocations.rs lines 6-16 [RelocationEntry], 22-44 [RelocationMap],
    50-79 [SectionRelocations] *)
Record reloc := Reloc { re_addend : N; re_implicit : bool }.
Definition reloc_map := list (N * reloc).
Definition section_relocs := list (N * reloc_map).
Definition insert_reloc (offset addend : N) (implicit : bool) (r : reloc_map) : reloc_map :=
  aset N.eqb offset (Reloc addend implicit) r.
Definition relocate (r : reloc_map) (offset value : N) : N :=
  match aget N.eqb offset r with
  | Some e => if re_implicit e then (value + re_addend e) mod two64 else re_addend e
  | None => value
  end.
Definition relocs_of (l : section_relocs) (target : N) : reloc_map :=
  match aget N.eqb target l with Some r => r | None => [] end.

(** parser.rs lines 1000-1033: the loop of [parse_section_relocs] *)
Definition sym_value_of (syms : list esym) (i : N) : N :=
  match nnth i syms with Some s => st_value s | None => 0 end.
Fixpoint section_relocs_loop (b : backend) (l : list shdr) (i : N) (maps : section_relocs)
  : res section_relocs :=
  match l with
  | [] => Ok maps
  | sh :: l =>
      let* maps :=
        if sh_type sh =? SHT_RELA then
          let* syms := parse_syms_for_idx b (sh_link sh) in
          let* relas := parse_relas_for_idx b i in
          Ok (aset N.eqb (sh_info sh)
                (fold_left (fun r e => insert_reloc (r_offset e)
                   ((sym_value_of syms (r_sym e) + r_addend e) mod two64) false r)
                   relas (relocs_of maps (sh_info sh))) maps)
        else if sh_type sh =? SHT_REL then
          let* syms := parse_syms_for_idx b (sh_link sh) in
          let* rels := parse_rels_for_idx b i in
          Ok (aset N.eqb (sh_info sh)
                (fold_left (fun r e => insert_reloc (r_offset e)
                   (sym_value_of syms (r_sym e)) true r)
                   rels (relocs_of maps (sh_info sh))) maps)
        else Ok maps in
      section_relocs_loop b l (i + 1) maps
  end.
(** lines 994-1037 [parse_section_relocs]; the headers are read in the first
    iteration. *)
Definition parse_section_relocs (b : backend) : res section_relocs :=
  let* x := parse_ehdr b in
  if negb (e_type (x_ehdr x) =? ET_REL) then Ok []
  else if x_shnum x =? 0 then Ok []
  else
    let* shdrs := parse_shdrs b in
    section_relocs_loop b shdrs 0 [].
