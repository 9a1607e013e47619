(** * The ELF format, and what symbol tables mean

    After the System V ABI, chapters 4 and 5. *)

From Verif Require Import Base Util UtilProofs Bytes Text Sym Inspect Elf.
Local Open Scope N_scope.

(** ** Structures of a little endian file; [c] is whether it is a 32 bit one *)

Definition word (c : bool) (v : N) : list N := if c then le_bytes 4 v else le_bytes 8 v.
Definition is_word (c : bool) (v : N) : Prop := v < 2 ^ (if c then 32 else 64).
Definition words (c : bool) (l : list N) : Prop := Forall (is_word c) l.

Record file_header := FileHeader {
  h_ident : list N;
  h_type : N;
  h_machine : N;
  h_version : N;
  h_entry : N;
  h_phoff : N;
  h_shoff : N;
  h_flags : N;
  h_ehsize : N;
  h_phentsize : N;
  h_phnum : N;
  h_shentsize : N;
  h_shnum : N;
  h_shstrndx : N
}.
(** [h_ident] is the part of the identification following the class. *)
Definition enc_file_header (c : bool) (h : file_header) : list N :=
  [127; 69; 76; 70; if c then 1 else 2] ++ h_ident h ++
  le_bytes 2 (h_type h) ++ le_bytes 2 (h_machine h) ++ le_bytes 4 (h_version h) ++
  word c (h_entry h) ++ word c (h_phoff h) ++ word c (h_shoff h) ++
  le_bytes 4 (h_flags h) ++ le_bytes 2 (h_ehsize h) ++ le_bytes 2 (h_phentsize h) ++
  le_bytes 2 (h_phnum h) ++ le_bytes 2 (h_shentsize h) ++ le_bytes 2 (h_shnum h) ++
  le_bytes 2 (h_shstrndx h).
Definition wf_file_header (c : bool) (h : file_header) : Prop :=
  nlen (h_ident h) = 11 /\
  words c [h_entry h; h_phoff h; h_shoff h] /\
  u32s [h_version h; h_flags h] /\
  u16s [h_type h; h_machine h; h_ehsize h; h_phentsize h; h_phnum h; h_shentsize h;
        h_shnum h; h_shstrndx h].

Definition enc_section_header (c : bool) (s : shdr) : list N :=
  le_bytes 4 (sh_name s) ++ le_bytes 4 (sh_type s) ++ word c (sh_flags s) ++
  word c (sh_addr s) ++ word c (sh_offset s) ++ word c (sh_size s) ++
  le_bytes 4 (sh_link s) ++ le_bytes 4 (sh_info s) ++ word c (sh_addralign s) ++
  word c (sh_entsize s).
Definition wf_section_header (c : bool) (s : shdr) : Prop :=
  u32s [sh_name s; sh_type s; sh_link s; sh_info s] /\
  words c [sh_flags s; sh_addr s; sh_offset s; sh_size s; sh_addralign s; sh_entsize s].

Definition enc_program_header (c : bool) (p : phdr) : list N :=
  if c then
    le_bytes 4 (p_type p) ++ le_bytes 4 (p_offset p) ++ le_bytes 4 (p_vaddr p) ++
    le_bytes 4 (p_paddr p) ++ le_bytes 4 (p_filesz p) ++ le_bytes 4 (p_memsz p) ++
    le_bytes 4 (p_flags p) ++ le_bytes 4 (p_align p)
  else
    le_bytes 4 (p_type p) ++ le_bytes 4 (p_flags p) ++ le_bytes 8 (p_offset p) ++
    le_bytes 8 (p_vaddr p) ++ le_bytes 8 (p_paddr p) ++ le_bytes 8 (p_filesz p) ++
    le_bytes 8 (p_memsz p) ++ le_bytes 8 (p_align p).
Definition wf_program_header (c : bool) (p : phdr) : Prop :=
  u32s [p_type p; p_flags p] /\
  words c [p_offset p; p_vaddr p; p_paddr p; p_filesz p; p_memsz p; p_align p].

Definition enc_symbol (c : bool) (s : esym) : list N :=
  if c then
    le_bytes 4 (st_name s) ++ le_bytes 4 (st_value s) ++ le_bytes 4 (st_size s) ++
    le_bytes 1 (st_info s) ++ le_bytes 1 (st_other s) ++ le_bytes 2 (st_shndx s)
  else
    le_bytes 4 (st_name s) ++ le_bytes 1 (st_info s) ++ le_bytes 1 (st_other s) ++
    le_bytes 2 (st_shndx s) ++ le_bytes 8 (st_value s) ++ le_bytes 8 (st_size s).
Definition wf_symbol (c : bool) (s : esym) : Prop :=
  is_bytes [st_info s; st_other s] /\ u16s [st_shndx s] /\ u32s [st_name s] /\
  words c [st_value s; st_size s].

(** Relocations: offset, symbol index, type, addend (absent from [REL]). *)
Record relocation := Relocation {
  rl_offset : N;
  rl_sym : N;
  rl_type : N;
  rl_addend : Z
}.
(** two's complement *)
Definition signed (bits : N) (z : Z) : N := Z.to_N (z mod 2 ^ Z.of_N bits).
Definition enc_info (c : bool) (sym type : N) : list N :=
  if c then le_bytes 4 (sym * 256 + type) else le_bytes 8 (sym * 2 ^ 32 + type).
Definition enc_relocation (addend c : bool) (r : relocation) : list N :=
  word c (rl_offset r) ++ enc_info c (rl_sym r) (rl_type r) ++
  (if addend then word c (signed (if c then 32 else 64) (rl_addend r)) else []).
Definition wf_relocation (c : bool) (r : relocation) : Prop :=
  is_word c (rl_offset r) /\
  (if c then rl_sym r < 2 ^ 24 /\ rl_type r < 2 ^ 8 else rl_sym r < 2 ^ 32 /\ rl_type r < 2 ^ 32) /\
  (let h := (2 ^ (if c then 31 else 63))%Z in - h <= rl_addend r < h)%Z.

(** ** Files *)

(** The string at offset [off] of a string table *)
Definition string_at (strs : list N) (off : N) (s : list N) : Prop :=
  at_ strs off (s ++ [0]) /\ Forall (fun b => b <> 0) s.

Record section := Section_ {
  s_name : list N;
  s_hdr : shdr;
  s_data : list N
}.
Record image := Image {
  i_32 : bool;
  i_hdr : file_header;
  i_segments : list phdr;
  i_sections : list section
}.

(** A section's contents; there are none in the file for [SHT_NOBITS]. *)
Definition contents (data : list N) (h : shdr) (d : list N) : Prop :=
  (sh_type h = SHT_NOBITS /\ d = []) \/
  (sh_type h <> SHT_NOBITS /\ at_ data (sh_offset h) d /\ nlen d = sh_size h).

(** Numbers too large for the file header are kept in the first section
    header. *)
Definition number_of_sections (e : image) : Prop :=
  let n := nlen (i_sections e) in
  (h_shnum (i_hdr e) = n /\ 0 < n) \/
  (h_shnum (i_hdr e) = 0 /\ exists s, nnth 0 (i_sections e) = Some s /\ sh_size (s_hdr s) = n).
Definition number_of_segments (e : image) : Prop :=
  let n := nlen (i_segments e) in
  (h_phnum (i_hdr e) = n /\ n < 65535) \/
  (h_phnum (i_hdr e) = 65535 /\ exists s, nnth 0 (i_sections e) = Some s /\ sh_info (s_hdr s) = n).
Definition name_section (e : image) (i : N) : Prop :=
  (h_shstrndx (i_hdr e) = i /\ i < 65535) \/
  (h_shstrndx (i_hdr e) = 65535 /\ exists s, nnth 0 (i_sections e) = Some s /\ sh_link (s_hdr s) = i).

(** [data] is an ELF file with the headers and sections of [e], found at
    address [ptr] in memory. *)
Definition elf_file (ptr : N) (data : list N) (e : image) : Prop :=
  let c := i_32 e in
  let h := i_hdr e in
  nlen data < two64 /\
  ptr mod word_align c = 0 /\
  at_ data 0 (enc_file_header c h) /\ wf_file_header c h /\
  number_of_sections e /\ number_of_segments e /\
  at_ data (h_shoff h) (flat_map (enc_section_header c) (map s_hdr (i_sections e))) /\
  Forall (wf_section_header c) (map s_hdr (i_sections e)) /\
  h_shoff h mod word_align c = 0 /\
  at_ data (h_phoff h) (flat_map (enc_program_header c) (i_segments e)) /\
  Forall (wf_program_header c) (i_segments e) /\
  h_phoff h mod word_align c = 0 /\
  Forall (fun s => contents data (s_hdr s) (s_data s)) (i_sections e) /\
  exists i names, name_section e i /\ nnth i (i_sections e) = Some names /\
    Forall (fun s => string_at (s_data names) (sh_name (s_hdr s)) (s_name s) /\
                     utf8_valid (s_name s) = true) (tl (i_sections e)).

(** The first section of a name; the one at index 0 is none. *)
Definition section_named (e : image) (name : list N) : option section :=
  find (fun s => beq (s_name s) name) (tl (i_sections e)).

(** A section holding a table of symbols; it is aligned. *)
Definition symbols_of (e : image) (s : section) (syms : list esym) : Prop :=
  s_data s = flat_map (enc_symbol (i_32 e)) syms /\ Forall (wf_symbol (i_32 e)) syms /\
  sh_offset (s_hdr s) mod word_align (i_32 e) = 0.

(** The symbols and strings found in sections of the given names; without
    such a section there are none. *)
Definition table_named (e : image) (syms strs : list N) (t : symtab) : Prop :=
  match section_named e syms with
  | Some s => symbols_of e s (t_syms t)
  | None => t_syms t = []
  end /\
  match section_named e strs with
  | Some s => t_strs t = s_data s
  | None => t_strs t = []
  end.

(** The symbol table of a file. If empty, that of the (compressed) file found
    in [.gnu_debugdata] is used. *)
Definition symtab_of (x : ext) (e : image) (t : symtab) : Prop :=
  exists t0, table_named e n_symtab n_strtab t0 /\
    ((t_syms t0 <> [] /\ t = t0) \/
     (t_syms t0 = [] /\
      match section_named e n_debugdata with
      | None => t = t0
      | Some s =>
          exists d, x_xz x (s_data s) = Ok d /\
            ((d = [] /\ t = t0) \/
             (d <> [] /\ exists e', elf_file (x_heap x d) d e' /\ table_named e' n_symtab n_strtab t))
      end)).
Definition dynsym_of (e : image) (t : symtab) : Prop := table_named e n_dynsym n_dynstr t.

(** ** Symbols *)

(** Functions, indirect functions, objects and untyped symbols *)
Definition kind_of (s : esym) : N := st_info s mod 16.
Definition is_function (s : esym) : Prop := kind_of s = 2 \/ kind_of s = 10.
Definition is_object (s : esym) : Prop := kind_of s = 1.
Definition is_untyped (s : esym) : Prop := kind_of s = 0.
Definition of_type (t : sym_type) (s : esym) : Prop :=
  match t with
  | TUndefined => is_function s \/ is_object s \/ is_untyped s
  | TFunction => is_function s \/ is_untyped s
  | TVariable => is_object s \/ is_untyped s
  end.
Definition supported (s : esym) : Prop := of_type TUndefined s.
Definition defined (s : esym) : Prop := st_shndx s <> 0.

(** The addresses a symbol stands for. One of unknown size extends as far as
    the next symbol, but not so in a dynamic symbol table. *)
Definition covers (kind : table_kind) (s : esym) (addr : N) : Prop :=
  st_value s <= addr /\
  ((st_size s <> 0 /\ addr < st_value s + st_size s) \/
   (st_size s = 0 /\ (kind = Symtab \/ addr = st_value s))).

(** No symbol ends past the end of the address space. *)
Definition in_space (t : symtab) : Prop :=
  Forall (fun s => st_value s + st_size s < two64) (t_syms t).

(** The symbol's name is [name]. *)
Definition has_name (t : symtab) (s : esym) (name : list N) : Prop :=
  string_at (t_strs t) (st_name s) name.
(** All supported symbols have proper names. *)
Definition names_ok (t : symtab) : Prop :=
  forall s, In s (t_syms t) -> supported s ->
    exists name, has_name t s name /\ utf8_valid name = true.

(** [s] covers the address, and no symbol starts closer to it. *)
Definition closest_symbol (kind : table_kind) (t : symtab) (type : sym_type) (addr : N) (s : esym) : Prop :=
  In s (t_syms t) /\ supported s /\ of_type type s /\ defined s /\ covers kind s addr /\
  forall z, In z (t_syms t) -> supported z -> st_value z <= addr -> st_value z <= st_value s.
(** No other such symbol is larger. *)
Definition largest (kind : table_kind) (t : symtab) (type : sym_type) (addr : N) (s : esym) : Prop :=
  forall z, closest_symbol kind t type addr z -> st_size z <= st_size s.
(** [s] starts at the lowest address of all symbols. *)
Definition lowest (t : symtab) (s : esym) : Prop :=
  forall z, In z (t_syms t) -> supported z -> st_value s <= st_value z.

(** The symbol reported for [s] *)
Definition reported (module : option (list N)) (t : symtab) (s : esym) (r : resolved_sym) : Prop :=
  has_name t s (rs_name r) /\ rs_module r = module /\ rs_addr r = st_value s /\
  rs_size r = (if st_size s =? 0 then None else Some (st_size s)) /\
  rs_lang r = LangUnknown /\ rs_code_info r = None /\ rs_inlined r = [].

(** ** File offsets *)

(** Where in the file a symbol is, by its section. *)
Definition symbol_offset (e : image) (s : esym) (o : option N) : Prop :=
  (65280 <= st_shndx s /\ o = None) \/
  (st_shndx s < 65280 /\ exists sec, nnth (st_shndx s) (i_sections e) = Some sec /\
     let h := s_hdr sec in
     if sh_type h =? SHT_NOBITS then o = None
     else
       (sh_addr h <= st_value s -> st_value s + sh_offset h < two64 ->
        if (st_value s <? sh_addr h + sh_size h) ||
           ((st_value s =? sh_addr h + sh_size h) && (st_size s =? 0))
        then o = Some (st_value s - sh_addr h + sh_offset h)
        else o = None)).

(** ** [sort_unstable_by]: some sorted permutation *)
Definition sorts (x : ext) : Prop :=
  forall A (leb : A -> A -> bool) l,
    (forall a b, leb a b = true \/ leb b a = true) ->
    (forall a b c, leb a b = true -> leb b c = true -> leb a c = true) ->
    Permutation l (x_sort x A leb l) /\ sorted leb (x_sort x A leb l).

(** ** Symbols by name *)

(** [l] are those of [all] having property [P] (multiplicities included);
    those left have property [Q]. *)
Definition picks {A} (P Q : A -> Prop) (all l : list A) : Prop :=
  exists rest, Permutation all (l ++ rest) /\ Forall P l /\ Forall Q rest.
Definition picks_all {A} (P : A -> Prop) (all l : list A) : Prop :=
  picks P (fun s => ~ P s) all l.

(** The type reported *)
Definition type_is (s : esym) (t : sym_type) : Prop :=
  (is_function s /\ t = TFunction) \/ (is_object s /\ t = TVariable) \/ (is_untyped s /\ t = TUndefined).

(** The information reported for a symbol *)
Definition info_of (e : image) (opts : find_addr_opts) (module : option (list N)) (t : symtab)
    (s : esym) (i : sym_info) : Prop :=
  has_name t s (si_name i) /\ si_addr i = st_value s /\ si_size i = Some (st_size s) /\
  type_is s (si_type i) /\ si_module i = module /\
  (if fa_file_offset opts then symbol_offset e s (si_file_offset i) else si_file_offset i = None).

(** The sections symbols refer to exist. *)
Definition sections_ok (e : image) (t : symtab) : Prop :=
  forall s, In s (t_syms t) -> st_shndx s < 65280 ->
    exists sec, nnth (st_shndx s) (i_sections e) = Some sec /\
      sh_offset (s_hdr sec) + sh_size (s_hdr sec) < two64.

Definition named_symbol (t : symtab) (name : list N) (s : esym) : Prop :=
  supported s /\ defined s /\ has_name t s name.
(** There is a symbol in table [t] standing for the address of [s]. *)
Definition shadowed (t : symtab) (s : esym) : Prop :=
  exists type z, type_is s type /\ closest_symbol Symtab t type (st_value s) z.

(** Giving items to a function until it asks to stop *)
Fixpoint visit {S A} (f : S -> A -> S * bool) (l : list A) (state : S) : S :=
  match l with
  | [] => state
  | i :: l => if snd (f state i) then fst (f state i) else visit f l (fst (f state i))
  end.

(** ** Segments *)
Definition loads (e : image) (p : phdr) : Prop := In p (i_segments e) /\ p_type p = 1.
Definition in_file (p : phdr) (off : N) : Prop := p_offset p <= off < p_offset p + p_filesz p.
Definition in_memory (p : phdr) (addr : N) : Prop := p_vaddr p <= addr < p_vaddr p + p_filesz p.
Definition segments_ok (e : image) : Prop :=
  forall p, loads e p -> p_offset p + p_filesz p < two64 /\ p_vaddr p + p_filesz p < two64.
(** No byte of the file, or address, belongs to two segments. *)
Definition file_disjoint (e : image) : Prop :=
  forall p q off, loads e p -> loads e q -> in_file p off -> in_file q off -> p = q.
Definition memory_disjoint (e : image) : Prop :=
  forall p q addr, loads e p -> loads e q -> in_memory p addr -> in_memory q addr -> p = q.
