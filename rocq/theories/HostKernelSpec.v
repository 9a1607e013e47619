(** * From the contents of files to symbols of kernel addresses *)

From Coq Require Import String.
From Verif Require Import Base Bytes Nom Text Num Sym Inspect Elf ElfSpec BuildIdSpec ModMap ModSpec DepmodSpec KaslrSpec FileCache Symbolizer Host HostSpec
  HostKernel.
From Verif Require Kernel PropKsym PropKernel.
Local Close Scope string_scope.
Local Open Scope N_scope.
Import Kernel(maybe_default, MNone, MDefault, MSome).

(** ** Sources *)

(** The list of symbols in use: a file that has been asked for or that of the
    system, which need not be there *)
Inductive list_of (h : host) : maybe_default (list N) -> option (list kentry) -> Prop :=
| LoFile : forall src p ptr t es, src = MSome p \/ src = MDefault /\ p = bs "/proc/kallsyms"%string ->
    file_at h p ptr t -> kallsyms_text es t -> Forall (fun e => PropKsym.plain (ke_name e)) (visible es) ->
    list_of h src (Some es)
| LoMissing : forall k, h_stat h (path_of (bs "/proc/kallsyms"%string)) = Bad k -> list_of h MDefault None
| LoNone : list_of h MNone None.

(** An ELF file's path and symbols *)
Record elf_info := ElfInfo { ei_path : list N; ei_symtab : symtab; ei_dynsym : symtab }.
(** The file [f] has what [i] says, and is known by [i]'s path. *)
Definition elf_at (x : ext) (h : host) (f : path) (i : elf_info) : Prop :=
  exists meta ptr data e, h_stat h f = Good meta /\ h_open h f = Good (ptr, data) /\ is_bytes (ei_path i) /\
    elf_program x ptr data e (ei_symtab i) (ei_dynsym i).
(** Where a kernel image is installed *)
Definition there (h : host) (p : list N) : Prop := exists meta, h_stat h (path_of p) = Good meta.
Definition installed (h : host) (release p : list N) : Prop :=
  let boot := bs "/boot/vmlinux-"%string ++ release in
  let debug := bs "/usr/lib/debug/boot/vmlinux-"%string ++ release in
  there h boot /\ p = boot \/ ~ there h boot /\ there h debug /\ p = debug.
Inductive image_of (x : ext) (s : system) : maybe_default (list N) -> option elf_info -> Prop :=
| IoFile : forall src i,
    src = MSome (ei_path i) \/ (src = MDefault /\ exists release, sy_release s = Ok release /\ installed (sy_host s) release (ei_path i)) ->
    elf_at x (sy_host s) (path_of (ei_path i)) i -> image_of x s src (Some i)
| IoMissing : forall release, sy_release s = Ok release -> (forall p, ~ installed (sy_host s) release p) -> image_of x s MDefault None
| IoNone : image_of x s MNone None.

(** ** How far the kernel was moved *)

(** The first note of a core file that is about the kernel; it is not too far
    from the start of the file (see C36). *)
Definition core_note (data : list N) (n : note) : Prop :=
  exists a la p l1 l2 b, core_file data (a ++ p :: b) /\
    Forall2 (segment_notes data) a la /\ Forall (Forall (fun n => ~ vmcoreinfo n)) la /\
    p_type p = 4 /\ segment_notes data p (l1 ++ n :: l2) /\ Forall (fun n => ~ vmcoreinfo n) l1 /\ vmcoreinfo n /\
    p_offset p + nlen (flat_map enc_note l1) + 12 <= p_filesz p.
(** It states the offset, or does not. *)
Definition core_states (data : list N) (v : N) : Prop :=
  exists n value, core_note data n /\ states (nt_desc n) value /\ hex value v.
Definition core_silent (data : list N) : Prop :=
  (exists n, core_note data n /\ unstated (nt_desc n)) \/
  (exists phs ls, core_file data phs /\ Forall2 (segment_notes data) phs ls /\ Forall (Forall (fun n => ~ vmcoreinfo n)) ls).
Definition stext : list N := bs "_stext"%string.
Definition start_listed (es : list kentry) (a : N) : Prop :=
  In (KEntry a stext) (visible es) /\ forall a', In (KEntry a' stext) (visible es) -> a <= a'.
Definition start_linked (i : elf_info) (b : N) : Prop :=
  (exists s, In s (t_syms (ei_symtab i)) /\ named_symbol (ei_symtab i) stext s) /\
  forall s, In s (t_syms (ei_symtab i)) -> named_symbol (ei_symtab i) stext s -> st_value s = b.
Definition core (h : host) : outcome (N * list N) := h_open h (path_of (bs "/proc/kcore"%string)).
Inductive offset_of (h : host) : option N -> option (list kentry) -> option elf_info -> N -> Prop :=
| OfGiven : forall lst img o, offset_of h (Some o) lst img o
| OfNoImage : forall lst, offset_of h None lst None 0
| OfCore : forall lst i ptr data v, core h = Good (ptr, data) -> core_states data v -> offset_of h None lst (Some i) v
| OfSilent : forall lst i ptr data, core h = Good (ptr, data) -> core_silent data -> offset_of h None lst (Some i) 0
| OfNoCore : forall lst i, core h = Bad ENotFound -> offset_of h None lst (Some i) 0
| OfStart : forall es i a b, core h = Bad EPermissionDenied -> start_listed es a -> start_linked i b -> b <= a ->
    offset_of h None (Some es) (Some i) (a - b).

(** ** Where an address is *)
Inductive place :=
| InModule (base : N) (i : elf_info)    (* in a module loaded at [base] *)
| InUnknown                             (* in a module no file is known for *)
| InKernel.
Definition modules_are (h : host) (es : list kmod) : Prop :=
  exists ptr t, h_open h (path_of (bs "/proc/modules"%string)) = Good (ptr, t) /\ modules_text es t /\
    Forall module_ok es /\ disjoint_modules es.
Definition index_at (s : system) (dir : list N) (t : trie) : Prop :=
  exists release f ptr data, sy_release s = Ok release /\ text release /\ dir = bs "/lib/modules/"%string ++ release /\
    under dir (bs "modules.dep.bin"%string) f /\ h_open (sy_host s) (path_of f) = Good (ptr, data) /\ index_file data t.
(** A module's file, unpacked *)
Definition module_elf (x : ext) (s : system) (name : list N) (i : elf_info) : Prop :=
  exists dir t v vs path full, index_at s dir t /\ has t name (v :: vs) /\ module_value v path /\ under dir path full /\
    let packed := [bs "gz"; bs "xz"; bs "zstd"]%string in
    ((forall stem ext, PropKernel.extended full stem ext -> ~ In ext packed) /\ ei_path i = full /\
     elf_at x (sy_host s) (path_of full) i \/
     exists ext tmp, In ext packed /\ PropKernel.extended full (ei_path i) ext /\ sy_unpack s ext full = Ok tmp /\
       elf_at x (sy_host s) tmp i).
Definition located (x : ext) (s : system) (addr : N) (p : place) : Prop :=
  exists es, modules_are (sy_host s) es /\
  match p with
  | InModule base i => exists k, In k es /\ shown k /\ in_module k addr /\ base = km_addr k /\ module_elf x s (km_name k) i
  | InUnknown => exists k dir t, In k es /\ shown k /\ in_module k addr /\ index_at s dir t /\ forall vs, ~ has t (km_name k) vs
  | InKernel => PropKernel.in_no_module es addr
  end.

(** ** Answers *)

(** The entry of the list for an address *)
Definition listed (es : list kentry) (addr : N) (e : kentry) : Prop :=
  In e (visible es) /\ closest (visible es) e addr /\
  (ke_addr e = addr \/ (exists x, In x (visible es) /\ ke_addr x < ke_addr e) -> first_listed (visible es) e) /\
  (ke_addr e < addr -> (forall x, In x (visible es) -> ke_addr e <= ke_addr x) -> last_listed (visible es) e).
Inductive list_answer (code : list N -> N -> res (option code_info)) (cf : config) (es : list kentry) (addr : N)
  : res symbolized -> Prop :=
| LaNone : (forall e, In e (visible es) -> addr < ke_addr e) ->
    list_answer code cf es addr (Ok (Unknown (match visible es with [] => MissingSyms | _ => UnknownAddr end)))
| LaPlain : forall e, listed es addr e -> ~ is_bpf (ke_name e) ->
    list_answer code cf es addr (Ok (answer cf (ke_name e) None addr (ke_addr e) None))
| LaBpf : forall e t ci, listed es addr e -> bpf_name (ke_name e) t ->
    (cf_opts cf = Basic /\ ci = None \/ cf_opts cf <> Basic /\ code t addr = Ok ci) ->
    list_answer code cf es addr (Ok (Known (Sym (cf_demangle cf (ke_name e) LangUnknown) (Some (bs "[bpf]"%string)) (ke_addr e)
      (addr - ke_addr e) None ci [])))
| LaBpfError : forall e t k, listed es addr e -> bpf_name (ke_name e) t -> cf_opts cf <> Basic -> code t addr = Err k ->
    list_answer code cf es addr (Err k).

(** A file's symbol for the address [at_] in it, and there being none *)
Definition size_of (s : esym) : option N := if st_size s =? 0 then None else Some (st_size s).
Definition finds (i : elf_info) (at_ : N) (name : list N) (s : esym) : Prop :=
  closest_symbol Symtab (ei_symtab i) TUndefined at_ s /\ has_name (ei_symtab i) s name \/
  not_in Symtab (ei_symtab i) at_ /\ closest_symbol Dynsym (ei_dynsym i) TUndefined at_ s /\ has_name (ei_dynsym i) s name.
Definition lacks (i : elf_info) (at_ : N) : Prop :=
  not_in Symtab (ei_symtab i) at_ /\ not_in Dynsym (ei_dynsym i) at_.
(** What is reported has the start of the symbol as in the file, and how far the
    address is from that. *)
Definition file_answer (cf : config) (i : elf_info) (addr : N) (name : list N) (s : esym) : symbolized :=
  answer cf name (Some (ei_path i)) addr (st_value s) (size_of s).

Inductive answers (code : list N -> N -> res (option code_info)) (cf : config) (addr : N)
  : option (list kentry) -> option elf_info -> N -> place -> res symbolized -> Prop :=
(* there is only the list *)
| AnList : forall es off p y, list_answer code cf es addr y -> answers code cf addr (Some es) None off p y
(* modules have their own files *)
| AnModule : forall lst img off base i name s, finds i (addr - base) name s ->
    answers code cf addr lst (Some img) off (InModule base i) (Ok (file_answer cf i addr name s))
| AnNotInModule : forall lst img off base i, lacks i (addr - base) ->
    answers code cf addr lst (Some img) off (InModule base i) (Ok (Unknown UnknownAddr))
| AnUnknown : forall lst img off, answers code cf addr lst (Some img) off InUnknown (Ok (Unknown UnknownAddr))
(* the kernel itself *)
| AnLow : forall lst img off, addr < off -> answers code cf addr lst (Some img) off InKernel (Err EInvalidInput)
| AnImage : forall lst img off name s, off <= addr -> finds img (addr - off) name s -> size_of s <> None \/ lst = None ->
    answers code cf addr lst (Some img) off InKernel (Ok (file_answer cf img addr name s))
| AnSizeless : forall es img off name s y, off <= addr -> finds img (addr - off) name s -> size_of s = None ->
    list_answer code cf es addr y ->
    answers code cf addr (Some es) (Some img) off InKernel
      (match y with Ok (Known _) => y | _ => Ok (file_answer cf img addr name s) end)
| AnElse : forall es img off y, off <= addr -> lacks img (addr - off) -> list_answer code cf es addr y ->
    answers code cf addr (Some es) (Some img) off InKernel y
| AnNothing : forall img off, off <= addr -> lacks img (addr - off) ->
    answers code cf addr None (Some img) off InKernel
      (Ok (Unknown (match t_syms (ei_symtab img) with [] => MissingSyms | _ => UnknownAddr end))).
