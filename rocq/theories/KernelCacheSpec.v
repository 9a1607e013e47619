(** * What is expected of symbolizing kernel addresses time and again: the same
      as of [Kernel], with the files as they are *)

From Coq Require Import String.
From Verif Require Import Base Util Nom Sym Inspect ModMap Depmod Kaslr FileCache Symbolizer HistorySpec Kernel KernelCache.
Local Close Scope string_scope.
Local Open Scope N_scope.

Section Spec.
  Context {File Parser : Type}.
  Notation kworld := (kworld File Parser).
  Notation kcall := (kcall File Parser).
  Variable load_ksym : File -> path -> outcome Symbolizer.resolver.
  Implicit Types (w : kworld) (h : list kcall) (x : kcall).

  (** ** Without caches *)
  Definition both (r : Symbolizer.resolver) : sources := (r_find r, inspect_of r).
  Definition new_env w : newenv :=
    NewEnv (fun p => let* r := file_alone (kw_files w) load_ksym (path_of p) in Ok (both r))
      (fun p d => let* r := elf_alone (kw_files w) (path_of p) (path_of p) d in Ok (both r))
      (kw_release w) (kw_exists w) (kw_kcore w).
  Definition packed (ext : list N) : Prop := ext = bs "gz"%string \/ ext = bs "xz"%string \/ ext = bs "zstd"%string.
  (** The file with a module, and the path it stands for *)
  Inductive module_file w (mod_path : list N) : res (path * path) -> Prop :=
  | MfPlain : (forall rep ext, split_extension mod_path = Some (rep, ext) -> ~ packed ext) ->
      module_file w mod_path (Ok (path_of mod_path, path_of mod_path))
  | MfPacked : forall rep ext, split_extension mod_path = Some (rep, ext) -> packed ext ->
      module_file w mod_path (let* tmp := kw_unpack w ext mod_path in Ok (tmp, path_of rep)).
  (** The symbol of an address, given how modules are opened *)
  Definition finds_alone (m : mode) w (k : kernel) (addr : N) (opts : find_opts) (y : find_result) : Prop :=
    exists open_module, (forall mod_path f, module_file w mod_path f ->
      open_module mod_path = let* '(p, r) := f in let* x := elf_alone (kw_files w) p r (kr_debug_syms k) in Ok (r_find x)) /\
    y = find_with m (kw_modules w) (kw_depmod w) open_module k addr opts.
  Definition call_alone x (y : res (list find_result)) : Prop :=
    match fst (kernel_new (kl_mode x) (new_env (kl_world x)) None (kl_kallsyms x) (kl_vmlinux x) (kl_offset x) (kl_debug x)) with
    | Ok k => exists rs, y = Ok rs /\
        Forall2 (fun wa r => finds_alone (kl_mode x) (fst wa) k (snd wa) (kl_opts x) r) (kl_addrs x) rs
    | Err e => y = Err e
    | Panic => y = Panic
    | NoFuel => y = NoFuel
    end.

  (** ** Histories *)
  Definition looking h w : Prop := exists x a, In x h /\ In (w, a) (kl_addrs x).
  Definition files_of h (f : Symbolizer.world File Parser) : Prop :=
    exists w, f = kw_files w /\ ((exists x, In x h /\ w = kl_world x) \/ looking h w).
  (** Lists of symbols *)
  Definition reads_list h (p r : path) : Prop := p = r /\ exists x q, In x h /\ p = path_of q /\
    (kl_kallsyms x = MSome q \/ kl_kallsyms x = MDefault /\ q = default_kallsyms).
  (** ELF files: kernels and modules *)
  Inductive reads_image h : path -> path -> bool -> Prop :=
  | RiGiven : forall x q, In x h -> kl_vmlinux x = MSome q -> reads_image h (path_of q) (path_of q) (kl_debug x)
  | RiDefault : forall x release dir q, In x h -> kl_vmlinux x = MDefault -> kw_release (kl_world x) = Ok release ->
      In dir vmlinux_dirs -> q = path_join dir (bs "vmlinux-"%string ++ release) -> kw_exists (kl_world x) q = true ->
      reads_image h (path_of q) (path_of q) (kl_debug x)
  | RiModule : forall x w a modules name base dir index mod_path p r, In x h -> In (w, a) (kl_addrs x) ->
      kw_modules w = Ok modules -> find_module (kl_mode x) modules a = Ok (inl (name, base)) ->
      kw_depmod w = Ok (dir, index) -> find_path (kl_mode x) dir index name = Ok (Some mod_path) ->
      module_file w mod_path (Ok (p, r)) -> reads_image h p r (kl_debug x).
  Inductive any_image h : path -> path -> Prop :=
  | AiFile : forall p r d, reads_image h p r d -> any_image h p r
  | AiDebug : forall f p r P q, reads_image h p r true -> files_of h f -> parsed f p r = Ok P -> debug_file f P q ->
      any_image h q q.
  (** The offset of the kernel, if it has to be found *)
  Definition slides x (o : res (option N)) : Prop :=
    kl_offset x = None /\
    exists k v, open_ksym (new_env (kl_world x)) (kl_kallsyms x) = Ok k /\
      open_vmlinux (new_env (kl_world x)) (kl_vmlinux x) (kl_debug x) = Ok (Some v) /\
      o = find_kaslr_offset (kl_mode x) (kw_kcore (kl_world x)) (option_map snd k) (Some (snd v)).

  Record still h : Prop := Still {
    st_images : lasting (files_of h) (fun p r => reads_image h p r true) (any_image h);
    st_lists : identified (files_of h) (reads_list h);
    (* No module was loaded or removed, and the index did not change. *)
    st_modules : forall w w', looking h w -> looking h w' -> kw_modules w = kw_modules w';
    st_depmod : forall w w', looking h w -> looking h w' -> kw_depmod w = kw_depmod w';
    (* There is one kernel. *)
    st_slide : forall x x' o o', In x h -> In x' h -> slides x o -> slides x' o' -> o = o'
  }.
End Spec.
