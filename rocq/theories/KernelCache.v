(** * Model of /repo/src/kernel/cache.rs, and of /repo/src/kernel/resolver.rs
      with it

    [Kernel] has the same without caches. Everything outside is part of a
    [kworld], given to each call separately. *)

From Coq Require Import String.
From Verif Require Import Base Util Nom Sym Inspect ModMap Depmod Kaslr FileCache Symbolizer.
From Verif Require Kernel.
Local Close Scope string_scope.
Local Open Scope N_scope.
Import Kernel(kernel, Kernel, kr_ksym, kr_vmlinux, kr_kaslr, kr_debug_syms, maybe_default, MNone, MDefault, MSome,
  split_extension, checked_sub).

(** [FindAddrOpts::default()] *)
Definition default_addr_opts : find_addr_opts := FindAddrOpts false TUndefined.
Definition inspect_of (r : resolver) : Kaslr.inspector := fun name => r_find_addr r name default_addr_opts.

Section Cache.
  Context {File Parser : Type}.
  Notation world := (world File Parser).

  (** Files and what is made of ELF files; modules of the running kernel; the
      index of depmod with its directory; the release; whether a path exists;
      the contents of the image of memory; and the temporary file that the
      module at a path with a certain extension is unpacked to *)
  Record kworld := KWorld {
    kw_files : world;
    kw_modules : res (list kmod);
    kw_depmod : res (list N * list N);
    kw_release : res (list N);
    kw_exists : list N -> bool;
    kw_kcore : res (list N);
    kw_unpack : list N -> list N -> res path
  }.
  (** [KsymResolver::load_from_reader] *)
  Variable load_ksym : File -> path -> outcome resolver.

  (** cache.rs lines 24-38 [KernelCache] *)
  Record kcache := KCache {
    kc_elf : file_cache File (elf_data Parser);
    kc_ksym : file_cache File resolver;
    kc_modmap : option (list kmod);
    kc_depmod : option (list N * list N);
    kc_kaslr : option N
  }.
  (** lines 41-62 [new]; symbolizer.rs lines 448-463: what the builder was told
      about reloading does not matter. *)
  Definition kc_new (auto_reload : bool) : kcache := KCache (fc_new true) (fc_new true) None None None.

  (** lines 72-79 [elf_resolver] *)
  Definition kc_elf_resolver (w : kworld) (actual repr : path) (debug : bool) (c : kcache) : res resolver * kcache :=
    let '(r, e) := elf_resolver (kw_files w) actual repr debug (kc_elf c) in
    (let* x := r in Ok (er_resolver x), KCache e (kc_ksym c) (kc_modmap c) (kc_depmod c) (kc_kaslr c)).
  (** lines 81-91 [create_ksym_resolver], [ksym_resolver] *)
  Definition kc_ksym_resolver (w : kworld) (p : path) (c : kcache) : res resolver * kcache :=
    let '(r, k) := file_resolver (kw_files w) load_ksym p (kc_ksym c) in
    (r, KCache (kc_elf c) k (kc_modmap c) (kc_depmod c) (kc_kaslr c)).
  (** lines 93-96 [modmap] *)
  Definition kc_get_modmap (w : kworld) (c : kcache) : res (list kmod) * kcache :=
    let '(r, cell, _) := get_or_try_init (kc_modmap c) (kw_modules w) in
    (r, KCache (kc_elf c) (kc_ksym c) cell (kc_depmod c) (kc_kaslr c)).
  (** lines 98-103 [depmod] *)
  Definition kc_get_depmod (w : kworld) (c : kcache) : res (list N * list N) * kcache :=
    let '(r, cell, _) := get_or_try_init (kc_depmod c) (kw_depmod w) in
    (r, KCache (kc_elf c) (kc_ksym c) (kc_modmap c) cell (kc_kaslr c)).
  (** lines 110-122 [kaslr_offset] *)
  Definition kc_kaslr_offset (m : mode) (w : kworld) (ksym vmlinux : option resolver) (c : kcache) : res N * kcache :=
    let '(r, cell, _) := get_or_try_init (kc_kaslr c)
      (let* o := find_kaslr_offset m (kw_kcore w) (option_map inspect_of ksym) (option_map inspect_of vmlinux) in
       Ok (match o with Some v => v | None => 0 end)) in
    (r, KCache (kc_elf c) (kc_ksym c) (kc_modmap c) (kc_depmod c) cell).

  (** ** resolver.rs *)

  (** Errors that are ignored *)
  Definition caught {A} (x : res A * kcache) : res (option A) * kcache :=
    let '(r, c) := x in
    match r with
    | Ok a => (Ok (Some a), c)
    | Err _ => (Ok None, c)
    | Panic => (Panic, c)
    | NoFuel => (NoFuel, c)
    end.
  (** lines 121-141 *)
  Definition new_ksym (w : kworld) (kallsyms : maybe_default (list N)) (c : kcache) : res (option resolver) * kcache :=
    match kallsyms with
    | MSome p => then_ (kc_ksym_resolver w (path_of p) c) (fun r c => (Ok (Some r), c))
    | MDefault => caught (kc_ksym_resolver w (path_of (bs "/proc/kallsyms"%string)) c)
    | MNone => (Ok None, c)
    end.
  (** lines 143-180 *)
  Definition new_vmlinux (w : kworld) (vmlinux : maybe_default (list N)) (debug : bool) (c : kcache)
    : res (option resolver) * kcache :=
    match vmlinux with
    | MSome p => then_ (kc_elf_resolver w (path_of p) (path_of p) debug c) (fun r c => (Ok (Some r), c))
    | MDefault =>
        then_ (kw_release w, c) (fun release c =>
          let name := bs "vmlinux-"%string ++ release in
          let boot := path_join (bs "/boot/"%string) name in
          let lib := path_join (bs "/usr/lib/debug/boot/"%string) name in
          if kw_exists w boot then caught (kc_elf_resolver w (path_of boot) (path_of boot) debug c)
          else if kw_exists w lib then caught (kc_elf_resolver w (path_of lib) (path_of lib) debug c)
          else (Ok None, c))
    | MNone => (Ok None, c)
    end.
  (** lines 112-211 [new] *)
  Definition kr_new (m : mode) (w : kworld) (kallsyms vmlinux : maybe_default (list N)) (given : option N) (debug : bool)
      (c : kcache) : res kernel * kcache :=
    then_ (new_ksym w kallsyms c) (fun k c =>
    then_ (new_vmlinux w vmlinux debug c) (fun v c =>
      match k, v with
      | None, None => (Err ENotFound, c)
      | _, _ =>
          then_ (match given, v with
                 | Some o, _ => (Ok o, c)
                 | None, Some _ => kc_kaslr_offset m w k v c
                 | None, None => (Ok 0, c)
                 end) (fun o c => (Ok (Kernel (option_map r_find k) (option_map r_find v) o debug), c))
      end)).

  (** lines 232-250 *)
  Definition kr_module (w : kworld) (mod_path : list N) (debug : bool) (c : kcache) : res resolver * kcache :=
    let plain := kc_elf_resolver w (path_of mod_path) (path_of mod_path) debug c in
    match split_extension mod_path with
    | Some (rep, ext) =>
        if beq ext (bs "gz"%string) || beq ext (bs "xz"%string) || beq ext (bs "zstd"%string) then
          then_ (kw_unpack w ext mod_path, c) (fun tmp c => kc_elf_resolver w tmp (path_of rep) debug c)
        else plain
    | None => plain
    end.
  (** lines 215-305 [find_sym] *)
  Definition kr_find_sym (m : mode) (w : kworld) (k : kernel) (addr : N) (opts : find_opts) (c : kcache) : find_result * kcache :=
    match kr_vmlinux k, kr_ksym k with
    | Some vmlinux, ksym =>
        then_ (kc_get_modmap w c) (fun modmap c =>
        then_ (find_module m modmap addr, c) (fun md c =>
          match md with
          | inl (mod_name, mod_base) =>
              then_ (kc_get_depmod w c) (fun '(dir, index) c =>
              then_ (find_path m dir index mod_name, c) (fun mod_path c =>
                match mod_path with
                | Some mod_path =>
                    then_ (kr_module w mod_path (kr_debug_syms k) c) (fun r c =>
                    then_ (of_option EInvalidInput (checked_sub addr mod_base), c) (fun elf_addr c =>
                    then_ (r_find r elf_addr opts, c) (fun result c =>
                      match result with
                      | inl s => (Ok (inl s), c)
                      | inr _ => (Ok (inr UnknownAddr), c)
                      end)))
                | None => (Ok (inr UnknownAddr), c)
                end))
          | inr _ =>
              then_ (of_option EInvalidInput (checked_sub addr (kr_kaslr k)), c) (fun vmlinux_addr c =>
              then_ (vmlinux vmlinux_addr opts, c) (fun result c =>
                match result with
                | inl s =>
                    match rs_size s, ksym with
                    | None, Some ksym =>
                        match ksym addr opts with
                        | Ok (inl s') => (Ok (inl s'), c)
                        | Panic => (Panic, c)
                        | NoFuel => (NoFuel, c)
                        | _ => (Ok (inl s), c)
                        end
                    | _, _ => (Ok (inl s), c)
                    end
                | inr r =>
                    match ksym with
                    | Some ksym => (ksym addr opts, c)
                    | None => (Ok (inr r), c)
                    end
                end))
          end))
    | None, Some ksym => (ksym addr opts, c)
    | None, None => (Panic, c)
    end.

  (** ** Calls: symbolizing addresses with a new resolver, each in a world *)
  Record kcall := KCall {
    kl_mode : mode;
    kl_world : kworld;
    kl_kallsyms : maybe_default (list N);
    kl_vmlinux : maybe_default (list N);
    kl_offset : option N;
    kl_debug : bool;
    kl_opts : find_opts;
    kl_addrs : list (kworld * N)
  }.
  Fixpoint kr_finds (m : mode) (k : kernel) (opts : find_opts) (l : list (kworld * N)) (c : kcache) : list find_result * kcache :=
    match l with
    | [] => ([], c)
    | (w, addr) :: l =>
        let '(r, c) := kr_find_sym m w k addr opts c in
        let '(rs, c) := kr_finds m k opts l c in
        (r :: rs, c)
    end.
  Definition kr_call (x : kcall) (c : kcache) : res (list find_result) * kcache :=
    then_ (kr_new (kl_mode x) (kl_world x) (kl_kallsyms x) (kl_vmlinux x) (kl_offset x) (kl_debug x) c) (fun k c =>
      let '(rs, c) := kr_finds (kl_mode x) k (kl_opts x) (kl_addrs x) c in (Ok rs, c)).
  Definition kr_run (h : list kcall) (c : kcache) : kcache := fold_left (fun c x => snd (kr_call x c)) h c.
End Cache.
Arguments kworld : clear implicits.
Arguments kcache : clear implicits.
Arguments kcall : clear implicits.
