(** * Model of /repo/src/kernel/resolver.rs and cache.rs

    Kernel addresses to symbols. Files are looked up by path in an environment
    that does not change; which file a cached entry stands for is the subject
    of FileCache.v. *)

From Coq Require Import String.
From Verif Require Import Base Util Nom Sym Inspect Elf ModMap Depmod Kaslr.
Local Close Scope string_scope.
Local Open Scope N_scope.

(** [Symbolize::find_sym] of a resolver *)
Definition resolver := N -> find_opts -> find_result.

(** What is outside: modules of the running kernel, the index of depmod with
    its directory, the contents of files, decompressors, and resolvers for ELF
    files ([contents], [represented path], [debug_syms]) *)
Record kenv := KEnv {
  env_modmap : res (list kmod);
  env_depmod : res (list N * list N);
  env_file : list N -> res (list N);
  env_gz : list N -> res (list N);
  env_xz : list N -> res (list N);
  env_zstd : list N -> res (list N);
  env_elf : list N -> list N -> bool -> res resolver
}.

(** lines 104-110 *)
Record kernel := Kernel {
  kr_ksym : option resolver;
  kr_vmlinux : option resolver;
  kr_kaslr : N;
  kr_debug_syms : bool
}.

(** [Path::extension], with [Path::with_extension("")]: what precedes and
    follows the last dot of the last component, unless the former is empty. A
    path to a file does not end in a slash. *)
Fixpoint rsplit_dot (l : list N) : option (list N * list N) :=
  match l with
  | [] => None
  | c :: l' =>
      match rsplit_dot l' with
      | Some (a, b) => Some (c :: a, b)
      | None => if c =? 46 then Some ([], l') else None
      end
  end.
Definition split_extension (path : list N) : option (list N * list N) :=
  match rsplit_dot path with
  | Some (a, b) =>
      if existsb (fun c => c =? 47) b then None
      else match rev a with
           | [] => None
           | c :: _ => if c =? 47 then None else Some (a, b)
           end
  | None => None
  end.

(** lines 232-248 *)
Definition module_resolver (env : kenv) (mod_path : list N) (debug_syms : bool) : res resolver :=
  let plain := let* c := env_file env mod_path in env_elf env c mod_path debug_syms in
  let unpack dec rep :=
    let* c := env_file env mod_path in
    let* c := dec c in
    env_elf env c rep debug_syms in
  match split_extension mod_path with
  | Some (rep, ext) =>
      if beq ext (bs "gz"%string) then unpack (env_gz env) rep
      else if beq ext (bs "xz"%string) then unpack (env_xz env) rep
      else if beq ext (bs "zstd"%string) then unpack (env_zstd env) rep
      else plain
  | None => plain
  end.

Definition checked_sub (a b : N) : option N := if b <=? a then Some (a - b) else None.

(** lines 215-305 [find_sym], given what there is to know about modules *)
Definition find_with (m : mode) (modmap : res (list kmod)) (depmod : res (list N * list N))
    (open_module : list N -> res resolver) (k : kernel) (addr : N) (opts : find_opts) : find_result :=
  match kr_vmlinux k, kr_ksym k with
  | Some vmlinux, ksym =>
      let* modules := modmap in
      let* md := find_module m modules addr in
      match md with
      | inl (mod_name, mod_base) =>
          let* '(dir, index) := depmod in
          let* mod_path := find_path m dir index mod_name in
          match mod_path with
          | Some mod_path =>
              let* r := open_module mod_path in
              let* elf_addr := of_option EInvalidInput (checked_sub addr mod_base) in
              let* result := r elf_addr opts in
              match result with
              | inl s => Ok (inl s)
              | inr _ => Ok (inr UnknownAddr)
              end
          | None => Ok (inr UnknownAddr)
          end
      | inr _ =>
          let* vmlinux_addr := of_option EInvalidInput (checked_sub addr (kr_kaslr k)) in
          let* result := vmlinux vmlinux_addr opts in
          match result with
          | inl s =>
              match rs_size s, ksym with
              | None, Some ksym =>
                  match ksym addr opts with
                  | Ok (inl s') => Ok (inl s')
                  | Panic => Panic
                  | NoFuel => NoFuel
                  | _ => Ok (inl s)
                  end
              | _, _ => Ok (inl s)
              end
          | inr r =>
              match ksym with
              | Some ksym => ksym addr opts
              | None => Ok (inr r)
              end
          end
      end
  | None, Some ksym => ksym addr opts
  | None, None => Panic
  end.
Definition kernel_find_sym (m : mode) (env : kenv) (k : kernel) (addr : N) (opts : find_opts) : find_result :=
  find_with m (env_modmap env) (env_depmod env) (fun path => module_resolver env path (kr_debug_syms k)) k addr opts.

(** ** Creation: lines 112-211 [new] *)
Inductive maybe_default (A : Type) := MNone | MDefault | MSome (a : A).
Arguments MNone {A}. Arguments MDefault {A}. Arguments MSome {A} _.

(** [open] gives the resolvers for a path: one for symbols by address and one
    for symbols by name. *)
Definition sources := (resolver * inspector)%type.
Definition is_some {A} (o : option A) : bool := match o with Some _ => true | None => false end.
(** cache.rs lines 121-133 [kaslr_offset]: [cell] holds the offset once known;
    it is returned with its next contents. *)
Definition kaslr_offset (m : mode) (cell : option N) (kcore : res (list N)) (ksym vmlinux : option inspector) : res N * option N :=
  let f := let* o := find_kaslr_offset m kcore ksym vmlinux in Ok (match o with Some v => v | None => 0 end) in
  match get_or_try_init cell f with (r, cell, _) => (r, cell) end.

Definition default_kallsyms : list N := bs "/proc/kallsyms"%string.
Definition vmlinux_dirs : list (list N) := [bs "/boot/"%string; bs "/usr/lib/debug/boot/"%string].
Record newenv := NewEnv {
  ne_ksym : list N -> res sources;
  ne_elf : list N -> bool -> res sources;
  ne_release : res (list N);
  ne_exists : list N -> bool;
  ne_kcore : res (list N)
}.
Definition catch {A} (r : res A) : res (option A) :=
  match r with Ok a => Ok (Some a) | Err _ => Ok None | Panic => Panic | NoFuel => NoFuel end.
Definition open_ksym (e : newenv) (kallsyms : maybe_default (list N)) : res (option sources) :=
  match kallsyms with
  | MSome p => let* s := ne_ksym e p in Ok (Some s)
  | MDefault => catch (ne_ksym e default_kallsyms)
  | MNone => Ok None
  end.
Definition open_vmlinux (e : newenv) (vmlinux : maybe_default (list N)) (debug_syms : bool) : res (option sources) :=
  match vmlinux with
  | MSome p => let* s := ne_elf e p debug_syms in Ok (Some s)
  | MDefault =>
      let* release := ne_release e in
      match find (ne_exists e) (map (fun dir => path_join dir (bs "vmlinux-"%string ++ release)) vmlinux_dirs) with
      | Some p => catch (ne_elf e p debug_syms)
      | None => Ok None
      end
  | MNone => Ok None
  end.
Definition kernel_new (m : mode) (e : newenv) (cell : option N) (kallsyms vmlinux : maybe_default (list N))
    (given : option N) (debug_syms : bool) : res kernel * option N :=
  let opened :=
    let* k := open_ksym e kallsyms in
    let* v := open_vmlinux e vmlinux debug_syms in
    match k, v with None, None => Err ENotFound | _, _ => Ok (k, v) end in
  match opened with
  | Ok (k, v) =>
      let make o := Kernel (option_map fst k) (option_map fst v) o debug_syms in
      match given with
      | Some o => (Ok (make o), cell)
      | None =>
          if is_some v then
            let '(o, cell) := kaslr_offset m cell (ne_kcore e) (option_map snd k) (option_map snd v) in
            ((let* o := o in Ok (make o)), cell)
          else (Ok (make 0), cell)
      end
  | Err x => (Err x, cell)
  | Panic => (Panic, cell)
  | NoFuel => (NoFuel, cell)
  end.
