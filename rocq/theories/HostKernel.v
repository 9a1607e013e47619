(** * Kernel addresses, from the contents of files

    Ties [KernelCache] to the models of the file formats, as [Host] does for
    [Symbolizer]. *)

From Coq Require Import String.
From Verif Require Import Base Util Text Nom Sym Inspect Elf ModMap Depmod FileCache Symbolizer Host KernelCache.
From Verif Require Kernel Ksym.
Local Close Scope string_scope.
Local Open Scope N_scope.
Import Kernel(kernel, maybe_default, MNone, MDefault, MSome).

Record system := System {
  sy_host : host;
  (* what [uname] gives *)
  sy_release : res (list N);
  (* The temporary file that a compressed file with a certain extension is
     unpacked to *)
  sy_unpack : list N -> list N -> res path
}.
(** src/symbolize/source.rs lines 181-226 [Kernel] *)
Record ksource := KSource {
  ks_kallsyms : maybe_default (list N);
  ks_vmlinux : maybe_default (list N);
  ks_offset : option N;
  ks_debug_syms : bool
}.

Section HostKernel.
  Context (x : ext) (m : mode) (pick : N -> N -> N) (rest : world (N * list N) parser).
  (** [sort_unstable_by_key], and source information of BPF programs *)
  Context (sort : list kmod -> list kmod) (code : list N -> N -> res (option code_info)).

  (** src/kernel/ksym.rs lines 318-331 [for_each] *)
  Fixpoint ksym_calls_loop (go : list sym_info -> bool) (l : list Ksym.ksym) (seen : list sym_info) : list sym_info :=
    match l with
    | [] => seen
    | k :: l =>
        let seen := seen ++ [Ksym.ksym_info k] in
        if go seen then ksym_calls_loop go l seen else seen
    end.
  Definition ksym_calls (syms : list Ksym.ksym) (opts : find_addr_opts) (go : list sym_info -> bool) : list sym_info * res unit :=
    match fa_sym_type opts with
    | TVariable => ([], Ok tt)
    | _ => (ksym_calls_loop go syms [], Ok tt)
    end.
  (** lines 191-238 [load_from_reader]; it panics for some names
      ([C50_panic_refuted]), which is left out here. *)
  Definition ksym_of (f : N * list N) (p : path) : outcome resolver :=
    to_outcome (let* syms := Ksym.ksym_load (snd f) in
                Ok (Resolver (Ksym.ksym_find_sym code syms) (fun _ => Err EUnsupported)
                      (fun name opts => Ok (Ksym.ksym_find_addr syms name opts)) (ksym_calls syms))).

  Definition contents (h : host) (p : list N) : res (list N) :=
    let* f := of_outcome (h_open h (path_of p)) in Ok (snd f).
  (** src/kernel/modmap.rs lines 38-41 [new], for the path of src/kernel/mod.rs
      line 13 *)
  Definition modules_of (h : host) : res (list kmod) :=
    let* text := contents h (bs "/proc/modules"%string) in modmap sort text.
  (** src/kernel/depmod.rs lines 38-49 [with_system_default], 52-68 [new] *)
  Definition depmod_of (s : system) : res (list N * list N) :=
    let* release := sy_release s in
    if utf8_valid release then
      let dir := bs "/lib/modules/"%string ++ release in
      let* data := contents (sy_host s) (path_join dir (bs "modules.dep.bin"%string)) in
      let* _ := depmod_validate data in
      Ok (dir, data)
    else Err EInvalidData.
  (** [Path::exists] *)
  Definition exists_at (h : host) (p : list N) : bool :=
    match h_stat h (path_of p) with Good _ => true | Bad _ => false end.
  Definition host_kworld (s : system) : kworld (N * list N) parser :=
    KWorld (host_world x m pick rest (sy_host s)) (modules_of (sy_host s)) (depmod_of s) (sy_release s) (exists_at (sy_host s))
      (contents (sy_host s) (bs "/proc/kcore"%string)) (sy_unpack s).

  (** src/symbolize/symbolizer.rs lines 1269-1293 and 1028-1044, with lines
      164-214 for what is found *)
  Definition with_found (cf : config) (addr : N) (f : find_result) : res symbolized :=
    with_resolver m cf addr (symbolize_only (fun _ _ => f)).
  Definition kernel_impl (cf : config) (s : system) (src : ksource) (k : kind) (addrs : list N)
      (fold : ekind -> res symbolized) (c : kcache (N * list N) parser) : res (list symbolized) * kcache (N * list N) parser :=
    match k with
    | AbsAddr =>
        then_ (kr_new ksym_of m (host_kworld s) (ks_kallsyms src) (ks_vmlinux src) (ks_offset src) (ks_debug_syms src) c) (fun k c =>
          each (fun a c =>
            let '(f, c) := kr_find_sym m (host_kworld s) k a (cf_opts cf) c in
            (with_found cf a f, c)) fold addrs c)
    | VirtOffset | FileOffset => unsupported c
    end.
  (** lines 1437-1446 [symbolize], 1461-1469 [symbolize_single] *)
  Definition kernel_symbolize (cf : config) (s : system) (src : ksource) (k : kind) (addrs : list N) (c : kcache (N * list N) parser)
    : res (list symbolized) * kcache (N * list N) parser :=
    kernel_impl cf s src k addrs (fun _ => Ok (Unknown IgnoredError)) c.
  Definition kernel_single (cf : config) (s : system) (src : ksource) (k : kind) (addr : N) (c : kcache (N * list N) parser)
    : res symbolized * kcache (N * list N) parser :=
    then_ (kernel_impl cf s src k [addr] Err c) (fun l c => (unwrap (hd_error l), c)).
  (** What a call is to [KernelCache] *)
  Definition kernel_call (cf : config) (s : system) (src : ksource) (addrs : list N) : kcall (N * list N) parser :=
    KCall m (host_kworld s) (ks_kallsyms src) (ks_vmlinux src) (ks_offset src) (ks_debug_syms src) (cf_opts cf)
      (map (pair (host_kworld s)) addrs).
End HostKernel.
