(** * Symbolization by C programs: capi/src/symbolize.rs

    Ties the parts of the C API together: structures handed in (CapiIn.v), arrays
    and strings of the caller (CapiCalls.v), the library (Symbolizer.v) and
    results in memory (CapiOut.v). Not modelled here: kernel addresses, see
    HostKernel.v for those, and the callback of [process_dispatch]. *)

From Coq Require Import ZArith.
From Verif Require Import Base Util Bytes Sym Symbolizer Demangle CapiIn CapiSpec CapiOut CapiCalls.
Local Open Scope N_scope.

(** ** Sources *)

(** The functions, lines 1179-1193, 1245-1266, 1284-1305, 1324-1344,
    1363-1384 *)
Inductive fn := FProcess | FElfVirt | FElfFile | FGsymData | FGsymFile.
Definition input_of (f : fn) : input_ty :=
  match f with
  | FProcess => blaze_symbolize_src_process
  | FElfVirt | FElfFile => blaze_symbolize_src_elf
  | FGsymData => blaze_symbolize_src_gsym_data
  | FGsymFile => blaze_symbolize_src_gsym_file
  end.
Definition kind_of (f : fn) : kind :=
  match f with
  | FProcess => AbsAddr
  | FElfVirt | FGsymData | FGsymFile => VirtOffset
  | FElfFile => FileOffset
  end.

(** capi/src/util.rs lines 164-177 [slice_from_aligned_user_array], of bytes *)
Definition slice_of_bytes (g : mem) (items num : N) : res (list N) :=
  if items =? 0 then if num =? 0 then Ok [] else Panic
  else read_at g items (N.to_nat num).

(** lines 187-201 [From<blaze_symbolize_src_elf>] with lines 645-650
    [from_cstr] *)
Definition elf_src (g : mem) (fuel : nat) (o : list N) : res source :=
  let t := blaze_symbolize_src_elf in
  let* path := read_cstr g fuel (member t 1 o) in
  let* debug_syms := flag t 2 o in
  Ok (SElf (path_of path) debug_syms).
(** lines 395-408 [From<blaze_symbolize_src_gsym_data>] *)
Definition gsym_data_src (g : mem) (o : list N) : res source :=
  let t := blaze_symbolize_src_gsym_data in
  let* data := slice_of_bytes g (member t 1 o) (member t 2 o) in
  Ok (SGsymData data).
(** lines 437-449 [From<blaze_symbolize_src_gsym_file>] *)
Definition gsym_file_src (g : mem) (fuel : nat) (o : list N) : res source :=
  let* path := read_cstr g fuel (member blaze_symbolize_src_gsym_file 1 o) in
  Ok (SGsymFile (path_of path)).
Definition c_source (g : mem) (fuel : nat) (f : fn) (o : list N) : res source :=
  match f with
  | FProcess => let* '(p, po) := process_src o in Ok (SProcess p po)
  | FElfVirt | FElfFile => elf_src g fuel o
  | FGsymData => gsym_data_src g o
  | FGsymFile => gsym_file_src g fuel o
  end.

(** ** Creating symbolizers *)

(** What a [Builder] was told; no directories are the default ones, and a
    dispatcher is where its structure is *)
Record built := Built {
  b_auto_reload : bool;
  b_code_info : bool;
  b_inlined_fns : bool;
  b_demangle : bool;
  b_debug_dirs : option (list (list N));
  b_dispatch : N
}.
(** /repo/src/symbolize/symbolizer.rs lines 475-490 [Builder::default] *)
Definition builder_default : built := Built true true true true None 0.
(** lines 769-774 [blaze_symbolizer_new] *)
Definition blaze_symbolizer_new : Z * option built := (0%Z, Some builder_default).
(** lines 789-887 [blaze_symbolizer_new_opts] *)
Definition blaze_symbolizer_new_opts (g : mem) (fuel : nat) (opts : list N) : res (Z * option built) :=
  let t := blaze_symbolizer_opts in
  let* z := take_input false t opts in
  match z with
  | None => let* e := blaze_err_from EInvalidInput in Ok (e, None)
  | Some o =>
      let* '(auto_reload, code_info, inlined_fns, demangle) := symbolizer_flags o in
      let* dirs :=
        if member t 1 o =? 0 then Ok None
        else
          let* ps := slice_from_user_array g (member t 1 o) (N.to_nat (member t 2 o)) in
          let* dirs := map_res (read_cstr g fuel) ps in
          Ok (Some dirs) in
      Ok (0%Z, Some (Built auto_reload code_info inlined_fns demangle dirs (member t 8 o)))
  end.
Definition config_of (rust cpp : list N -> option (list N)) (self : N) (b : built) : config :=
  build rust cpp (b_code_info b) (b_inlined_fns b) (b_demangle b) self.

(** ** Calls *)
Section Calls.
  Context {File Parser : Type}.
  Notation world := (world File Parser).
  Notation state := (state File Parser).

  (** A call, with the memory of the program and everything outside at that
      time. [ca_alloc] is where the allocator puts results; zero is [NULL]. *)
  Record ccall := CCall {
    ca_mem : mem;
    ca_fuel : nat;
    ca_world : world;
    ca_alloc : list symbolized -> N;
    ca_fn : fn;
    ca_src : list N;
    ca_addrs : N;
    ca_cnt : nat
  }.

  (** lines 1122-1160 [blaze_symbolize_impl]: the last error and what is
      returned *)
  Definition symbolize_impl (m : mode) (cf : config) (c : ccall) (src : source) (s : state)
    : res (Z * option (block * N)) * state :=
    then_ (slice_from_user_array (ca_mem c) (ca_addrs c) (ca_cnt c), s) (fun addrs s =>
      let '(r, s) := symbolize m cf (ca_world c) src (kind_of (ca_fn c)) addrs s in
      match r with
      | Ok [] => (Ok (0%Z, None), s)
      | Ok l =>
          (let* p := convert_results m (ca_alloc c l) l in
           match p with
           | None => let* e := blaze_err_from EOutOfMemory in Ok (e, None)
           | Some p => Ok (0%Z, Some p)
           end, s)
      | Err k => (let* e := blaze_err_from k in Ok (e, None), s)
      | Panic => (Panic, s)
      | NoFuel => (NoFuel, s)
      end).
  (** e.g. lines 1179-1193 *)
  Definition blaze_symbolize (m : mode) (cf : config) (c : ccall) (s : state) : res (Z * option (block * N)) * state :=
    then_ (take_input false (input_of (ca_fn c)) (ca_src c), s) (fun z s =>
      match z with
      | None => (let* e := blaze_err_from EInvalidInput in Ok (e, None), s)
      | Some o =>
          then_ (c_source (ca_mem c) (ca_fuel c) (ca_fn c) o, s) (fun src s => symbolize_impl m cf c src s)
      end).
  Definition blaze_run (m : mode) (cf : config) (l : list ccall) (s : state) : state :=
    fold_left (fun s c => snd (blaze_symbolize m cf c s)) l s.
End Calls.
Arguments ccall : clear implicits.
