(** * Structures handed in by C programs: /repo/capi/src/lib.rs and the
      [blaze_*] input types

    A C program fills in a structure whose first member is the size the
    structure had in the header the program was compiled with. Memory the
    caller owns behind the pointer is a list of bytes; an access beyond it is
    undefined behaviour and [Panic] here. *)

From Verif Require Import Base Util UtilProofs Bytes Sym Symbolizer.
Local Open Scope N_scope.

(** ** [#[repr(C)]]

    Types of members, their size and alignment on 64 bit targets. *)
Inductive cty :=
| CUsize | CPtr | CU64 | CIsize | CU32 | CU16 | CU8 | CBool
| CBytes (n : N)                                  (* [[u8; n]] *)
| CStruct (members : list cty).

Definition align_up (a o : N) : N := (o + a - 1) / a * a.

Fixpoint align_of (t : cty) : N :=
  match t with
  | CUsize | CPtr | CU64 | CIsize => 8
  | CU32 => 4
  | CU16 => 2
  | CU8 | CBool | CBytes _ => 1
  | CStruct l => fold_right (fun t a => N.max (align_of t) a) 1 l
  end.
Fixpoint size_of (t : cty) : N :=
  match t with
  | CUsize | CPtr | CU64 | CIsize => 8
  | CU32 => 4
  | CU16 => 2
  | CU8 | CBool => 1
  | CBytes n => n
  | CStruct l =>
      let fix go (o : N) (l : list cty) : N :=
        match l with
        | [] => o
        | t :: l => go (align_up (align_of t) o + size_of t) l
        end in
      align_up (fold_right (fun t a => N.max (align_of t) a) 1 l) (go 0 l)
  end.
(** [offset_of!]: where member [i] begins. *)
Fixpoint offsets (o : N) (l : list cty) : list N :=
  match l with
  | [] => []
  | t :: l => let b := align_up (align_of t) o in b :: offsets (b + size_of t) l
  end.
Definition offset_of (l : list cty) (i : nat) : N := nth i (offsets 0 l) 0.

(** An input type: its members and which one is called [reserved]. *)
Record input_ty := InputTy { it_members : list cty; it_reserved : nat }.
Definition it_size (t : input_ty) : N := size_of (CStruct (it_members t)).
Definition it_effective (t : input_ty) : N := offset_of (it_members t) (it_reserved t).

(** capi/src/symbolize.rs lines 48-59, 89-119, 155-174, 207-245, 298-327,
    369-382, 414-425, 686-736; capi/src/normalize.rs lines 47-91, 110-141;
    capi/src/inspect.rs lines 45-59 *)
Definition blaze_cache_src_elf := InputTy [CUsize; CPtr; CBytes 16] 2.
Definition blaze_cache_src_process := InputTy [CUsize; CU32; CBool; CBytes 19] 3.
Definition blaze_symbolize_src_elf := InputTy [CUsize; CPtr; CBool; CBytes 23] 3.
Definition blaze_symbolize_src_kernel := InputTy [CUsize; CPtr; CPtr; CBool; CBytes 23] 4.
Definition blaze_symbolize_src_process :=
  InputTy [CUsize; CU32; CBool; CBool; CBool; CBool; CBytes 16] 6.
Definition blaze_symbolize_src_gsym_data := InputTy [CUsize; CPtr; CUsize; CBytes 16] 3.
Definition blaze_symbolize_src_gsym_file := InputTy [CUsize; CPtr; CBytes 16] 2.
Definition blaze_symbolizer_opts :=
  InputTy [CUsize; CPtr; CUsize; CBool; CBool; CBool; CBool; CBytes 4; CPtr; CBytes 8] 9.
Definition blaze_normalizer_opts := InputTy [CUsize; CBool; CBool; CBool; CBool; CBytes 20] 5.
Definition blaze_normalize_opts := InputTy [CUsize; CBool; CBool; CBool; CBytes 21] 4.
Definition blaze_inspect_elf_src := InputTy [CUsize; CPtr; CBool; CBytes 23] 3.
Definition input_tys : list input_ty :=
  [blaze_cache_src_elf; blaze_cache_src_process; blaze_symbolize_src_elf;
   blaze_symbolize_src_kernel; blaze_symbolize_src_process; blaze_symbolize_src_gsym_data;
   blaze_symbolize_src_gsym_file; blaze_symbolizer_opts; blaze_normalizer_opts;
   blaze_normalize_opts; blaze_inspect_elf_src].

(** ** Checks and copies *)

(** Reading [n] bytes at the start of the memory. *)
Definition read_mem (n : N) (mem : list N) : res (list N) :=
  if n <=? nlen mem then Ok (ntake n mem) else Panic.

(** [ptr.add(n)]. Rust requires the result to be inside of the object or just
    behind it, what [strict] asks for; no known compiler takes advantage of it
    as long as nothing is read. *)
Definition ptr_add (strict : bool) (n : N) (mem : list N) : res (list N) :=
  if strict && (nlen mem <? n) then Panic else Ok (ndrop n mem).

(** capi/src/util.rs lines 152-161 [is_mem_zero] *)
Fixpoint is_mem_zero (mem : list N) (len : N) : res bool :=
  if len =? 0 then Ok true
  else match mem with
       | [] => Panic
       | b :: mem => if b =? 0 then is_mem_zero mem (len - 1) else Ok false
       end.

(** capi/src/lib.rs lines 36-52 [input_zeroed!] *)
Definition input_zeroed (strict : bool) (t : input_ty) (mem : list N) : res bool :=
  let* b := read_mem 8 mem in
  let user_size := le_val b in
  if user_size <? 8 then Ok false
  else
    let* p := ptr_add strict (it_effective t) mem in
    is_mem_zero p (sat_sub user_size (it_effective t)).

(** lines 55-77 [input_sanitize!] *)
Definition input_sanitize (t : input_ty) (mem : list N) : res (list N) :=
  let* b := read_mem 8 mem in
  let user_type_size := le_val b in
  if user_type_size <? it_size t then
    let* c := read_mem user_type_size mem in
    Ok (c ++ repeat 0 (N.to_nat (it_size t - user_type_size)))
  else read_mem (it_size t) mem.

(** How every function begins, e.g. symbolize.rs lines 919-923: [None] is
    [INVALID_INPUT]. *)
Definition take_input (strict : bool) (t : input_ty) (mem : list N) : res (option (list N)) :=
  let* z := input_zeroed strict t mem in
  if z then let* o := input_sanitize t mem in Ok (Some o) else Ok None.

(** ** What the members mean *)

Definition member (t : input_ty) (i : nat) (o : list N) : N :=
  field (offset_of (it_members t) i) (size_of (nth i (it_members t) CU8)) o.
(** A [bool] that is neither zero nor one is undefined behaviour. *)
Definition flag (t : input_ty) (i : nat) (o : list N) : res bool :=
  match member t i o with 0 => Ok false | 1 => Ok true | _ => Panic end.

(** /repo/src/pid.rs lines 37-41 [Pid::from] *)
Definition pid_of (n : N) : pid := if n =? 0 then Slf else Pid n.

(** symbolize.rs lines 343-363 [From<blaze_symbolize_src_process>] *)
Definition process_src (o : list N) : res (pid * popts) :=
  let t := blaze_symbolize_src_process in
  let* debug_syms := flag t 2 o in
  let* perf_map := flag t 3 o in
  let* no_map_files := flag t 4 o in
  let* no_vdso := flag t 5 o in
  Ok (pid_of (member t 1 o), POpts debug_syms perf_map (negb no_map_files) (negb no_vdso)).

(** symbolize.rs lines 259-291 [From<blaze_symbolize_src_kernel>]; [strings]
    gives the C string a pointer points to. *)
Inductive maybe_default := MNone | MDefault | MSome (path : list N).
Definition to_maybe_path (strings : N -> list N) (p : N) : maybe_default :=
  if p =? 0 then MDefault
  else match strings p with [] => MNone | s => MSome s end.
Definition kernel_src (strings : N -> list N) (o : list N) : res (maybe_default * maybe_default * bool) :=
  let t := blaze_symbolize_src_kernel in
  let* debug_syms := flag t 3 o in
  Ok (to_maybe_path strings (member t 1 o), to_maybe_path strings (member t 2 o), debug_syms).

(** symbolize.rs lines 797-816: the flags of [Builder] *)
Definition symbolizer_flags (o : list N) : res (bool * bool * bool * bool) :=
  let t := blaze_symbolizer_opts in
  let* auto_reload := flag t 3 o in
  let* code_info := flag t 4 o in
  let* inlined_fns := flag t 5 o in
  let* demangle := flag t 6 o in
  Ok (auto_reload, code_info, inlined_fns, demangle).

(** normalize.rs lines 155-171 [From<blaze_normalize_opts>] *)
Definition normalize_flags (o : list N) : res (bool * bool * bool) :=
  let t := blaze_normalize_opts in
  let* sorted_addrs := flag t 1 o in
  let* map_files := flag t 2 o in
  let* apk_to_elf := flag t 3 o in
  Ok (sorted_addrs, map_files, apk_to_elf).
