(** * Results handed to C programs: /repo/capi/src/symbolize.rs,
      /repo/capi/src/inspect.rs, /repo/capi/src/normalize.rs

    A result is put into a single allocation. [blk_get] is the content of an
    allocation by address, [None] for bytes nobody wrote to. A write outside of
    the allocation or to a misaligned address is undefined behaviour and
    [Panic] here. *)

From Verif Require Import Base Util UtilProofs Bytes Inspect Sym Symbolizer CapiIn.
Local Open Scope N_scope.

(** ** Allocations *)

Record block := Block { blk_base : N; blk_size : N; blk_get : N -> option N }.

(** [Layout::from_size_align(size, 8).unwrap()] panics if the size rounded up
    to the alignment exceeds [isize::MAX]. *)
Definition layout8 (size : N) : res N := if size <=? 2 ^ 63 - 8 then Ok size else Panic.
(** [alloc]: the allocator chooses the address. *)
Definition alloc (base size : N) : block := Block base size (fun _ => None).

Fixpoint write (a : N) (l : list N) (g : N -> option N) : N -> option N :=
  match l with
  | [] => g
  | x :: l => write (a + 1) l (fun i => if i =? a then Some x else g i)
  end.
Definition put (align a : N) (l : list N) (b : block) : res block :=
  if (a mod align =? 0) && (blk_base b <=? a) && (a + nlen l <=? blk_base b + blk_size b)
  then Ok (Block (blk_base b) (blk_size b) (write a l (blk_get b)))
  else Panic.
Definition put64 (a v : N) := put 8 a (le_bytes 8 v).
Definition put32 (a v : N) := put 4 a (le_bytes 4 v).
Definition put16 (a v : N) := put 2 a (le_bytes 2 v).
Definition put8 (a v : N) := put 1 a (le_bytes 1 v).

(** ** Types: symbolize.rs lines 534-551, 557-564, 573-623, 631-638; inspect.rs
    lines 160-180 *)
Definition code_info_ty := [CPtr; CPtr; CU32; CU16; CBytes 10].
Definition inlined_fn_ty := [CPtr; CStruct code_info_ty; CBytes 8].
Definition sym_ty :=
  [CPtr; CPtr; CU64; CUsize; CIsize; CStruct code_info_ty; CUsize; CPtr; CU8; CBytes 15].
Definition syms_ty := [CUsize; CBytes 0].
Definition sym_info_ty := [CPtr; CU64; CIsize; CU64; CPtr; CU8; CBytes 23].

(** ** capi/src/util.rs lines 15-144: [c_str_size] *)
Section Sizes.
  Variable m : mode.
  Definition c_str_size (s : list N) : res N := add64 m (nlen s) 1.
  Definition c_opt_size {A} (f : A -> res N) (o : option A) : res N :=
    match o with Some s => f s | None => Ok 0 end.
  Fixpoint c_sum {A} (f : A -> res N) (acc : N) (l : list A) : res N :=
    match l with
    | [] => Ok acc
    | x :: l => let* n := f x in let* acc := add64 m acc n in c_sum f acc l
    end.
  Definition code_info_size (c : code_info) : res N :=
    let* d := c_opt_size c_str_size (ci_dir c) in
    let* f := c_str_size (ci_file c) in
    add64 m d f.
  Definition inlined_fn_size (f : inlined_fn) : res N :=
    let* n := c_str_size (if_name f) in
    let* c := c_opt_size code_info_size (if_code_info f) in
    add64 m n c.
  Definition sym_size (s : sym) : res N :=
    let* n := c_str_size (sy_name s) in
    let* mo := c_opt_size c_str_size (sy_module s) in
    let* a := add64 m n mo in
    let* c := c_opt_size code_info_size (sy_code_info s) in
    let* a := add64 m a c in
    let* i := c_sum inlined_fn_size 0 (sy_inlined s) in
    add64 m a i.
  Definition sym_info_size (s : sym_info) : res N :=
    let* n := c_str_size (si_name s) in
    let* mo := c_opt_size c_str_size (si_module s) in
    add64 m n mo.
End Sizes.

(** ** Writing results

    The allocation and the two places to continue at. *)
Record cursors := Cursors { cu_block : block; cu_inlined : N; cu_str : N }.
Definition on_block (f : block -> res block) (c : cursors) : res cursors :=
  let* b := f (cu_block c) in Ok (Cursors b (cu_inlined c) (cu_str c)).

(** symbolize.rs lines 976-982 [make_cstr] *)
Definition make_cstr (src : list N) (c : cursors) : res (N * cursors) :=
  let cstr := cu_str c in
  let* b := put 1 cstr src (cu_block c) in
  let* b := put8 (cstr + nlen src) 0 b in
  Ok (cstr, Cursors b (cu_inlined c) (cstr + (nlen src + 1))).
Definition make_opt_cstr (src : option (list N)) (c : cursors) : res (N * cursors) :=
  match src with Some s => make_cstr s c | None => Ok (0, c) end.

(** lines 985-1010 [convert_code_info] *)
Definition convert_code_info (info : option code_info) (out : N) (c : cursors) : res cursors :=
  let* '(dir, c) := make_opt_cstr (match info with Some i => ci_dir i | None => None end) c in
  let* c := on_block (put64 (out + offset_of code_info_ty 0) dir) c in
  let* '(file, c) := make_opt_cstr (match info with Some i => Some (ci_file i) | None => None end) c in
  let* c := on_block (put64 (out + offset_of code_info_ty 1) file) c in
  let line := match info with Some i => match ci_line i with Some l => l | None => 0 end | None => 0 end in
  let* c := on_block (put32 (out + offset_of code_info_ty 2) line) c in
  let column := match info with Some i => match ci_column i with Some l => l | None => 0 end | None => 0 end in
  on_block (put16 (out + offset_of code_info_ty 3) column) c.

(** [isize::try_from(size).unwrap_or(isize::MAX)], -1 if there is none *)
Definition c_size (size : option N) : N :=
  match size with
  | Some n => if n <? 2 ^ 63 then n else 2 ^ 63 - 1
  | None => two64 - 1
  end.

(** lines 1039-1051: the inlined functions *)
Fixpoint convert_inlined (l : list inlined_fn) (c : cursors) : res cursors :=
  match l with
  | [] => Ok c
  | f :: l =>
      let out := cu_inlined c in
      let* '(name, c) := make_cstr (if_name f) c in
      let* c := on_block (put64 (out + offset_of inlined_fn_ty 0) name) c in
      let* c := convert_code_info (if_code_info f) (out + offset_of inlined_fn_ty 1) c in
      convert_inlined l
        (Cursors (cu_block c) (cu_inlined c + size_of (CStruct inlined_fn_ty)) (cu_str c))
  end.

(** lines 1014-1052 [convert_sym] *)
Definition convert_sym (s : sym) (out : N) (c : cursors) : res cursors :=
  let* '(name, c) := make_cstr (sy_name s) c in
  let* '(module, c) := make_opt_cstr (sy_module s) c in
  let* c := on_block (put64 (out + offset_of sym_ty 0) name) c in
  let* c := on_block (put64 (out + offset_of sym_ty 1) module) c in
  let* c := on_block (put64 (out + offset_of sym_ty 2) (sy_addr s)) c in
  let* c := on_block (put64 (out + offset_of sym_ty 3) (sy_offset s)) c in
  let* c := on_block (put64 (out + offset_of sym_ty 4) (c_size (sy_size s))) c in
  let* c := convert_code_info (sy_code_info s) (out + offset_of sym_ty 5) c in
  let* c := on_block (put64 (out + offset_of sym_ty 6) (nlen (sy_inlined s))) c in
  let* c := on_block (put64 (out + offset_of sym_ty 7) (cu_inlined c)) c in
  let* c := on_block (put8 (out + offset_of sym_ty 8) 0) c in
  convert_inlined (sy_inlined s) c.

(** lines 466-505 [blaze_symbolize_reason] *)
Definition reason_code (r : reason) : N :=
  match r with
  | Unmapped => 1
  | InvalidFileOffset => 2
  | MissingComponent => 3
  | MissingSyms => 4
  | UnknownAddr => 5
  | Unsupported => 6
  | IgnoredError => 7
  end.

(** lines 1098-1118: all results *)
Fixpoint convert_all (l : list symbolized) (out : N) (c : cursors) : res cursors :=
  match l with
  | [] => Ok c
  | r :: l =>
      let* c :=
        match r with
        | Known s => convert_sym s out c
        | Unknown r =>
            let* c := on_block (put 8 out (repeat 0 (N.to_nat (size_of (CStruct sym_ty))))) c in
            on_block (put8 (out + offset_of sym_ty 8) (reason_code r)) c
        end in
      convert_all l (out + size_of (CStruct sym_ty)) c
  end.

(** lines 1062-1065: the sizes of all strings and the number of inlined
    functions *)
Fixpoint totals (m : mode) (strs inls : N) (l : list symbolized) : res (N * N) :=
  match l with
  | [] => Ok (strs, inls)
  | Unknown _ :: l => totals m strs inls l
  | Known s :: l =>
      let* n := sym_size m s in
      let* strs := add64 m strs n in
      let* inls := add64 m inls (nlen (sy_inlined s)) in
      totals m strs inls l
  end.

(** lines 1060-1121 [convert_symbolizedresults_to_c]: the allocation and the
    pointer that is returned. [base] is what the allocator returns; zero is
    [NULL]. *)
Definition convert_results (m : mode) (base : N) (l : list symbolized) : res (option (block * N)) :=
  let* '(strs, inls) := totals m 0 0 l in
  let* size := add64 m 8 strs in
  let* size := add64 m size (size_of (CStruct syms_ty)) in
  let* n := mul64 m (size_of (CStruct sym_ty)) (nlen l) in
  let* size := add64 m size n in
  let* n := mul64 m (size_of (CStruct inlined_fn_ty)) inls in
  let* size := add64 m size n in
  let* size := layout8 size in
  if base =? 0 then Ok None
  else
    let b := alloc base size in
    let* b := put64 base size b in
    let syms := base + 8 in
    let first := syms + offset_of syms_ty 1 in
    let inlined := syms + size_of (CStruct syms_ty) + size_of (CStruct sym_ty) * nlen l in
    let cstr := inlined + size_of (CStruct inlined_fn_ty) * inls in
    let* b := put64 (syms + offset_of syms_ty 0) (nlen l) b in
    let* c := convert_all l first (Cursors b inlined cstr) in
    Ok (Some (cu_block c, syms)).

(** normalize.rs lines 438-464 [blaze_user_meta_sym::from] *)
Definition meta_sym_size (m : mode) (s : sym) : res N :=
  let* strs := sym_size m s in
  let* size := add64 m 8 (size_of (CStruct sym_ty)) in
  let* n := mul64 m (nlen (sy_inlined s)) (size_of (CStruct inlined_fn_ty)) in
  let* size := add64 m size n in
  let* size := add64 m size strs in
  layout8 size.
Definition convert_meta_sym (m : mode) (base : N) (s : sym) : res (block * N) :=
  let* size := meta_sym_size m s in
  if base =? 0 then Panic
  else
    let b := alloc base size in
    let* b := put64 base size b in
    let out := base + 8 in
    let inlined := out + size_of (CStruct sym_ty) in
    let cstr := inlined + size_of (CStruct inlined_fn_ty) * nlen (sy_inlined s) in
    let* c := convert_sym s out (Cursors b inlined cstr) in
    Ok (cu_block c, out).

(** ** inspect.rs lines 184-263 [convert_syms_list_to_c] *)
Definition sym_type_code (t : sym_type) : N :=
  match t with TUndefined => 0 | TFunction => 1 | TVariable => 2 end.

(** A whole structure: values of the members, in order *)
Definition put_sym_info (out name addr size file_offset module ty : N) (c : cursors) : res cursors :=
  on_block (put 8 out (le_bytes 8 name ++ le_bytes 8 addr ++ le_bytes 8 size ++ le_bytes 8 file_offset ++
                       le_bytes 8 module ++ le_bytes 1 ty ++ repeat 0 23)) c.

(** [cu_inlined] is where the next structure goes. *)
Fixpoint convert_infos (l : list sym_info) (c : cursors) : res cursors :=
  match l with
  | [] =>
      let* c := put_sym_info (cu_inlined c) 0 0 0 0 0 0 c in
      Ok (Cursors (cu_block c) (cu_inlined c + size_of (CStruct sym_info_ty)) (cu_str c))
  | s :: l =>
      let* '(name, c) := make_cstr (si_name s) c in
      let* '(module, c) := make_opt_cstr (si_module s) c in
      let* c := put_sym_info (cu_inlined c) name (si_addr s) (c_size (si_size s))
                  (match si_file_offset s with Some o => o | None => 0 end) module
                  (sym_type_code (si_type s)) c in
      convert_infos l (Cursors (cu_block c) (cu_inlined c + size_of (CStruct sym_info_ty)) (cu_str c))
  end.
Fixpoint convert_lists (l : list (list sym_info)) (out : N) (c : cursors) : res cursors :=
  match l with
  | [] => Ok c
  | i :: l =>
      let* c := on_block (put64 out (cu_inlined c)) c in
      let* c := convert_infos i c in
      convert_lists l (out + 8) c
  end.
Definition convert_syms_list (m : mode) (base : N) (l : list (list sym_info)) : res (option (block * N)) :=
  let* cnt := c_sum m (fun i => add64 m (nlen i) 1) 0 l in
  let* strs := c_sum m (c_sum m (sym_info_size m) 0) 0 l in
  let* n := mul64 m 8 (nlen l) in
  let* array := mul64 m ((n + 7) / 8) 8 in
  let* infos := mul64 m (size_of (CStruct sym_info_ty)) cnt in
  let* size := add64 m 8 array in
  let* size := add64 m size infos in
  let* size := add64 m size strs in
  let* size := layout8 size in
  if base =? 0 then Ok None
  else
    let b := alloc base size in
    let* b := put64 base size b in
    let raw := base + 8 in
    let* c := convert_lists l raw (Cursors b (raw + array) (raw + array + infos)) in
    Ok (Some (cu_block c, raw)).

(** ** Freeing: symbolize.rs lines 1393-1402 [blaze_syms_free], inspect.rs lines
    335-343 [blaze_inspect_syms_free], normalize.rs lines 467-473

    What is given to [dealloc]: an address and a size. *)
Fixpoint read_back (b : block) (a : N) (n : nat) : res (list N) :=
  match n with
  | O => Ok []
  | S n =>
      if (blk_base b <=? a) && (a <? blk_base b + blk_size b)
      then let* x := unwrap (blk_get b a) in let* l := read_back b (a + 1) n in Ok (x :: l)
      else Panic
  end.
Definition free_syms (b : block) (p : N) : res (N * N) :=
  let buf := p - 8 in
  let* l := read_back b buf 8 in
  let* size := layout8 (le_val l) in
  Ok (buf, size).
