(** * Inspection and build IDs for C programs: capi/src/inspect.rs and
    capi/src/helper.rs

    On the heap of CapiNorm.v. An allocator that returns [0] has no memory. *)

From Coq Require Import ZArith.
From Verif Require Import Base Util UtilProofs Text Bytes Sym Inspect Elf BuildId Symbolizer Inspector CapiIn CapiSpec CapiOut CapiCalls CapiNorm Host.
Local Open Scope N_scope.

(** ** Results in one allocation *)

(** inspect.rs lines 185-192: the size of the allocation *)
Definition syms_list_size (m : mode) (l : list (list sym_info)) : res N :=
  let* cnt := c_sum m (fun i => add64 m (nlen i) 1) 0 l in
  let* strs := c_sum m (c_sum m (sym_info_size m) 0) 0 l in
  let* n := mul64 m 8 (nlen l) in
  let* array := mul64 m ((n + 7) / 8) 8 in
  let* infos := mul64 m (size_of (CStruct sym_info_ty)) cnt in
  let* size := add64 m 8 array in
  let* size := add64 m size infos in
  let* size := add64 m size strs in
  layout8 size.
(** symbolize.rs lines 1063-1073 *)
Definition results_size (m : mode) (l : list symbolized) : res N :=
  let* '(strs, inls) := totals m 0 0 l in
  let* size := add64 m 8 strs in
  let* size := add64 m size (size_of (CStruct syms_ty)) in
  let* n := mul64 m (size_of (CStruct sym_ty)) (nlen l) in
  let* size := add64 m size n in
  let* n := mul64 m (size_of (CStruct inlined_fn_ty)) inls in
  let* size := add64 m size n in
  layout8 size.
Definition with_block (b : block) (h : heap) : heap :=
  Heap (Lay (blk_base b) (blk_size b) 8 :: hp_live h) (fun i => if in_lay (Lay (blk_base b) (blk_size b) 8) i then blk_get b i else hp_get h i).

Section Calls.
  Context (al : allocator).

  Definition new_block (size : res N) (convert : N -> res (option (block * N))) (h : heap) : res (option (N * heap)) :=
    let* size := size in
    let* r := convert (al h size 8) in
    Ok (match r with Some (b, p) => Some (p, with_block b h) | None => None end).
  (** inspect.rs lines 184-263 and symbolize.rs lines 1060-1121, see CapiOut.v *)
  Definition convert_syms_list_to_c (m : mode) (l : list (list sym_info)) : heap -> res (option (N * heap)) :=
    new_block (syms_list_size m l) (fun base => convert_syms_list m base l).
  Definition convert_results_to_c (m : mode) (l : list symbolized) : heap -> res (option (N * heap)) :=
    new_block (results_size m l) (fun base => convert_results m base l).
  (** inspect.rs lines 335-343 [blaze_inspect_syms_free], symbolize.rs lines
      1393-1402 [blaze_syms_free] *)
  Definition free_block (p : N) (h : heap) : res heap :=
    if p =? 0 then Ok h
    else
      let* size := get_num 8 (p - 8) h in
      let* size := layout8 size in
      h_free (p - 8) size 8 h.

  (** ** Inspection *)
  Section Inspect.
    Context {File Parser : Type}.
    (** inspect.rs lines 109-124 [From<blaze_inspect_elf_src>] *)
    Definition inspect_src (g : mem) (fuel : nat) (o : list N) : res isource :=
      let t := blaze_inspect_elf_src in
      let* path := read_cstr g fuel (member t 1 o) in
      let* debug_syms := flag t 2 o in
      Ok (IElf (path_of path) debug_syms).
    (** lines 300-309 *)
    Definition inspect_names (g : mem) (fuel : nat) (names : N) (cnt : nat) : res (list (list N)) :=
      let* ps := slice_from_user_array g names cnt in
      map_res (fun p => let* s := read_cstr g fuel p in if utf8_valid s then Ok s else Panic) ps.
    (** lines 284-326 [blaze_inspect_syms_elf] *)
    Definition blaze_inspect_syms_elf (m : mode) (w : world File Parser) (fuel : nat) (src : list N) (names : N) (cnt : nat)
        (s : inspector File Parser) (h : heap) : res (Z * N * heap) * inspector File Parser :=
      then_ (take_input false blaze_inspect_elf_src src, s) (fun z s =>
        match z with
        | None => (let* e := blaze_err_from EInvalidInput in Ok (e, 0, h), s)
        | Some o =>
            then_ (inspect_src (hp_get h) fuel o, s) (fun src s =>
              then_ (inspect_names (hp_get h) fuel names cnt, s) (fun names s =>
                let '(r, s) := i_lookup w src names s in
                match r with
                | Ok syms =>
                    (let* r := convert_syms_list_to_c m syms h in
                     match r with
                     | None => let* e := blaze_err_from EOutOfMemory in Ok (e, 0, h)
                     | Some (p, h) => Ok (0%Z, p, h)
                     end, s)
                | Err k => (let* e := blaze_err_from k in Ok (e, 0, h), s)
                | Panic => (Panic, s)
                | NoFuel => (NoFuel, s)
                end))
        end).
  End Inspect.

  (** ** Build IDs *)

  (** [malloc], with the alignment of x86_64. No bytes are as some, see
      7.22.3 of the C standard. *)
  Definition malloc (size : N) (h : heap) : N * heap :=
    let size := N.max 1 size in
    let p := al h size 16 in
    if p =? 0 then (p, h)
    else (p, Heap (Lay p size 16 :: hp_live h) (fun i => if in_lay (Lay p size 16) i then None else hp_get h i)).
  (** [free] *)
  Definition c_free (p : N) (h : heap) : res heap :=
    if p =? 0 then Ok h
    else
      match find (fun b => (l_base b =? p) && (0 <? l_size b) && (l_align b =? 16)) (hp_live h) with
      | Some b => h_free p (l_size b) 16 h
      | None => Panic
      end.
  (** helper.rs lines 56-108 [blaze_read_elf_build_id]; [lib] is
      [read_elf_build_id] *)
  Definition blaze_read_elf_build_id (lib : list N -> res (option (list N))) (fuel : nat) (path len : N) (h : heap) : res (Z * N * heap) :=
    let* path := read_cstr (hp_get h) fuel path in
    match lib path with
    | Ok id =>
        let* h := if len =? 0 then Ok h else put_num 8 len (match id with Some id => nlen id | None => 0 end) h in
        match id with
        | None => Ok (0%Z, 0, h)
        | Some id =>
            let '(p, h) := malloc (nlen id) h in
            if p =? 0 then let* e := blaze_err_from EOutOfMemory in Ok (e, 0, h)
            else
              let* h := h_put 1 p id h in
              Ok (0%Z, p, h)
        end
    | Err k => let* e := blaze_err_from k in Ok (e, 0, h)
    | Panic => Panic
    | NoFuel => NoFuel
    end.
End Calls.

(** src/normalize/buildid.rs lines 94-102 [read_elf_build_id] on a host *)
Definition lib_build_id (x : ext) (m : mode) (h : host) (path : list N) : res (option (list N)) :=
  let* '(ptr, data) := of_outcome (h_open h (path_of path)) in
  read_build_id x m (Mem ptr data).
