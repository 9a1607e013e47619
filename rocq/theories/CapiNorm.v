(** * Normalization by C programs: capi/src/normalize.rs

    What is handed out is made of several allocations. The allocator chooses
    their places; [0] is when there is no memory, for which Rust ends the
    program, and which is [Err EOutOfMemory] here. Writing or freeing what is not
    allocated is undefined behaviour and [Panic] here. *)

From Coq Require Import ZArith.
From Verif Require Import Base Util UtilProofs Bytes Sym Symbolizer Normalize CapiIn CapiSpec CapiOut CapiCalls.
Local Open Scope N_scope.

(** ** The heap *)

(** An allocation: where it is, its size and alignment *)
Record lay := Lay { l_base : N; l_size : N; l_align : N }.
Definition lay_eqb (a b : lay) : bool :=
  (l_base a =? l_base b) && (l_size a =? l_size b) && (l_align a =? l_align b).
(** Allocations in use, and the contents of memory *)
Record heap := Heap { hp_live : list lay; hp_get : mem }.
Definition in_lay (b : lay) (i : N) : bool := (l_base b <=? i) && (i <? l_base b + l_size b).
Definition allocator := heap -> N -> N -> N.

Section Heap.
  Context (al : allocator).

  (** Nothing is allocated for no bytes: there is an aligned pointer. Sizes are
      limited by [isize::MAX]. *)
  Definition h_alloc (size align : N) (h : heap) : res (N * heap) :=
    if size =? 0 then Ok (align, h)
    else if 2 ^ 63 - align <? size then Panic
    else
      let p := al h size align in
      if p =? 0 then Err EOutOfMemory
      else Ok (p, Heap (Lay p size align :: hp_live h) (fun i => if in_lay (Lay p size align) i then None else hp_get h i)).
  Definition h_put (align a : N) (l : list N) (h : heap) : res heap :=
    if (nlen l =? 0) || ((a mod align =? 0) && existsb (fun b => (l_base b <=? a) && (a + nlen l <=? l_base b + l_size b)) (hp_live h))
    then Ok (Heap (hp_live h) (write a l (hp_get h)))
    else Panic.
  Fixpoint remove1 (b : lay) (l : list lay) : option (list lay) :=
    match l with
    | [] => None
    | c :: l => if lay_eqb b c then Some l else match remove1 b l with Some l => Some (c :: l) | None => None end
    end.
  Definition h_free (p size align : N) (h : heap) : res heap :=
    if size =? 0 then Ok h
    else
      match remove1 (Lay p size align) (hp_live h) with
      | Some l => Ok (Heap l (fun i => if in_lay (Lay p size align) i then None else hp_get h i))
      | None => Panic
      end.
  Definition put_num (n : nat) (a v : N) := h_put (N.of_nat n) a (le_bytes n v).
  Definition get_num (n : nat) (a : N) (h : heap) : res N := let* l := read_at (hp_get h) a n in Ok (le_val l).

  (** [CString::new(bytes).expect(…).into_raw()], and [CString::from_raw], which
      looks for the end of the string *)
  Definition cstring_new (s : list N) (h : heap) : res (N * heap) :=
    if existsb (fun b => b =? 0) s then Panic
    else
      let* '(p, h) := h_alloc (nlen s + 1) 1 h in
      let* h := h_put 1 p (s ++ [0]) h in
      Ok (p, h).
  Definition cstring_free (fuel : nat) (p : N) (h : heap) : res heap :=
    let* s := read_cstr (hp_get h) fuel p in
    h_free p (nlen s + 1) 1 h.
End Heap.

(** ** Types: lines 262-271, 314-320, 354-369, 431-436, 544-552, 579-588,
    600-610, 679-690 *)
Definition normalized_output_ty := [CU64; CUsize; CBytes 16].
Definition meta_apk_ty := [CPtr; CBytes 16].
Definition meta_elf_ty := [CPtr; CUsize; CPtr; CBytes 16].
Definition meta_sym_ty := [CPtr; CBytes 16].
Definition meta_unknown_ty := [CU8; CBytes 15].
(** The union is as large as its largest member. *)
Definition meta_ty := [CU8; CBytes 7; CStruct meta_elf_ty; CBytes 16].
Definition user_output_ty := [CUsize; CPtr; CUsize; CPtr; CBytes 16].
(** lines 288-296 *)
Definition KIND_UNKNOWN : N := 0.
Definition KIND_APK : N := 1.
Definition KIND_ELF : N := 2.
Definition KIND_SYM : N := 3.
(** lines 486-520 [blaze_normalize_reason] *)
Definition normalize_reason_code (r : reason) : N :=
  match r with
  | Unmapped => 0
  | MissingComponent => 1
  | Unsupported => 2
  | InvalidFileOffset => 3
  | MissingSyms => 4
  | UnknownAddr => 5
  | IgnoredError => 7
  end.

(** ** Conversion *)
Section Convert.
  Context (al : allocator).

  (** lines 322-336 [blaze_user_meta_apk::from], written to [out] *)
  Definition convert_apk (path : list N) (out : N) (h : heap) : res heap :=
    let* '(p, h) := cstring_new al path h in
    let* h := put_num 8 (out + offset_of meta_apk_ty 0) p h in
    h_put 1 (out + offset_of meta_apk_ty 1) (repeat 0 16) h.
  (** lines 371-402 [blaze_user_meta_elf::from] *)
  Definition convert_elf (path : list N) (build_id : option (list N)) (out : N) (h : heap) : res heap :=
    let* '(p, h) := cstring_new al path h in
    let* '(id, h) :=
      match build_id with
      | None => Ok (0, h)
      | Some id =>
          let* '(q, h) := h_alloc al (nlen id) 1 h in
          let* h := h_put 1 q id h in
          Ok (q, h)
      end in
    let* h := put_num 8 (out + offset_of meta_elf_ty 0) p h in
    let* h := put_num 8 (out + offset_of meta_elf_ty 1) (match build_id with Some id => nlen id | None => 0 end) h in
    let* h := put_num 8 (out + offset_of meta_elf_ty 2) id h in
    h_put 1 (out + offset_of meta_elf_ty 3) (repeat 0 16) h.
  (** lines 438-465 [blaze_user_meta_sym::from], see CapiOut.v *)
  Definition convert_meta (m : mode) (s : sym) (out : N) (h : heap) : res heap :=
    let* size := meta_sym_size m s in
    let* '(base, h) := h_alloc al size 8 h in
    let* '(b, p) := convert_meta_sym m base s in
    let h := Heap (hp_live h) (fun i => if in_lay (Lay base size 8) i then blk_get b i else hp_get h i) in
    let* h := put_num 8 (out + offset_of meta_sym_ty 0) p h in
    h_put 1 (out + offset_of meta_sym_ty 1) (repeat 0 16) h.
  (** lines 554-566 [blaze_user_meta_unknown::from] *)
  Definition convert_unknown (r : reason) (out : N) (h : heap) : res heap :=
    let* h := put_num 1 (out + offset_of meta_unknown_ty 0) (normalize_reason_code r) h in
    h_put 1 (out + offset_of meta_unknown_ty 1) (repeat 0 15) h.
  (** lines 612-650 [blaze_user_meta::from] *)
  Definition convert_umeta (m : mode) (u : umeta sym) (out : N) (h : heap) : res heap :=
    let variant := out + offset_of meta_ty 2 in
    let* '(kind, h) :=
      match u with
      | UApk path => let* h := convert_apk path variant h in Ok (KIND_APK, h)
      | UElf path id => let* h := convert_elf path id variant h in Ok (KIND_ELF, h)
      | USym s => let* h := convert_meta m s variant h in Ok (KIND_SYM, h)
      | UUnknown r => let* h := convert_unknown r variant h in Ok (KIND_UNKNOWN, h)
      end in
    let* h := put_num 1 (out + offset_of meta_ty 0) kind h in
    let* h := h_put 1 (out + offset_of meta_ty 1) (repeat 0 7) h in
    h_put 1 (out + offset_of meta_ty 3) (repeat 0 16) h.
  Fixpoint convert_metas (m : mode) (l : list (umeta sym)) (out : N) (h : heap) : res heap :=
    match l with
    | [] => Ok h
    | u :: l =>
        let* h := convert_umeta m u out h in
        convert_metas m l (out + size_of (CStruct meta_ty)) h
    end.
  (** lines 272-280 [blaze_normalized_output::from] *)
  Fixpoint convert_outputs (l : list (N * nat)) (out : N) (h : heap) : res heap :=
    match l with
    | [] => Ok h
    | (output, idx) :: l =>
        let* h := put_num 8 (out + offset_of normalized_output_ty 0) output h in
        let* h := put_num 8 (out + offset_of normalized_output_ty 1) (N.of_nat idx) h in
        let* h := h_put 1 (out + offset_of normalized_output_ty 2) (repeat 0 16) h in
        convert_outputs l (out + size_of (CStruct normalized_output_ty)) h
    end.
  (** lines 692-728 [blaze_normalized_user_output::from], with the [Box::new] of
      line 747. Arrays are allocated before their elements are converted. *)
  Definition convert_output (m : mode) (o : uoutput sym) (h : heap) : res (N * heap) :=
    let* '(metas, h) := h_alloc al (size_of (CStruct meta_ty) * nlen (uo_meta o)) 8 h in
    let* h := convert_metas m (uo_meta o) metas h in
    let* '(outputs, h) := h_alloc al (size_of (CStruct normalized_output_ty) * nlen (uo_outputs o)) 8 h in
    let* h := convert_outputs (uo_outputs o) outputs h in
    let* '(p, h) := h_alloc al (size_of (CStruct user_output_ty)) 8 h in
    let* h := put_num 8 (p + offset_of user_output_ty 0) (nlen (uo_meta o)) h in
    let* h := put_num 8 (p + offset_of user_output_ty 1) metas h in
    let* h := put_num 8 (p + offset_of user_output_ty 2) (nlen (uo_outputs o)) h in
    let* h := put_num 8 (p + offset_of user_output_ty 3) outputs h in
    let* h := h_put 1 (p + offset_of user_output_ty 4) (repeat 0 16) h in
    Ok (p, h).

  (** ** Calls *)

  (** lines 731-758 [blaze_normalize_user_addrs_impl]: the last error, what is
      returned ([0] for [NULL]) and the heap *)
  Definition normalize_user_addrs_impl (m : mode) (lib : pid -> nopts -> list N -> res (uoutput sym))
      (pid : N) (addrs : N) (cnt : nat) (o : nopts) (h : heap) : res (Z * N * heap) :=
    let* addrs := slice_from_user_array (hp_get h) addrs cnt in
    match lib (pid_of pid) o addrs with
    | Ok out => let* '(p, h) := convert_output m out h in Ok (0%Z, p, h)
    | Err k => let* e := blaze_err_from k in Ok (e, 0, h)
    | Panic => Panic
    | NoFuel => NoFuel
    end.
  (** lines 776-786, 811-827. Whether build IDs are read is an option of the
      normalizer. *)
  Definition blaze_normalize_user_addrs (m : mode) lib (build_ids : bool) (pid addrs : N) (cnt : nat) (h : heap) :=
    normalize_user_addrs_impl m lib pid addrs cnt (NOpts false false false build_ids) h.
  Definition blaze_normalize_user_addrs_opts (m : mode) lib (build_ids : bool) (pid addrs : N) (cnt : nat) (opts : list N) (h : heap)
    : res (Z * N * heap) :=
    let* z := take_input false blaze_normalize_opts opts in
    match z with
    | None => let* e := blaze_err_from EInvalidInput in Ok (e, 0, h)
    | Some o =>
        let* '(sorted_addrs, map_files, apk_to_elf) := normalize_flags o in
        normalize_user_addrs_impl m lib pid addrs cnt (NOpts sorted_addrs map_files apk_to_elf build_ids) h
    end.
End Convert.

(** ** Normalizers: lines 188-193, 209-236. Use of the query interface, and
    whether VMAs and build IDs are cached and build IDs read *)
Record nbuilt := NBuilt { nb_query : bool; nb_cache_vmas : bool; nb_build_ids : bool; nb_cache_build_ids : bool }.
(** src/normalize/normalizer.rs lines 163-172 [Builder::default] *)
Definition nbuilder_default : nbuilt := NBuilt false false true false.
Definition blaze_normalizer_new : Z * option nbuilt := (0%Z, Some nbuilder_default).
Definition blaze_normalizer_new_opts (opts : list N) : res (Z * option nbuilt) :=
  let t := blaze_normalizer_opts in
  let* z := take_input false t opts in
  match z with
  | None => let* e := blaze_err_from EInvalidInput in Ok (e, None)
  | Some o =>
      let* query := flag t 1 o in
      let* cache_vmas := flag t 2 o in
      let* build_ids := flag t 3 o in
      let* cache_build_ids := flag t 4 o in
      Ok (0%Z, Some (NBuilt query cache_vmas build_ids cache_build_ids))
  end.

(** ** Freeing: lines 338-347, 404-425, 467-475, 652-672, 837-866 *)
Section Free.
  Context (fuel : nat).
  Definition free_umeta (m : mode) (a : N) (h : heap) : res heap :=
    let variant := a + offset_of meta_ty 2 in
    let* kind := get_num 1 (a + offset_of meta_ty 0) h in
    if kind =? KIND_APK then
      let* p := get_num 8 (variant + offset_of meta_apk_ty 0) h in
      cstring_free fuel p h
    else if kind =? KIND_ELF then
      let* p := get_num 8 (variant + offset_of meta_elf_ty 0) h in
      let* len := get_num 8 (variant + offset_of meta_elf_ty 1) h in
      let* id := get_num 8 (variant + offset_of meta_elf_ty 2) h in
      let* h := cstring_free fuel p h in
      if id =? 0 then Ok h else h_free id len 1 h
    else if kind =? KIND_SYM then
      let* p := get_num 8 (variant + offset_of meta_sym_ty 0) h in
      let* size := get_num 8 (p - 8) h in
      let* size := layout8 size in
      h_free (p - 8) size 8 h
    else if kind =? KIND_UNKNOWN then Ok h
    else match m with Checked => Panic | Wrapping => Ok h end.
  Fixpoint free_umetas (m : mode) (n : nat) (a : N) (h : heap) : res heap :=
    match n with
    | O => Ok h
    | S n => let* h := free_umeta m a h in free_umetas m n (a + size_of (CStruct meta_ty)) h
    end.
  Definition blaze_user_output_free (m : mode) (p : N) (h : heap) : res heap :=
    if p =? 0 then Ok h
    else
      let* meta_cnt := get_num 8 (p + offset_of user_output_ty 0) h in
      let* metas := get_num 8 (p + offset_of user_output_ty 1) h in
      let* output_cnt := get_num 8 (p + offset_of user_output_ty 2) h in
      let* outputs := get_num 8 (p + offset_of user_output_ty 3) h in
      let* h := free_umetas m (N.to_nat meta_cnt) metas h in
      let* h := h_free metas (size_of (CStruct meta_ty) * meta_cnt) 8 h in
      let* h := h_free outputs (size_of (CStruct normalized_output_ty) * output_cnt) 8 h in
      h_free p (size_of (CStruct user_output_ty)) 8 h.
End Free.
