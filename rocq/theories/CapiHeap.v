(** * Normalized addresses handed to C programs, and given back:
      /repo/capi/src/normalize.rs

    The heap: what is allocated, by address. Structures are kept as such, not
    as bytes; arrays of bytes and symbols (see [CapiOut]) as bytes. Freeing
    what is not allocated, or with another size or alignment than it was
    allocated with, is undefined behaviour and [Panic] here; so is reading
    what is not there. *)

From Verif Require Import Base Util UtilProofs Bytes Inspect Sym Symbolizer Normalize CapiIn CapiOut.
Local Open Scope N_scope.

(** ** Types: lines 255-270, 309-319, 347-370, 427-435, 547-557, 576-608, 671-683 *)
Definition meta_apk_ty := [CPtr; CBytes 16].
Definition meta_elf_ty := [CPtr; CUsize; CPtr; CBytes 16].
Definition meta_sym_ty := [CPtr; CBytes 16].
Definition meta_unknown_ty := [CU8; CBytes 15].
(** A union has the size of its largest member. *)
Definition user_meta_ty := [CU8; CBytes 7; CStruct meta_elf_ty; CBytes 16].
Definition output_ty := [CU64; CUsize; CBytes 16].
Definition user_output_ty := [CUsize; CPtr; CUsize; CPtr; CBytes 16].

(** [blaze_user_meta] *)
Inductive cmeta :=
| CmUnknown (reason : N)
| CmApk (path : N)
| CmElf (path build_id_len build_id : N)
| CmSym (sym : N).
(** [blaze_normalized_user_output] *)
Record coutput := COutput { co_meta_cnt : N; co_metas : N; co_output_cnt : N; co_outputs : N }.

(** ** The heap *)
Inductive content :=
| DBytes (l : list N)
| DSym (b : block)
| DMetas (l : list cmeta)
| DOutputs (l : list (N * N))
| DOutput (o : coutput).
Record cell := Cell { c_size : N; c_align : N; c_data : content }.
Definition heap := N -> option cell.
Definition hset (h : heap) (p : N) (c : option cell) : heap := fun a => if a =? p then c else h a.
(** The allocator: the address for a size and an alignment, zero if there is no
    memory left. The program is aborted then, which is [Err EOutOfMemory]. *)
Definition allocator := heap -> N -> N -> N.
(** [Box], [Vec] and [CString] do not allocate anything if the size is zero;
    the pointer is dangling, then. *)
Definition halloc (pick : allocator) (h : heap) (size align : N) (d : content) : res (heap * N) :=
  if size =? 0 then Ok (h, align)
  else let p := pick h size align in
       if p =? 0 then Err EOutOfMemory else Ok (hset h p (Some (Cell size align d)), p).
Definition hfree (h : heap) (p size align : N) : res heap :=
  if size =? 0 then Ok h
  else match h p with
       | Some c => if (c_size c =? size) && (c_align c =? align) then Ok (hset h p None) else Panic
       | None => Panic
       end.

(** [CString::new(..).expect(..).into_raw()] *)
Definition cstring_new (pick : allocator) (h : heap) (s : list N) : res (heap * N) :=
  if existsb (N.eqb 0) s then Panic else halloc pick h (nlen s + 1) 1 (DBytes (s ++ [0])).
Fixpoint strlen (l : list N) : res N :=
  match l with
  | [] => Panic
  | b :: l => if b =? 0 then Ok 0 else let* n := strlen l in Ok (n + 1)
  end.
Definition read_bytes (h : heap) (p : N) : res (list N) :=
  match h p with Some (Cell _ _ (DBytes l)) => Ok l | _ => Panic end.
(** [CString::from_raw], dropped *)
Definition cstring_free (h : heap) (p : N) : res heap :=
  let* l := read_bytes h p in
  let* n := strlen l in
  hfree h p (n + 1) 1.

(** lines 485-497 [blaze_normalize_reason::from] *)
Definition normalize_reason (r : reason) : N :=
  match r with
  | Unmapped => 0 | MissingComponent => 1 | Unsupported => 2 | InvalidFileOffset => 3
  | MissingSyms => 4 | UnknownAddr => 5 | IgnoredError => 7
  end.

(** lines 610-650 [blaze_user_meta::from], with 321-335 [blaze_user_meta_apk::from],
    372-405 [blaze_user_meta_elf::from], 438-466 [blaze_user_meta_sym::from],
    559-571 [blaze_user_meta_unknown::from] *)
Definition meta_from (m : mode) (pick : allocator) (h : heap) (x : umeta sym) : res (heap * cmeta) :=
  match x with
  | UApk path =>
      let* '(h, p) := cstring_new pick h path in
      Ok (h, CmApk p)
  | UElf path build_id =>
      let* '(h, p) := cstring_new pick h path in
      match build_id with
      | Some id =>
          let* '(h, q) := halloc pick h (nlen id) 1 (DBytes id) in
          Ok (h, CmElf p (nlen id) q)
      | None => Ok (h, CmElf p 0 0)
      end
  | USym s =>
      let* size := meta_sym_size m s in
      let base := pick h size 8 in
      if base =? 0 then Err EOutOfMemory else
      let* '(b, p) := convert_meta_sym m base s in
      Ok (hset h base (Some (Cell size 8 (DSym b))), CmSym p)
  | UUnknown r => Ok (h, CmUnknown (normalize_reason r))
  end.
Fixpoint metas_from (m : mode) (pick : allocator) (h : heap) (l : list (umeta sym)) : res (heap * list cmeta) :=
  match l with
  | [] => Ok (h, [])
  | x :: l =>
      let* '(h, c) := meta_from m pick h x in
      let* '(h, cs) := metas_from m pick h l in
      Ok (h, c :: cs)
  end.
(** lines 685-721 [blaze_normalized_user_output::from], 745-751 in
    [blaze_normalize_user_addrs_impl] *)
Definition output_from (m : mode) (pick : allocator) (h : heap) (o : uoutput sym) : res (heap * N) :=
  let* '(h, cs) := metas_from m pick h (uo_meta o) in
  let outs := map (fun x => (fst x, N.of_nat (snd x))) (uo_outputs o) in
  let* '(h, pm) := halloc pick h (size_of (CStruct user_meta_ty) * nlen cs) (align_of (CStruct user_meta_ty)) (DMetas cs) in
  let* '(h, po) := halloc pick h (size_of (CStruct output_ty) * nlen outs) (align_of (CStruct output_ty)) (DOutputs outs) in
  halloc pick h (size_of (CStruct user_output_ty)) (align_of (CStruct user_output_ty))
    (DOutput (COutput (nlen cs) pm (nlen outs) po)).

(** lines 652-670 [blaze_user_meta::free], with 337-347, 407-425, 468-475 and
    573-578 *)
Definition meta_free (h : heap) (c : cmeta) : res heap :=
  match c with
  | CmUnknown _ => Ok h
  | CmApk p => cstring_free h p
  | CmElf p len q =>
      let* h := cstring_free h p in
      if q =? 0 then Ok h else hfree h q len 1
  | CmSym p =>
      match h (p - 8) with
      | Some (Cell _ _ (DSym b)) =>
          let* '(buf, size) := free_syms b p in
          hfree h buf size 8
      | _ => Panic
      end
  end.
Fixpoint metas_free (h : heap) (l : list cmeta) : res heap :=
  match l with
  | [] => Ok h
  | c :: l => let* h := meta_free h c in metas_free h l
  end.
(** A slice of so many elements at an address *)
Definition slice_of {A} (part : content -> option (list A)) (h : heap) (p cnt : N) : res (list A) :=
  if cnt =? 0 then Ok []
  else match h p with
       | Some c => match part (c_data c) with
                   | Some l => if nlen l =? cnt then Ok l else Panic
                   | None => Panic
                   end
       | None => Panic
       end.
Definition metas_of (d : content) : option (list cmeta) := match d with DMetas l => Some l | _ => None end.
(** lines 829-861 [blaze_user_output_free] *)
Definition output_free (h : heap) (p : N) : res heap :=
  if p =? 0 then Ok h
  else
    match h p with
    | Some (Cell _ _ (DOutput o)) =>
        let* cs := slice_of metas_of h (co_metas o) (co_meta_cnt o) in
        let* h := metas_free h cs in
        let* h := hfree h (co_metas o) (size_of (CStruct user_meta_ty) * co_meta_cnt o) (align_of (CStruct user_meta_ty)) in
        let* h := hfree h (co_outputs o) (size_of (CStruct output_ty) * co_output_cnt o) (align_of (CStruct output_ty)) in
        hfree h p (size_of (CStruct user_output_ty)) (align_of (CStruct user_output_ty))
    | _ => Panic
    end.

(** ** A C program: normalizing, and giving back what it got, in any order *)
Inductive hop :=
| HNew (o : uoutput sym)
| HFree (i : nat)
| HFreeNull.
Fixpoint remove_at {A} (i : nat) (l : list A) : list A :=
  match i, l with
  | _, [] => []
  | O, _ :: l => l
  | S i, x :: l => x :: remove_at i l
  end.
(** The heap and the pointers that are still to be freed *)
Fixpoint hrun (m : mode) (pick : allocator) (h : heap) (live : list N) (ops : list hop) : res (heap * list N) :=
  match ops with
  | [] => Ok (h, live)
  | HNew o :: ops =>
      let* '(h, p) := output_from m pick h o in
      hrun m pick h (live ++ [p]) ops
  | HFree i :: ops =>
      match nth_error live i with
      | Some p => let* h := output_free h p in hrun m pick h (remove_at i live) ops
      | None => hrun m pick h live ops
      end
  | HFreeNull :: ops => let* h := output_free h 0 in hrun m pick h live ops
  end.
