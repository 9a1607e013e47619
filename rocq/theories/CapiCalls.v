(** * The functions of the C API: arguments, errors and results

    capi/src/error.rs, capi/src/util.rs lines 164-212, and how the functions of
    symbolize.rs, normalize.rs, inspect.rs, helper.rs and trace.rs (all in
    capi/src) check what they are given, call the library, and report what came
    out of it. What the library does is an argument [lib]; so is whether there
    is memory for the result, where running out of it is reported ([room]).
    A panic cannot be caught by C programs: it ends the process. *)

From Coq Require Import ZArith String.
From Verif Require Import Base Util Bytes Text Inspect Sym Symbolizer Normalize CapiIn CapiSpec.
Local Open Scope string_scope.
Local Open Scope N_scope.
Local Notation length := List.length.

(** ** error.rs *)

(** lines 14-71: the numbers, and [blaze_err::from]. [ENone] is not an error of
    the library. *)
Definition blaze_err_from (k : ekind) : res Z :=
  match k with
  | ENotFound => Ok (-2)%Z
  | EPermissionDenied => Ok (-1)%Z
  | EAlreadyExists => Ok (-17)%Z
  | EWouldBlock => Ok (-11)%Z
  | EInvalidInput => Ok (-256)%Z
  | EInvalidData => Ok (-22)%Z
  | EInvalidDwarf => Ok (-259)%Z
  | ETimedOut => Ok (-110)%Z
  | EWriteZero => Ok (-257)%Z
  | EUnsupported => Ok (-95)%Z
  | EUnexpectedEof => Ok (-258)%Z
  | EOutOfMemory => Ok (-12)%Z
  | EOther => Ok (-260)%Z
  | ENone => Panic
  end.

(** /repo/src/error.rs lines 334-350 [ErrorKind::as_bytes], without the zero at
    the end *)
Definition kind_text (k : ekind) : string :=
  match k with
  | EAlreadyExists => "entity already exists"
  | EInvalidData => "invalid data"
  | EInvalidInput => "invalid input parameter"
  | ENotFound => "entity not found"
  | EOther => "other error"
  | EOutOfMemory => "out of memory"
  | EPermissionDenied => "permission denied"
  | ETimedOut => "timed out"
  | EUnexpectedEof => "unexpected end of file"
  | EUnsupported => "unsupported"
  | EWouldBlock => "operation would block"
  | EWriteZero => "write zero"
  | EInvalidDwarf => "DWARF data invalid"
  | ENone => ""
  end.
(** lines 91-108 [blaze_err_str] *)
Definition blaze_err_str (e : Z) : string :=
  match e with
  | 0%Z => "success"
  | (-2)%Z => kind_text ENotFound
  | (-1)%Z => kind_text EPermissionDenied
  | (-17)%Z => kind_text EAlreadyExists
  | (-11)%Z => kind_text EWouldBlock
  | (-256)%Z => kind_text EInvalidInput
  | (-22)%Z => kind_text EInvalidData
  | (-259)%Z => kind_text EInvalidDwarf
  | (-110)%Z => kind_text ETimedOut
  | (-257)%Z => kind_text EWriteZero
  | (-95)%Z => kind_text EUnsupported
  | (-258)%Z => kind_text EUnexpectedEof
  | (-12)%Z => kind_text EOutOfMemory
  | _ => kind_text EOther
  end.

(** ** util.rs: arrays of the caller *)

(** Reading memory that the program did not store anything in is undefined. *)
Fixpoint read_at (g : mem) (p : N) (n : nat) : res (list N) :=
  match n with
  | O => Ok []
  | S n =>
      match g p with
      | Some b => let* l := read_at g (p + 1) n in Ok (b :: l)
      | None => Panic
      end
  end.
Fixpoint cut_eights (n : nat) (l : list N) : list N :=
  match n with
  | O => []
  | S n => le_val (firstn 8 l) :: cut_eights n (skipn 8 l)
  end.
(** lines 164-177 [slice_from_aligned_user_array]: a slice over the memory
    itself, of elements of eight bytes (addresses and pointers). [NULL] is
    replaced by an address that cannot be read from. *)
Definition slice_from_aligned_user_array (g : mem) (items : N) (num : nat) : res (list N) :=
  if items =? 0 then match num with O => Ok [] | S _ => Panic end
  else let* l := read_at g items (8 * num) in Ok (cut_eights num l).
(** lines 185-203 [safely_copy_to_allocated_slow] *)
Fixpoint copy_slow (g : mem) (src : N) (num : nat) : res (list N) :=
  match num with
  | O => Ok []
  | S num =>
      let* b := read_at g src 8 in
      let* l := copy_slow g (src + 8) num in
      Ok (le_val b :: l)
  end.
(** lines 179-212 [slice_from_user_array] *)
Definition slice_from_user_array (g : mem) (items : N) (num : nat) : res (list N) :=
  if items mod 8 =? 0 then slice_from_aligned_user_array g items num
  else if items =? 0 then Ok [] else copy_slow g items num.

(** [CStr::from_ptr] *)
Fixpoint read_cstr (g : mem) (fuel : nat) (p : N) : res (list N) :=
  match fuel with
  | O => NoFuel
  | S fuel =>
      match g p with
      | None => Panic
      | Some b => if b =? 0 then Ok [] else let* l := read_cstr g fuel (p + 1) in Ok (b :: l)
      end
  end.
Fixpoint map_res {A B} (f : A -> res B) (l : list A) : res (list B) :=
  match l with
  | [] => Ok []
  | x :: l => let* y := f x in let* l := map_res f l in Ok (y :: l)
  end.

(** ** Calls *)

Inductive call :=
| KNew (* blaze_symbolizer_new, blaze_normalizer_new, blaze_inspector_new *)
| KNewOpts (t : input_ty) (opts : list N) (* blaze_symbolizer_new_opts, blaze_normalizer_new_opts *)
| KCache (t : input_ty) (src : list N) (lib : list N -> res unit) (* blaze_symbolize_cache_* *)
| KSymbolize (t : input_ty) (src : list N) (addrs : N) (cnt : nat)
    (lib : list N -> list N -> res (list symbolized)) (room : bool)
| KInspect (src : list N) (names : N) (cnt : nat)
    (lib : list N -> list (list N) -> res (list (list sym_info))) (room : bool)
| KNormalize (addrs : N) (cnt : nat) (lib : list N -> res (uoutput sym))
| KNormalizeOpts (opts : list N) (addrs : N) (cnt : nat) (lib : list N -> list N -> res (uoutput sym))
| KBuildId (path : N) (lib : list N -> res (option (list N))) (room : bool)
| KProcmapQuery (lib : res bool)
| KTrace (already : bool).
(** What is handed out; pointers by what they point to. *)
Inductive given :=
| GObject
| GSyms (l : list symbolized)
| GInfos (l : list (list sym_info))
| GOutput (o : uoutput sym)
| GBytes (b : list N).
Inductive answer := ANull | APtr (x : given) | ANone | ABool (b : bool).

(** [result.map(|_| OK).unwrap_or_else(|err| err.kind().into())] *)
Definition err_of {A} (r : res A) : res Z :=
  match r with
  | Ok _ => Ok 0%Z
  | Err k => blaze_err_from k
  | Panic => Panic
  | NoFuel => NoFuel
  end.

(** normalize.rs lines 731-758 [blaze_normalize_user_addrs_impl] *)
Definition normalize_addrs (g : mem) (addrs : N) (cnt : nat) (lib : list N -> res (uoutput sym)) : res (Z * answer) :=
  let* addrs := slice_from_user_array g addrs cnt in
  match lib addrs with
  | Ok o => Ok (0%Z, APtr (GOutput o))
  | Err k => let* e := blaze_err_from k in Ok (e, ANull)
  | Panic => Panic
  | NoFuel => NoFuel
  end.
(** The last error of the thread from before is [last]; the results are the
    last error afterwards and what is returned. *)
Definition exec (g : mem) (fuel : nat) (last : Z) (c : call) : res (Z * answer) :=
  match c with
  | KNew => Ok (0%Z, APtr GObject) (* symbolize.rs 769-774, normalize.rs 188-193, inspect.rs 360-365 *)
  | KNewOpts t opts => (* symbolize.rs 789-887, normalize.rs 209-236 *)
      let* z := take_input false t opts in
      match z with
      | None => let* e := blaze_err_from EInvalidInput in Ok (e, ANull)
      | Some _ => Ok (0%Z, APtr GObject)
      end
  | KCache t src lib => (* symbolize.rs 915-933, 956-974 *)
      let* z := take_input false t src in
      match z with
      | None => let* e := blaze_err_from EInvalidInput in Ok (e, ANone)
      | Some o => let* e := err_of (lib o) in Ok (e, ANone)
      end
  | KSymbolize t src addrs cnt lib room => (* symbolize.rs 1122-1160, 1179-1385 *)
      let* z := take_input false t src in
      match z with
      | None => let* e := blaze_err_from EInvalidInput in Ok (e, ANull)
      | Some o =>
          let* addrs := slice_from_user_array g addrs cnt in
          match lib o addrs with
          | Ok [] => Ok (0%Z, ANull)
          | Ok l => if room then Ok (0%Z, APtr (GSyms l))
                    else let* e := blaze_err_from EOutOfMemory in Ok (e, ANull)
          | Err k => let* e := blaze_err_from k in Ok (e, ANull)
          | Panic => Panic
          | NoFuel => NoFuel
          end
      end
  | KInspect src names cnt lib room => (* inspect.rs 284-326 *)
      let* z := take_input false blaze_inspect_elf_src src in
      match z with
      | None => let* e := blaze_err_from EInvalidInput in Ok (e, ANull)
      | Some o =>
          let* ps := slice_from_user_array g names cnt in
          let* names := map_res (fun p => let* s := read_cstr g fuel p in
                                          if utf8_valid s then Ok s else Panic) ps in
          match lib o names with
          | Ok l => if room then Ok (0%Z, APtr (GInfos l))
                    else let* e := blaze_err_from EOutOfMemory in Ok (e, ANull)
          | Err k => let* e := blaze_err_from k in Ok (e, ANull)
          | Panic => Panic
          | NoFuel => NoFuel
          end
      end
  | KNormalize addrs cnt lib => normalize_addrs g addrs cnt lib (* normalize.rs 776-786 *)
  | KNormalizeOpts opts addrs cnt lib => (* normalize.rs 811-827 *)
      let* z := take_input false blaze_normalize_opts opts in
      match z with
      | None => let* e := blaze_err_from EInvalidInput in Ok (e, ANull)
      | Some o => normalize_addrs g addrs cnt (lib o)
      end
  | KBuildId path lib room => (* helper.rs 56-108 *)
      let* path := read_cstr g fuel path in
      let r := lib path in
      let* e := err_of r in
      match r with
      | Ok (Some id) => if room then Ok (e, APtr (GBytes id))
                        else let* e := blaze_err_from EOutOfMemory in Ok (e, ANull)
      | _ => Ok (e, ANull)
      end
  | KProcmapQuery lib => (* helper.rs 24-32 *)
      let* e := err_of lib in
      Ok (e, ABool (match lib with Ok b => b | _ => false end))
  | KTrace already => (* trace.rs 125-143 *)
      if already then let* e := blaze_err_from EAlreadyExists in Ok (e, ANone) else Ok (0%Z, ANone)
  end.

(** ** Threads: lines 74-88 *)
Definition upd (f : N -> Z) (t : N) (e : Z) : N -> Z := fun t' => if t' =? t then e else f t'.
(** A history of calls by threads, each with the memory at that time; [ErrLast]
    asks for the last error. *)
Inductive event := Call (g : mem) (fuel : nat) (c : call) | ErrLast.
Inductive reply := Answer (a : answer) | Code (e : Z).
Fixpoint crun (errs : N -> Z) (l : list (N * event)) : res (list reply) :=
  match l with
  | [] => Ok []
  | (t, ErrLast) :: l => let* rs := crun errs l in Ok (Code (errs t) :: rs)
  | (t, Call g fuel c) :: l =>
      let* '(e, a) := exec g fuel (errs t) c in
      let* rs := crun (upd errs t e) l in
      Ok (Answer a :: rs)
  end.
Definition no_errors : N -> Z := fun _ => 0%Z.
