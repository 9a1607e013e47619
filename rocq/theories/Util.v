(** * Model of /repo/src/util.rs *)

From Verif Require Import Base.
Local Open Scope N_scope.

(** ** Alignment (src/util.rs lines 89-104, [align_up_u32]/[align_up_usize])

    [w] is [2^32] or [2^64].  The [debug_assert_eq!] on the alignment being a
    power of two is left out: the only callers pass 4.  [!(align_to - 1)] is
    [w - 1 - (align_to - 1)]. *)
Definition align_up (m : mode) (w value align_to : N) : res N :=
  let* a1 := usub m w align_to 1 in
  let* v := uadd m w value a1 in
  Ok (N.land v (w - 1 - a1)).

(** ** Splitting (src/util.rs lines 113-120 [split_bytes], 127-133 [split_once])

    Both split at the first byte satisfying the predicate, which is dropped. *)
Fixpoint split_once (check : N -> bool) (bytes : list N) : option (list N * list N) :=
  match bytes with
  | [] => None
  | b :: rest =>
      if check b then Some ([], rest)
      else match split_once check rest with
           | Some (l, r) => Some (b :: l, r)
           | None => None
           end
  end.

(** ** Hexadecimal (src/util.rs lines 136-156 [ascii_to_hexdigit]) *)
Definition ascii_to_hexdigit (c : N) : option N :=
  if (48 <=? c) && (c <=? 57) then Some (c - 48)
  else if (97 <=? c) && (c <=? 102) then Some (c - 87)
  else if (65 <=? c) && (c <=? 70) then Some (c - 55)
  else None.

(** src/util.rs lines 158-168 [from_radix_16]: [number *= 16; number += digit]
    on [u64]. *)
Fixpoint from_radix_16_loop (m : mode) (number : N) (text : list N) : res N :=
  match text with
  | [] => Ok number
  | c :: rest =>
      let* digit := of_option ENone (ascii_to_hexdigit c) in
      let* n := mul64 m number 16 in
      let* n := add64 m n digit in
      from_radix_16_loop m n rest
  end.
Definition from_radix_16 (m : mode) (text : list N) : res N :=
  from_radix_16_loop m 0 text.

(** ** One-time initialisation (src/util.rs lines 218-230,
    [OnceCellExt::get_or_try_init_])

    A cell is [option T].  [f] is the outcome of running the initialiser; the
    boolean says whether it was run.  The reentrant case ([f] initialising
    the same cell) is not modelled. *)
Definition get_or_try_init {T} (cell : option T) (f : res T) : res T * option T * bool :=
  match cell with
  | Some value => (Ok value, cell, false)
  | None =>
      match f with
      | Ok value => (Ok value, Some value, true)
      | r => (r, None, true)
      end
  end.

(** ** Reordering (src/util.rs lines 233-247, [reorder])

    [slice::swap], panicking out of bounds. *)
Fixpoint set_nth {A} (i : nat) (x : A) (l : list A) : list A :=
  match l, i with
  | [], _ => []
  | _ :: l', O => x :: l'
  | y :: l', S i' => y :: set_nth i' x l'
  end.
Definition swap {A} (l : list A) (i j : nat) : res (list A) :=
  match nth_error l i, nth_error l j with
  | Some x, Some y => Ok (set_nth j x (set_nth i y l))
  | _, _ => Panic
  end.

(** The inner [while] of lines 241-245. The first components of [indices]
    play no role and are left out. *)
Fixpoint reorder_while {A} (fuel : nat) (i : nat) (array : list A) (indices : list nat)
  : res (list A * list nat) :=
  match nth_error indices i with
  | None => Panic
  | Some idx =>
      if Nat.eqb idx i then Ok (array, indices)
      else match fuel with
           | O => NoFuel
           | S fuel' =>
               let* array' := swap array i idx in
               let* indices' := swap indices i idx in
               reorder_while fuel' i array' indices'
           end
  end.

(** The outer [for i in 0..array.len()] of line 240; [n] iterations left. *)
Fixpoint reorder_for {A} (fuel n i : nat) (array : list A) (indices : list nat)
  : res (list A) :=
  match n with
  | O => Ok array
  | S n' =>
      let* '(array', indices') := reorder_while fuel i array indices in
      reorder_for fuel n' (S i) array' indices'
  end.
Definition reorder {A} (array : list A) (indices : list nat) : res (list A) :=
  reorder_for (length indices) (length array) 0 array indices.

(** ** Handling elements in order (src/util.rs lines 250-274,
    [with_ordered_elems]), for [T = Addr].

    [sort_unstable] on [(t, idx)] pairs: all pairs are distinct, so the result
    is the unique sorted permutation. [handle] is an arbitrary function of the
    sorted elements; [extract]/[put] is the projection of the slice to reorder
    out of, and back into, its result. *)
Definition pair_leb (a b : N * nat) : bool :=
  match fst a ?= fst b with
  | Lt => true
  | Eq => Nat.leb (snd a) (snd b)
  | Gt => false
  end.
Definition enumerate {T} (l : list T) : list (T * nat) := combine l (seq 0 (length l)).
Definition with_ordered_elems {U R} (slice : list N)
    (extract : R -> list U) (put : R -> list U -> R)
    (handle : list N -> res R) : res R :=
  let vec := isort pair_leb (enumerate slice) in
  let* result := handle (map fst vec) in
  let* arr := reorder (extract result) (map snd vec) in
  Ok (put result arr).

(** ** Binary search

    [<[T]>::partition_point] of the Rust core library, as the branch-free
    binary search of recent releases. On a partitioned slice (the only case
    in which its result is specified) it returns the length of the prefix on
    which [pred] holds; see [partition_point_spec]. *)
Fixpoint pp_loop {A} (fuel : nat) (pred : A -> bool) (l : list A) (base size : nat) : nat :=
  match fuel with
  | O => base
  | S fuel' =>
      if Nat.leb size 1 then base
      else
        let half := Nat.div2 size in
        let mid := (base + half)%nat in
        let base' := match nth_error l mid with
                     | Some x => if pred x then mid else base
                     | None => base
                     end in
        pp_loop fuel' pred l base' (size - half)
  end.
Definition partition_point {A} (pred : A -> bool) (l : list A) : nat :=
  match l with
  | [] => O
  | _ =>
      let base := pp_loop (length l) pred l 0 (length l) in
      match nth_error l base with
      | Some x => if pred x then S base else base
      | None => base
      end
  end.

(** src/util.rs lines 324-335, [find_lowest_match_by]. *)
Definition is_lt (c : comparison) : bool := match c with Lt => true | _ => false end.
Definition is_eq (c : comparison) : bool := match c with Eq => true | _ => false end.
Definition find_lowest_match_by {A} (l : list A) (f : A -> comparison) : option nat :=
  let idx := partition_point (fun e => is_lt (f e)) l in
  match nth_error l idx with
  | Some e => if is_eq (f e) then Some idx else None
  | None => None
  end.

(** src/util.rs lines 383-389: the backwards scan
    [for i in (0..idx).rev() { if f(e) != cmp_e { return Some(i + 1) } }],
    followed by [Some(idx)]. [n] is one more than the [i] to look at. *)
Fixpoint flb_scan {A} (f : A -> N) (l : list A) (cmp_e : N) (n idx : nat) : option nat :=
  match n with
  | O => Some idx
  | S i =>
      match nth_error l i with
      | None => None
      | Some e => if f e =? cmp_e then flb_scan f l cmp_e i idx else Some (S i)
      end
  end.

(** src/util.rs lines 355-390, [find_match_or_lower_bound_by_key], for keys
    of type [u64] (for names, in ksym.rs, see Ksym.v). *)
Definition find_match_or_lower_bound_by_key {A} (l : list A) (item : N) (f : A -> N)
  : option nat :=
  let idx := partition_point (fun e => f e <? item) l in
  let lower :=
    match idx with
    | O => None
    | S idx' =>
        match nth_error l idx' with
        | None => None
        | Some e => flb_scan f l (f e) idx' idx'
        end
    end in
  match nth_error l idx with
  | Some e => if f e =? item then Some idx else lower
  | None => lower
  end.

(** ** Reading (src/util.rs lines 425-635, [ReadRaw])

    A reader is the list of bytes left. All functions fail with [ENone] and
    the reader is then not used any more by any caller. *)
Definition reader := list N.

(** lines 607-612 [read_slice] (with [ensure], 586-591). *)
Definition read_slice (n : N) (r : reader) : res (list N * reader) :=
  if nlen r <? n then Err ENone else Ok (ntake n r, ndrop n r).

(** lines 594-597 [advance]. *)
Definition advance (n : N) (r : reader) : res reader :=
  let* '(_, r') := read_slice n r in Ok r'.

(** Little endian value of a byte string ([read_pod], lines 454-464, on a
    little endian machine). *)
Fixpoint le_val (l : list N) : N :=
  match l with
  | [] => 0
  | b :: l' => b + 256 * le_val l'
  end.
Definition read_le (n : N) (r : reader) : res (N * reader) :=
  let* '(d, r') := read_slice n r in Ok (le_val d, r').
Definition read_u8 := read_le 1.
Definition read_u16 := read_le 2.
Definition read_u32 := read_le 4.
Definition read_u64 := read_le 8.

(** [u32::from_be]: on a little endian machine, reading big endian. *)
Definition be_val (l : list N) : N := le_val (rev l).
Definition read_be32 (r : reader) : res (N * reader) :=
  let* '(d, r') := read_slice 4 r in Ok (be_val d, r').

(** lines 600-604 [align]: [pos] is the address of the first byte of the
    reader. [align_offset] is how much to advance to reach a multiple. *)
Definition align_offset (pos align_to : N) : N :=
  (align_to - pos mod align_to) mod align_to.
Definition align (pos align_to : N) (r : reader) : res reader :=
  advance (align_offset pos align_to) r.

(** lines 631-634 [read_cstr]: bytes up to the first NUL, which is consumed. *)
Definition read_cstr (r : reader) : res (list N * reader) :=
  of_option ENone (split_once (fun b => b =? 0) r).

(** lines 535-556 [read_u64_leb128]: the loop after the unpeeled first byte.
    [shift] is an [i32] in the code. It is kept as an unbounded number here;
    in a release build only its value modulo 64 matters, which wrapping at
    [2^32] does not change. *)
Fixpoint uleb_loop (m : mode) (result shift : N) (r : reader) : res (N * reader) :=
  match r with
  | [] => Err ENone
  | byte :: r' =>
      if N.land byte 128 =? 0 then
        let* s := shl64 m byte shift in
        Ok (N.lor result s, r')
      else
        let* s := shl64 m (N.land byte 127) shift in
        uleb_loop m (N.lor result s) (shift + 7) r'
  end.
Definition read_u64_leb128 (m : mode) (r : reader) : res (N * reader) :=
  match r with
  | [] => Err ENone
  | byte :: r' =>
      if N.land byte 128 =? 0 then Ok (byte, r')
      else uleb_loop m (N.land byte 127) 7 r'
  end.

(** lines 560-581 [read_i64_leb128]. The [i64] accumulator is kept as its two's
    complement bit pattern; [to_i64] converts at the end. *)
Definition to_i64 (v : N) : Z :=
  if v <? 2 ^ 63 then Z.of_N v else (Z.of_N v - 2 ^ 64)%Z.
Fixpoint sleb_loop (m : mode) (result shift : N) (r : reader) : res (N * reader) :=
  match r with
  | [] => Err ENone
  | byte :: r' =>
      let* s := shl64 m (N.land byte 127) shift in
      let result := N.lor result s in
      let shift := shift + 7 in
      if N.land byte 128 =? 0 then
        if (shift <? 64) && negb (N.land byte 64 =? 0) then
          let* s := shl64 m (two64 - 1) shift in
          Ok (N.lor result s, r')
        else Ok (result, r')
      else sleb_loop m result shift r'
  end.
Definition read_i64_leb128 (m : mode) (r : reader) : res (Z * reader) :=
  let* '(v, r') := sleb_loop m 0 0 r in Ok (to_i64 v, r').
