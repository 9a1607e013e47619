(** * What C programs see of the library: independent of the code *)

From Verif Require Import Base Util UtilProofs Inspect Sym Symbolizer.
Local Open Scope N_scope.

(** ** Structures handed in *)

(** A C structure is a sequence of bytes; members a program's header does not
    have count as zero. *)
Definition byte (c : list N) (i : N) : N := nth (N.to_nat i) c 0.
(** The value of a member of [n] bytes at offset [off]. *)
Fixpoint value (c : list N) (off : N) (n : nat) : N :=
  match n with
  | O => 0
  | S n => byte c off + 256 * value c (off + 1) n
  end.
(** The program has set the first member to the size of its structure. *)
Definition declares (c : list N) : Prop :=
  is_bytes c /\ 8 <= nlen c < two64 /\ value c 0 8 = nlen c.
(** What the library does not know is zero. *)
Definition unknown_zero (known : N) (c : list N) : Prop := forall i, known <= i -> byte c i = 0.

(** ** Results

    What a C program can read in memory: bytes by address, [None] where nothing
    has been stored. *)
Definition mem := N -> option N.
Definition has (g : mem) (a : N) (l : list N) : Prop :=
  forall i x, nth_error l i = Some x -> g (a + N.of_nat i) = Some x.
(** An integer or pointer of [n] bytes. *)
Definition num (g : mem) (a : N) (n : nat) (v : N) : Prop :=
  exists l, length l = n /\ is_bytes l /\ le_val l = v /\ has g a l.

(** A region: an address and a length. *)
Definition region := (N * N)%type.
Definition inside (lo hi : N) (r : region) : Prop := lo <= fst r /\ fst r + snd r <= hi.
Definition apart (r s : region) : Prop := fst r + snd r <= fst s \/ fst s + snd s <= fst r.
Definition all_apart (l : list region) : Prop := ForallOrdPairs apart l.

(** The string a C program sees is the part before the first zero byte. The
    region is the room of the whole copy. *)
Fixpoint c_string (s : list N) : list N :=
  match s with
  | [] => []
  | b :: s => if b =? 0 then [] else b :: c_string s
  end.
Definition c_str (g : mem) (p : N) (s : list N) (rs : list region) : Prop :=
  p <> 0 /\ has g p (c_string s ++ [0]) /\ rs = [(p, nlen s + 1)].
(** [NULL] if there is no string. *)
Definition c_opt_str (g : mem) (p : N) (s : option (list N)) (rs : list region) : Prop :=
  match s with
  | Some s => c_str g p s rs
  | None => p = 0 /\ rs = []
  end.

Definition or_zero (o : option N) : N := match o with Some n => n | None => 0 end.
(** -1 if there is no size; a signed number cannot go beyond [2^63 - 1]. *)
Definition shown_size (o : option N) : N :=
  match o with Some n => N.min n (2 ^ 63 - 1) | None => 2 ^ 64 - 1 end.

(** [struct blaze_symbolize_code_info] *)
Definition c_code_info (g : mem) (a : N) (c : option code_info) (rs : list region) : Prop :=
  exists dir file r1 r2,
    num g a 8 dir /\ num g (a + 8) 8 file /\
    c_opt_str g dir (match c with Some c => ci_dir c | None => None end) r1 /\
    c_opt_str g file (match c with Some c => Some (ci_file c) | None => None end) r2 /\
    num g (a + 16) 4 (match c with Some c => or_zero (ci_line c) | None => 0 end) /\
    num g (a + 20) 2 (match c with Some c => or_zero (ci_column c) | None => 0 end) /\
    rs = r1 ++ r2.
(** An array of [struct blaze_symbolize_inlined_fn], 48 bytes each *)
Fixpoint c_inlined (g : mem) (a : N) (l : list inlined_fn) (rs : list region) : Prop :=
  match l with
  | [] => rs = []
  | f :: l =>
      exists name r1 r2 r3,
        num g a 8 name /\ c_str g name (if_name f) r1 /\
        c_code_info g (a + 8) (if_code_info f) r2 /\
        c_inlined g (a + 48) l r3 /\ rs = r1 ++ r2 ++ r3
  end.
(** The numbers of the header's [BLAZE_SYMBOLIZE_REASON_*] *)
Definition shown_reason (r : reason) : N :=
  match r with
  | Unmapped => 1 | InvalidFileOffset => 2 | MissingComponent => 3 | MissingSyms => 4
  | UnknownAddr => 5 | Unsupported => 6 | IgnoredError => 7
  end.
(** [struct blaze_sym], 104 bytes *)
Definition c_sym (g : mem) (a : N) (r : symbolized) (rs : list region) : Prop :=
  match r with
  | Unknown r =>
      has g a (repeat 0 88) /\ num g (a + 88) 1 (shown_reason r) /\ rs = [(a, 104)]
  | Known s =>
      exists name module inlined r1 r2 r3 r4,
        num g a 8 name /\ c_str g name (sy_name s) r1 /\
        num g (a + 8) 8 module /\ c_opt_str g module (sy_module s) r2 /\
        num g (a + 16) 8 (sy_addr s) /\ num g (a + 24) 8 (sy_offset s) /\
        num g (a + 32) 8 (shown_size (sy_size s)) /\
        c_code_info g (a + 40) (sy_code_info s) r3 /\
        num g (a + 72) 8 (nlen (sy_inlined s)) /\
        num g (a + 80) 8 inlined /\ c_inlined g inlined (sy_inlined s) r4 /\
        num g (a + 88) 1 0 /\
        rs = (a, 104) :: (inlined, 48 * nlen (sy_inlined s)) :: r1 ++ r2 ++ r3 ++ r4
  end.
Fixpoint c_sym_array (g : mem) (a : N) (l : list symbolized) (rs : list region) : Prop :=
  match l with
  | [] => rs = []
  | r :: l => exists r1 r2, c_sym g a r r1 /\ c_sym_array g (a + 104) l r2 /\ rs = r1 ++ r2
  end.
(** [struct blaze_syms] *)
Definition c_syms (g : mem) (p : N) (l : list symbolized) (rs : list region) : Prop :=
  exists r, num g p 8 (nlen l) /\ c_sym_array g (p + 8) l r /\ rs = (p, 8) :: r.

(** An array of [struct blaze_sym_info], 64 bytes each, ended by one that is
    all zero *)
Definition shown_type (t : sym_type) : N :=
  match t with TUndefined => 0 | TFunction => 1 | TVariable => 2 end.
Fixpoint c_infos (g : mem) (a : N) (l : list sym_info) (rs : list region) : Prop :=
  match l with
  | [] => has g a (repeat 0 64) /\ rs = [(a, 64)]
  | s :: l =>
      exists name module r1 r2 r3,
        num g a 8 name /\ c_str g name (si_name s) r1 /\
        num g (a + 8) 8 (si_addr s) /\ num g (a + 16) 8 (shown_size (si_size s)) /\
        num g (a + 24) 8 (or_zero (si_file_offset s)) /\
        num g (a + 32) 8 module /\ c_opt_str g module (si_module s) r2 /\
        num g (a + 40) 1 (shown_type (si_type s)) /\
        c_infos g (a + 64) l r3 /\
        rs = (a, 64) :: r1 ++ r2 ++ r3
  end.
(** An array of pointers to such arrays *)
Fixpoint c_lists (g : mem) (a : N) (l : list (list sym_info)) (rs : list region) : Prop :=
  match l with
  | [] => rs = []
  | i :: l =>
      exists p r1 r2, num g a 8 p /\ c_infos g p i r1 /\ c_lists g (a + 8) l r2 /\
        rs = (a, 8) :: r1 ++ r2
  end.

(** *** Room needed *)
Definition str_room (s : list N) : N := nlen s + 1.
Definition opt_room {A} (f : A -> N) (o : option A) : N := match o with Some x => f x | None => 0 end.
Definition sum_room {A} (f : A -> N) (l : list A) : N := fold_right (fun x n => f x + n) 0 l.
Definition code_room (c : code_info) : N := opt_room str_room (ci_dir c) + str_room (ci_file c).
Definition inlined_room (f : inlined_fn) : N := str_room (if_name f) + opt_room code_room (if_code_info f).
Definition sym_room (s : sym) : N :=
  str_room (sy_name s) + opt_room str_room (sy_module s) + opt_room code_room (sy_code_info s) +
  sum_room inlined_room (sy_inlined s).
Definition result_room (r : symbolized) : N := match r with Known s => sym_room s | Unknown _ => 0 end.
Definition result_inlined (r : symbolized) : N :=
  match r with Known s => nlen (sy_inlined s) | Unknown _ => 0 end.
Definition results_room (l : list symbolized) : N :=
  16 + 104 * nlen l + 48 * sum_room result_inlined l + sum_room result_room l.
Definition info_room (s : sym_info) : N := str_room (si_name s) + opt_room str_room (si_module s).
Definition lists_room (l : list (list sym_info)) : N :=
  8 + 8 * nlen l + 64 * sum_room (fun i => nlen i + 1) l + sum_room (sum_room info_room) l.

(** *** Numbers in results are of their Rust types *)
Definition opt_lt (n : N) (o : option N) : Prop := match o with Some v => v < n | None => True end.
Definition code_ok (c : code_info) : Prop := opt_lt (2 ^ 32) (ci_line c) /\ opt_lt (2 ^ 16) (ci_column c).
Definition opt_code_ok (c : option code_info) : Prop := match c with Some c => code_ok c | None => True end.
Definition sym_ok (s : sym) : Prop :=
  sy_addr s < 2 ^ 64 /\ sy_offset s < 2 ^ 64 /\ opt_code_ok (sy_code_info s) /\
  Forall (fun f => opt_code_ok (if_code_info f)) (sy_inlined s).
Definition result_ok (r : symbolized) : Prop := match r with Known s => sym_ok s | Unknown _ => True end.
Definition info_ok (s : sym_info) : Prop :=
  si_addr s < 2 ^ 64 /\ opt_lt (2 ^ 64) (si_file_offset s).
