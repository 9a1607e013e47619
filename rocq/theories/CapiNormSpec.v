(** * What C programs get from normalization: independent of the code

    capi/include/blazesym.h lines 253-359, 536-656 *)

From Coq Require Import ZArith Permutation.
From Verif Require Import Base Sym Symbolizer Normalize CapiIn CapiSpec CapiCallsSpec CapiNorm.
Local Open Scope N_scope.

Definition region_of (b : lay) : region := (l_base b, l_size b).
Definition covered (bs : list lay) (i : N) : Prop := Exists (fun b => l_base b <= i < l_base b + l_size b) bs.

(** Real allocators: if there is memory, it is aligned, not beyond the end of the
    address space, and not in use. *)
Definition sound (al : allocator) : Prop :=
  forall h size align, 0 < size -> al h size align <> 0 ->
    al h size align mod align = 0 /\ al h size align + size <= 2 ^ 64 /\
    Forall (fun b => apart (al h size align, size) (region_of b)) (hp_live h).

(** The numbers of [BLAZE_NORMALIZE_REASON_*] *)
Definition shown_normalize_reason (r : reason) : N :=
  match r with
  | Unmapped => 0 | MissingComponent => 1 | Unsupported => 2 | InvalidFileOffset => 3 | MissingSyms => 4 | UnknownAddr => 5 | IgnoredError => 7
  end.

(** Nothing is allocated for no bytes. *)
Definition piece (b : lay) : list lay := if l_size b =? 0 then [] else [b].
(** [struct blaze_user_meta], 64 bytes, with the allocations that are its own *)
Inductive c_variant (g : mem) (a : N) : umeta sym -> N -> list lay -> Prop :=
| VApk : forall path p, num g a 8 p -> p <> 0 -> string g p path -> has g (a + 8) (repeat 0 16) ->
    c_variant g a (UApk path) 1 [Lay p (nlen path + 1) 1]
| VElf : forall path p, num g a 8 p -> p <> 0 -> string g p path -> num g (a + 8) 8 0 -> num g (a + 16) 8 0 -> has g (a + 24) (repeat 0 16) ->
    c_variant g a (UElf path None) 2 [Lay p (nlen path + 1) 1]
| VElfId : forall path id p q, num g a 8 p -> p <> 0 -> string g p path -> num g (a + 8) 8 (nlen id) -> num g (a + 16) 8 q -> q <> 0 -> has g q id ->
    has g (a + 24) (repeat 0 16) ->
    c_variant g a (UElf path (Some id)) 2 (Lay p (nlen path + 1) 1 :: piece (Lay q (nlen id) 1))
(* The size of the allocation comes before the symbol. *)
| VSym : forall s p size parts, num g a 8 p -> 8 <= p -> num g (p - 8) 8 size -> 8 <= size <= 2 ^ 63 - 8 -> has g (a + 8) (repeat 0 16) ->
    c_sym g p (Known s) parts -> all_apart parts -> Forall (inside p (p - 8 + size)) parts ->
    c_variant g a (USym s) 3 [Lay (p - 8) size 8]
| VUnknown : forall r, num g a 1 (shown_normalize_reason r) -> has g (a + 1) (repeat 0 15) -> c_variant g a (UUnknown r) 0 [].
Definition c_umeta (g : mem) (a : N) (u : umeta sym) (bs : list lay) : Prop :=
  exists kind, num g a 1 kind /\ has g (a + 1) (repeat 0 7) /\ c_variant g (a + 8) u kind bs /\ has g (a + 48) (repeat 0 16).
Fixpoint c_umetas (g : mem) (a : N) (l : list (umeta sym)) (bs : list lay) : Prop :=
  match l with
  | [] => bs = []
  | u :: l => exists b1 b2, c_umeta g a u b1 /\ c_umetas g (a + 64) l b2 /\ bs = b1 ++ b2
  end.
(** An array of [struct blaze_normalized_output], 32 bytes each *)
Fixpoint c_outputs (g : mem) (a : N) (l : list (N * nat)) : Prop :=
  match l with
  | [] => True
  | (output, idx) :: l => num g a 8 output /\ num g (a + 8) 8 (N.of_nat idx) /\ has g (a + 16) (repeat 0 16) /\ c_outputs g (a + 32) l
  end.
(** [struct blaze_normalized_user_output] with everything that goes with it *)
Definition c_user_output (g : mem) (p : N) (o : uoutput sym) (bs : list lay) : Prop :=
  exists metas outputs bs', p <> 0 /\ metas <> 0 /\ outputs <> 0 /\
    num g p 8 (nlen (uo_meta o)) /\ num g (p + 8) 8 metas /\ num g (p + 16) 8 (nlen (uo_outputs o)) /\ num g (p + 24) 8 outputs /\
    has g (p + 32) (repeat 0 16) /\
    c_umetas g metas (uo_meta o) bs' /\ c_outputs g outputs (uo_outputs o) /\
    bs = Lay p 48 8 :: piece (Lay metas (64 * nlen (uo_meta o)) 8) ++ piece (Lay outputs (32 * nlen (uo_outputs o)) 8) ++ bs'.

(** Results that can be handed out: numbers are of their Rust types, sizes not
    beyond [isize::MAX], and there is no zero byte in paths. *)
Definition path_ok (path : list N) : Prop := ~ In 0 path /\ nlen path + 1 <= 2 ^ 63 - 1.
Definition umeta_ok (u : umeta sym) : Prop :=
  match u with
  | UApk path => path_ok path
  | UElf path id => path_ok path /\ match id with Some id => nlen id <= 2 ^ 63 - 1 | None => True end
  | USym s => sym_ok s /\ 8 + 104 + 48 * nlen (sy_inlined s) + sym_room s <= 2 ^ 63 - 8
  | UUnknown _ => True
  end.
Definition output_ok (o : uoutput sym) : Prop :=
  Forall umeta_ok (uo_meta o) /\ 64 * nlen (uo_meta o) <= 2 ^ 63 - 8 /\
  Forall (fun e => fst e < 2 ^ 64 /\ N.of_nat (snd e) < 2 ^ 64) (uo_outputs o) /\ 32 * nlen (uo_outputs o) <= 2 ^ 63 - 8.

(** A program has a result, and [rest] is what else is allocated. *)
Definition holds (h : heap) (p : N) (o : uoutput sym) (bs rest : list lay) : Prop :=
  c_user_output (hp_get h) p o bs /\ Permutation (hp_live h) (bs ++ rest) /\ all_apart (map region_of bs).

(** Options of normalizers and of normalization *)
Definition nflag (c : list N) (i : N) (b : bool) : Prop := byte c i = if b then 1 else 0.
Definition options (c : list N) (build_ids : bool) (o : nopts) : Prop :=
  nflag c 8 (no_sorted_addrs o) /\ nflag c 9 (no_map_files o) /\ nflag c 10 (no_apk_to_elf o) /\ no_build_ids o = build_ids.
Definition wanted_pid (n : N) (p : pid) : Prop := (n = 0 /\ p = Slf) \/ (n <> 0 /\ p = Pid n).
