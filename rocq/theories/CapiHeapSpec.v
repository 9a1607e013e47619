(** * What a C program gets from normalizing addresses, and the rules of the heap

    capi/include/blazesym.h lines 250-480. *)

From Verif Require Import Base Util Bytes Inspect Sym Symbolizer Normalize CapiOut CapiSpec CapiHeap.
Local Open Scope N_scope.

(** An allocator hands out memory that is not in use, or none. *)
Definition honest (pick : allocator) : Prop :=
  forall h size align, let p := pick h size align in
    p = 0 \/ (h p = None /\ p mod align = 0 /\ p + size <= 2 ^ 64).
(** Names of files do not contain zeros. Symbols are such that their
    conversion does not overflow (see C48). *)
Definition path_ok (s : list N) : Prop := ~ In 0 s.
Definition meta_ok (x : umeta sym) : Prop :=
  match x with
  | UApk p | UElf p _ => path_ok p
  | USym s => sym_ok s /\ 8 + 104 + 48 * nlen (sy_inlined s) + sym_room s <= 2 ^ 63 - 8
  | UUnknown _ => True
  end.
Definition op_ok (x : hop) : Prop :=
  match x with HNew o => Forall meta_ok (uo_meta o) | _ => True end.

(** ** What can be read through a pointer *)
Definition string_at (h : heap) (p : N) (s : list N) : Prop :=
  exists l, h p = Some (Cell (nlen s + 1) 1 (DBytes l)) /\ l = s ++ [0] /\ c_string s = s.
(** Nothing can be read if the length is zero, but it is not [NULL]. *)
Definition bytes_at (h : heap) (p : N) (s : list N) : Prop :=
  p <> 0 /\ (s <> [] -> h p = Some (Cell (nlen s) 1 (DBytes s))).
(** The numbers of the header's [BLAZE_NORMALIZE_REASON_*] *)
Definition shown_normalize_reason (r : reason) : N :=
  match r with
  | Unmapped => 0 | MissingComponent => 1 | Unsupported => 2 | InvalidFileOffset => 3
  | MissingSyms => 4 | UnknownAddr => 5 | IgnoredError => 7
  end.
Definition shows_meta (h : heap) (c : cmeta) (x : umeta sym) : Prop :=
  match c, x with
  | CmApk p, UApk path => string_at h p path
  | CmElf p n q, UElf path id =>
      string_at h p path /\
      match id with
      | Some id => n = nlen id /\ bytes_at h q id
      | None => n = 0 /\ q = 0
      end
  | CmSym p, USym s =>
      exists base size g rs, h base = Some (Cell size 8 (DSym (Block base size g))) /\
        base <= p /\ c_sym g p (Known s) rs /\ Forall (inside base (base + size)) rs
  | CmUnknown n, UUnknown r => n = shown_normalize_reason r
  | _, _ => False
  end.
Definition shows_output (h : heap) (p : N) (o : uoutput sym) : Prop :=
  p <> 0 /\ exists c cs outs,
    h p = Some (Cell 48 8 (DOutput c)) /\
    co_meta_cnt c = nlen (uo_meta o) /\ co_output_cnt c = nlen (uo_outputs o) /\
    (uo_meta o <> [] -> h (co_metas c) = Some (Cell (64 * nlen cs) 8 (DMetas cs))) /\
    (uo_outputs o <> [] -> h (co_outputs c) = Some (Cell (32 * nlen outs) 8 (DOutputs outs))) /\
    Forall2 (shows_meta h) cs (uo_meta o) /\
    Forall2 (fun a b => fst a = fst b /\ snd a = N.of_nat (snd b)) outs (uo_outputs o).

(** ** What is still to be freed after operations: the outputs that have been
    handed out and not been given back *)
Fixpoint outstanding (live : list (uoutput sym)) (ops : list hop) : list (uoutput sym) :=
  match ops with
  | [] => live
  | HNew o :: ops => outstanding (live ++ [o]) ops
  | HFree i :: ops => outstanding (firstn i live ++ skipn (S i) live) ops
  | HFreeNull :: ops => outstanding live ops
  end.

(** ** How much memory is needed: bytes, and allocations *)
Definition meta_bytes (x : umeta sym) : N :=
  match x with
  | UApk p => nlen p + 1
  | UElf p id => nlen p + 1 + match id with Some id => nlen id | None => 0 end
  | USym s => 8 + 104 + 48 * nlen (sy_inlined s) + sym_room s
  | UUnknown _ => 0
  end.
Fixpoint metas_bytes (l : list (umeta sym)) : N :=
  match l with [] => 0 | x :: l => meta_bytes x + metas_bytes l end.
Definition output_bytes (o : uoutput sym) : N :=
  metas_bytes (uo_meta o) + 64 * nlen (uo_meta o) + 32 * nlen (uo_outputs o) + 48.
Definition output_pieces (o : uoutput sym) : nat := 2 * length (uo_meta o) + 3.
Fixpoint ops_bytes (ops : list hop) : N :=
  match ops with
  | [] => 0
  | HNew o :: ops => output_bytes o + ops_bytes ops
  | _ :: ops => ops_bytes ops
  end.
Fixpoint ops_pieces (ops : list hop) : nat :=
  match ops with
  | [] => 0
  | HNew o :: ops => output_pieces o + ops_pieces ops
  | _ :: ops => ops_pieces ops
  end.
(** The allocator has enough memory, starting from a heap, for that many
    allocations of together that many bytes: it does not refuse any request
    that stays within these bounds. *)
Definition enough (pick : allocator) (h0 : heap) (pieces : nat) (bytes : N) : Prop :=
  forall h l size align,
    (forall a, ~ In a l -> h a = h0 a) -> (length l < pieces)%nat -> 0 < size <= bytes ->
    align = 1 \/ align = 8 -> pick h size align <> 0.
