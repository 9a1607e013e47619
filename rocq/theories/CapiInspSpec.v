(** * What C programs get from inspection, and hold: independent of the code

    capi/include/blazesym.h, the comments of [blaze_inspect_syms_elf],
    [blaze_inspect_syms_free], [blaze_read_elf_build_id], [blaze_syms_free] *)

From Coq Require Import ZArith Permutation.
From Verif Require Import Base Util UtilProofs Text Bytes Sym Inspect Elf ElfSpec Symbolizer Normalize CapiIn CapiSpec CapiOut CapiCalls CapiCallsSpec CapiEnd CapiEndSpec CapiNorm CapiNormSpec.
Local Open Scope N_scope.
Local Notation length := List.length.

(** ** Arguments *)

(** [struct blaze_inspect_elf_src] *)
Definition inspects (g : mem) (fuel : nat) (c : list N) (path : list N) (debug_syms : bool) : Prop :=
  path_at g fuel (value c 8 8) path /\ flag_at c 16 debug_syms.
(** An array of strings, which are text *)
Definition names_at (g : mem) (fuel : nat) (p : N) (names : list (list N)) : Prop :=
  exists ps, array g p ps /\ Forall2 (path_at g fuel) ps names /\ Forall (fun s => utf8_valid s = true) names.

(** ** Things a program holds *)
Inductive thing :=
| TSyms (l : list symbolized) (* struct blaze_syms * *)
| TInfos (l : list (list sym_info)) (* struct blaze_sym_info ** *)
| TOutput (o : uoutput sym) (* struct blaze_normalized_user_output * *)
| TBytes (b : list N). (* a build ID *)
(** In one allocation, with its size in front *)
Definition in_block (g : mem) (p : N) (there : list region -> Prop) (bs : list lay) : Prop :=
  exists size front parts, 8 <= p /\ has g (p - 8) front /\ length front = 8%nat /\ le_val front = size /\ 8 <= size <= 2 ^ 63 - 8 /\
    there parts /\ all_apart parts /\ Forall (inside p (p - 8 + size)) parts /\ bs = [Lay (p - 8) size 8].
Definition c_thing (g : mem) (p : N) (t : thing) (bs : list lay) : Prop :=
  match t with
  | TSyms l => in_block g p (c_syms g p l) bs
  | TInfos l => in_block g p (c_lists g p l) bs
  | TOutput o => c_user_output g p o bs
  | TBytes b => p <> 0 /\ has g p b /\ bs = [Lay p (N.max 1 (nlen b)) 16]
  end.
(** Numbers are of their Rust types, and sizes not beyond [isize::MAX]. *)
Definition thing_ok (t : thing) : Prop :=
  match t with
  | TSyms l => Forall result_ok l /\ results_room l <= 2 ^ 63 - 8
  | TInfos l => Forall (Forall info_ok) l /\ lists_room l <= 2 ^ 63 - 8
  | TOutput o => output_ok o
  | TBytes b => True
  end.
(** The program has it in newly allocated memory, and nothing else in memory
    changed. *)
Definition obtained (h h' : heap) (p : N) (t : thing) : Prop :=
  exists bs, c_thing (hp_get h') p t bs /\ Permutation (hp_live h') (bs ++ hp_live h) /\ all_apart (map region_of bs) /\
    Forall (fun b => Forall (fun c => apart (region_of b) (region_of c)) (hp_live h)) bs /\
    forall i, ~ covered bs i -> hp_get h' i = hp_get h i.

(** ** Calls of [blaze_inspect_syms_elf] *)
Definition asks_syms (g : mem) (fuel : nat) (src : list N) (names : N) (cnt : nat) (path : list N) (debug_syms : bool) (l : list (list N)) : Prop :=
  (exists c, struct_at c src /\ unknown_zero 17 c /\ inspects g fuel c path debug_syms) /\ names_at g fuel names l /\ cnt = length l.
Definition asks_too_much (src : list N) : Prop := exists c, struct_at c src /\ ~ unknown_zero 17 c.

(** Symbols are not below the addresses of their sections, so that they have
    offsets in the file. *)
Definition placed (e : image) (t : symtab) : Prop :=
  forall s sec, In s (t_syms t) -> st_shndx s < 65280 -> nnth (st_shndx s) (i_sections e) = Some sec -> sh_type (s_hdr sec) <> SHT_NOBITS ->
    sh_addr (s_hdr sec) <= st_value s /\ st_value s + sh_offset (s_hdr sec) < two64.

(** ** Calls of [blaze_read_elf_build_id] *)

(** The length is wanted, or not. *)
Definition length_there (h : heap) (len : N) : Prop :=
  len = 0 \/ (len mod 8 = 0 /\ exists b, In b (hp_live h) /\ l_base b <= len /\ len + 8 <= l_base b + l_size b).
(** It is there, and nothing else changed. *)
Definition length_is (h h' : heap) (len n : N) : Prop :=
  hp_live h' = hp_live h /\ (len = 0 \/ num (hp_get h') len 8 n) /\
  forall i, len = 0 \/ i < len \/ len + 8 <= i -> hp_get h' i = hp_get h i.
(** What is returned: error, build ID, and memory *)
Definition shown_id (al : allocator) (id : option (list N)) (h : heap) (r : res (Z * N * heap)) : Prop :=
  match id with
  | None => r = Ok (0%Z, 0, h)
  | Some b => (exists p h', r = Ok (0%Z, p, h') /\ obtained h h' p (TBytes b)) \/
              (r = Ok ((-12)%Z, 0, h) /\ al h (N.max 1 (nlen b)) 16 = 0)
  end.
