(** * What C programs ask for: independent of the code

    capi/include/blazesym.h lines 747-817, 887-953, 1014-1089 *)

From Coq Require Import ZArith.
From Verif Require Import Base Util UtilProofs Sym Symbolizer SymbolizerSpec CapiIn CapiSpec CapiOut CapiCalls CapiCallsSpec CapiEnd.
Local Open Scope N_scope.
Local Notation length := List.length.

(** A flag in the structure of the program *)
Definition flag_at (c : list N) (i : N) (b : bool) : Prop := byte c i = if b then 1 else 0.
(** A path; [fuel] is no limit to what programs can do. *)
Definition path_at (g : mem) (fuel : nat) (p : N) (path : list N) : Prop := string g p path /\ (length path < fuel)%nat.

(** The source a structure stands for, and what addresses of it are *)
Inductive means (g : mem) (fuel : nat) (c : list N) : fn -> source -> kind -> Prop :=
| MnProcess : forall p debug perf no_map_files no_vdso,
    (p = Slf /\ value c 8 4 = 0) \/ (p = Pid (value c 8 4) /\ value c 8 4 <> 0) ->
    flag_at c 12 debug -> flag_at c 13 perf -> flag_at c 14 no_map_files -> flag_at c 15 no_vdso ->
    means g fuel c FProcess (SProcess p (POpts debug perf (negb no_map_files) (negb no_vdso))) AbsAddr
| MnElfVirt : forall path debug, path_at g fuel (value c 8 8) path -> flag_at c 16 debug ->
    means g fuel c FElfVirt (SElf (path_of path) debug) VirtOffset
| MnElfFile : forall path debug, path_at g fuel (value c 8 8) path -> flag_at c 16 debug ->
    means g fuel c FElfFile (SElf (path_of path) debug) FileOffset
| MnGsymData : forall data, has g (value c 8 8) data -> value c 8 8 <> 0 -> value c 16 8 = nlen data ->
    means g fuel c FGsymData (SGsymData data) VirtOffset
| MnGsymFile : forall path, path_at g fuel (value c 8 8) path -> means g fuel c FGsymFile (SGsymFile (path_of path)) VirtOffset.

Section Calls.
  Context {File Parser : Type}.
  Implicit Types (c : ccall File Parser).

  (** The call asks for addresses of a source. *)
  Definition asks c (src : source) (k : kind) (addrs : list N) : Prop :=
    (exists t, struct_at t (ca_src c) /\ unknown_zero (it_effective (input_of (ca_fn c))) t /\ means (ca_mem c) (ca_fuel c) t (ca_fn c) src k) /\
    array (ca_mem c) (ca_addrs c) addrs /\ ca_cnt c = length addrs.
  (** The structure has members that the library does not know. *)
  Definition too_new c : Prop :=
    exists t, struct_at t (ca_src c) /\ ~ unknown_zero (it_effective (input_of (ca_fn c))) t.
  (** What a list of calls asks of the library *)
  Inductive requests (m : mode) (cf : config) : list (ccall File Parser) -> list op -> Prop :=
  | RqNil : requests m cf [] []
  | RqAsks : forall c src k addrs cs ops, asks c src k addrs -> requests m cf cs ops ->
      requests m cf (c :: cs) (OSymbolize m cf (ca_world c) src k addrs :: ops)
  | RqTooNew : forall c cs ops, too_new c -> requests m cf cs ops -> requests m cf (c :: cs) ops.

  (** The allocator has memory: pointers are not null, aligned, and not beyond
      the end of the address space. *)
  Definition allocates c : Prop :=
    forall l, results_room l <= 2 ^ 63 - 8 ->
      0 < ca_alloc c l /\ ca_alloc c l mod 8 = 0 /\ ca_alloc c l + results_room l <= 2 ^ 64.
End Calls.

(** What the program gets: the results, laid out in memory in parts that are
    within the allocation and do not overlap; and that can be freed *)
Definition gets (b : block) (p : N) (rs : list symbolized) : Prop :=
  exists parts, p <> 0 /\ c_syms (blk_get b) p rs parts /\ all_apart parts /\
    Forall (inside p (blk_base b + blk_size b)) parts /\
    free_syms b p = Ok (blk_base b, blk_size b).

(** Options of symbolizers *)
Inductive dirs_at (g : mem) (fuel : nat) (c : list N) : option (list (list N)) -> Prop :=
| DaDefault : value c 8 8 = 0 -> dirs_at g fuel c None
| DaGiven : forall ps dirs, value c 8 8 <> 0 -> array g (value c 8 8) ps -> value c 16 8 = nlen ps ->
    Forall2 (path_at g fuel) ps dirs -> dirs_at g fuel c (Some dirs).
