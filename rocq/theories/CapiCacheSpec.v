(** * What C programs ask to be cached: independent of the code

    capi/include/blazesym.h lines 822-882, 1394-1433 *)

From Coq Require Import ZArith.
From Verif Require Import Base Util UtilProofs Sym Symbolizer SymbolizerSpec CapiIn CapiSpec CapiOut CapiCalls CapiCallsSpec CapiEnd
  CapiEndSpec CapiCache.
Local Open Scope N_scope.

(** How much of the structures the library knows: up to the path, and up to the
    flag *)
Definition known (f : cache_fn) : N := match f with CfElf => 16 | CfProcess => 13 end.
(** What a structure stands for *)
Inductive stands_for (g : mem) (fuel : nat) (c : list N) : cache_fn -> target -> Prop :=
| SfElf : forall path, path_at g fuel (value c 8 8) path -> stands_for g fuel c CfElf (TElf (path_of path))
| SfSelf : forall vmas, value c 8 4 = 0 -> flag_at c 12 vmas -> stands_for g fuel c CfProcess (TProcess Slf vmas)
| SfProcess : forall n vmas, value c 8 4 = n -> n <> 0 -> flag_at c 12 vmas -> stands_for g fuel c CfProcess (TProcess (Pid n) vmas).

Section Calls.
  Context {File Parser : Type}.
  Implicit Types (c : cache_call File Parser).

  Definition wants c (t : target) : Prop :=
    exists l, struct_at l (cc_src c) /\ unknown_zero (known (cc_fn c)) l /\ stands_for (cc_mem c) (cc_fuel c) l (cc_fn c) t.
  (** The structure has members that the library does not know. *)
  Definition newer c : Prop :=
    exists l, struct_at l (cc_src c) /\ ~ unknown_zero (known (cc_fn c)) l.

  (** What a program does, in terms of the library *)
  Inductive does (m : mode) (cf : config) : list (request File Parser) -> list op -> Prop :=
  | DoNil : does m cf [] []
  | DoAsk : forall (c : ccall File Parser) src k addrs rs ops, asks c src k addrs -> does m cf rs ops ->
      does m cf (RSymbolize c :: rs) (OSymbolize m cf (ca_world c) src k addrs :: ops)
  | DoAskNewer : forall (c : ccall File Parser) rs ops, too_new c -> does m cf rs ops -> does m cf (RSymbolize c :: rs) ops
  | DoCache : forall c t rs ops, wants c t -> does m cf rs ops -> does m cf (RCache c :: rs) (OCache (cc_world c) t :: ops)
  | DoCacheNewer : forall c rs ops, newer c -> does m cf rs ops -> does m cf (RCache c :: rs) ops.

  (** Nothing but another request to cache the same replaces what is cached. *)
  Definition not_again (t : target) (r : request File Parser) : Prop :=
    match r with RCache c => ~ wants c t | RSymbolize _ => True end.
End Calls.
