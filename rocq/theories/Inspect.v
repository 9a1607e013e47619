(** * Types of symbol inspection (/repo/src/inspect/mod.rs, /repo/src/lib.rs) *)

From Verif Require Import Base.
Local Open Scope N_scope.

(** src/lib.rs lines 104-116 [SymType] *)
Inductive sym_type := TUndefined | TFunction | TVariable.

(** inspect/mod.rs lines 36-61 [SymInfo] *)
Record sym_info := SymInfo {
  si_name : list N;
  si_addr : N;
  si_size : option N;
  si_type : sym_type;
  si_file_offset : option N;
  si_module : option (list N)
}.

(** inspect/mod.rs lines 88-99 [FindAddrOpts] *)
Record find_addr_opts := FindAddrOpts {
  fa_file_offset : bool;
  fa_sym_type : sym_type
}.

(** inspect/mod.rs line 103 [ForEachFn]: the callback updates some state of
    its own; the boolean is [ControlFlow::Break]. *)
Definition for_each_fn (S : Type) := S -> sym_info -> S * bool.
