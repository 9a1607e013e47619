(** * Caching on behalf of C programs: capi/src/symbolize.rs lines 45-147 and 903-976

    [blaze_symbolize_cache_elf] and [blaze_symbolize_cache_process], and programs
    using them along with the functions of CapiEnd.v. *)

From Coq Require Import ZArith.
From Verif Require Import Base Util Bytes Sym Symbolizer CapiIn CapiSpec CapiOut CapiCalls CapiEnd.
Local Open Scope N_scope.

Inductive cache_fn := CfElf | CfProcess.
Definition cache_input (f : cache_fn) : input_ty :=
  match f with CfElf => blaze_cache_src_elf | CfProcess => blaze_cache_src_process end.
(** lines 71-83 [From<blaze_cache_src_elf>], lines 132-146
    [From<blaze_cache_src_process>] *)
Definition cache_target (g : mem) (fuel : nat) (f : cache_fn) (o : list N) : res target :=
  match f with
  | CfElf => let* path := read_cstr g fuel (member blaze_cache_src_elf 1 o) in Ok (TElf (path_of path))
  | CfProcess =>
      let* cache_vmas := flag blaze_cache_src_process 2 o in
      Ok (TProcess (pid_of (member blaze_cache_src_process 1 o)) cache_vmas)
  end.

Section Calls.
  Context {File Parser : Type}.
  Notation world := (world File Parser).
  Notation state := (state File Parser).

  (** A call, with the memory of the program and everything outside at that time *)
  Record cache_call := CacheCall {
    cc_mem : mem;
    cc_fuel : nat;
    cc_world : world;
    cc_fn : cache_fn;
    cc_src : list N
  }.
  (** lines 915-934 [blaze_symbolize_cache_elf], lines 956-975
      [blaze_symbolize_cache_process]: the last error *)
  Definition blaze_cache (c : cache_call) (s : state) : res Z * state :=
    then_ (take_input false (cache_input (cc_fn c)) (cc_src c), s) (fun z s =>
      match z with
      | None => (blaze_err_from EInvalidInput, s)
      | Some o =>
          then_ (cache_target (cc_mem c) (cc_fuel c) (cc_fn c) o, s) (fun t s =>
            let '(r, s) := cache (cc_world c) t s in
            (match r with Ok _ => Ok 0%Z | Err k => blaze_err_from k | Panic => Panic | NoFuel => NoFuel end, s))
      end).

  (** What programs do with a symbolizer *)
  Inductive request := RSymbolize (c : ccall File Parser) | RCache (c : cache_call).
  Definition c_step (m : mode) (cf : config) (s : state) (r : request) : state :=
    match r with
    | RSymbolize c => snd (blaze_symbolize m cf c s)
    | RCache c => snd (blaze_cache c s)
    end.
  Definition c_run (m : mode) (cf : config) (l : list request) (s : state) : state := fold_left (c_step m cf) l s.
End Calls.
Arguments cache_call : clear implicits.
Arguments request : clear implicits.
