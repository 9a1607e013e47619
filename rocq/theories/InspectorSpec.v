(** * What is expected of an [Inspector] *)

From Verif Require Import Base Sym Inspect FileCache Symbolizer HistorySpec Inspector.
Local Open Scope N_scope.

Section Spec.
  Context {File Parser : Type}.
  Notation world := (world File Parser).
  Notation icall := (icall File Parser).
  Implicit Types (w : world) (h : list icall).

  (** ** What a source gives, nothing being remembered *)
  Definition source_alone w (src : isource) : res resolver :=
    match src with
    | IBreakpad p => file_alone w (w_breakpad w) p
    | IElf p debug => elf_alone w p p debug
    end.
  (** All symbols are of interest; offsets are reported if the source has
      any. *)
  Definition all_syms (offsets : bool) : find_addr_opts := FindAddrOpts offsets TUndefined.
  Definition has_offsets (src : isource) : bool := match src with IBreakpad _ => false | IElf _ _ => true end.

  (** [ls] has the symbols of each of the names, in their order. *)
  Definition answers (r : resolver) (names : list (list N)) (ls : list (list sym_info)) : Prop :=
    Forall2 (fun n l => r_find_addr r n (all_syms true) = Ok l) names ls.
  (** The first name that cannot be looked up *)
  Definition first_failure {A} (r : resolver) (names : list (list N)) (e : res A) : Prop :=
    exists before n after ls, names = before ++ n :: after /\ answers r before ls /\
    ((exists k, r_find_addr r n (all_syms true) = Err k /\ e = Err k) \/
     r_find_addr r n (all_syms true) = Panic /\ e = Panic \/
     r_find_addr r n (all_syms true) = NoFuel /\ e = NoFuel).
  Definition looked_up w (src : isource) (names : list (list N)) (x : res (list (list sym_info))) : Prop :=
    match source_alone w src with
    | Ok r => (exists ls, answers r names ls /\ x = Ok ls) \/ first_failure r names x
    | Err k => x = Err k
    | Panic => x = Panic
    | NoFuel => x = NoFuel
    end.
  Definition visited w (src : isource) (go : list sym_info -> bool) (x : list sym_info * res unit) : Prop :=
    match source_alone w src with
    | Ok r => x = r_for_each r (all_syms (has_offsets src)) go
    | Err k => x = ([], Err k)
    | Panic => x = ([], Panic)
    | NoFuel => x = ([], NoFuel)
    end.

  (** ** The calls of a history *)
  Definition world_of (c : icall) : world := match c with ILookup w _ _ | IForEach w _ _ => w end.
  Definition source_of (c : icall) : isource := match c with ILookup _ src _ | IForEach _ src _ => src end.
  Definition world_in h w : Prop := exists c, In c h /\ w = world_of c.
  (** ELF files asked for with debug information, those and the files that
      has been put to, and Breakpad files *)
  Definition debug_in h (p r : path) : Prop :=
    p = r /\ exists c, In c h /\ source_of c = IElf p true.
  Inductive elf_in h : path -> path -> Prop :=
  | EiSource : forall p d c, In c h -> source_of c = IElf p d -> elf_in h p p
  | EiDebug : forall p c w P q, In c h -> source_of c = IElf p true -> world_in h w ->
      parsed w p p = Ok P -> debug_file w P q -> elf_in h q q.
  Definition breakpad_in h (p r : path) : Prop :=
    p = r /\ exists c, In c h /\ source_of c = IBreakpad p.
  (** Nothing is in the way of remembering files. *)
  Definition steady h : Prop :=
    lasting (world_in h) (debug_in h) (elf_in h) /\ identified (world_in h) (breakpad_in h).
End Spec.
