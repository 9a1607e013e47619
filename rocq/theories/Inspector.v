(** * Model of /repo/src/inspect/inspector.rs

    Built on the cache of ELF resolvers in [Symbolizer]. As there, what is
    outside is a [world], given to each call. *)

From Verif Require Import Base Util Amap Sym Inspect FileCache Symbolizer.
Local Open Scope N_scope.

(** src/inspect/source.rs lines 103-111 [Source] *)
Inductive isource :=
| IBreakpad (p : path)
| IElf (p : path) (debug_syms : bool).

Section Inspector.
  Context {File Parser : Type}.
  Notation world := (world File Parser).

  (** lines 41-46 [Inspector] *)
  Record inspector := Inspector {
    in_breakpad : file_cache File resolver;
    in_elf : file_cache File (elf_data Parser)
  }.
  (** lines 50-57 [new] *)
  Definition i_new : inspector := Inspector (fc_new true) (fc_new true).

  (** lines 59-70 [create_breakpad_resolver], [breakpad_resolver] *)
  Definition i_breakpad (w : world) (p : path) (s : inspector) : res resolver * inspector :=
    let '(r, c) := file_resolver w (w_breakpad w) p (in_breakpad s) in
    (r, Inspector c (in_elf s)).
  (** lines 113-128, 199-212: [elf_resolver] with the default directories, or
      none *)
  Definition i_elf (w : world) (p : path) (debug_syms : bool) (s : inspector) : res resolver * inspector :=
    let '(r, c) := elf_resolver w p p debug_syms (in_elf s) in
    (let* x := r in Ok (er_resolver x), Inspector (in_breakpad s) c).

  (** lines 133-144: mapping the names, and collecting *)
  Fixpoint find_all (r : resolver) (o : find_addr_opts) (names : list (list N)) : res (list (list sym_info)) :=
    match names with
    | [] => Ok []
    | n :: names =>
        let* l := r_find_addr r n o in
        let* ls := find_all r o names in
        Ok (l :: ls)
    end.
  (** lines 92-147 [lookup] *)
  Definition i_lookup (w : world) (src : isource) (names : list (list N)) (s : inspector)
    : res (list (list sym_info)) * inspector :=
    let opts := FindAddrOpts true TUndefined in
    then_ (match src with
           | IBreakpad p => i_breakpad w p s
           | IElf p debug_syms => i_elf w p debug_syms s
           end) (fun r s => (find_all r opts names, s)).
  (** lines 170-219 [for_each]: the symbols the callback got, and the result *)
  Definition i_for_each (w : world) (src : isource) (go : list sym_info -> bool) (s : inspector)
    : list sym_info * res unit * inspector :=
    let '(r, opts, s) :=
      match src with
      | IBreakpad p => let '(r, s) := i_breakpad w p s in (r, FindAddrOpts false TUndefined, s)
      | IElf p debug_syms => let '(r, s) := i_elf w p debug_syms s in (r, FindAddrOpts true TUndefined, s)
      end in
    match r with
    | Ok r => (r_for_each r opts go, s)
    | Err k => ([], Err k, s)
    | Panic => ([], Panic, s)
    | NoFuel => ([], NoFuel, s)
    end.

  (** ** Histories of calls *)
  Inductive icall :=
  | ILookup (w : world) (src : isource) (names : list (list N))
  | IForEach (w : world) (src : isource) (go : list sym_info -> bool).
  Definition i_after (c : icall) (s : inspector) : inspector :=
    match c with
    | ILookup w src names => snd (i_lookup w src names s)
    | IForEach w src go => snd (i_for_each w src go s)
    end.
  Definition i_run (h : list icall) : inspector := fold_left (fun s c => i_after c s) h i_new.
End Inspector.
Arguments inspector : clear implicits.
Arguments icall : clear implicits.
