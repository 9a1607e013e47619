(** * From the contents of files to the symbols an inspector reports *)

From Verif Require Import Base Sym Inspect Elf ElfSpec FileCache Symbolizer Inspector InspectorSpec Host HostSpec.
From Verif Require BreakpadSpec Breakpad.
From Coq Require Import Sorted Permutation.
Local Open Scope N_scope.

(** ** ELF files *)

(** Offsets of symbols are asked for, so sections need to be there. *)
Definition elf_sections (e : image) (st dt : symtab) : Prop := sections_ok e st /\ sections_ok e dt.
(** The symbols of a name: those of the symbol table or, there being none,
    dynamic ones, other than those the symbol table has another symbol for *)
Definition elf_named (module : list N) (e : image) (st dt : symtab) (name : list N) (r : list sym_info) : Prop :=
  (exists s, In s (t_syms st) /\ named_symbol st name s) /\
  (exists l, picks_all (named_symbol st name) (t_syms st) l /\ Forall2 (info_of e (all_syms true) (Some module) st) l r) \/
  (forall s, In s (t_syms st) -> ~ named_symbol st name s) /\
  (exists l, picks (named_symbol dt name) (fun s => named_symbol dt name s -> shadowed st s) (t_syms dt) l /\
     Forall2 (info_of e (all_syms true) (Some module) dt) l r /\
     (t_syms st = [] -> picks_all (named_symbol dt name) (t_syms dt) l)).
(** All symbols of the two tables, with no module *)
Definition a_symbol (s : esym) : Prop := supported s /\ defined s.
Definition elf_all (e : image) (st dt : symtab) (r1 r2 : list sym_info) : Prop :=
  (exists l, picks_all a_symbol (t_syms st) l /\ Forall2 (info_of e (all_syms true) None st) l r1) /\
  (exists l, picks a_symbol (fun s => a_symbol s -> shadowed st s) (t_syms dt) l /\
     Forall2 (info_of e (all_syms true) None dt) l r2).

(** ** Being told about symbols until enough *)

(** [out] is what one is told of [l] having been told [before]: all of it or up
    to the first one after which to stop. *)
Definition told (go : list sym_info -> bool) (before l out : list sym_info) : Prop :=
  exists rest, l = out ++ rest /\
  (forall a b, out = a ++ b -> a <> [] -> b <> [] -> go (before ++ a) = true) /\
  (rest = [] \/ out <> [] /\ go (before ++ out) = false).

(** ** Breakpad files: name, address, and size of functions *)
Definition functions_of (rs : list BreakpadSpec.brec) : list (list N * N * N) :=
  map (fun f => (Breakpad.fn_name f, Breakpad.fn_addr f, Breakpad.fn_size f)) (BreakpadSpec.functions rs).
Definition is_info (f : list N * N * N) (i : sym_info) : Prop :=
  let '(name, addr, size) := f in
  si_name i = name /\ si_addr i = addr /\ si_size i = Some size /\ si_type i = TFunction /\
  si_file_offset i = None /\ si_module i = None.
Definition ascending (r : list sym_info) : Prop := StronglySorted (fun a b => si_addr a <= si_addr b) r.
Definition breakpad_named (rs : list BreakpadSpec.brec) (name : list N) (r : list sym_info) : Prop :=
  ascending r /\ exists l, picks_all (fun f => fst (fst f) = name) (functions_of rs) l /\ Forall2 is_info l r.
Definition breakpad_all (rs : list BreakpadSpec.brec) (r : list sym_info) : Prop :=
  ascending r /\ exists l, Permutation (functions_of rs) l /\ Forall2 is_info l r.
