(** * Symbols an inspector reports from debug information *)

From Verif Require Import Base Sym Inspect Text Elf ElfSpec FileCache Symbolizer Inspector InspectorSpec Host HostSpec HostInspSpec HostDebug HostDebugSpec.
From Verif Require Dwarf DwarfSpec DwarfSymSpec.
Local Open Scope N_scope.

(** ** Functions: name, address, and size *)
Section Functions.
  Import Dwarf DwarfSpec DwarfSymSpec.
  (** Of an entry, if it has a name. The code is in one piece. *)
  Definition function_is (us : units) (b : body) (x : tree) (o : option (list N * N * N)) : Prop :=
    exists n, called us name_limit b x n /\
    match n with
    | None => o = None
    | Some s => exists lo hi, utf8_valid s = true /\ low_of b (t_attrs x) lo /\ high_of b (t_attrs x) lo hi /\ lo <= hi /\ o = Some (s, lo, hi - lo)
    end.
  (** Of a unit *)
  Definition unit_lists (us : units) (u : dunit) (l : list (list N * N * N)) : Prop :=
    exists b t xs os, unit_body u b /\ unit_tree b t /\
      (forall x, is_function t x -> ranges_wf b (t_attrs x) /\ names_wf (t_attrs x)) /\
      functions_of b t xs /\ Forall2 (function_is us b) xs os /\ l = somes os.
  Definition units_list (us : units) (ls : list (list (list N * N * N))) : Prop := Forall2 (unit_lists us) (us_units us) ls.
End Functions.

(** Where an address is in a file; something empty may be at the end of a
    segment. *)
Definition offset_in (e : image) (addr size : N) (o : option N) : Prop :=
  let at_ s := in_memory s addr \/ (size = 0 /\ addr = p_vaddr s + p_filesz s) in
  (exists s, loads e s /\ at_ s /\ o = Some (addr - p_vaddr s + p_offset s)) \/
  ((forall s, loads e s -> ~ at_ s) /\ o = None).
(** What is reported of a function of the file [p], which is [e] *)
Definition reported (p : list N) (e : image) (f : list N * N * N) (i : sym_info) : Prop :=
  let '(name, addr, size) := f in
  si_name i = name /\ si_addr i = addr /\ si_size i = Some size /\ si_type i = TFunction /\
  offset_in e addr size (si_file_offset i) /\ si_module i = Some p.

Definition first_of (name : list N) (l : list (list N * N * N)) (o : option (list N * N * N)) : Prop :=
  match o with
  | Some f => fst (fst f) = name /\ exists before after, l = before ++ f :: after /\ Forall (fun g => fst (fst g) <> name) before
  | None => Forall (fun g => fst (fst g) <> name) l
  end.
(** The first function of the name of each unit or, there being none in any,
    symbols of the file [q] with the debug information *)
Definition debug_named (p : list N) (e : image) (ls : list (list (list N * N * N))) (q : list N) (e' : image) (st dt : symtab)
    (name : list N) (r : list sym_info) : Prop :=
  exists os, Forall2 (first_of name) ls os /\
    ((DwarfSymSpec.somes os <> [] /\ Forall2 (reported p e) (DwarfSymSpec.somes os) r) \/
     (DwarfSymSpec.somes os = [] /\ elf_named q e' st dt name r)).

(** All calls are about one host, on which files that are used have identities
    of their own and no file is its own debug file. *)
Record quiet (d : debug_env) (h : host) (w : world (N * list N) parser) (hist : list (icall (N * list N) parser)) : Prop := Quiet {
  qu_world : forall c, In c hist -> world_of c = w;
  qu_elf : forall p q t, elf_in hist p p -> elf_in hist q q -> h_stat h p = Good t -> h_stat h q = Good t -> p = q;
  qu_breakpad : forall p q t, breakpad_in hist p p -> breakpad_in hist q q -> h_stat h p = Good t -> h_stat h q = Good t -> p = q;
  qu_debug : forall c p, In c hist -> source_of c = IElf p true ->
    (exists k, h_stat h p = Bad k) \/
    exists p0 ptr data o, p = path_of p0 /\ is_bytes p0 /\ file_at h p0 ptr data /\ debug_of d h p0 ptr data o /\
      forall q ptr' data', o = Some (q, ptr', data') -> q <> p0
}.
