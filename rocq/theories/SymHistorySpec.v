(** * Histories of a [Symbolizer] during which nothing gets in the way of
      remembering files *)

From Verif Require Import Base Amap Maps Sym Normalize FileCache Symbolizer SymbolizerSpec HistorySpec.
Local Open Scope N_scope.

Section Spec.
  Context {File Parser : Type}.
  Notation world := (world File Parser).
  Notation op := (@op File Parser).
  Implicit Types (h : list op).

  (** Symbolizing and evicting; nothing is cached or registered explicitly. *)
  Definition unforced (o : op) : Prop :=
    match o with OSymbolize _ _ _ _ _ _ | OSingle _ _ _ _ _ _ | OEvict _ _ => True | OCache _ _ | ORegister _ _ _ => False end.
  (** What is asked for in a history *)
  Definition asked h (cf : config) (w : world) (src : source) : Prop :=
    (exists m k addrs, In (OSymbolize m cf w src k addrs) h) \/ (exists m k addr, In (OSingle m cf w src k addr) h).
  Definition worlds h (w : world) : Prop := exists cf src, asked h cf w src.
  Definition sees h (w : world) (p : pid) (o : popts) (e : maps_entry) : Prop :=
    exists cf items, asked h cf w (SProcess p o) /\ w_maps w p = Good items /\ In (Ok e) items.

  (** ELF files and archives, by the path to open, the path to report, and
      whether debug information is wanted *)
  Inductive reads_elf h : path -> path -> bool -> Prop :=
  | ReElf : forall cf w p d, asked h cf w (SElf p d) -> reads_elf h p p d
  | ReEntry : forall w pid o e p r, sees h w pid o e -> target_paths false o e p r -> reads_elf h p r (po_debug o).
  Inductive any_elf h : path -> path -> Prop :=
  | AeFile : forall p r d, reads_elf h p r d -> any_elf h p r
  | AeDebug : forall w p r P q, reads_elf h p r true -> worlds h w -> parsed w p r = Ok P -> debug_file w P q ->
      any_elf h q q.
  Inductive reads_apk h : path -> path -> bool -> Prop :=
  | RaApk : forall cf w p d, asked h cf w (SApk p d) -> reads_apk h p p d
  | RaEntry : forall w pid o e p r, sees h w pid o e -> target_paths true o e p r -> reads_apk h p r (po_debug o).
  (** Other files *)
  Definition reads_breakpad h (p r : path) : Prop := p = r /\ exists cf w, asked h cf w (SBreakpad p).
  Definition reads_gsym h (p r : path) : Prop := p = r /\ exists cf w, asked h cf w (SGsymFile p).
  Definition reads_perf h (p r : path) : Prop :=
    p = r /\ exists cf w pid o, asked h cf w (SProcess pid o) /\ p = perf_path cf pid.

  (** What a dispatcher says, if there is one *)
  Definition says {A} (dispatch : option A) {B} (ask : A -> B) : option B :=
    match dispatch with Some d => Some (ask d) | None => None end.

  (** The vDSO of the own process is there, and is this one. *)
  Definition own_vdso (w : world) (image : resolver) : Prop := exists es, w_maps w Slf = Good (map Ok es) /\
    (exists e, In e es /\ me_path e = Some (PComponent str_vdso)) /\
    forall e, In e es -> me_path e = Some (PComponent str_vdso) -> w_image w (me_start e) (me_end e) = image.

  Record undisturbed h : Prop := Undisturbed {
    ud_elf : lasting (worlds h) (fun p r => reads_elf h p r true) (any_elf h);
    ud_breakpad : identified (worlds h) (reads_breakpad h);
    ud_gsym : identified (worlds h) (reads_gsym h);
    ud_perf : identified (worlds h) (reads_perf h);
    (* An archive that did not change is asked for in the same way, and its
       members are the same to the dispatchers. *)
    ud_apk : forall w w' p r d p' r' d' mt, worlds h w -> worlds h w' -> reads_apk h p r d -> reads_apk h p' r' d' ->
      fs_stat (w_fs w) p = Good mt -> fs_stat (w_fs w') p' = Good mt ->
      r = r' /\ d = d' /\ fs_open (w_fs w) p = fs_open (w_fs w') p' /\ w_apk_default w = w_apk_default w' /\
      forall mb, says (w_apk_dispatch w) (fun f => f p mb) = says (w_apk_dispatch w') (fun f => f p' mb);
    (* There is one vDSO. *)
    ud_vdso : exists image, forall w p o e, sees h w p o e -> me_path e = Some (PComponent str_vdso) -> own_vdso w image;
    (* The dispatcher says the same about mappings of the same name. *)
    ud_dispatch : forall w w' p p' o o' e e' name f f', sees h w p o e -> sees h w' p' o' e' ->
      me_path e = Some name -> me_path e' = Some name -> w_dispatch w = Some f -> w_dispatch w' = Some f' ->
      f (me_start e) (me_end e) name = f' (me_start e') (me_end e') name
  }.
End Spec.
