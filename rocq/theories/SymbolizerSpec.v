(** * What is expected of [Symbolizer] *)

From Verif Require Import Base Util Amap Maps Sym Normalize FileCache Symbolizer.
Local Open Scope N_scope.

(** ** Input kinds *)
Inductive accepts : source -> kind -> Prop :=
| AcApk : forall p d, accepts (SApk p d) FileOffset
| AcBreakpad : forall p, accepts (SBreakpad p) FileOffset
| AcElfVirt : forall p d, accepts (SElf p d) VirtOffset
| AcElfFile : forall p d, accepts (SElf p d) FileOffset
| AcKernel : forall n, accepts (SKernel n) AbsAddr
| AcProcess : forall p o, accepts (SProcess p o) AbsAddr
| AcGsymData : forall l, accepts (SGsymData l) VirtOffset
| AcGsymFile : forall p, accepts (SGsymFile p) VirtOffset.

Definition is_process (src : source) : bool := match src with SProcess _ _ => true | _ => false end.
Definition is_elf (src : source) : bool := match src with SElf _ _ => true | _ => false end.

(** ** What a batch reports, given what looking up the address alone gives *)
Inductive reports : res symbolized -> symbolized -> Prop :=
| RpSame : forall x, reports (Ok x) x
| RpError : forall k, reports (Err k) (Unknown IgnoredError).

(** A batch against the addresses on their own: nothing but a problem of all
    addresses is an error. *)
Definition batch_agrees (single : N -> res symbolized) (addrs : list N) (r : res (list symbolized)) : Prop :=
  match r with
  | Ok l => Forall2 (fun a x => reports (single a) x) addrs l
  | Err k => forall a, single a = Err k
  | Panic => (forall a, single a = Panic) \/ exists a, In a addrs /\ single a = Panic
  | NoFuel => (forall a, single a = NoFuel) \/ exists a, In a addrs /\ single a = NoFuel
  end.
(** The same if the first problem of an address is that of the batch *)
Definition batch_all (single : N -> res symbolized) (addrs : list N) (r : res (list symbolized)) : Prop :=
  match r with
  | Ok l => Forall2 (fun a x => single a = Ok x) addrs l
  | Err k => (forall a, single a = Err k) \/ exists a, In a addrs /\ single a = Err k
  | Panic => exists a, In a addrs /\ single a = Panic
  | NoFuel => exists a, In a addrs /\ single a = NoFuel
  end.

Section Spec.
  Context {File Parser : Type}.
  Notation world := (world File Parser).
  Notation state := (state File Parser).

  (** ** Histories: everything that can be done with a [Symbolizer], with a
      world for each operation *)
  Inductive op :=
  | OSymbolize (m : mode) (cf : config) (w : world) (src : source) (k : kind) (addrs : list N)
  | OSingle (m : mode) (cf : config) (w : world) (src : source) (k : kind) (addr : N)
  | OCache (w : world) (t : target)
  | OEvict (cf : config) (t : evict_target)
  | ORegister (w : world) (p : path) (x : elf_res Parser).
  Definition after (o : op) (s : state) : state :=
    match o with
    | OSymbolize m cf w src k addrs => snd (symbolize m cf w src k addrs s)
    | OSingle m cf w src k addr => snd (symbolize_single m cf w src k addr s)
    | OCache w t => snd (cache w t s)
    | OEvict cf t => match evict cf t s with Ok s => s | _ => s end
    | ORegister w p x => snd (register_elf_resolver w p x s)
    end.
  Definition run (h : list op) (s : state) : state := fold_left (fun s o => after o s) h s.
  Definition reachable (s : state) : Prop := exists auto_reload h, s = run h (s_new auto_reload).

  Definition leaves_elf (p : path) (o : op) : Prop :=
    match o with OCache _ (TElf q) => q <> p | OEvict _ (EvElf q) => q <> p | _ => True end.
  Definition keeps_elf (p : path) (o : op) : Prop := match o with OEvict _ (EvElf q) => q <> p | _ => True end.
  Definition leaves_vmas (p : pid) (o : op) : Prop :=
    match o with OCache _ (TProcess q true) => q <> p | OEvict _ (EvProcess q) => q <> p | _ => True end.

  (** ** Processes: conditions for lookups not to interfere *)

  (** The entries used for a process *)
  Definition uses_vmas (w : world) (p : pid) (s : state) (es : list maps_entry) : Prop :=
    match aget pid_eqb p (s_vmas s) with
    | Some es' => es' = es
    | None => w_maps w p = Good (map Ok es)
    end.
  Definition ordered (es : list maps_entry) : Prop :=
    StronglySorted (fun v w => me_end v <= me_start w) es /\ Forall (fun v => me_start v < me_end v) es.

  (** The identity of the file a path stands for *)
  Definition file_at {T} (w : fs File) (c : file_cache File T) (p : path) : outcome file_meta :=
    match pget p (fc_cache c) with
    | Some pe =>
        match pe_current pe with
        | Some (Pinned, m) => Good m
        | Some (Unpinned, m) => if fc_auto_reload c then fs_stat w p else Good m
        | None => fs_stat w p
        end
    | None => fs_stat w p
    end.

  Definition is_archive (symbolic : list N) : bool :=
    beq (extension symbolic) str_apk || beq (extension symbolic) str_zip.
  (** Paths opened and reported for an entry *)
  Definition target_paths (archive : bool) (o : popts) (e : maps_entry) (p r : path) : Prop :=
    exists maps_file symbolic, me_path e = Some (PPath maps_file symbolic) /\
      is_archive symbolic = archive /\
      p = path_of (if po_map_files o then maps_file else symbolic) /\ r = path_of symbolic.

  (** The parser used for a file *)
  Inductive parser_of (w : world) (c : file_cache File (elf_data Parser)) (p r : path) : Parser -> Prop :=
  | PoElf : forall m e d x, file_at (w_fs w) c p = Good m -> eget m (fc_entries c) = Some e ->
      e_value e = Some d -> ed_elf d = Some x -> parser_of w c p r (er_parser x)
  | PoDwarf : forall m e d x, file_at (w_fs w) c p = Good m -> eget m (fc_entries c) = Some e ->
      e_value e = Some d -> ed_elf d = None -> ed_dwarf d = Some x -> parser_of w c p r (er_parser x)
  | PoOpen : forall m e P, file_at (w_fs w) c p = Good m -> eget m (fc_entries c) = Some e ->
      e_value e = None -> w_elf_parse w (e_file e) r = Good P -> parser_of w c p r P
  | PoNew : forall m f P, file_at (w_fs w) c p = Good m -> eget m (fc_entries c) = None ->
      fs_open (w_fs w) p = Good f -> w_elf_parse w f r = Good P -> parser_of w c p r P.
  (** Paths of files with a file's debug information *)
  Inductive debug_path (w : world) (P : Parser) : path -> Prop :=
  | DpLink : forall q sum, w_link w P = Ok (Some (q, sum)) -> debug_path w P q
  | DpPackage : forall q, w_dwp w P = Some q -> debug_path w P q.

  Inductive looked_up (w : world) (o : popts) (es : list maps_entry) (s : state) : path -> path -> Prop :=
  | LuEntry : forall e p r, In e es -> target_paths false o e p r -> looked_up w o es s p r
  | LuDebug : forall e p r P q, po_debug o = true -> In e es -> target_paths false o e p r ->
      parser_of w (s_elf s) p r P -> debug_path w P q -> looked_up w o es s q q.

  (** Files opened are known by one name, files with debug information are
      different from those, and what dispatchers and the vDSO give depends on
      nothing but the name of the entry. *)
  Record settled (w : world) (p : pid) (o : popts) (es : list maps_entry) (s : state) : Prop := Settled {
    se_elf : forall p r p' r' m, looked_up w o es s p r -> looked_up w o es s p' r' ->
      file_at (w_fs w) (s_elf s) p = Good m -> file_at (w_fs w) (s_elf s) p' = Good m ->
      r = r' /\ fs_open (w_fs w) p = fs_open (w_fs w) p';
    se_debug : po_debug o = true ->
      forall e p r P q e' p' r' m, In e es -> target_paths false o e p r ->
      parser_of w (s_elf s) p r P -> debug_path w P q ->
      In e' es -> target_paths false o e' p' r' -> file_at (w_fs w) (s_elf s) p' = Good m ->
      file_at (w_fs w) (s_elf s) q <> Good m;
    se_apk : forall e p r e' p' r' m, In e es -> target_paths true o e p r ->
      In e' es -> target_paths true o e' p' r' ->
      file_at (w_fs w) (s_apk s) p = Good m -> file_at (w_fs w) (s_apk s) p' = Good m ->
      r = r' /\ fs_open (w_fs w) p = fs_open (w_fs w) p' /\
      forall d mb, w_apk_dispatch w = Some d -> d p mb = d p' mb;
    se_vdso : p = Slf -> forall e e', In e es -> In e' es ->
      me_path e = Some (PComponent str_vdso) -> me_path e' = Some (PComponent str_vdso) ->
      w_image w (me_start e) (me_end e) = w_image w (me_start e') (me_end e');
    se_dispatch : forall d e e' name, w_dispatch w = Some d -> In e es -> In e' es ->
      me_path e = Some name -> me_path e' = Some name ->
      d (me_start e) (me_end e) name = d (me_start e') (me_end e') name
  }.

  (** The address looked up for address [a] of a process, in entry [e]: what
      the resolver in charge makes of the offset into the file *)
  Definition entry_offset (e : maps_entry) (a : N) : N := a - me_start e + me_offset e.
  Inductive looks_at (w : world) (p : pid) (o : popts) (s : state) (e : maps_entry) (a : N) : N -> Prop :=
  | LaDispatch : forall name r v, me_path e = Some name ->
      fst (dispatch_resolver w (me_start e) (me_end e) name s) = Ok (Some r) ->
      r_virt r (entry_offset e a) = Ok (Some v) -> looks_at w p o s e a v
  | LaElf : forall q r x v, target_paths false o e q r ->
      fst (elf_resolver w q r (po_debug o) (s_elf s)) = Ok x ->
      r_virt (er_resolver x) (entry_offset e a) = Ok (Some v) -> looks_at w p o s e a v
  | LaApk : forall q r x v, target_paths true o e q r ->
      fst (apk_resolver Checked w q r (entry_offset e a) (po_debug o) (s_apk s)) = Ok (Some (x, v)) ->
      looks_at w p o s e a v
  | LaVdso : forall r v, me_path e = Some (PComponent str_vdso) -> po_vdso o = true ->
      fst (vdso_parser w p (me_start e) (me_end e) s) = Ok r ->
      r_virt r (entry_offset e a) = Ok (Some v) -> looks_at w p o s e a v
  | LaAnonymous : me_path e = None -> po_perf_map o = true -> looks_at w p o s e a a.

  (** Another view of a process' mappings *)
  Definition with_maps (p : pid) (items : outcome (list (res maps_entry))) (w : world) : world :=
    World (w_fs w) (w_elf_parse w) (w_elf_plain w) (w_elf_cache w) (w_link w) (w_crc w) (w_dwp w) (w_dwarf w)
      (w_archive w) (w_apk_dispatch w) (w_apk_default w) (w_breakpad w) (w_gsym w) (w_perf_map w) (w_gsym_data w)
      (w_kernel w) (fun q => if pid_eqb q p then items else w_maps w q) (w_image w) (w_dispatch w).
End Spec.
