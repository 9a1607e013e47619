(** * Model of a [Normalizer] and its caches: /repo/src/normalize/normalizer.rs,
      with src/normalize/user.rs and src/vdso.rs

    [Normalize] has the same code for a single call and without caches. Here
    the state of a [Normalizer] is explicit: calls map it to a result and the
    state afterwards, also if the result is an error. Everything outside is
    part of a [nworld], given to each call separately, except for what is a
    function of a file's contents ([nsys]). *)

From Verif Require Import Base Util Amap Maps Sym FileCache Symbolizer Normalize.
Local Open Scope N_scope.

Section NormCache.
  Context {File Sym : Type}.

  (** An archive: the members (path, offset and length of the data), as
      produced by [zip::Archive::entries], and what
      [read_elf_build_id_from_mmap] of a range (start and end) gives, where a
      range outside of the file is an error. *)
  Record archive := Archive {
    ar_members : list (outcome (list N * N * N));
    ar_build_id : N -> N -> outcome (option (list N))
  }.
  (** What is a function of contents: of a file, [ElfParser::from_file] with
      [read_build_id], and [zip::Archive::with_mmap]; of a range of our own
      memory, [ElfParser::from_mem]. *)
  Record nsys := NSys {
    ny_build_id : File -> outcome (option (list N));
    ny_archive : File -> outcome archive;
    ny_vdso : N -> N -> vdso Sym
  }.
  (** Everything else: files, contents of /proc/<pid>/maps, that file opened
      for queries (with or without build IDs), and the range of our own vDSO
      (src/vdso.rs lines 33-43 [find_vdso]) *)
  Record nworld := NWorld {
    nw_fs : fs File;
    nw_text : pid -> outcome (list (res maps_entry));
    nw_query : pid -> bool -> outcome (N -> res (option maps_entry));
    nw_own_vdso : outcome (option (N * N))
  }.

  (** lines 70-80 [Builder], 154-163 [Builder::default] *)
  Record builder := Builder {
    b_procmap_query : bool;
    b_cache_vmas : bool;
    b_build_ids : bool;
    b_cache_build_ids : bool
  }.
  Definition builder_default := Builder false false true false.

  (** lines 183-212 [Normalizer]: the settings and the caches *)
  Record nconf := NConf {
    nc_query : bool;
    nc_cache_vmas : bool;
    nc_build_ids : bool;
    nc_cache_build_ids : bool
  }.
  Definition build_id_map := list ((N * N) * option (list N)).
  Record normalizer := Normalizer {
    nz_apk : file_cache File (archive * build_id_map);
    nz_vdso : option (vdso Sym);
    nz_entries : list (pid * list maps_entry);
    nz_build_ids : file_cache File (option (list N))
  }.
  Definition set_apk c z := Normalizer c (nz_vdso z) (nz_entries z) (nz_build_ids z).
  Definition set_own_vdso v z := Normalizer (nz_apk z) v (nz_entries z) (nz_build_ids z).
  Definition set_entries e z := Normalizer (nz_apk z) (nz_vdso z) e (nz_build_ids z).
  Definition set_build_ids c z := Normalizer (nz_apk z) (nz_vdso z) (nz_entries z) c.

  (** lines 130-151 [Builder::build], with src/file_cache.rs lines 140-147 and
      303-308 [FileCache::default] *)
  Definition build (b : builder) : nconf * normalizer :=
    (NConf (b_procmap_query b) (b_cache_vmas b) (b_build_ids b) (b_build_ids b && b_cache_build_ids b),
     Normalizer (fc_new true) None [] (fc_new true)).

  (** ** Build IDs, lines 351-374 [read_build_id], including the
      [debug_assert!] *)
  Definition nz_read_build_id (m : mode) (y : nsys) (cf : nconf) (w : nworld) (p : path) (z : normalizer)
    : res (option (list N)) * normalizer :=
    if nc_build_ids cf then
      if nc_cache_build_ids cf then
        let '(r, c) := then_ (fc_entry (nw_fs w) p (nz_build_ids z)) (fun meta c => fc_fill meta (ny_build_id y) c) in
        (r, set_build_ids c z)
      else (let* file := of_outcome (fs_open (nw_fs w) p) in of_outcome (ny_build_id y file), z)
    else
      (match m with
       | Checked => if nc_cache_build_ids cf then Panic else Ok None
       | Wrapping => Ok None
       end, z).

  (** ** Archives, lines 376-430 [translate_apk_to_elf] *)
  Definition range_eqb (a b : N * N) : bool := (fst a =? fst b) && (snd a =? snd b).
  (** lines 402-422: the build ID of a member, and the map of those known *)
  Definition member_build_id (cf : nconf) (ar : archive) (bounds : N * N) (ids : build_id_map)
    : res (option (list N)) * build_id_map :=
    if nc_build_ids cf then
      if nc_cache_build_ids cf then
        match aget range_eqb bounds ids with
        | Some b => (Ok b, ids)
        | None =>
            match ar_build_id ar (fst bounds) (snd bounds) with
            | Good b => (Ok b, aset range_eqb bounds b ids)
            | Bad k => (Err k, ids)
            end
        end
      else (of_outcome (ar_build_id ar (fst bounds) (snd bounds)), ids)
    else (Ok None, ids).
  (** lines 397-429 *)
  Fixpoint nz_members (m : mode) (cf : nconf) (ar : archive) (off : N) (apk_path : list N)
      (members : list (outcome (list N * N * N))) (ids : build_id_map)
    : res (option (N * list N * option (list N))) * build_id_map :=
    match members with
    | [] => (Ok None, ids)
    | Bad k :: _ => (Err k, ids)
    | Good (path, data_offset, data_len) :: members =>
        then_ (add64 m data_offset data_len, ids) (fun bound_end ids =>
          if (data_offset <=? off) && (off <? bound_end) then
            then_ (member_build_id cf ar (data_offset, bound_end) ids) (fun elf_build_id ids =>
              (let* elf_off := sub64 m off data_offset in
               Ok (Some (elf_off, create_apk_elf_path apk_path path, elf_build_id)), ids))
          else nz_members m cf ar off apk_path members ids)
    end.
  Definition nz_translate (m : mode) (y : nsys) (cf : nconf) (w : nworld) (off : N) (apk_path : list N)
      (z : normalizer) : res (option (N * list N * option (list N))) * normalizer :=
    let '(r, c) :=
      then_ (fc_entry (nw_fs w) (path_of apk_path) (nz_apk z)) (fun meta c =>
      then_ (fc_fill meta (fun file => match ny_archive y file with Good ar => Good (ar, []) | Bad k => Bad k end) c)
        (fun '(ar, ids) c =>
          let '(r, ids) := nz_members m cf ar off apk_path (ar_members ar) ids in
          (r, slot_set meta (ar, ids) c))) in
    (r, set_apk c z).

  (** ** The vDSO, lines 432-442 [vdso_parser], src/vdso.rs lines 46-68
      [create_vdso_parser] *)
  Definition create_vdso_parser (y : nsys) (w : nworld) (p : pid) (start end_ : N) : outcome (vdso Sym) :=
    match p with
    | Slf => Good (ny_vdso y start end_)
    | Pid _ =>
        match nw_own_vdso w with
        | Good (Some (start, end_)) => Good (ny_vdso y start end_)
        | Good None => Bad ENotFound
        | Bad k => Bad k
        end
    end.
  Definition nz_vdso_parser (y : nsys) (w : nworld) (p : pid) (start end_ : N) (z : normalizer)
    : res (vdso Sym) * normalizer :=
    let '(r, v, _) := get_or_try_init (nz_vdso z) (of_outcome (create_vdso_parser y w p start end_)) in
    (r, set_own_vdso v z).

  (** ** The handler: src/normalize/user.rs lines 121-300, as in [Normalize] *)
  Record copts := COpts { co_sorted_addrs : bool; co_map_files : bool; co_apk_to_elf : bool }.
  Record hnd := Hnd { hd_out : nstate Sym; hd_norm : normalizer }.
  Definition on_norm {A} (f : normalizer -> res A * normalizer) (h : hnd) : res A * hnd :=
    let '(r, z) := f (hd_norm h) in (r, Hnd (hd_out h) z).
  Definition add_out (f : nstate Sym -> nstate Sym) (h : hnd) : res unit * hnd :=
    (Ok tt, Hnd (f (hd_out h)) (hd_norm h)).

  (** user.rs lines 165-198 [handle_vdso_addr] *)
  Definition nz_handle_vdso (y : nsys) (w : nworld) (p : pid) (addr file_off start end_ : N) (h : hnd)
    : res unit * hnd :=
    then_ (on_norm (nz_vdso_parser y w p start end_) h) (fun parser h =>
    then_ (vd_virt_offset parser file_off, h) (fun o h =>
      match o with
      | Some addr =>
          then_ (vd_symbolize parser addr, h) (fun result h =>
            match result with
            | inl sym =>
                add_out (fun s => NState (ns_outputs s ++ [(file_off, length (ns_meta s))])
                                    (ns_meta s ++ [USym sym]) (ns_meta_lookup s) (ns_unknown_cache s)) h
            | inr r => add_out (add_unknown_addr addr r) h
            end)
      | None => add_out (add_unknown_addr addr Unmapped) h
      end)).

  (** user.rs lines 92-114 [add_normalized_offset]: [create_meta] is used only
      if there is no meta data for the path yet *)
  Definition nz_add_offset (file_offset : N) (key : list N)
      (create_meta : hnd -> res (umeta Sym) * hnd) (h : hnd) : res unit * hnd :=
    match aget beq key (ns_meta_lookup (hd_out h)) with
    | Some _ => add_out (add_normalized_offset file_offset key (UUnknown Unmapped)) h
    | None => then_ (create_meta h) (fun meta h => add_out (add_normalized_offset file_offset key meta) h)
    end.

  (** user.rs lines 209-300 [handle_entry_addr], including the
      [debug_assert_eq!] of lines 243-249 *)
  Definition nz_handle (m : mode) (y : nsys) (cf : nconf) (w : nworld) (p : pid) (o : copts) (addr : N)
      (entry : maps_entry) (h : hnd) : res unit * hnd :=
    then_ (let* d := sub64 m addr (me_start entry) in add64 m d (me_offset entry), h) (fun file_off h =>
    match me_path entry with
    | Some (PPath maps_file symbolic_path) =>
        let path := if co_map_files o then maps_file else symbolic_path in
        let ext := extension symbolic_path in
        if beq ext str_apk || beq ext str_zip then
          if co_apk_to_elf o then
            then_ (on_norm (nz_translate m y cf w file_off path) h) (fun r h =>
              match r with
              | Some (elf_file_off, elf_path, elf_build_id) =>
                  nz_add_offset elf_file_off elf_path
                    (fun h => (match m, me_build_id entry with
                               | Checked, Some _ => Panic
                               | _, _ => Ok (UElf elf_path elf_build_id)
                               end, h)) h
              | None => add_out (add_unknown_addr addr Unmapped) h
              end)
          else nz_add_offset file_off path (fun h => (Ok (UApk path), h)) h
        else
          nz_add_offset file_off path (fun h =>
            match me_build_id entry with
            | Some b => (Ok (UElf path (Some b)), h)
            | None =>
                (* [.ok().flatten()] *)
                let '(r, h) := on_norm (nz_read_build_id m y cf w (path_of path)) h in
                (match r with
                 | Ok b => Ok (UElf path b)
                 | Err _ => Ok (UElf path None)
                 | Panic => Panic
                 | NoFuel => NoFuel
                 end, h)
            end) h
    | Some (PComponent component) =>
        if beq component str_vdso then nz_handle_vdso y w p addr file_off (me_start entry) (me_end entry) h
        else add_out (add_unknown_addr addr Unsupported) h
    | None => add_out (add_unknown_addr addr MissingComponent) h
    end).

  (** user.rs lines 304-361 [normalize_sorted_user_addrs_with_entries], as in
      [Normalize] *)
  Section Pass.
    Context {St : Type}.
    Variable entries : N -> St -> option (res maps_entry) * St.
    Variable handle : N -> maps_entry -> hnd -> res unit * hnd.
    Fixpoint nz_loop (fuel : nat) (addrs : list N) (prev_addr : N) (entry : maps_entry) (st : St) (h : hnd)
      : res unit * hnd :=
      match addrs with
      | [] => (Ok tt, h)
      | addr :: addrs' =>
          if addr <? prev_addr then (Err EInvalidInput, h)
          else
            then_ (find_entry entries fuel addr entry st, h) (fun '(found, entry, st) h =>
              if negb found || (addr <? me_start entry) then
                then_ (add_out (add_unknown_addr addr Unmapped) h) (fun _ h =>
                  nz_loop fuel addrs' addr entry st h)
              else
                then_ (handle addr entry h) (fun _ h => nz_loop fuel addrs' addr entry st h))
      end.
    Definition nz_pass (fuel : nat) (addrs : list N) (st : St) (h : hnd) : res unit * hnd :=
      let prev_addr := match addrs with a :: _ => a | [] => 0 end in
      match entries prev_addr st with
      | (None, _) => (Err EUnexpectedEof, h)
      | (Some r, st) => then_ (r, h) (fun entry h => nz_loop fuel addrs prev_addr entry st h)
      end.
  End Pass.

  (** ** Calls *)
  Record call := Call {
    cl_mode : mode; cl_world : nworld; cl_pid : pid; cl_opts : copts; cl_fuel : nat; cl_addrs : list N
  }.

  (** lines 231-248 [normalize_user_addrs_impl] *)
  Definition nz_impl {St} (y : nsys) (cf : nconf) (c : call) (addrs : list N)
      (entries : N -> St -> option (res maps_entry) * St) (st : St) (z : normalizer)
    : res (uoutput Sym) * normalizer :=
    let '(r, h) := nz_pass entries (nz_handle (cl_mode c) y cf (cl_world c) (cl_pid c) (cl_opts c))
                     (cl_fuel c) addrs st (Hnd nstate_new z) in
    let s := hd_out h in
    (let* _ := r in
     if Nat.eqb (length (ns_outputs s)) (length addrs) then Ok (UOutput (ns_outputs s) (ns_meta s))
     else match cl_mode c with Checked => Panic | Wrapping => Ok (UOutput (ns_outputs s) (ns_meta s)) end,
     hd_norm h).

  (** [entry_cache.get_or_try_insert] *)
  Definition cached_entries (p : pid) (read : res (list maps_entry)) (z : normalizer)
    : res (list maps_entry) * normalizer :=
    match aget pid_eqb p (nz_entries z) with
    | Some es => (Ok es, z)
    | None =>
        match read with
        | Ok es => (Ok es, set_entries (aset pid_eqb p es (nz_entries z)) z)
        | r => (r, z)
        end
    end.

  (** lines 250-304 [normalize_user_addrs_iter] *)
  Definition nz_iter (y : nsys) (cf : nconf) (c : call) (addrs : list N) (z : normalizer)
    : res (uoutput Sym) * normalizer :=
    let w := cl_world c in
    let p := cl_pid c in
    if nc_query cf then
      then_ (of_outcome (nw_query w p (nc_build_ids cf)), z) (fun query z =>
        if negb (nc_cache_vmas cf) then nz_impl y cf c addrs (query_next query) tt z
        else
          then_ (cached_entries p (query_all (cl_fuel c) query 0) z) (fun es z =>
            nz_impl y cf c addrs iter_next (map Ok es) z))
    else
      if negb (nc_cache_vmas cf) then
        then_ (of_outcome (nw_text w p), z) (fun items z => nz_impl y cf c addrs iter_next items z)
      else
        then_ (cached_entries p (let* items := of_outcome (nw_text w p) in collect items) z) (fun es z =>
          nz_impl y cf c addrs iter_next (map Ok es) z).

  (** lines 325-340 [normalize_user_addrs_opts], with src/util.rs lines
      250-274 [with_ordered_elems] *)
  Definition nz_call (y : nsys) (cf : nconf) (c : call) (z : normalizer) : res (uoutput Sym) * normalizer :=
    if co_sorted_addrs (cl_opts c) then nz_iter y cf c (cl_addrs c) z
    else
      let vec := isort pair_leb (enumerate (cl_addrs c)) in
      let '(r, z) := nz_iter y cf c (map fst vec) z in
      (let* out := r in
       let* arr := reorder (uo_outputs out) (map snd vec) in
       Ok (UOutput arr (uo_meta out)), z).

  (** Any number of calls *)
  Definition nz_run (y : nsys) (cf : nconf) (h : list call) (z : normalizer) : normalizer :=
    fold_left (fun z c => snd (nz_call y cf c z)) h z.
End NormCache.
Arguments archive : clear implicits.
Arguments nsys : clear implicits.
Arguments nworld : clear implicits.
Arguments normalizer : clear implicits.
Arguments call : clear implicits.
Arguments hnd : clear implicits.
