(** * Model of /repo/src/symbolize/symbolizer.rs, and of the cache of ELF
      resolvers in /repo/src/elf/resolver.rs

    The state of a [Symbolizer] is explicit: operations map it to a result and
    the state afterwards, also if the result is an error. Everything outside
    is part of a [world], given to each operation separately. *)

From Verif Require Import Base Util Amap Maps Sym Inspect Normalize FileCache.
From Verif Require Nom.
From Coq Require Import String.
Local Close Scope string_scope.
Local Open Scope N_scope.
Local Notation length := List.length.

(** Numbers standing for paths in [FileCache], and process IDs *)
Definition path_of (l : list N) : path := fold_right (fun b acc => b + 1 + 257 * acc) 0 l.
Inductive pid := Slf | Pid (n : N).
Definition pid_eqb (a b : pid) : bool :=
  match a, b with Slf, Slf => true | Pid n, Pid k => n =? k | _, _ => false end.
Definition path_name_eqb (a b : path_name) : bool :=
  match a, b with
  | PPath f s, PPath f' s' => beq f f' && beq s s'
  | PComponent n, PComponent n' => beq n n'
  | _, _ => false
  end.

(** A resolver: [Symbolize::find_sym],
    [TranslateFileOffset::file_offset_to_virt_offset], [Inspect::find_addr] and
    [Inspect::for_each]. The callback of the latter is asked to go on, given all
    symbols seen, and the result is the symbols seen, and the one of the
    function. *)
Record resolver := Resolver {
  r_find : N -> find_opts -> find_result;
  r_virt : N -> res (option N);
  r_find_addr : list N -> find_addr_opts -> res (list sym_info);
  r_for_each : find_addr_opts -> (list sym_info -> bool) -> list sym_info * res unit
}.
(** For those that cannot be inspected *)
Definition no_find_addr (_ : list N) (_ : find_addr_opts) : res (list sym_info) := Err EUnsupported.
Definition no_for_each (_ : find_addr_opts) (_ : list sym_info -> bool) : list sym_info * res unit := ([], Err EUnsupported).

(** ** Results: src/symbolize/mod.rs lines 368-418 [Sym], 516-546
    [Symbolized] *)
Record sym := Sym {
  sy_name : list N;
  sy_module : option (list N);
  sy_addr : N;
  sy_offset : N;
  sy_size : option N;
  sy_code_info : option code_info;
  sy_inlined : list inlined_fn
}.
Inductive symbolized := Known (s : sym) | Unknown (r : reason).

(** What is set up by [Builder::build], lines 422-473. [cf_demangle] is
    [maybe_demangle], lines 126-160. *)
Definition find_sym_opts (code_info inlined_fns : bool) : find_opts :=
  match code_info, inlined_fns with
  | false, _ => Basic
  | true, false => WithCode
  | true, true => WithInlined
  end.
Record config := Config {
  cf_opts : find_opts;
  cf_demangle : list N -> src_lang -> list N;
  cf_self : N                           (* [process::id()] *)
}.

(** lines 164-214 [symbolize_with_resolver] *)
Definition convert_sym (m : mode) (cf : config) (addr : N) (s : resolved_sym) : res sym :=
  let* offset := sub64 m addr (rs_addr s) in
  Ok (Sym (cf_demangle cf (rs_name s) (rs_lang s)) (rs_module s) (rs_addr s) offset (rs_size s)
        (rs_code_info s)
        (map (fun f => InlinedFn (cf_demangle cf (if_name f) (rs_lang s)) (if_code_info f)) (rs_inlined s))).
Definition with_resolver (m : mode) (cf : config) (addr : N) (r : resolver) : res symbolized :=
  let* x := r_find r addr (cf_opts cf) in
  match x with
  | inl s => let* s := convert_sym m cf addr s in Ok (Known s)
  | inr reason => Ok (Unknown reason)
  end.

(** An archive's member: path, offset, length, and the part of the mapping it
    is ([Mmap::constrain]; none if out of bounds): address and contents *)
Record member := Member { mb_path : list N; mb_offset : N; mb_len : N; mb_mmap : option (N * list N) }.
Definition mb_mapped (mb : member) : bool := match mb_mmap mb with Some _ => true | None => false end.

Section Symbolizer.
  Context {File Parser : Type}.

  (** src/elf/resolver.rs lines 156-159 [ElfResolver] *)
  Record elf_res := ElfRes { er_parser : Parser; er_dwarf : bool; er_resolver : resolver }.
  (** lines 39-46 [ElfResolverData] *)
  Record elf_data := ElfData { ed_elf : option elf_res; ed_dwarf : option elf_res }.
  Definition apk_data := (list (outcome member) * list ((N * N) * resolver))%type.

  (** What is outside *)
  Record world := World {
    w_fs : fs File;
    (* [ElfParser::from_file] with the path to report as module,
       [ElfBackend::Elf], [ElfParser::cache] *)
    w_elf_parse : File -> path -> outcome Parser;
    w_elf_plain : Parser -> resolver;
    w_elf_cache : Parser -> outcome unit;
    (* [read_debug_link] with [find_debug_file]: the file found and the
       checksum it should have; checksums; the path of the DWARF package, if
       the parser has a module; [DwarfResolver::from_parser], given the parsers
       of both *)
    w_link : Parser -> res (option (path * N));
    w_crc : Parser -> N;
    w_dwp : Parser -> option path;
    w_dwarf : Parser -> option Parser -> option Parser -> outcome resolver;
    (* archives; dispatcher and default dispatcher *)
    w_archive : File -> outcome (list (outcome member));
    w_apk_dispatch : option (path -> member -> outcome (option resolver));
    w_apk_default : path -> member -> bool -> outcome resolver;
    (* other formats *)
    w_breakpad : File -> path -> outcome resolver;
    w_gsym : File -> path -> outcome resolver;
    w_perf_map : File -> path -> outcome resolver;
    w_gsym_data : list N -> outcome resolver;
    w_kernel : N -> outcome resolver;
    (* processes *)
    w_maps : pid -> outcome (list (res maps_entry));
    (* [ElfParser::from_mem] with the own memory from the one address to the
       other *)
    w_image : N -> N -> resolver;
    w_dispatch : option (N -> N -> path_name -> outcome (option resolver))
  }.

  (** lines 728-771 [Symbolizer] *)
  Record state := State {
    s_elf : file_cache File elf_data;
    s_apk : file_cache File apk_data;
    s_breakpad : file_cache File resolver;
    s_gsym : file_cache File resolver;
    s_perf : file_cache File resolver;
    s_vmas : list (pid * list maps_entry);
    s_process : list (path_name * option resolver);
    s_vdso : option resolver
  }.
  Definition s_new (auto_reload : bool) : state :=
    State (fc_new auto_reload) (fc_new auto_reload) (fc_new auto_reload) (fc_new auto_reload)
      (fc_new auto_reload) [] [] None.
  Definition set_elf c s := State c (s_apk s) (s_breakpad s) (s_gsym s) (s_perf s) (s_vmas s) (s_process s) (s_vdso s).
  Definition set_apk c s := State (s_elf s) c (s_breakpad s) (s_gsym s) (s_perf s) (s_vmas s) (s_process s) (s_vdso s).
  Definition set_breakpad c s := State (s_elf s) (s_apk s) c (s_gsym s) (s_perf s) (s_vmas s) (s_process s) (s_vdso s).
  Definition set_gsym c s := State (s_elf s) (s_apk s) (s_breakpad s) c (s_perf s) (s_vmas s) (s_process s) (s_vdso s).
  Definition set_perf c s := State (s_elf s) (s_apk s) (s_breakpad s) (s_gsym s) c (s_vmas s) (s_process s) (s_vdso s).
  Definition set_vmas v s := State (s_elf s) (s_apk s) (s_breakpad s) (s_gsym s) (s_perf s) v (s_process s) (s_vdso s).
  Definition set_process v s := State (s_elf s) (s_apk s) (s_breakpad s) (s_gsym s) (s_perf s) (s_vmas s) v (s_vdso s).
  Definition set_vdso v s := State (s_elf s) (s_apk s) (s_breakpad s) (s_gsym s) (s_perf s) (s_vmas s) (s_process s) v.

  (** Sequencing: the state is kept upon errors. *)
  Definition then_ {A B S} (x : res A * S) (f : A -> S -> res B * S) : res B * S :=
    let '(r, s) := x in
    match r with
    | Ok a => f a s
    | Err k => (Err k, s)
    | Panic => (Panic, s)
    | NoFuel => (NoFuel, s)
    end.

  (** ** src/elf/resolver.rs *)

  (** The value of a slot *)
  Definition slot_get {T} (meta : file_meta) (c : file_cache File T) : res (File * option T) :=
    let* e := unwrap (eget meta (fc_entries c)) in Ok (e_file e, e_value e).
  Definition slot_set {T} (meta : file_meta) (v : T) (c : file_cache File T) : file_cache File T :=
    match eget meta (fc_entries c) with
    | Some e => FileCache (fc_cache c) (eset meta (Entry (e_references e) (e_file e) (Some v)) (fc_entries c)) (fc_auto_reload c)
    | None => c
    end.

  (** lines 72-131 [elf_resolver] with [debug_dirs] being [None]. [actual] and
      [repr] are the paths to open and to report. *)
  Definition elf_none (w : world) (actual repr : path) (c : file_cache File elf_data)
    : res elf_res * file_cache File elf_data :=
    then_ (fc_entry (w_fs w) actual c) (fun meta c =>
    then_ (slot_get meta c, c) (fun '(file, value) c =>
      match value with
      | Some d =>
          match ed_elf d with
          | Some x => (Ok x, c)
          | None =>
              match ed_dwarf d with
              | None => (Panic, c)
              | Some y =>
                  let x := ElfRes (er_parser y) false (w_elf_plain w (er_parser y)) in
                  (Ok x, slot_set meta (ElfData (Some x) (ed_dwarf d)) c)
              end
          end
      | None =>
          match w_elf_parse w file repr with
          | Bad k => (Err k, c)
          | Good p =>
              let x := ElfRes p false (w_elf_plain w p) in
              (Ok x, slot_set meta (ElfData (Some x) None) c)
          end
      end)).

  (** src/dwarf/resolver.rs lines 139-185 [try_deref_debug_link], the search for the file being
      part of [w_link] *)
  Definition deref_link (w : world) (p : Parser) (c : file_cache File elf_data)
    : res (option Parser) * file_cache File elf_data :=
    then_ (w_link w p, c) (fun link c =>
      match link with
      | None => (Ok None, c)
      | Some (path, sum) =>
          then_ (elf_none w path path c) (fun x c =>
            if w_crc w (er_parser x) =? sum then (Ok (Some (er_parser x)), c) else (Err EInvalidData, c))
      end).
  (** lines 188-219 [try_find_dwp] *)
  Definition find_dwp (w : world) (p : Parser) (c : file_cache File elf_data)
    : res (option Parser) * file_cache File elf_data :=
    match w_dwp w p with
    | None => (Ok None, c)
    | Some path =>
        let '(r, c) := elf_none w path path c in
        match r with
        | Ok x => (Ok (Some (er_parser x)), c)
        | Err ENotFound => (Ok None, c)
        | Err k => (Err k, c)
        | Panic => (Panic, c)
        | NoFuel => (NoFuel, c)
        end
    end.
  (** lines 245-299 [DwarfResolver::from_parser], with
      [ElfResolver::from_parser] (src/elf/resolver.rs lines 196-219) *)
  Definition from_parser (w : world) (p : Parser) (c : file_cache File elf_data)
    : res elf_res * file_cache File elf_data :=
    then_ (deref_link w p c) (fun link c =>
    then_ (find_dwp w p c) (fun dwp c =>
    then_ (of_outcome (w_dwarf w p link dwp), c) (fun r c => (Ok (ElfRes p true r), c)))).

  (** src/elf/resolver.rs lines 72-131 [elf_resolver] with [debug_dirs] given *)
  Definition elf_debug (w : world) (actual repr : path) (c : file_cache File elf_data)
    : res elf_res * file_cache File elf_data :=
    then_ (fc_entry (w_fs w) actual c) (fun meta c =>
    then_ (slot_get meta c, c) (fun '(file, value) c =>
    then_ (match value with
           | Some d =>
               match ed_dwarf d with
               | Some x => (Ok x, c)
               | None =>
                   match ed_elf d with
                   | None => (Panic, c)
                   | Some y =>
                       then_ (from_parser w (er_parser y) c) (fun x c =>
                       (* the cell's [get_or_init] *)
                       then_ (slot_get meta c, c) (fun '(_, value) c =>
                         match value with
                         | Some d =>
                             match ed_dwarf d with
                             | Some x => (Ok x, c)
                             | None => (Ok x, slot_set meta (ElfData (ed_elf d) (Some x)) c)
                             end
                         | None => (Panic, c)
                         end))
                   end
               end
           | None =>
               match w_elf_parse w file repr with
               | Bad k => (Err k, c)
               | Good p => from_parser w p c
               end
           end) (fun x c =>
    (* [cell.get_or_init], lines 110-130 *)
    then_ (slot_get meta c, c) (fun '(_, value) c =>
      match value with
      | Some d => (unwrap (ed_dwarf d), c)
      | None => (Ok x, slot_set meta (ElfData None (Some x)) c)
      end)))).
  Definition elf_resolver (w : world) (actual repr : path) (debug : bool) (c : file_cache File elf_data)
    : res elf_res * file_cache File elf_data :=
    if debug then elf_debug w actual repr c else elf_none w actual repr c.

  (** lines 133-153 [register], with lines 49-63 [From<Rc<ElfResolver>>] *)
  Definition register (w : world) (p : path) (x : elf_res) (c : file_cache File elf_data)
    : res unit * file_cache File elf_data :=
    then_ (fc_entry (w_fs w) p c) (fun meta c =>
    then_ (slot_get meta c, c) (fun '(_, value) c =>
      match value with
      | Some _ => (Err EAlreadyExists, c)
      | None => (Ok tt, slot_set meta (if er_dwarf x then ElfData None (Some x) else ElfData (Some x) None) c)
      end)).

  (** ** symbolizer.rs: other resolvers *)

  (** lines 819-823 [gsym_resolver], 915-919 [breakpad_resolver]: one resolver
      per file *)
  Definition file_resolver (w : world) (init : File -> path -> outcome resolver) (p : path)
      (c : file_cache File resolver) : res resolver * file_cache File resolver :=
    then_ (fc_entry (w_fs w) p c) (fun meta c => fc_fill meta (fun f => init f p) c).
  (** src/perf_map.rs lines 130-136 [PerfMap::path] *)
  Definition perf_path (cf : config) (p : pid) : path :=
    path_of (Nom.bs "/tmp/perf-"%string ++ fmt_dec (match p with Slf => cf_self cf | Pid n => n end)
             ++ Nom.bs ".map"%string).
  (** lines 926-940 [perf_map_resolver] *)
  Definition perf_map_resolver (cf : config) (w : world) (p : pid) (c : file_cache File resolver)
    : res (option resolver) * file_cache File resolver :=
    let path := perf_path cf p in
    let '(r, c) := fc_entry (w_fs w) path c in
    match r with
    | Ok meta => then_ (fc_fill meta (fun f => w_perf_map w f path) c) (fun r c => (Ok (Some r), c))
    | Err ENotFound => (Ok None, c)
    | Err k => (Err k, c)
    | Panic => (Panic, c)
    | NoFuel => (NoFuel, c)
    end.
  (** src/vdso.rs lines 21-44 [find_vdso_maps], [find_vdso] *)
  Fixpoint find_vdso_maps (items : list (res maps_entry)) : res (option (N * N)) :=
    match items with
    | [] => Ok None
    | r :: items =>
        let* e := r in
        match me_path e with
        | Some (PComponent c) => if beq c str_vdso then Ok (Some (me_start e, me_end e)) else find_vdso_maps items
        | _ => find_vdso_maps items
        end
    end.
  Definition find_vdso (w : world) : res (option (N * N)) :=
    let* items := of_outcome (w_maps w Slf) in find_vdso_maps items.
  (** src/vdso.rs lines 47-69 [create_vdso_parser] *)
  Definition create_vdso_parser (w : world) (p : pid) (start end_ : N) : res resolver :=
    match p with
    | Slf => Ok (w_image w start end_)
    | Pid _ =>
        let* r := find_vdso w in
        match r with Some (start, end_) => Ok (w_image w start end_) | None => Err ENotFound end
    end.
  (** lines 942-952 [vdso_parser] *)
  Definition vdso_parser (w : world) (p : pid) (start end_ : N) (s : state) : res resolver * state :=
    let '(r, cell, _) := get_or_try_init (s_vdso s) (create_vdso_parser w p start end_) in
    (r, set_vdso cell s).

  Definition range_eqb (a b : N * N) : bool := (fst a =? fst b) && (snd a =? snd b).
  (** lines 845-870: creating the resolver of a member *)
  Definition member_resolver (w : world) (actual repr : path) (debug : bool) (mb : member) : outcome resolver :=
    if mb_mapped mb then
      match w_apk_dispatch w with
      | Some dispatch =>
          match dispatch actual mb with
          | Good (Some r) => Good r
          | Good None => w_apk_default w repr mb debug
          | Bad k => Bad k
          end
      | None => w_apk_default w repr mb debug
      end
    else Bad EInvalidInput.
  (** lines 826-882 [create_apk_resolver] *)
  Fixpoint apk_find (m : mode) (w : world) (actual repr : path) (debug : bool) (file_off : N)
      (members : list (outcome member)) (map : list ((N * N) * resolver))
    : res (option (resolver * N)) * list ((N * N) * resolver) :=
    match members with
    | [] => (Ok None, map)
    | Bad k :: _ => (Err k, map)
    | Good mb :: members =>
        then_ (add64 m (mb_offset mb) (mb_len mb), map) (fun end_ map =>
          if (mb_offset mb <=? file_off) && (file_off <? end_) then
            let bounds := (mb_offset mb, end_) in
            then_ (match aget range_eqb bounds map with
                   | Some r => (Ok r, map)
                   | None =>
                       match member_resolver w actual repr debug mb with
                       | Good r => (Ok r, aset range_eqb bounds r map)
                       | Bad k => (Err k, map)
                       end
                   end) (fun r map =>
            then_ (sub64 m file_off (mb_offset mb), map) (fun elf_off map =>
            then_ (r_virt r elf_off, map) (fun addr map =>
              match addr with
              | Some addr => (Ok (Some (r, addr)), map)
              | None => (Ok None, map)
              end)))
          else apk_find m w actual repr debug file_off members map)
    end.
  (** lines 885-906 [apk_resolver] *)
  Definition apk_resolver (m : mode) (w : world) (actual repr : path) (file_off : N) (debug : bool)
      (c : file_cache File apk_data) : res (option (resolver * N)) * file_cache File apk_data :=
    then_ (fc_entry (w_fs w) actual c) (fun meta c =>
    then_ (fc_fill meta (fun f => match w_archive w f with Good a => Good (a, []) | Bad k => Bad k end) c)
      (fun '(archive, map) c =>
        let '(r, map) := apk_find m w actual repr debug file_off archive map in
        (r, slot_set meta (archive, map) c))).
  (** lines 954-974 [process_dispatch_resolver] *)
  Definition dispatch_resolver (w : world) (start end_ : N) (name : path_name) (s : state)
    : res (option resolver) * state :=
    match w_dispatch w with
    | None => (Ok None, s)
    | Some dispatch =>
        match aget path_name_eqb name (s_process s) with
        | Some r => (Ok r, s)
        | None =>
            match dispatch start end_ name with
            | Good r => (Ok r, set_process (aset path_name_eqb name r (s_process s)) s)
            | Bad k => (Err k, s)
            end
        end
    end.

  (** ** Processes: lines 492-665 [SymbolizeHandler] *)
  Record popts := POpts { po_debug : bool; po_perf_map : bool; po_map_files : bool; po_vdso : bool }.
  Record hstate := HState { hs_syms : list symbolized; hs_state : state }.
  Definition push (x : symbolized) (h : hstate) : hstate := HState (hs_syms h ++ [x]) (hs_state h).
  (** Operations on parts of the state *)
  Definition on_state {A} (f : state -> res A * state) (h : hstate) : res A * hstate :=
    let '(r, s) := f (hs_state h) in (r, HState (hs_syms h) s).
  Definition on_elf {A} (f : file_cache File elf_data -> res A * file_cache File elf_data) (s : state) : res A * state :=
    let '(r, c) := f (s_elf s) in (r, set_elf c s).
  Definition on_apk {A} (f : file_cache File apk_data -> res A * file_cache File apk_data) (s : state) : res A * state :=
    let '(r, c) := f (s_apk s) in (r, set_apk c s).
  Definition on_breakpad {A} (f : file_cache File resolver -> res A * file_cache File resolver) (s : state) : res A * state :=
    let '(r, c) := f (s_breakpad s) in (r, set_breakpad c s).
  Definition on_gsym {A} (f : file_cache File resolver -> res A * file_cache File resolver) (s : state) : res A * state :=
    let '(r, c) := f (s_gsym s) in (r, set_gsym c s).
  Definition on_perf {A} (f : file_cache File resolver -> res A * file_cache File resolver) (s : state) : res A * state :=
    let '(r, c) := f (s_perf s) in (r, set_perf c s).

  (** [symbolize_with_resolver], then pushing the result *)
  Definition push_sym (m : mode) (cf : config) (addr : N) (r : resolver) (h : hstate) : res unit * hstate :=
    then_ (with_resolver m cf addr r, h) (fun x h => (Ok tt, push x h)).
  Definition push_unknown (r : reason) (h : hstate) : res unit * hstate := (Ok tt, push (Unknown r) h).
  (** [file_offset_to_virt_offset], then the above *)
  Definition push_translated (m : mode) (cf : config) (file_off : N) (r : resolver) (h : hstate) : res unit * hstate :=
    then_ (r_virt r file_off, h) (fun addr h =>
      match addr with
      | Some addr => push_sym m cf addr r h
      | None => push_unknown InvalidFileOffset h
      end).
  (** lines 515-536 [handle_apk_addr] *)
  Definition handle_apk_addr (m : mode) (cf : config) (w : world) (o : popts) (file_off : N) (maps_file symbolic : list N)
      (h : hstate) : res unit * hstate :=
    let actual := path_of (if po_map_files o then maps_file else symbolic) in
    then_ (on_state (on_apk (apk_resolver m w actual (path_of symbolic) file_off (po_debug o))) h) (fun result h =>
      match result with
      | Some (r, addr) => push_sym m cf addr r h
      | None => push_unknown InvalidFileOffset h
      end).
  (** lines 538-562 [handle_elf_addr] *)
  Definition handle_elf_addr (m : mode) (cf : config) (w : world) (o : popts) (file_off : N) (maps_file symbolic : list N)
      (h : hstate) : res unit * hstate :=
    let actual := path_of (if po_map_files o then maps_file else symbolic) in
    then_ (on_state (on_elf (elf_resolver w actual (path_of symbolic) (po_debug o))) h) (fun x h =>
      push_translated m cf file_off (er_resolver x) h).
  (** lines 564-574 [handle_perf_map_addr] *)
  Definition handle_perf_map_addr (m : mode) (cf : config) (w : world) (p : pid) (addr : N) (h : hstate) : res unit * hstate :=
    then_ (on_state (on_perf (perf_map_resolver cf w p)) h) (fun r h =>
      match r with
      | Some r => push_sym m cf addr r h
      | None => push_unknown UnknownAddr h
      end).
  (** lines 576-593 [handle_vdso_addr] *)
  Definition handle_vdso_addr (m : mode) (cf : config) (w : world) (p : pid) (file_off start end_ : N) (h : hstate)
    : res unit * hstate :=
    then_ (on_state (vdso_parser w p start end_) h) (fun r h => push_translated m cf file_off r h).
  (** lines 629-663: the part of [handle_entry_addr] following the dispatcher *)
  Definition handle_default (m : mode) (cf : config) (w : world) (p : pid) (o : popts) (addr file_off : N) (e : maps_entry)
      (h : hstate) : res unit * hstate :=
    match me_path e with
    | Some (PPath maps_file symbolic) =>
        let ext := extension symbolic in
        if beq ext str_apk || beq ext str_zip then handle_apk_addr m cf w o file_off maps_file symbolic h
        else handle_elf_addr m cf w o file_off maps_file symbolic h
    | Some (PComponent component) =>
        if po_vdso o && beq component str_vdso then handle_vdso_addr m cf w p file_off (me_start e) (me_end e) h
        else push_unknown Unsupported h
    | None => if po_perf_map o then handle_perf_map_addr m cf w p addr h else push_unknown UnknownAddr h
    end.
  (** lines 603-664 [handle_entry_addr] *)
  Definition handle_entry (m : mode) (cf : config) (w : world) (p : pid) (o : popts) (addr : N) (e : maps_entry)
      (h : hstate) : res unit * hstate :=
    then_ (let* d := sub64 m addr (me_start e) in add64 m d (me_offset e), h) (fun file_off h =>
      match me_path e with
      | Some name =>
          then_ (on_state (dispatch_resolver w (me_start e) (me_end e) name) h) (fun r h =>
            match r with
            | Some r => push_translated m cf file_off r h
            | None => handle_default m cf w p o addr file_off e h
            end)
      | None => handle_default m cf w p o addr file_off e h
      end).

  (** src/normalize/user.rs lines 304-361
      [normalize_sorted_user_addrs_with_entries], as in [Normalize], but for a
      handler whose state is of interest after errors, too *)
  Section Pass.
    Context {H : Type}.
    Variable unknown : N -> reason -> H -> H.
    Variable handle : N -> maps_entry -> H -> res unit * H.
    Fixpoint pass_loop (fuel : nat) (addrs : list N) (prev_addr : N) (entry : maps_entry)
        (st : list (res maps_entry)) (h : H) : res unit * H :=
      match addrs with
      | [] => (Ok tt, h)
      | addr :: addrs' =>
          if addr <? prev_addr then (Err EInvalidInput, h)
          else
            then_ (find_entry iter_next fuel addr entry st, h) (fun '(found, entry, st) h =>
              if negb found || (addr <? me_start entry) then
                pass_loop fuel addrs' addr entry st (unknown addr Unmapped h)
              else
                then_ (handle addr entry h) (fun _ h => pass_loop fuel addrs' addr entry st h))
      end.
    Definition pass (addrs : list N) (items : list (res maps_entry)) (h : H) : res unit * H :=
      let prev_addr := match addrs with a :: _ => a | [] => 0 end in
      match items with
      | [] => (Err EUnexpectedEof, h)
      | r :: items =>
          then_ (r, h) (fun entry h => pass_loop (S (length items)) addrs prev_addr entry items h)
      end.
  End Pass.

  (** lines 978-1025 [symbolize_user_addrs], with src/util.rs lines 254-274
      [with_ordered_elems] *)
  Definition user_addrs (m : mode) (cf : config) (w : world) (p : pid) (o : popts) (addrs : list N) (s : state)
    : res (list symbolized) * state :=
    let vec := isort pair_leb (enumerate addrs) in
    let '(r, h) :=
      then_ (match aget pid_eqb p (s_vmas s) with
             | Some es => Ok (map Ok es)
             | None => of_outcome (w_maps w p)
             end, HState [] s) (fun items h =>
        pass (fun _ r h => push (Unknown r) h) (handle_entry m cf w p o) (map fst vec) items h) in
    (let* _ := r in reorder (hs_syms h) (map snd vec), hs_state h).

  (** ** Lines 1146-1386 [symbolize_impl] *)
  Inductive kind := AbsAddr | VirtOffset | FileOffset.
  Inductive source :=
  | SApk (p : path) (debug : bool)
  | SBreakpad (p : path)
  | SElf (p : path) (debug : bool)
  | SKernel (k : N)
  | SProcess (p : pid) (o : popts)
  | SGsymData (data : list N)
  | SGsymFile (p : path).

  (** Mapping a function over addresses, handling errors of each one by
      [fold], and collecting *)
  Fixpoint each {S} (f : N -> S -> res symbolized * S) (fold : ekind -> res symbolized) (addrs : list N) (s : S)
    : res (list symbolized) * S :=
    match addrs with
    | [] => (Ok [], s)
    | a :: addrs =>
        let '(r, s) := f a s in
        then_ (match r with Err k => fold k | r => r end, s) (fun x s =>
        then_ (each f fold addrs s) (fun l s => (Ok (x :: l), s)))
    end.
  Definition unsupported {A S} (s : S) : res A * S := (Err EUnsupported, s).
  Definition translated (m : mode) (cf : config) (off : N) (r : resolver) : res symbolized :=
    let* addr := r_virt r off in
    match addr with
    | Some addr => with_resolver m cf addr r
    | None => Ok (Unknown InvalidFileOffset)
    end.
  Definition symbolize_impl (m : mode) (cf : config) (w : world) (src : source) (k : kind) (addrs : list N)
      (fold : ekind -> res symbolized) (s : state) : res (list symbolized) * state :=
    match src with
    | SApk p debug =>
        match k with
        | VirtOffset | AbsAddr => unsupported s
        | FileOffset =>
            each (fun off s =>
              then_ (on_apk (apk_resolver m w p p off debug) s) (fun x s =>
                match x with
                | Some (r, addr) => (with_resolver m cf addr r, s)
                | None => (Ok (Unknown InvalidFileOffset), s)
                end)) fold addrs s
        end
    | SBreakpad p =>
        match k with
        | VirtOffset | AbsAddr => unsupported s
        | FileOffset =>
            then_ (on_breakpad (file_resolver w (w_breakpad w) p) s) (fun r s =>
              each (fun a s => (with_resolver m cf a r, s)) fold addrs s)
        end
    | SElf p debug =>
        then_ (on_elf (elf_resolver w p p debug) s) (fun x s =>
          match k with
          | VirtOffset => each (fun a s => (with_resolver m cf a (er_resolver x), s)) fold addrs s
          | AbsAddr => unsupported s
          | FileOffset => each (fun off s => (translated m cf off (er_resolver x), s)) fold addrs s
          end)
    | SKernel n =>
        match k with
        | AbsAddr =>
            then_ (of_outcome (w_kernel w n), s) (fun r s =>
              each (fun a s => (with_resolver m cf a r, s)) fold addrs s)
        | VirtOffset | FileOffset => unsupported s
        end
    | SProcess p o =>
        match k with
        | AbsAddr => user_addrs m cf w p o addrs s
        | VirtOffset | FileOffset => unsupported s
        end
    | SGsymData data =>
        match k with
        | VirtOffset =>
            then_ (of_outcome (w_gsym_data w data), s) (fun r s =>
              each (fun a s => (with_resolver m cf a r, s)) fold addrs s)
        | AbsAddr | FileOffset => unsupported s
        end
    | SGsymFile p =>
        match k with
        | VirtOffset =>
            then_ (on_gsym (file_resolver w (w_gsym w) p) s) (fun r s =>
              each (fun a s => (with_resolver m cf a r, s)) fold addrs s)
        | AbsAddr | FileOffset => unsupported s
        end
    end.
  (** lines 1437-1446 [symbolize] *)
  Definition symbolize (m : mode) (cf : config) (w : world) (src : source) (k : kind) (addrs : list N) (s : state)
    : res (list symbolized) * state :=
    symbolize_impl m cf w src k addrs (fun _ => Ok (Unknown IgnoredError)) s.
  (** lines 1461-1470 [symbolize_single], with lines 697-727 [Single], [Addrs] *)
  Definition symbolize_single (m : mode) (cf : config) (w : world) (src : source) (k : kind) (addr : N) (s : state)
    : res symbolized * state :=
    then_ (symbolize_impl m cf w src k [addr] Err s) (fun l s => (unwrap (hd_error l), s)).

  (** ** Lines 1069-1100 [cache] *)
  Inductive target := TElf (p : path) | TProcess (p : pid) (vmas : bool).
  Definition or_same {S} (o : option S) (s : S) : S := match o with Some s => s | None => s end.
  Definition cache (w : world) (t : target) (s : state) : res unit * state :=
    match t with
    | TElf p =>
        then_ (on_elf (fun c =>
          let c := or_same (fc_unpin p c) c in
          let '(result, c) := elf_none w p p c in
          let c := or_same (fc_pin p c) c in
          (result, c)) s) (fun x s => (of_outcome (w_elf_cache w (er_parser x)), s))
    | TProcess p vmas =>
        if vmas then
          then_ (let* items := of_outcome (w_maps w p) in collect items, s) (fun es s =>
            (Ok tt, set_vmas (aset pid_eqb p es (s_vmas s)) s))
        else (Ok tt, s)
    end.
  (** ** Lines 1119-1144 [evict] *)
  Definition refers (p : path) (n : path_name) : bool :=
    match n with PPath f s => (path_of f =? p) || (path_of s =? p) | PComponent _ => false end.
  Inductive evict_target := EvElf (p : path) | EvProcess (p : pid).
  Definition evict (cf : config) (t : evict_target) (s : state) : res state :=
    match t with
    | EvElf p =>
        let* '(_, c) := fc_evict p (s_elf s) in
        Ok (set_process (filter (fun x => negb (refers p (fst x))) (s_process s)) (set_elf c s))
    | EvProcess p =>
        let s := set_vmas (adel pid_eqb p (s_vmas s)) s in
        let* '(_, c) := fc_evict (perf_path cf p) (s_perf s) in
        Ok (set_perf c s)
    end.
  (** lines 785-800 [register_elf_resolver] *)
  Definition register_elf_resolver (w : world) (p : path) (x : elf_res) (s : state) : res unit * state :=
    on_elf (register w p x) s.
End Symbolizer.
Arguments world : clear implicits.
Arguments state : clear implicits.
Arguments elf_res : clear implicits.
Arguments elf_data : clear implicits.
Arguments hstate : clear implicits.
