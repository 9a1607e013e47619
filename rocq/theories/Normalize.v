(** * Model of user address normalization: /repo/src/normalize/user.rs and
      /repo/src/normalize/normalizer.rs *)

From Verif Require Import Base Util Amap Maps Sym.
Local Open Scope N_scope.

(** ** The pass over sorted addresses (user.rs lines 304-361,
    [normalize_sorted_user_addrs_with_entries])

    The [entries] closure is a function of the address and its own state,
    returning the next entry, if any.  [H] is the state of the handler. *)
Section Pass.
  Context {St H : Type}.
  Variable entries : N -> St -> option (res maps_entry) * St.
  Variable handle_unknown_addr : N -> reason -> H -> H.
  Variable handle_entry_addr : N -> maps_entry -> H -> res H.

  (** lines 328-339: the inner [while].  The boolean says whether it ended
      regularly ([true]) or because there are no more entries ([false]). *)
  Fixpoint find_entry (fuel : nat) (addr : N) (entry : maps_entry) (st : St)
    : res (bool * maps_entry * St) :=
    if me_end entry <=? addr then
      match fuel with
      | O => NoFuel
      | S fuel' =>
          match entries addr st with
          | (None, st') => Ok (false, entry, st')
          | (Some r, st') => let* entry' := r in find_entry fuel' addr entry' st'
          end
      end
    else Ok (true, entry, st).

  (** lines 320-358: the main loop. *)
  Fixpoint main_loop (fuel : nat) (addrs : list N) (prev_addr : N) (entry : maps_entry) (st : St)
      (h : H) : res H :=
    match addrs with
    | [] => Ok h
    | addr :: addrs' =>
        if addr <? prev_addr then Err EInvalidInput
        else
          let* '(found, entry', st') := find_entry fuel addr entry st in
          if negb found then
            main_loop fuel addrs' addr entry' st' (handle_unknown_addr addr Unmapped h)
          else if addr <? me_start entry' then
            main_loop fuel addrs' addr entry' st' (handle_unknown_addr addr Unmapped h)
          else
            let* h' := handle_entry_addr addr entry' h in
            main_loop fuel addrs' addr entry' st' h'
    end.

  Definition normalize_sorted (fuel : nat) (addrs : list N) (st : St) (h : H) : res H :=
    let prev_addr := match addrs with a :: _ => a | [] => 0 end in
    match entries prev_addr st with
    | (None, _) => Err EUnexpectedEof
    | (Some r, st') =>
        let* entry := r in
        main_loop fuel addrs prev_addr entry st' h
    end.
End Pass.

(** ** Entry sources (normalizer.rs lines 250-304) *)

(** [|_addr| entry_iter.next()] for an iterator with the given items. *)
Definition iter_next (addr : N) (items : list (res maps_entry))
  : option (res maps_entry) * list (res maps_entry) :=
  match items with
  | [] => (None, [])
  | x :: items' => (Some x, items')
  end.

(** [|addr| query_procmap(&file, pid, addr, build_ids).transpose()], lines
    265-266. *)
Definition query_next (query : N -> res (option maps_entry)) (addr : N) (st : unit)
  : option (res maps_entry) * unit :=
  match query addr with
  | Ok None => (None, st)
  | Ok (Some e) => (Some (Ok e), st)
  | Err k => (Some (Err k), st)
  | Panic => (Some Panic, st)
  | NoFuel => (Some NoFuel, st)
  end.

(** Lines 270-278: collecting all entries by repeated queries. *)
Fixpoint query_all (fuel : nat) (query : N -> res (option maps_entry)) (next_addr : N)
  : res (list maps_entry) :=
  match fuel with
  | O => NoFuel
  | S fuel' =>
      let* r := query next_addr in
      match r with
      | None => Ok []
      | Some entry =>
          let* rest := query_all fuel' query (me_end entry) in
          Ok (if filter_relevant entry then entry :: rest else rest)
      end
  end.

(** [iter.collect::<Result<Box<_>>>()], line 295. *)
Fixpoint collect {A} (items : list (res A)) : res (list A) :=
  match items with
  | [] => Ok []
  | r :: items' =>
      let* x := r in
      let* xs := collect items' in
      Ok (x :: xs)
  end.

(** ** Paths *)

(** [Path::extension]: of the part after the last slash, what follows the
    last dot, provided that there is something in front of that dot. *)
Fixpoint after_last (c : N) (l : list N) : option (list N) :=
  match l with
  | [] => None
  | b :: l' =>
      match after_last c l' with
      | Some r => Some r
      | None => if b =? c then Some l' else None
      end
  end.
Definition file_name (path : list N) : list N :=
  match after_last 47 path with Some n => n | None => path end.
Definition extension (path : list N) : list N :=
  match file_name path with
  | [] => []
  | _ :: name' => match after_last 46 name' with Some e => e | None => [] end
  end.
(** "apk" and "zip" *)
Definition str_apk : list N := [97; 112; 107].
Definition str_zip : list N := [122; 105; 112].
(** "[vdso]" *)
Definition str_vdso : list N := [91; 118; 100; 115; 111; 93].

(** src/apk.rs lines 6-29 [create_apk_elf_path]: append "!" and join with the
    member's path, stripped of a leading slash. *)
Definition create_apk_elf_path (apk elf : list N) : list N :=
  let elf := match elf with b :: l => if b =? 47 then l else elf | [] => elf end in
  apk ++ [33; 47] ++ elf.

(** ** APK members (normalizer.rs lines 379-430, [translate_apk_to_elf])

    An archive, as produced by src/zip.rs, is the sequence of its members, or
    errors encountered while iterating.  [za_build_id] is the outcome of
    reading the build ID from the member's data. *)
Record zmember := ZMember {
  zm_path : list N; zm_data_offset : N; zm_data_len : N; zm_build_id : outcome (option (list N))
}.
Fixpoint translate_members (m : mode) (build_ids : bool) (apk_file_off : N) (apk_path : list N)
    (members : list (outcome zmember)) : res (option (N * list N * option (list N))) :=
  match members with
  | [] => Ok None
  | Bad k :: _ => Err k
  | Good e :: members' =>
      let* bound_end := add64 m (zm_data_offset e) (zm_data_len e) in
      if (zm_data_offset e <=? apk_file_off) && (apk_file_off <? bound_end) then
        let* elf_build_id := if build_ids then of_outcome (zm_build_id e) else Ok None in
        let* elf_off := sub64 m apk_file_off (zm_data_offset e) in
        Ok (Some (elf_off, create_apk_elf_path apk_path (zm_path e), elf_build_id))
      else translate_members m build_ids apk_file_off apk_path members'
  end.

(** ** The normalization handler *)
Section Handler.
  Context {Sym : Type}.

  (** src/normalize/meta.rs lines 114-132 [UserMeta] *)
  Inductive umeta :=
  | UApk (path : list N)
  | UElf (path : list N) (build_id : option (list N))
  | USym (sym : Sym)
  | UUnknown (r : reason).

  (** The environment: what opening files etc. gives.  [nv_build_id] is the
      outcome of reading the build ID of the file at a path, [nv_archive]
      that of opening an archive, [nv_vdso] that of finding and parsing the
      vDSO, which is given by its [file_offset_to_virt_offset] and
      [symbolize_with_resolver].  Caching (src/file_cache.rs, the [OnceCell]
      of the vDSO) is not part of this model, i.e., files do not change
      during a call. *)
  Record vdso := Vdso {
    vd_virt_offset : N -> res (option N);
    vd_symbolize : N -> res (Sym + reason)
  }.
  Record nenv := NEnv {
    nv_build_id : list N -> outcome (option (list N));
    nv_archive : list N -> outcome (list (outcome zmember));
    nv_vdso : N -> N -> outcome vdso
  }.
  (** normalizer.rs lines 21-47 [NormalizeOpts], lines 185-192 [Normalizer]. *)
  Record nopts := NOpts {
    no_sorted_addrs : bool;
    no_map_files : bool;
    no_apk_to_elf : bool;
    no_build_ids : bool
  }.

  (** user.rs lines 121-137 [NormalizationHandler], with [UserOutput]. *)
  Record nstate := NState {
    ns_outputs : list (N * nat);
    ns_meta : list umeta;
    ns_meta_lookup : list (list N * nat);
    ns_unknown_cache : list (reason * nat)
  }.
  Definition nstate_new : nstate := NState [] [] [] [].

  (** user.rs lines 67-89 [add_unknown_addr], 203-207 [handle_unknown_addr] *)
  Definition add_unknown_addr (addr : N) (r : reason) (s : nstate) : nstate :=
    match aget reason_eqb r (ns_unknown_cache s) with
    | Some idx => NState (ns_outputs s ++ [(addr, idx)]) (ns_meta s) (ns_meta_lookup s) (ns_unknown_cache s)
    | None =>
        let idx := length (ns_meta s) in
        NState (ns_outputs s ++ [(addr, idx)]) (ns_meta s ++ [UUnknown r]) (ns_meta_lookup s)
          (aset reason_eqb r idx (ns_unknown_cache s))
    end.

  (** user.rs lines 92-114 [add_normalized_offset] *)
  Definition add_normalized_offset (file_offset : N) (key : list N) (create_meta : umeta) (s : nstate)
    : nstate :=
    match aget beq key (ns_meta_lookup s) with
    | Some idx => NState (ns_outputs s ++ [(file_offset, idx)]) (ns_meta s) (ns_meta_lookup s) (ns_unknown_cache s)
    | None =>
        let idx := length (ns_meta s) in
        NState (ns_outputs s ++ [(file_offset, idx)]) (ns_meta s ++ [create_meta])
          (aset beq key idx (ns_meta_lookup s)) (ns_unknown_cache s)
    end.

  (** normalizer.rs lines 352-374 [read_build_id], with [.ok().flatten()] *)
  Definition read_build_id_opt (v : nenv) (o : nopts) (path : list N) : option (list N) :=
    if no_build_ids o then
      match nv_build_id v path with Good b => b | Bad _ => None end
    else None.

  (** user.rs lines 165-198 [handle_vdso_addr] *)
  Definition handle_vdso_addr (v : nenv) (addr file_off start end_ : N) (s : nstate) : res nstate :=
    let* parser := of_outcome (nv_vdso v start end_) in
    let* o := vd_virt_offset parser file_off in
    match o with
    | Some addr =>
        let* result := vd_symbolize parser addr in
        match result with
        | inl sym =>
            let idx := length (ns_meta s) in
            Ok (NState (ns_outputs s ++ [(file_off, idx)]) (ns_meta s ++ [USym sym])
                  (ns_meta_lookup s) (ns_unknown_cache s))
        | inr r => Ok (add_unknown_addr addr r s)
        end
    | None => Ok (add_unknown_addr addr Unmapped s)
    end.

  (** user.rs lines 209-300 [handle_entry_addr] *)
  Definition handle_entry_addr (m : mode) (v : nenv) (o : nopts) (addr : N) (entry : maps_entry)
      (s : nstate) : res nstate :=
    let* d := sub64 m addr (me_start entry) in
    let* file_off := add64 m d (me_offset entry) in
    match me_path entry with
    | Some (PPath maps_file symbolic_path) =>
        let path := if no_map_files o then maps_file else symbolic_path in
        let ext := extension symbolic_path in
        if beq ext str_apk || beq ext str_zip then
          if no_apk_to_elf o then
            let* members := of_outcome (nv_archive v path) in
            let* r := translate_members m (no_build_ids o) file_off path members in
            match r with
            | Some (elf_file_off, elf_path, elf_build_id) =>
                Ok (add_normalized_offset elf_file_off elf_path (UElf elf_path elf_build_id) s)
            | None => Ok (add_unknown_addr addr Unmapped s)
            end
          else Ok (add_normalized_offset file_off path (UApk path) s)
        else
          let build_id := match me_build_id entry with
                          | Some b => Some b
                          | None => read_build_id_opt v o path
                          end in
          Ok (add_normalized_offset file_off path (UElf path build_id) s)
    | Some (PComponent component) =>
        if beq component str_vdso then
          handle_vdso_addr v addr file_off (me_start entry) (me_end entry) s
        else Ok (add_unknown_addr addr Unsupported s)
    | None => Ok (add_unknown_addr addr MissingComponent s)
    end.

  (** ** The normalizer (normalizer.rs lines 231-340) *)

  (** The result handed to the user: [UserOutput]. *)
  Record uoutput := UOutput { uo_outputs : list (N * nat); uo_meta : list umeta }.

  (** lines 231-248 [normalize_user_addrs_impl], including the
      [debug_assert_eq!] on the number of outputs. *)
  Definition normalize_impl {St} (m : mode) (v : nenv) (o : nopts)
      (entries : N -> St -> option (res maps_entry) * St) (fuel : nat) (st : St) (addrs : list N)
    : res uoutput :=
    let* s := normalize_sorted entries add_unknown_addr (handle_entry_addr m v o) fuel addrs st nstate_new in
    if Nat.eqb (length (ns_outputs s)) (length addrs) then Ok (UOutput (ns_outputs s) (ns_meta s))
    else match m with Checked => Panic | Wrapping => Ok (UOutput (ns_outputs s) (ns_meta s)) end.

  (** The four ways of obtaining entries, lines 250-304.  [text] is the
      content of /proc/<pid>/maps, [query] the outcome of [query_procmap] by
      address, [cached] are entries found in the [entry_cache], if any; the
      cache afterwards is the second component. *)
  Inductive source :=
  | Text (items : list (res maps_entry))
  | Query (query : N -> res (option maps_entry)).

  Definition normalize_iter (m : mode) (v : nenv) (o : nopts) (cache_vmas : bool) (fuel : nat)
      (src : source) (cached : option (list maps_entry)) (addrs : list N)
    : res uoutput * option (list maps_entry) :=
    if cache_vmas then
      let '(r, cached', _) :=
        get_or_try_init cached (match src with
                                | Text items => collect items
                                | Query query => query_all fuel query 0
                                end) in
      (let* es := r in normalize_impl m v o iter_next fuel (map Ok es) addrs, cached')
    else
      (match src with
       | Text items => normalize_impl m v o iter_next fuel items addrs
       | Query query => normalize_impl m v o (query_next query) fuel tt addrs
       end, cached).

  (** lines 325-340 [normalize_user_addrs_opts] *)
  Definition normalize_opts (m : mode) (v : nenv) (o : nopts) (cache_vmas : bool) (fuel : nat)
      (src : source) (cached : option (list maps_entry)) (addrs : list N) : res uoutput :=
    if no_sorted_addrs o then fst (normalize_iter m v o cache_vmas fuel src cached addrs)
    else
      with_ordered_elems addrs uo_outputs (fun r out => UOutput out (uo_meta r))
        (fun sorted_addrs => fst (normalize_iter m v o cache_vmas fuel src cached sorted_addrs)).
End Handler.
Arguments umeta : clear implicits.
Arguments nenv : clear implicits.
Arguments uoutput : clear implicits.
Arguments nstate : clear implicits.
Arguments vdso : clear implicits.
