(** * Model of /repo/src/file_cache.rs (on top of src/insert_map.rs)

    Paths are abstract identifiers ([N]).  The file system is a parameter of
    each operation: [fs_stat] and [fs_open] give the outcome of [stat(2)] and
    [open(2)] at the time the operation makes the call, so theorems that
    quantify over a separate file system per operation allow for any change
    of files in between, including between the [stat] and the [open].
    [File] is an opaque type of open files, [T] the type of the cached data. *)

From Verif Require Import Base Util Amap.
Local Open Scope N_scope.

(** src/file_cache.rs lines 15-25 [FileMeta] *)
Record file_meta := FileMeta {
  fm_dev : N; fm_inode : N; fm_size : N; fm_mtime_sec : Z; fm_mtime_nsec : Z
}.
Definition meta_eqb (a b : file_meta) : bool :=
  (fm_dev a =? fm_dev b) && (fm_inode a =? fm_inode b) && (fm_size a =? fm_size b)
  && (fm_mtime_sec a =? fm_mtime_sec b)%Z && (fm_mtime_nsec a =? fm_mtime_nsec b)%Z.
Lemma meta_eqb_spec : forall a b, reflect (a = b) (meta_eqb a b).
Proof.
  intros [d1 i1 s1 t1 n1] [d2 i2 s2 t2 n2]. unfold meta_eqb. simpl.
  destruct (N.eqb_spec d1 d2); destruct (N.eqb_spec i1 i2); destruct (N.eqb_spec s1 s2);
  destruct (Z.eqb_spec t1 t2); destruct (Z.eqb_spec n1 n2); simpl; constructor; congruence.
Qed.

Definition path := N.

(** lines 68-72 [PinState] *)
Inductive pin_state := Pinned | Unpinned.
Definition is_pinned (p : pin_state) : bool := match p with Pinned => true | Unpinned => false end.

(** lines 74-82 [PathEntry] *)
Record path_entry := PathEntry {
  pe_current : option (pin_state * file_meta);
  pe_previous : list file_meta
}.
(** lines 100-107 [PathEntry::default] *)
Definition path_entry_default := PathEntry None [].

(** [Vec::contains] *)
Definition contains (l : list file_meta) (m : file_meta) : bool := existsb (meta_eqb m) l.

(** lines 90-98 [PathEntry::metas] *)
Definition metas (pe : path_entry) : list file_meta :=
  match pe_current pe with
  | Some (_, meta) =>
      if contains (pe_previous pe) meta then pe_previous pe else pe_previous pe ++ [meta]
  | None => pe_previous pe
  end.

Section FileCache.
  Context {File T : Type}.

  (** lines 45-54 [Entry] *)
  Record entry := Entry { e_references : nat; e_file : File; e_value : option T }.

  (** lines 159-167 [FileCache] *)
  Record file_cache := FileCache {
    fc_cache : list (path * path_entry);
    fc_entries : list (file_meta * entry);
    fc_auto_reload : bool
  }.

  (** lines 122-135 [Builder::build] *)
  Definition fc_new (auto_reload : bool) : file_cache := FileCache [] [] auto_reload.

  (** The file system as seen by one operation. *)
  Record fs := Fs { fs_stat : path -> outcome file_meta; fs_open : path -> outcome File }.

  Definition eget := @aget file_meta entry meta_eqb.
  Definition eset := @aset file_meta entry meta_eqb.
  Definition edel := @adel file_meta entry meta_eqb.
  Definition pget := @aget path path_entry N.eqb.
  Definition pset := @aset path path_entry N.eqb.
  Definition pdel := @adel path path_entry N.eqb.

  (** lines 180-214 [get_or_insert].  The entry map and the path entry are
      updated in place in the code; here their state after the call is
      returned alongside the result, also if that is an error.  The resulting
      meta data identifies the slot handed out. *)
  Definition get_or_insert (w : fs) (p : path) (pe : path_entry)
      (entries : list (file_meta * entry))
    : res file_meta * path_entry * list (file_meta * entry) :=
    match fs_stat w p with
    | Bad k => (Err k, pe, entries)
    | Good meta =>
        (* [InsertMap::get_or_try_insert], src/insert_map.rs lines 74-94 *)
        let '(r, entries1) :=
          match eget meta entries with
          | Some e => (Ok e, entries)
          | None =>
              match fs_open w p with
              | Bad k => (Err k, entries)
              | Good file => let e := Entry 0 file None in (Ok e, eset meta e entries)
              end
          end in
        match r with
        | Ok e =>
            let current := pe_current pe in
            let changed := match current with
                           | None => true
                           | Some (_, current_meta) => negb (meta_eqb current_meta meta)
                           end in
            if changed then
              let previous :=
                match current with
                | Some (_, previous_meta) =>
                    if contains (pe_previous pe) previous_meta then pe_previous pe
                    else pe_previous pe ++ [previous_meta]
                | None => pe_previous pe
                end in
              let entries2 :=
                if contains previous meta then entries1
                else eset meta (Entry (S (e_references e)) (e_file e) (e_value e)) entries1 in
              (Ok meta, PathEntry (Some (Unpinned, meta)) previous, entries2)
            else
              (Ok meta, PathEntry (Some (Unpinned, meta)) (pe_previous pe), entries1)
        | Err k => (Err k, pe, entries1)
        | Panic => (Panic, pe, entries1)
        | NoFuel => (NoFuel, pe, entries1)
        end
    end.

  (** lines 217-242 [entry]: the slot (by its meta data), and the cache
      afterwards. *)
  Definition fc_entry (w : fs) (p : path) (c : file_cache) : res file_meta * file_cache :=
    match pget p (fc_cache c) with
    | Some pe =>
        let slow :=
          let '(r, pe', entries') := get_or_insert w p pe (fc_entries c) in
          (r, FileCache (pset p pe' (fc_cache c)) entries' (fc_auto_reload c)) in
        match pe_current pe with
        | Some (pin, current_meta) =>
            if negb (fc_auto_reload c) || is_pinned pin then
              match eget current_meta (fc_entries c) with
              | Some _ => (Ok current_meta, c)
              | None => (Panic, c)
              end
            else slow
        | None => slow
        end
    | None =>
        let '(r, pe', entries') := get_or_insert w p path_entry_default (fc_entries c) in
        match r with
        | Ok meta =>
            (* [cache.get_or_insert], with the path known not to be present. *)
            (Ok meta, FileCache (pset p pe' (fc_cache c)) entries' (fc_auto_reload c))
        | r => (r, FileCache (fc_cache c) entries' (fc_auto_reload c))
        end
    end.

  (** What users of the cache do with the slot handed out, e.g.
      src/symbolize/symbolizer.rs [elf_resolver], [gsym_resolver] etc.:
      [cell.get_or_try_init_(init)] on the slot's [OnceCell]. [init] maps the
      open file to the outcome of creating the data. *)
  Definition fc_fill (meta : file_meta) (init : File -> outcome T) (c : file_cache)
    : res T * file_cache :=
    match eget meta (fc_entries c) with
    | None => (Panic, c)
    | Some e =>
        let '(r, value', _) := get_or_try_init (e_value e) (of_outcome (init (e_file e))) in
        (r, FileCache (fc_cache c)
              (eset meta (Entry (e_references e) (e_file e) value') (fc_entries c))
              (fc_auto_reload c))
    end.

  (** lines 244-249 [set_pin_state] *)
  Definition set_pin_state (p : path) (pin : pin_state) (c : file_cache) : option file_cache :=
    match pget p (fc_cache c) with
    | None => None
    | Some pe =>
        match pe_current pe with
        | None => None
        | Some (_, meta) =>
            Some (FileCache (pset p (PathEntry (Some (pin, meta)) (pe_previous pe)) (fc_cache c))
                    (fc_entries c) (fc_auto_reload c))
        end
    end.
  (** lines 257-263 [pin], [unpin] *)
  Definition fc_pin p := set_pin_state p Pinned.
  Definition fc_unpin p := set_pin_state p Unpinned.

  (** lines 278-291: the loop of [evict]. The [debug_assert_ne!(references, 0)]
      is a panic here. *)
  Fixpoint evict_loop (ms : list file_meta) (entries : list (file_meta * entry)) (evicted : bool)
    : res (list (file_meta * entry) * bool) :=
    match ms with
    | [] => Ok (entries, evicted)
    | meta :: ms' =>
        let* e := unwrap (eget meta entries) in
        match e_references e with
        | O => Panic
        | S O => evict_loop ms' (edel meta entries) true
        | S (S n) => evict_loop ms' (eset meta (Entry (S n) (e_file e) (e_value e)) entries) evicted
        end
    end.
  (** lines 273-293 [evict] *)
  Definition fc_evict (p : path) (c : file_cache) : res (bool * file_cache) :=
    match pget p (fc_cache c) with
    | None => Ok (false, c)
    | Some pe =>
        let* '(entries', evicted) := evict_loop (metas pe) (fc_entries c) false in
        Ok (evicted, FileCache (pdel p (fc_cache c)) entries' (fc_auto_reload c))
    end.

  (** ** Histories *)
  Inductive op :=
  | OpEntry (w : fs) (p : path) (init : File -> outcome T)  (* look up, then fill the slot *)
  | OpPin (p : path)
  | OpUnpin (p : path)
  | OpEvict (p : path).

  (** What the caller observes. *)
  Inductive obs :=
  | ObsEntry (slot : file_meta) (file : File) (value : res T)
  | ObsFail (k : ekind)
  | ObsPin (done : bool)
  | ObsEvict (evicted : bool).

  Definition fc_step (c : file_cache) (o : op) : res (obs * file_cache) :=
    match o with
    | OpEntry w p init =>
        let '(r, c1) := fc_entry w p c in
        match r with
        | Ok meta =>
            let* e := unwrap (eget meta (fc_entries c1)) in
            let '(v, c2) := fc_fill meta init c1 in
            Ok (ObsEntry meta (e_file e) v, c2)
        | Err k => Ok (ObsFail k, c1)
        | Panic => Panic
        | NoFuel => NoFuel
        end
    | OpPin p =>
        match fc_pin p c with
        | Some c' => Ok (ObsPin true, c')
        | None => Ok (ObsPin false, c)
        end
    | OpUnpin p =>
        match fc_unpin p c with
        | Some c' => Ok (ObsPin true, c')
        | None => Ok (ObsPin false, c)
        end
    | OpEvict p =>
        let* '(b, c') := fc_evict p c in Ok (ObsEvict b, c')
    end.

  (** Run a history; the trace pairs operations with observations. *)
  Fixpoint fc_run (c : file_cache) (h : list op) : res (list (op * obs) * file_cache) :=
    match h with
    | [] => Ok ([], c)
    | o :: h' =>
        let* '(b, c1) := fc_step c o in
        let* '(tr, c2) := fc_run c1 h' in
        Ok ((o, b) :: tr, c2)
    end.
End FileCache.
Arguments entry : clear implicits.
Arguments file_cache : clear implicits.
Arguments fs : clear implicits.
Arguments op : clear implicits.
Arguments obs : clear implicits.
