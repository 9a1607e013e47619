(** * What is expected of a [Normalizer] used for any number of calls *)

From Verif Require Import Base Util Amap Maps Sym FileCache Symbolizer Normalize NormCache.
Local Open Scope N_scope.

Section Spec.
  Context {File Sym : Type}.
  Notation nsys := (nsys File Sym).
  Notation nworld := (nworld File).
  Notation call := (call File).
  Implicit Types (y : nsys) (w : nworld) (c : call) (h : list call) (cf : nconf).

  (** ** Without any caches: files and the vDSO, in the given world *)
  Definition members_of (ar : archive) : list (outcome zmember) :=
    map (fun x => match x with
                  | Good (path, off, len) => Good (ZMember path off len (ar_build_id ar off ((off + len) mod two64)))
                  | Bad k => Bad k
                  end) (ar_members ar).
  Definition uncached y w (p : pid) : nenv Sym :=
    NEnv (fun path => match fs_open (nw_fs w) (path_of path) with Good f => ny_build_id y f | Bad k => Bad k end)
         (fun path => match fs_stat (nw_fs w) (path_of path) with
                      | Good _ =>
                          match fs_open (nw_fs w) (path_of path) with
                          | Good f => match ny_archive y f with Good ar => Good (members_of ar) | Bad k => Bad k end
                          | Bad k => Bad k
                          end
                      | Bad k => Bad k
                      end)
         (fun start end_ =>
            match p, nw_own_vdso w with
            | Slf, _ => Good (ny_vdso y start end_)
            | Pid _, Good (Some (s, e)) => Good (ny_vdso y s e)
            | Pid _, Good None => Bad ENotFound
            | Pid _, Bad k => Bad k
            end).
  (** The mappings, by means of the source of those that is set *)
  Definition mappings cf c : outcome source :=
    if nc_query cf then
      match nw_query (cl_world c) (cl_pid c) (nc_build_ids cf) with Good q => Good (Query q) | Bad k => Bad k end
    else
      match nw_text (cl_world c) (cl_pid c) with Good l => Good (Text l) | Bad k => Bad k end.
  Definition options cf c : nopts :=
    NOpts (co_sorted_addrs (cl_opts c)) (co_map_files (cl_opts c)) (co_apk_to_elf (cl_opts c)) (nc_build_ids cf).
  (** A call that knows of nothing but the given source of mappings *)
  Definition alone y cf c (src : source) : res (uoutput Sym) :=
    normalize_opts (cl_mode c) (uncached y (cl_world c) (cl_pid c)) (options cf c) false (cl_fuel c) src None
      (cl_addrs c).

  (** ** All mappings of a process *)
  Inductive walk (q : N -> res (option maps_entry)) : N -> list maps_entry -> Prop :=
  | WEnd : forall a, q a = Ok None -> walk q a []
  | WNext : forall a e l, q a = Ok (Some e) -> walk q (me_end e) l -> walk q a (e :: l).
  Definition reads cf c (es : list maps_entry) : Prop :=
    match mappings cf c with
    | Good (Text items) => items = map Ok es
    | Good (Query q) => exists l, walk q 0 l /\ es = filter filter_relevant l /\ (length l < cl_fuel c)%nat
    | Bad _ => False
    end.
  (** Those read by the first call for the process to be able to *)
  Definition first_read cf h (p : pid) (es : list maps_entry) : Prop :=
    exists h1 c h2, h = h1 ++ c :: h2 /\ cl_pid c = p /\ reads cf c es /\
      forall c', In c' h1 -> cl_pid c' = p -> forall es', ~ reads cf c' es'.
  Definition none_read cf h (p : pid) : Prop :=
    forall c, In c h -> cl_pid c = p -> forall es, ~ reads cf c es.

  (** ** Calls during which files are what their identity says *)
  Definition honest h : Prop :=
    (forall c c' p p' m, In c h -> In c' h ->
       fs_stat (nw_fs (cl_world c)) p = Good m -> fs_stat (nw_fs (cl_world c')) p' = Good m ->
       fs_open (nw_fs (cl_world c)) p = fs_open (nw_fs (cl_world c')) p') /\
    (forall c p k, In c h -> fs_stat (nw_fs (cl_world c)) p = Bad k ->
       exists k', fs_open (nw_fs (cl_world c)) p = Bad k').

  (** Entries that a call may come across *)
  Definition reports cf c (e : maps_entry) : Prop :=
    match mappings cf c with
    | Good (Text items) => In (Ok e) items
    | Good (Query q) => exists a, q a = Ok (Some e)
    | Bad _ => False
    end.
  Definition is_vdso (e : maps_entry) : Prop := me_path e = Some (PComponent str_vdso).
  Definition is_archive (e : maps_entry) : Prop :=
    exists f s, me_path e = Some (PPath f s) /\ (extension s = str_apk \/ extension s = str_zip).
  (** There is one vDSO, and what is reported for our own process is that *)
  Definition one_vdso cf h (start end_ : N) : Prop :=
    (forall c, In c h -> nw_own_vdso (cl_world c) = Good (Some (start, end_))) /\
    (forall c e, In c h -> cl_pid c = Slf -> reports cf c e -> is_vdso e -> me_start e = start /\ me_end e = end_).
  (** No build IDs of archives *)
  Definition bare_archives cf h : Prop :=
    forall c e, In c h -> reports cf c e -> is_archive e -> me_build_id e = None.

  (** Files are kept open, or what was found in there is kept *)
  Definition keeps_files cf h : Prop :=
    (nc_build_ids cf = true /\ nc_cache_build_ids cf = true) \/ exists c, In c h /\ co_apk_to_elf (cl_opts c) = true.
  Definition as_expected cf h : Prop :=
    (keeps_files cf h -> honest h) /\ (exists start end_, one_vdso cf h start end_) /\ bare_archives cf h.
End Spec.
