(** * The environment of a [Normalizer], made of the contents of files

    Like Host.v, for src/normalize/. *)

From Verif Require Import Base Maps Sym Inspect Elf BuildId FileCache Normalize Symbolizer Host.
Local Open Scope N_scope.

Section Host.
  Context (x : ext) (m : mode) (pick : N -> N -> N) (rest : world (N * list N) parser).
  Notation w := (host_world x m pick rest).

  (** src/normalize/buildid.rs lines 112-116 [read_elf_build_id_from_mmap].
      Files whose notes are out of bounds make it panic ([C31_crash_refuted]);
      here they are just Bad. *)
  Definition build_id_of (ptr : N) (data : list N) : outcome (option (list N)) :=
    to_outcome (read_build_id x m (Mem ptr data)).
  (** src/normalize/normalizer.rs lines 352-374 [read_build_id], if enabled *)
  Definition file_build_id_of (h : host) (p : list N) : outcome (option (list N)) :=
    match h_open h (path_of p) with Good (ptr, data) => build_id_of ptr data | Bad k => Bad k end.
  (** lines 395-426: members and their build IDs *)
  Definition zmember_of (mb : member) : zmember :=
    ZMember (mb_path mb) (mb_offset mb) (mb_len mb)
      (match mb_mmap mb with Some (ptr, data) => build_id_of ptr data | None => Bad EInvalidInput end).
  (** lines 384-393, with src/file_cache.rs [entry] for a new cache *)
  Definition zarchive_of (h : host) (p : list N) : outcome (list (outcome zmember)) :=
    match h_stat h (path_of p) with
    | Bad k => Bad k
    | Good _ =>
        match h_open h (path_of p) with
        | Bad k => Bad k
        | Good f =>
            match archive_of m f with
            | Bad k => Bad k
            | Good ms => Good (map (fun o => match o with Good mb => Good (zmember_of mb) | Bad k => Bad k end) ms)
            end
        end
    end.
  (** src/normalize/user.rs lines 172-177: neither demangling nor code
      information *)
  Definition vdso_config : config := Config Basic (fun name _ => name) 0.
  (** normalizer.rs lines 432-442 [vdso_parser], for a new normalizer *)
  Definition vdso_of (h : host) (p : pid) (start end_ : N) : outcome (vdso sym) :=
    match create_vdso_parser (w h) p start end_ with
    | Ok r => Good (Vdso (r_virt r) (fun va =>
                let* y := with_resolver m vdso_config va r in
                Ok (match y with Known s => inl s | Unknown why => inr why end)))
    | Err k => Bad k
    | Panic | NoFuel => Bad EInvalidData
    end.
  Definition host_nenv (h : host) (p : pid) : nenv sym := NEnv (file_build_id_of h) (zarchive_of h) (vdso_of h p).

  (** lines 283-304: without the query interface *)
  Definition host_normalize (h : host) (p : pid) (o : nopts) (cache_vmas : bool) (addrs : list N) : res (uoutput sym) :=
    let* text := of_outcome (h_maps h p) in
    normalize_opts m (host_nenv h p) o cache_vmas (S (length text))
      (Text (parse_filtered m text (match p with Pid n => n | Slf => h_pid h end))) None addrs.
End Host.
