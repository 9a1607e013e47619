(** * Model of /repo/src/maps.rs, and of the map query of
      /repo/src/normalize/ioctl.rs

    A process' memory map: parsing its textual form, and looking up entries
    through the kernel's query interface. *)

From Verif Require Import Base Util.
Local Open Scope N_scope.

(** src/maps.rs lines 33-53 and 66-78 [EntryPath], [PathName].  Paths and components are
    byte strings.  ([String::from_utf8_lossy] on components, line 224, is left
    out: it is the identity on valid UTF-8, and the only use of a component,
    the comparison with "[vdso]", is not affected by it.) *)
Inductive path_name :=
| PPath (maps_file symbolic_path : list N)
| PComponent (name : list N).

(** src/maps.rs lines 100-112 [Perm] *)
Definition perm_R : N := 4.
Definition perm_W : N := 2.
Definition perm_X : N := 1.

(** src/maps.rs lines 160-168 [MapsEntry] *)
Record maps_entry := MapsEntry {
  me_start : N;
  me_end : N;
  me_perm : N;
  me_offset : N;
  me_path : option path_name;
  me_build_id : option (list N)
}.

(** ** Formatting, as done by [format!("{:x}")] and [format!("{}")] *)
Definition digit_char (d : N) : N := if d <? 10 then 48 + d else 87 + d.
(** Digits of [v], most significant first, before [acc]; none for 0.  As many
    steps as there are bits are always enough. *)
Fixpoint fmt_loop (base : N) (fuel : nat) (v : N) (acc : list N) : list N :=
  match fuel with
  | O => acc
  | S fuel' =>
      if v =? 0 then acc
      else fmt_loop base fuel' (v / base) (digit_char (v mod base) :: acc)
  end.
Definition fmt_num (base v : N) : list N :=
  if v =? 0 then [48] else fmt_loop base (N.size_nat v) v [].
Definition fmt_hex := fmt_num 16.
Definition fmt_dec := fmt_num 10.

(** ** ASCII white space ([u8::is_ascii_whitespace], [<[u8]>::trim_ascii]) *)
Definition is_ws (b : N) : bool :=
  (b =? 32) || (b =? 9) || (b =? 10) || (b =? 12) || (b =? 13).
Fixpoint trim_start (l : list N) : list N :=
  match l with
  | [] => []
  | b :: l' => if is_ws b then trim_start l' else l
  end.
Definition trim_ascii (l : list N) : list N := rev (trim_start (rev (trim_start l))).

(** [<[u8]>::strip_prefix], [strip_suffix] *)
Fixpoint strip_prefix (p l : list N) : option (list N) :=
  match p, l with
  | [], _ => Some l
  | x :: p', y :: l' => if x =? y then strip_prefix p' l' else None
  | _ :: _, [] => None
  end.
Definition strip_suffix (s l : list N) : option (list N) :=
  match strip_prefix (rev s) (rev l) with
  | Some r => Some (rev r)
  | None => None
  end.

(** " (deleted)" *)
Definition deleted_suffix : list N := [32; 40; 100; 101; 108; 101; 116; 101; 100; 41].
(** "/proc/" and "/map_files/" *)
Definition proc_prefix : list N := [47; 112; 114; 111; 99; 47].
Definition map_files_infix : list N := [47; 109; 97; 112; 95; 102; 105; 108; 101; 115; 47].

Definition map_files_path (pid start end_ : N) : list N :=
  proc_prefix ++ fmt_dec pid ++ map_files_infix ++ fmt_hex start ++ [45] ++ fmt_hex end_.

(** src/maps.rs lines 197-229 [parse_path_name]. [pid] is the resolved PID. *)
Definition parse_path_name (path : list N) (pid vma_start vma_end : N) : option path_name :=
  match path with
  | [] => None
  | b :: _ =>
      if b =? 47 then
        let symbolic_path :=
          match strip_suffix deleted_suffix path with Some p => p | None => path end in
        Some (PPath (map_files_path pid vma_start vma_end) symbolic_path)
      else Some (PComponent path)
  end.

(** src/maps.rs lines 231-243 [parse_mode_str] *)
Definition parse_mode_str (mode : list N) : option N :=
  match mode with
  | r :: w :: x :: _ =>
      let perm := 0 in
      let perm := if r =? 114 then N.lor perm perm_R else perm in
      let perm := if w =? 119 then N.lor perm perm_W else perm in
      let perm := if x =? 120 then N.lor perm perm_X else perm in
      Some perm
  | _ => None
  end.

(** src/maps.rs lines 246-337 [parse_maps_line] *)
Definition parse_maps_line (m : mode) (line : list N) (pid : N) : res maps_entry :=
  let* '(address_str, line) := of_option EInvalidData (split_once is_ws line) in
  let* '(loaded_str, end_str) :=
    of_option EInvalidData (split_once (fun b => b =? 45) address_str) in
  let* loaded_addr := ok_or EInvalidData (from_radix_16 m loaded_str) in
  let* end_addr := ok_or EInvalidData (from_radix_16 m end_str) in
  let* '(mode_str, line) := of_option EInvalidData (split_once is_ws line) in
  let* perm := of_option EInvalidData (parse_mode_str mode_str) in
  let* '(offset_str, line) := of_option EInvalidData (split_once is_ws line) in
  let* offset := ok_or EInvalidData (from_radix_16 m offset_str) in
  let* '(_, line) := of_option EInvalidData (split_once is_ws line) in
  let path_str :=
    match split_once is_ws line with
    | Some (_, line) => trim_ascii line
    | None => []
    end in
  Ok (MapsEntry loaded_addr end_addr perm offset
        (parse_path_name path_str pid loaded_addr end_addr) None).

(** Splitting the text into lines that include their line feed, as
    [BufRead::read_until] does. *)
Fixpoint read_lines (text : list N) : list (list N) :=
  match text with
  | [] => []
  | b :: rest =>
      if b =? 10 then [b] :: read_lines rest
      else match read_lines rest with
           | [] => [[b]]
           | l :: ls => (b :: l) :: ls
           end
  end.

(** src/maps.rs lines 347-385, [MapsEntryIter], [parse_file]: the items of the
    iterator.  Read errors are not modelled.  (Lines are never empty, so the
    check of line 362 always succeeds.) *)
Definition parse_file (m : mode) (text : list N) (pid : N) : list (res maps_entry) :=
  map (fun line => parse_maps_line m line pid) (read_lines text).

(** src/maps.rs lines 398-403 [filter_relevant] *)
Definition filter_relevant (e : maps_entry) : bool :=
  negb (N.land (me_perm e) (N.lor perm_R perm_X) =? 0).

(** src/maps.rs lines 407-410 [parse_filtered] *)
Definition parse_filtered (m : mode) (text : list N) (pid : N) : list (res maps_entry) :=
  filter (fun r => match r with Ok e => filter_relevant e | _ => true end) (parse_file m text pid).

(** ** The kernel's query interface

    The kernel's side of [PROCMAP_QUERY]: what the query reports about a
    mapping, as in include/uapi/linux/fs.h [struct procmap_query]. [vma_name]
    is without its terminating NUL. *)
Record vma := Vma {
  vma_start : N; vma_end : N; vma_flags : N; vma_offset : N;
  vma_name : list N; vma_build_id : list N
}.
(** src/normalize/ioctl.rs lines 27-29: READABLE, WRITABLE, EXECUTABLE flags. *)
Definition VMA_READABLE : N := 1.
Definition VMA_WRITABLE : N := 2.
Definition VMA_EXECUTABLE : N := 4.

(** src/normalize/ioctl.rs lines 121-135 [vma_flags_to_perm] *)
Definition vma_flags_to_perm (flags : N) : N :=
  let perm := 0 in
  let perm := if negb (N.land flags VMA_READABLE =? 0) then N.lor perm perm_R else perm in
  let perm := if negb (N.land flags VMA_WRITABLE =? 0) then N.lor perm perm_W else perm in
  let perm := if negb (N.land flags VMA_EXECUTABLE =? 0) then N.lor perm perm_X else perm in
  perm.

(** src/normalize/ioctl.rs lines 142-224 [query_procmap], with the outcome of
    the system call given: [Bad] for an error other than ENOENT, [Good None]
    for ENOENT. *)
Definition query_procmap (sys : N -> outcome (option vma)) (pid addr : N) (build_id : bool)
  : res (option maps_entry) :=
  let* r := of_outcome (sys addr) in
  match r with
  | None => Ok None
  | Some v =>
      Ok (Some (MapsEntry (vma_start v) (vma_end v) (vma_flags_to_perm (vma_flags v)) (vma_offset v)
                  (parse_path_name (vma_name v) pid (vma_start v) (vma_end v))
                  (if build_id && (0 <? nlen (vma_build_id v)) then Some (vma_build_id v) else None)))
  end.
