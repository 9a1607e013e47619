(** * Separate debug files (/repo/src/dwarf/debug_link.rs and
    /repo/src/dwarf/resolver.rs) *)

From Verif Require Import Base Util Elf Ksym.
From Verif Require Nom.
From Coq Require Import String.
Local Close Scope string_scope.
Local Open Scope N_scope.
Local Notation length := List.length.

(** ** Paths (std)

    A path is what [Path::components] makes of it, which is what comparison of
    paths looks at: whether there is a root, and the components after it. Empty
    components are dropped, and so are those that are [.], except for a leading
    one. *)
Record path := Path { p_abs : bool; p_comps : list (list N) }.
Fixpoint split_slash (l : list N) (cur : list N) : list (list N) :=
  match l with
  | [] => [rev cur]
  | c :: l => if c =? 47 then rev cur :: split_slash l [] else split_slash l (c :: cur)
  end.
Definition dot : list N := [46].
Definition dots : list N := [46; 46].
Definition kept (c : list N) : bool := negb (beq c [] || beq c dot).
Definition parse_path (l : list N) : path :=
  match split_slash l [] with
  | [] => Path false []
  | c :: cs =>
      match l with
      | 47 :: _ => Path true (filter kept cs)
      | _ => Path false ((if beq c [] then [] else [c]) ++ filter kept cs)
      end
  end.
Definition is_empty (p : path) : bool :=
  negb (p_abs p) && match p_comps p with [] => true | _ => false end.
Definition path_eqb (p q : path) : bool :=
  Bool.eqb (p_abs p) (p_abs q) && if list_eq_dec (list_eq_dec N.eq_dec) (p_comps p) (p_comps q) then true else false.
(** [Path::join] *)
Definition pjoin (p q : path) : path :=
  if p_abs q then q
  else if is_empty p then q
  else Path (p_abs p) (p_comps p ++ match p_comps q with
                                    | c :: cs => if beq c dot then cs else c :: cs
                                    | [] => []
                                    end).
(** [Path::parent] *)
Definition parent (p : path) : option path :=
  match p_comps p with [] => None | _ => Some (Path (p_abs p) (removelast (p_comps p))) end.
(** [Path::file_name]: whether there is one *)
Definition has_file_name (p : path) : bool :=
  match p_comps p with [] => false | cs => negb (beq (last cs []) dots || beq (last cs []) dot) end.
(** [PathBuf::set_file_name] *)
Definition set_file_name (p name : path) : path :=
  pjoin (if has_file_name p then Path (p_abs p) (removelast (p_comps p)) else p) name.

(** ** debug_link.rs: candidates *)

(** lines 32-45 [State] *)
Inductive dstate :=
| SBuildId
| SFixedDir (idx : nat)
| SCanonicalTarget (linkee : path)
| SDynamicDirs (idx : nat) (rel dir : path).
(** lines 47-58 [DebugFileIter] without its state *)
Record diter := DIter {
  di_dirs : list path;
  di_linker : option path;
  di_linkee : path;
  di_build_id : option (list N)
}.
Definition hex_byte (b : N) : list N := [hex_char (b / 16); hex_char (b mod 16)].
Definition build_id_dir : path := Path true (map Nom.bs ["usr"; "lib"; "debug"; ".build-id"]%string).
(** lines 108-121 *)
Definition build_id_path (id : list N) : res path :=
  match id with
  | [] => Panic
  | first :: rest =>
      Ok (pjoin (pjoin build_id_dir (Path false [hex_byte first]))
            (Path false [List.concat (map hex_byte rest) ++ Nom.bs ".debug"%string]))
  end.
(** lines 93-187 [next], up to where it calls itself or [report_or_next] *)
Inductive outcome := Report (p : path) | Again | Stop.
Definition step (it : diter) (st : dstate) : res (dstate * outcome) :=
  match st with
  | SBuildId =>
      match di_build_id it with
      | None => Ok (SFixedDir 0, Again)
      | Some id =>
          if nlen id <? 8 then Ok (SFixedDir 0, Again)
          else let* p := build_id_path id in Ok (SFixedDir 0, Report p)
      end
  | SFixedDir idx =>
      match nth_error (di_dirs it) idx with
      | Some dir => Ok (SFixedDir (S idx), Report (pjoin dir (di_linkee it)))
      | None =>
          match di_linker it with
          | Some linker => Ok (SCanonicalTarget (set_file_name linker (di_linkee it)), Again)
          | None => Ok (st, Stop)
          end
      end
  | SCanonicalTarget linkee =>
      let comps := if p_abs linkee then p_comps linkee else tl (p_comps linkee) in
      let rel := Path false (removelast comps) in
      Ok (SDynamicDirs 0 rel rel, Report linkee)
  | SDynamicDirs idx rel dir =>
      match nth_error (di_dirs it) idx with
      | Some fixed =>
          let '(idx, dir') :=
            match parent dir with
            | Some p => if is_empty p then (S idx, rel) else (idx, p)
            | None => (S idx, rel)
            end in
          Ok (SDynamicDirs idx rel dir', Report (pjoin (pjoin fixed dir) (di_linkee it)))
      | None => Ok (st, Stop)
      end
  end.
Definition is_linker (it : diter) (p : path) : bool :=
  match di_linker it with Some l => path_eqb p l | None => false end.
(** lines 76-87 [report_or_next], 93-187 [next] *)
Fixpoint next (fuel : nat) (it : diter) (st : dstate) : res (option path * dstate) :=
  match fuel with
  | O => NoFuel
  | S fuel =>
      let* '(st, o) := step it st in
      match o with
      | Report p => if is_linker it p then next fuel it st else Ok (Some p, st)
      | Again => next fuel it st
      | Stop => Ok (None, st)
      end
  end.
(** All of them *)
Fixpoint collect (fuel : nat) (it : diter) (st : dstate) : res (list path) :=
  match fuel with
  | O => NoFuel
  | S fuel' =>
      let* '(o, st) := next fuel it st in
      match o with
      | Some p => let* l := collect fuel' it st in Ok (p :: l)
      | None => Ok []
      end
  end.
Definition steps (it : diter) : nat :=
  let n := length (di_dirs it) in
  let c := (length (p_comps (di_linkee it)) +
            match di_linker it with Some l => length (p_comps l) | None => 0 end)%nat in
  (4 + n + n * (1 + c))%nat.
Definition candidates (it : diter) : res (list path) := collect (S (steps it)) it SBuildId.

(** ** debug_link.rs: the section *)

(** lines 206-230 [parse_debug_link_section_data] *)
Definition parse_debug_link (m : mode) (data : list N) : res (list N * N) :=
  let* '(file, rest) := ok_or EInvalidData (read_cstr data) in
  let cur := nlen data - nlen rest in
  let* crc_offset := align_up m two64 cur 4 in
  let* d := sub64 m crc_offset cur in
  let* rest := ok_or EInvalidData (advance d rest) in
  let* '(crc, _) := ok_or EInvalidData (read_u32 rest) in
  Ok (file, crc).
(** lines 190-203 [read_debug_link] *)
Definition n_debuglink : list N := Nom.bs ".gnu_debuglink"%string.
Definition read_debug_link (x : ext) (m : mode) (b : backend) : res (option (list N * N)) :=
  match find_section b n_debuglink with
  | Ok (Some idx) =>
      match section_data x m b idx with
      | Ok (_, data) => let* r := parse_debug_link m data in Ok (Some r)
      | Err _ => Panic
      | Panic => Panic
      | NoFuel => NoFuel
      end
  | Ok None | Err _ => Ok None
  | Panic => Panic
  | NoFuel => NoFuel
  end.

(** ** resolver.rs *)

(** The file system, and opening files: [fs_open] gives the contents. *)
Inductive canonical := Canonical (p : path) | NotThere | CanonicalError.
Record dfs := DFs {
  fs_canonical : path -> canonical;
  fs_build_id : path -> option (list N);
  fs_exists : path -> bool;
  fs_open : path -> res (list N)
}.
(** lines 98-109 [try_canonicalize], as used *)
Definition try_canonicalize (fs : dfs) (p : path) : option path :=
  match fs_canonical fs p with
  | Canonical p => Some p
  | NotThere => Some p
  | CanonicalError => None
  end.
(** lines 120-136: the loop over candidates *)
Fixpoint first_existing (fuel : nat) (fs : dfs) (it : diter) (st : dstate) : res (option path) :=
  match fuel with
  | O => NoFuel
  | S fuel' =>
      let* '(o, st) := next fuel it st in
      match o with
      | Some p => if fs_exists fs p then Ok (Some p) else first_existing fuel' fs it st
      | None => Ok None
      end
  end.
(** lines 119-141 [find_debug_file] *)
Definition debug_iter (fs : dfs) (file : path) (linker : option path) (dirs : list path) : diter :=
  let canonical := match linker with Some l => try_canonicalize fs l | None => None end in
  let id := match canonical with Some l => fs_build_id fs l | None => None end in
  DIter dirs canonical file id.
Definition find_debug_file (fs : dfs) (file : path) (linker : option path) (dirs : list path)
  : res (option path) :=
  let it := debug_iter fs file linker dirs in
  first_existing (S (steps it)) fs it SBuildId.
(** lines 144-189 [try_deref_debug_link]; [crc] is the checksum function. The
    result is the path and the contents of the file used. *)
Definition try_deref_debug_link (x : ext) (m : mode) (fs : dfs) (crc : list N -> N) (b : backend)
    (module : option path) (dirs : list path) : res (option (path * list N)) :=
  let* link := read_debug_link x m b in
  match link with
  | None => Ok None
  | Some (file, checksum) =>
      let* found := find_debug_file fs (parse_path file) module dirs in
      match found with
      | None => Ok None
      | Some path =>
          let* data := fs_open fs path in
          if crc data =? checksum then Ok (Some (path, data)) else Err EInvalidData
      end
  end.
