(** * Model of the command line tool: /repo/cli/src/main.rs and
      /repo/cli/src/args.rs

    What is printed to standard output is a list of bytes. Paths are printed as
    they are: [Path::display] replaces what is not UTF-8. Parsing of the command
    line itself (clap) and traces are left out. *)

From Verif Require Import Base Num Maps ModMap Sym Inspect FileCache Depmod Normalize Symbolizer Inspector BuildId Host HostNorm.
From Verif Require Import Nom.
From Coq Require Import String.
Local Close Scope string_scope.
Local Open Scope N_scope.
Local Notation length := List.length.

(** ** args.rs *)

(** lines 18-27 [parse_pid], with src/pid.rs lines 37-41 *)
Definition pid_from (n : N) : pid := if n =? 0 then Slf else Pid n.
Definition parse_pid (s : list N) : option pid :=
  let n := match s with
           | 48 :: 120 :: s => from_str_radix 16 (2 ^ 32) s
           | _ => from_str_radix 10 (2 ^ 32) s
           end in
  match n with Some n => Some (pid_from n) | None => None end.
(** lines 30-35 [parse_addr] *)
Definition parse_addr (s : list N) : option N := from_str_radix 16 two64 (trim_0x s).

(** ** Formatting: [{:#x}], [{:#016x}], [{:02x}], [{:<n}] *)
Definition hex_0x (v : N) : list N := 48 :: 120 :: fmt_hex v.
Definition zero_pad (n : nat) (s : list N) : list N := repeat 48 (n - length s) ++ s.
Definition hex_16 (v : N) : list N := 48 :: 120 :: zero_pad 14 (fmt_hex v).
Definition hex_byte (b : N) : list N := zero_pad 2 (fmt_hex b).
(** The width counts characters. *)
Definition starts_char (b : N) : bool := negb ((128 <=? b) && (b <? 192)).
Definition chars (s : list N) : nat := length (filter starts_char s).
Definition left_pad (n : nat) (s : list N) : list N := s ++ repeat 32 (n - chars s).
Definition newline : list N := [10].

(** main.rs lines 35-42 [format_build_id_bytes], 44-50 [format_build_id] *)
Definition format_build_id_bytes (b : list N) : list N := flat_map hex_byte b.
Definition format_build_id (b : option (list N)) : list N :=
  match b with
  | Some b => bs " (build ID: "%string ++ format_build_id_bytes b ++ bs ")"%string
  | None => []
  end.

(** ** lines 53-78 [print_sym_infos] *)
Definition type_text (t : sym_type) : list N :=
  match t with
  | TFunction => bs " [FUNC]"%string
  | TVariable => bs " [VAR]"%string
  | TUndefined => bs " [UNDEF]"%string
  end.
Definition name_width (l : list sym_info) : nat :=
  match l with
  | [] => 0%nat
  | _ => S (fold_right Nat.max 0%nat (map (fun s => length (si_name s)) l))
  end.
Definition sym_info_line (width : nat) (s : sym_info) : list N :=
  left_pad width (si_name s ++ [58]) ++ [32] ++ hex_16 (si_addr s) ++ [32] ++
  left_pad 11 (bs "(size="%string ++ match si_size s with Some n => fmt_dec n | None => bs "N/A"%string end ++ [41]) ++
  type_text (si_type s).
Definition print_sym_infos (l : list sym_info) : list N :=
  flat_map (fun s => sym_info_line (name_width l) s ++ newline) l.

(** lines 80-144 [inspect] *)
Definition by_addr (a b : sym_info) : bool := si_addr a <=? si_addr b.
Section Inspect.
  Context {File Parser : Type}.
  Notation world := (world File Parser).
  (** lines 83-110 *)
  Definition cli_lookup (w : world) (src : isource) (names : list (list N)) : res (list N) :=
    let* result := fst (i_lookup w src names i_new) in
    Ok (print_sym_infos (flat_map (isort by_addr) result)).
  (** lines 111-133 *)
  Definition cli_dump (w : world) (src : isource) : res (list N) :=
    let '(l, r, _) := i_for_each w src (fun _ => true) i_new in
    let* _ := r in Ok (print_sym_infos (isort by_addr l)).
End Inspect.
(** lines 134-142 *)
Definition cli_build_id (r : res (option (list N))) : res (list N) :=
  let* id := r in
  Ok (match id with Some b => format_build_id_bytes b | None => bs "N/A"%string end ++ newline).

(** ** lines 147-189 [normalize] *)
Definition norm_line (addr output : N) (meta : umeta sym) : res (list N) :=
  let head := hex_16 addr ++ bs ": "%string in
  match meta with
  | UApk path => Ok (head ++ bs "file offset "%string ++ hex_0x output ++ bs " in "%string ++ path ++ newline)
  | UElf path build_id =>
      Ok (head ++ bs "file offset "%string ++ hex_0x output ++ bs " in "%string ++ path ++ format_build_id build_id ++ newline)
  | UUnknown _ => Ok (head ++ bs "<unknown>"%string ++ newline)
  | USym _ => Panic
  end.
Fixpoint norm_lines (addrs : list N) (outputs : list (N * nat)) (meta : list (umeta sym)) : res (list N) :=
  match addrs, outputs with
  | addr :: addrs, (output, idx) :: outputs =>
      let* mt := unwrap (nth_error meta idx) in
      let* l := norm_line addr output mt in
      let* ls := norm_lines addrs outputs meta in
      Ok (l ++ ls)
  | _, _ => Ok []
  end.
(** lines 148-165: without the query interface *)
Definition cli_normalize (x : Elf.ext) (m : mode) (pick : N -> N -> N) (rest : world (N * list N) Elf.parser) (h : host) (p : pid)
    (no_build_ids map_files : bool) (addrs : list N) : res (list N) :=
  let* out := host_normalize x m pick rest h p (NOpts false map_files false (negb no_build_ids)) false addrs in
  norm_lines addrs (uo_outputs out) (uo_meta out).

(** ** lines 191-224 [print_frame] *)

(** src/symbolize/mod.rs lines 268-273 [CodeInfo::to_path] *)
Definition to_path (c : code_info) : list N :=
  match ci_dir c with None => ci_file c | Some dir => path_join dir (ci_file c) end.
Definition code_text (c : code_info) : list N :=
  32 :: to_path c ++
  match ci_line c, ci_column c with
  | Some line, Some col => 58 :: fmt_dec line ++ 58 :: fmt_dec col
  | Some line, None => 58 :: fmt_dec line
  | None, _ => []
  end.
Definition print_frame (name : list N) (addr_info : option (N * N * N)) (c : option code_info) : list N :=
  match addr_info with
  | Some (input_addr, addr, offset) =>
      hex_16 input_addr ++ bs ": "%string ++ name ++ bs " @ "%string ++ hex_0x addr ++ bs "+"%string ++ hex_0x offset ++
      match c with Some c => code_text c | None => [] end ++ newline
  | None =>
      left_pad 16 (bs " "%string) ++ bs "  "%string ++ name ++
      match c with Some c => bs " @"%string ++ code_text c | None => [] end ++ bs " [inlined]"%string ++ newline
  end.
(** lines 316-340 *)
Definition print_sym (input_addr : N) (x : symbolized) : list N :=
  match x with
  | Known s =>
      print_frame (sy_name s) (Some (input_addr, sy_addr s, sy_offset s)) (sy_code_info s) ++
      flat_map (fun f => print_frame (if_name f) None (if_code_info f)) (sy_inlined s)
  | Unknown _ => hex_16 input_addr ++ bs ": <no-symbol>"%string ++ newline
  end.
Definition print_syms (addrs : list N) (l : list symbolized) : list N :=
  flat_map (fun '(a, x) => print_sym a x) (combine addrs l).

(** ** lines 227-342 [symbolize] *)
Inductive request :=
| RBreakpad (p : path)
| RElf (p : path) (no_debug_syms : bool)
| RGsym (p : path)
| RProcess (p : pid) (no_debug_syms no_map_files : bool)
| RKernel (k : N).
(** lines 229-301 *)
Definition source_of (r : request) : source * kind :=
  match r with
  | RBreakpad p => (SBreakpad p, FileOffset)
  | RElf p no_debug_syms => (SElf p (negb no_debug_syms), VirtOffset)
  | RGsym p => (SGsymFile p, VirtOffset)
  | RProcess p no_debug_syms no_map_files => (SProcess p (POpts (negb no_debug_syms) true (negb no_map_files) true), AbsAddr)
  | RKernel k => (SKernel k, AbsAddr)
  end.
(** lines 303-314 *)
Definition cli_syms {File Parser} (m : mode) (cf : config) (w : world File Parser) (r : request) (addrs : list N)
  : res (list symbolized) :=
  let '(src, k) := source_of r in
  match addrs with
  | [addr] => let* x := fst (symbolize_single m cf w src k addr (s_new true)) in Ok [x]
  | _ => fst (symbolize m cf w src k addrs (s_new true))
  end.
Definition cli_symbolize {File Parser} (m : mode) (cf : config) (w : world File Parser) (r : request) (addrs : list N)
  : res (list N) :=
  let* l := cli_syms m cf w r addrs in Ok (print_syms addrs l).
