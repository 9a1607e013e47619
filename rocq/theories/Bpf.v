(** * Model of /repo/src/kernel/bpf/prog.rs, btf.rs and sys.rs: source lines of
      BPF programs

    The kernel is what its system calls answer. Names and tags of programs are
    modelled in Ksym.v. *)

From Verif Require Import Base Util Bytes Amap Sym.
Local Open Scope N_scope.

(** ** sys.rs *)

(** lines 24-41 [bpf_line_info]; the members [insn_off] and [line_off] are not
    used. *)
Record line_info := LineInfo { li_file_name_off : N; li_line_col : N }.
Definition li_line (i : line_info) : N := N.shiftr (li_line_col i) 10.
Definition li_column (i : line_info) : N := N.land (li_line_col i) 0x3ff.

(** lines 44-88 [bpf_prog_info]: the members in use. [pi_tags] is what
    [prog_tags] points to. *)
Record prog_info := ProgInfo {
  pi_id : N;
  pi_tag : list N;
  pi_tags : list (list N);
  pi_btf_id : N;
  pi_line_rec_size : N;
  pi_jited_rec_size : N
}.

(** System calls. [sys_info] is opening a program by its ID and asking for its
    information, twice; [sys_lines] is asking once more, with buffers for line
    information and addresses; [sys_btf] is opening BTF by its ID and
    asking for its size and data. Information about one program does not change
    while it exists. *)
Record sys := Sys {
  sys_next : N -> res N;
  sys_info : N -> res prog_info;
  sys_lines : N -> res (list line_info * list N);
  sys_btf : N -> res (list N)
}.

(** ** btf.rs *)

(** lines 16-22 [Btf]: data and the members of the header in use *)
Record btf := Btf { bt_data : list N; bt_hdr_len : N; bt_str_off : N; bt_str_len : N }.
(** lines 26-79 [load_from_id]. Reading a header from less than its 24 bytes is
    undefined behaviour. *)
Definition btf_load (s : sys) (id : N) : res (option btf) :=
  if id =? 0 then Ok None
  else
    let* data := sys_btf s id in
    if nlen data <? 24 then Panic
    else if negb (field 0 2 data =? 0xeb9f) then Err EUnsupported
    else if negb (field 2 1 data =? 1) then Err EUnsupported
    else Ok (Some (Btf data (field 4 4 data) (field 16 4 data) (field 20 4 data))).
(** lines 82-88 [raw_strs] *)
Definition raw_strs (b : btf) : res (list N) :=
  let start := bt_hdr_len b + bt_str_off b in
  let end_ := start + bt_str_len b in
  if end_ <=? nlen (bt_data b) then Ok (ntake (end_ - start) (ndrop start (bt_data b))) else Panic.
(** lines 91-97 [name] *)
Definition btf_name (b : btf) (off : N) : res (option (list N)) :=
  let* strs := raw_strs b in
  if off <=? nlen strs then
    let* '(name, _) := unwrap (split_once (fun c => c =? 0) (ndrop off strs)) in
    Ok (Some name)
  else Ok None.

(** ** prog.rs: line information *)

(** lines 177-182 [LineInfoRecord], with the address *)
Record line_record := LineRecord { lr_addr : N; lr_path : list N; lr_line : N; lr_column : N }.
Definition lr_leb (a b : line_record) : bool := lr_addr a <=? lr_addr b.
(** lines 228-264: all records. Paths are cached by themselves. *)
Fixpoint line_records (b : btf) (lines : list line_info) (addrs : list N) : res (list line_record) :=
  match addrs with
  | [] => Ok []
  | addr :: addrs =>
      match lines with
      | [] => Err EInvalidData
      | i :: lines =>
          let* file := btf_name b (li_file_name_off i) in
          let* file := of_option EInvalidData file in
          let* l := line_records b lines addrs in
          Ok (LineRecord addr file (li_line i) (li_column i) :: l)
      end
  end.
(** lines 186-268 [query_line_info] *)
Definition query_line_info (s : sys) (info : prog_info) : res (option (list line_record)) :=
  if negb (pi_line_rec_size info =? 16) then Panic
  else if negb (pi_jited_rec_size info =? 8) then Panic
  else
    let* '(lines, addrs) := sys_lines s (pi_id info) in
    let* b := btf_load s (pi_btf_id info) in
    match b with
    | None => Ok None
    | Some b =>
        let* l := line_records b lines addrs in
        Ok (Some (isort lr_leb l))
    end.

(** ** prog.rs lines 98-174: [BpfInfoCache] *)
Definition tag := list N.
Definition cache := list (tag * prog_info).
(** lines 158-164: all tags of one program *)
Fixpoint add_tags (info : prog_info) (wanted : tag) (tags : list tag) (found : option prog_info) (c : cache)
  : option prog_info * cache :=
  match tags with
  | [] => (found, c)
  | t :: tags =>
      let found := match found with
                   | None => if beq wanted t then Some info else None
                   | Some _ => found
                   end in
      add_tags info wanted tags found (aset beq t info c)
  end.
(** lines 125-170: the loop; [fuel] bounds the number of programs. The cache is
    what it is also if there is an error. *)
Fixpoint lookup_loop (fuel : nat) (s : sys) (wanted : tag) (id : N) (found : option prog_info) (c : cache)
  : res (option prog_info) * cache :=
  match fuel with
  | O => (NoFuel, c)
  | S fuel =>
      match sys_next s id with
      | Err ENotFound => (Ok found, c)
      | Err k => (Err k, c)
      | Panic => (Panic, c)
      | NoFuel => (NoFuel, c)
      | Ok id =>
          match sys_info s id with
          | Ok info =>
              let '(found, c) := add_tags info wanted (pi_tag info :: pi_tags info) found c in
              lookup_loop fuel s wanted id found c
          | Err k => (Err k, c)
          | Panic => (Panic, c)
          | NoFuel => (NoFuel, c)
          end
      end
  end.
(** lines 109-172 [lookup] *)
Definition lookup (fuel : nat) (s : sys) (wanted : tag) (c : cache) : res (option prog_info) * cache :=
  match aget beq wanted c with
  | Some info => (Ok (Some info), c)
  | None => lookup_loop fuel s wanted 0 None []
  end.

(** ** prog.rs lines 303-354 [retrieve_code_info]

    [cell] is the program's [line_info]. *)
Definition line_cell := option (option (list line_record)).
Definition init_line_info (fuel : nat) (s : sys) (t : tag) (c : cache) : res (option (list line_record)) * cache :=
  let '(r, c) := lookup fuel s t c in
  (let* o := r in
   let* info := of_option ENotFound o in
   let* _ := sys_info s (pi_id info) in
   query_line_info s info, c).
Definition location (l : option (list line_record)) (addr : N) : option code_info :=
  match l with
  | Some l =>
      match find_match_or_lower_bound_by_key l addr lr_addr with
      | Some idx =>
          match nth_error l idx with
          | Some r => Some (CodeInfo None (lr_path r) (Some (lr_line r)) (Some (lr_column r)))
          | None => None
          end
      | None => None
      end
  | None => None
  end.
Definition retrieve_code_info (fuel : nat) (s : sys) (t : tag) (addr : N) (cell : line_cell) (c : cache)
  : res (option code_info) * line_cell * cache :=
  match cell with
  | Some l => (Ok (location l addr), cell, c)
  | None =>
      let '(r, c) := init_line_info fuel s t c in
      match r with
      | Ok l => (Ok (location l addr), Some l, c)
      | Err k => (Err k, None, c)
      | Panic => (Panic, None, c)
      | NoFuel => (NoFuel, None, c)
      end
  end.
(** Questions about addresses in the programs of one [KsymResolver], in order: an
    index into its programs, whose tags are [tags], and an address. [cells] is the
    line information of each program (prog.rs line 277), [c] the cache shared by
    them (ksym.rs line 181). *)
Fixpoint queries (fuel : nat) (s : sys) (tags : list tag) (ops : list (nat * N)) (cells : list line_cell) (c : cache)
  : list (res (option code_info)) :=
  match ops with
  | [] => []
  | (i, addr) :: ops =>
      let '(r, cell, c) := retrieve_code_info fuel s (nth i tags []) addr (nth i cells None) c in
      r :: queries fuel s tags ops (set_nth i cell cells) c
  end.
