(** * Model of the Gsym symbol source: /repo/src/gsym/*.rs

    [usize] has 64 bits and the machine is little endian.  Recursion depth is
    not limited (a stack overflow is not modelled). *)

From Verif Require Import Base Util Text Sym.
Local Open Scope N_scope.

(** ** Signed arithmetic

    [signed m bits z] is the result of an operation on [bits] wide signed
    integers whose exact result is [z]. *)
Definition to_signed (w : Z) (z : Z) : Z := ((z + w / 2) mod w - w / 2)%Z.
Definition signed (m : mode) (w : Z) (z : Z) : res Z :=
  if ((- (w / 2) <=? z) && (z <? w / 2))%Z then Ok z
  else match m with Checked => Panic | Wrapping => Ok (to_signed w z) end.
Definition i64w : Z := (2 ^ 64)%Z.
Definition i32w : Z := (2 ^ 32)%Z.
(** [as u32] / [as u64] of a signed integer. *)
Definition as_u32 (z : Z) : N := Z.to_N (z mod 2 ^ 32).
Definition as_u64 (z : Z) : N := Z.to_N (z mod 2 ^ 64).
(** [as i32]. *)
Definition as_i32 (z : Z) : Z := to_signed i32w z.

(** ** src/util.rs lines 485-503 [read_pod_slice_ref]

    [pos] is the memory address of the first byte of the reader; [size] and
    [al] are the size and alignment of the element type. *)
Fixpoint chunks (fuel : nat) (size : N) (l : list N) : list (list N) :=
  match fuel with
  | O => []
  | S f => match l with
           | [] => []
           | _ => ntake size l :: chunks f size (ndrop size l)
           end
  end.
Definition read_pod_slice_ref (size al pos count : N) (r : reader)
  : res (list (list N) * reader) :=
  let* n := of_option ENone (chk_mul two64 size count) in
  let* '(d, r') := read_slice n r in
  if pos mod al =? 0 then Ok (chunks (length d) size d, r') else Err ENone.

(** ** parser.rs lines 62-69 [GsymContext]; [g_addr_tab_pos] is the address
    of the first byte of [addr_tab] in memory. *)
Record gsym := Gsym {
  g_addr_off_size : N;
  g_base_address : N;
  g_num_addrs : N;
  g_addr_tab : list N;
  g_addr_tab_pos : N;
  g_addr_data_off_tab : list N;
  g_file_tab : list (N * N);
  g_str_tab : list N;
  g_raw_data : list N
}.

(** types.rs lines 3-4 *)
Definition GSYM_MAGIC : N := 1196644685.   (* 0x4753594d *)
Definition GSYM_VERSION : N := 1.

(** [slice.get(n..)] *)
Definition get_from (n : N) (l : list N) : res reader :=
  if n <=? nlen l then Ok (ndrop n l) else Err ENone.

(** lines 81-135 [parse_header]. [ptr] is the address of [data] in memory. *)
Definition parse_header_impl (ptr : N) (data : list N) : res gsym :=
  let pos (r : reader) := ptr + (nlen data - nlen r) in
  let* '(magic, r) := read_u32 data in
  if negb (magic =? GSYM_MAGIC) then Err EInvalidData
  else
  let* '(version, r) := read_u16 r in
  if negb (version =? GSYM_VERSION) then Err EInvalidData
  else
  let* '(addr_off_size, r) := read_u8 r in
  let* '(_, r) := read_u8 r in
  let* '(base_address, r) := read_u64 r in
  let* '(num_addrs, r) := read_u32 r in
  let* '(strtab_offset, r) := read_u32 r in
  let* '(strtab_size, r) := read_u32 r in
  let* '(_, r) := read_slice 20 r in
  let tab_pos := pos r in
  let* '(addr_tab, r) := read_slice (num_addrs * addr_off_size) r in
  let* r := align (pos r) 4 r in
  let* '(offs, r) := read_pod_slice_ref 4 4 (pos r) num_addrs r in
  let* '(file_num, r) := read_u32 r in
  let* r := align (pos r) 4 r in
  let* '(files, _) := read_pod_slice_ref 8 4 (pos r) file_num r in
  let* r := get_from strtab_offset data in
  let* '(str_tab, _) := read_slice strtab_size r in
  Ok (Gsym addr_off_size base_address num_addrs addr_tab tab_pos
        (map le_val offs)
        (map (fun c => (le_val (ntake 4 c), le_val (ndrop 4 c))) files)
        str_tab data).
Definition parse_header (ptr : N) (data : list N) : res gsym :=
  ok_or EInvalidData (parse_header_impl ptr data).

(** lines 142-162 [find_addr]; the result is an index, [None] is [ENone]. *)
Definition find_addr_impl (g : gsym) (size addr : N) : res nat :=
  let* '(table, _) := read_pod_slice_ref size size (g_addr_tab_pos g)
                        (g_num_addrs g) (g_addr_tab g) in
  of_option ENone (find_match_or_lower_bound_by_key table addr le_val).
Definition find_addr (g : gsym) (addr : N) : res nat :=
  let* relative := of_option ENone (chk_sub addr (g_base_address g)) in
  let s := g_addr_off_size g in
  if s =? 1 then find_addr_impl g 1 relative
  else if s =? 2 then find_addr_impl g 2 relative
  else if s =? 4 then find_addr_impl g 4 relative
  else if s =? 8 then find_addr_impl g 8 relative
  else Err ENone.

(** lines 165-176 [addr_at] *)
Definition addr_at (g : gsym) (idx : nat) : res N :=
  let s := g_addr_off_size g in
  let* o := of_option ENone (chk_mul two64 (N.of_nat idx) s) in
  let* r := get_from o (g_addr_tab g) in
  let* '(addr, _) :=
    (if s =? 1 then read_u8 r
     else if s =? 2 then read_u16 r
     else if s =? 4 then read_u32 r
     else if s =? 8 then read_u64 r
     else Err ENone) in
  of_option ENone (chk_add two64 (g_base_address g) addr).

(** types.rs lines 34-39 [AddrInfo] *)
Record addr_info := AddrInfo { ai_size : N; ai_name : N; ai_data : list N }.

(** lines 179-187 [addr_info] *)
Definition get_addr_info (g : gsym) (idx : nat) : res addr_info :=
  let* offset := of_option ENone (nth_error (g_addr_data_off_tab g) idx) in
  let* r := get_from offset (g_raw_data g) in
  let* '(size, r) := read_u32 r in
  let* '(name, r) := read_u32 r in
  Ok (AddrInfo size name r).

(** lines 191-194 [get_str] (on Unix [bytes_to_os_str] never fails) *)
Definition get_str (g : gsym) (offset : N) : res (list N) :=
  let* r := get_from offset (g_str_tab g) in
  let* '(s, _) := read_cstr r in
  Ok s.
(** [get_str(..).and_then(|s| s.to_str())] *)
Definition get_utf8 (g : gsym) (offset : N) : res (list N) :=
  let* s := get_str g offset in
  if utf8_valid s then Ok s else Err ENone.

(** lines 212-228 [parse_address_data]: the items the iterator yields. *)
Fixpoint address_data (fuel : nat) (r : reader) : list (N * list N) :=
  match fuel with
  | O => []
  | S f =>
      match read_u32 r with
      | Ok (typ, r) =>
          if typ =? 0 then []
          else match read_u32 r with
               | Ok (len, r) =>
                   match read_slice len r with
                   | Ok (d, r) => (typ, d) :: address_data f r
                   | _ => []
                   end
               | _ => []
               end
      | _ => []
      end
  end.
Definition parse_address_data (data : list N) : list (N * list N) :=
  address_data (length data) data.

(** ** Line tables: linetab.rs *)

(** lines 38-46 [LineTableHeader], 70-75 [LineTableRow] *)
Record lt_header := LtHeader { lh_min : Z; lh_max : Z; lh_first : N }.
Record lt_row := LtRow { lr_addr : N; lr_file : N; lr_line : N }.

(** lines 56-67 *)
Definition parse_lt_header (m : mode) (r : reader) : res (lt_header * reader) :=
  let* '(mn, r) := read_i64_leb128 m r in
  let* '(mx, r) := read_i64_leb128 m r in
  let* '(fl, r) := read_u64_leb128 m r in
  Ok (LtHeader mn mx (fl mod two32), r).

Inductive run_result := RunOk | RunNewRow | RunEnd.

(** lines 107-153 [run_op]. [Err ENone] is [None]; the row is unchanged
    then. *)
Definition run_op (m : mode) (row : lt_row) (h : lt_header) (ops : reader)
  : res (run_result * lt_row * reader) :=
  let* '(op, ops) := read_u8 ops in
  if op =? 0 then Ok (RunEnd, row, ops)
  else if op =? 1 then
    let* '(f, ops) := read_u64_leb128 m ops in
    Ok (RunOk, LtRow (lr_addr row) (f mod two32) (lr_line row), ops)
  else if op =? 2 then
    let* '(adv, ops) := read_u64_leb128 m ops in
    let* a := add64 m (lr_addr row) adv in
    Ok (RunNewRow, LtRow a (lr_file row) (lr_line row), ops)
  else if op =? 3 then
    let* '(adv, ops) := read_i64_leb128 m ops in
    let* l := signed m i64w (Z.of_N (lr_line row) + adv)%Z in
    Ok (RunOk, LtRow (lr_addr row) (lr_file row) (as_u32 l), ops)
  else
    let adjusted := Z.of_N (op - 4) in
    let* d := signed m i64w (lh_max h - lh_min h)%Z in
    let* range := signed m i64w (d + 1)%Z in
    if (range =? 0)%Z then Err ENone
    else
    let* line_delta := signed m i64w (lh_min h + Z.rem adjusted range)%Z in
    let addr_delta := Z.quot adjusted range in
    let* file_line := signed m i32w (as_i32 (Z.of_N (lr_line row)) + as_i32 line_delta)%Z in
    let* a := add64 m (lr_addr row) (as_u64 addr_delta) in
    Ok (RunNewRow, LtRow a (lr_file row) (as_u32 file_line), ops).

(** resolver.rs lines 133-171 [parse_line_tab_info], the loop. [cnt] tells
    whether a row was seen (the code counts them). *)
Fixpoint line_tab_loop (fuel : nat) (m : mode) (h : lt_header) (addr : N)
  (row last : lt_row) (seen : bool) (data : reader) : res (option lt_row) :=
  match fuel with
  | O => NoFuel
  | S f =>
      let done (row : lt_row) (seen : bool) :=
        Ok (if seen then Some row else None) in
      match data with
      | [] => done row seen
      | _ =>
          match run_op m row h data with
          | Ok (RunOk, row, data) => line_tab_loop f m h addr row last seen data
          | Ok (RunNewRow, row, data) =>
              if addr <? lr_addr row then
                if seen then done last true else Ok None
              else line_tab_loop f m h addr row row true data
          | Ok (RunEnd, row, _) => done row seen
          | Err _ => done row seen
          | Panic => Panic
          | NoFuel => NoFuel
          end
      end
  end.
Definition parse_line_tab_info (m : mode) (data : list N) (symaddr addr : N)
  : res (option lt_row) :=
  let* '(h, r) := ok_or EInvalidData (parse_lt_header m data) in
  let row := LtRow symaddr 1 (lh_first h) in
  line_tab_loop (S (length r)) m h addr row row false r.

(** ** Inline information: inline.rs *)

(** lines 7-11 [InlineFrame] *)
Record inline_frame := InlineFrame { fr_name : N; fr_file : N; fr_line : N }.

(** [while f(data)? {}] *)
Section While.
  Context {St : Type}.
  Variable step : reader -> St -> res (bool * reader * St).
  Fixpoint while_more (fuel : nat) (r : reader) (s : St) : res (reader * St) :=
    match fuel with
    | O => NoFuel
    | S f =>
        let* '(more, r, s) := step r s in
        if more then while_more f r s else Ok (r, s)
    end.
End While.

(** lines 25-32: the ranges of a node that is skipped. *)
Fixpoint skip_ranges (fuel : nat) (m : mode) (cnt : N) (r : reader) : res reader :=
  match fuel with
  | O => NoFuel
  | S f =>
      if cnt =? 0 then Ok r
      else
        let* '(_, r) := ok_or EInvalidData (read_u64_leb128 m r) in
        let* '(_, r) := ok_or EInvalidData (read_u64_leb128 m r) in
        skip_ranges f m (cnt - 1) r
  end.

(** lines 17-55 [skip] *)
Fixpoint skip (fuel : nat) (m : mode) (r : reader) (_ : unit) : res (bool * reader * unit) :=
  match fuel with
  | O => NoFuel
  | S f =>
      let* '(cnt, r) := ok_or EInvalidData (read_u64_leb128 m r) in
      if cnt =? 0 then Ok (false, r, tt)
      else
      let* r := skip_ranges (S (length r)) m cnt r in
      let* '(child_cnt, r) := ok_or EInvalidData (read_u8 r) in
      let* '(_, r) := ok_or EInvalidData (read_u32 r) in
      let* '(_, r) := ok_or EInvalidData (read_u64_leb128 m r) in
      let* '(_, r) := ok_or EInvalidData (read_u64_leb128 m r) in
      if negb (child_cnt =? 0) then
        let* '(r, _) := while_more (skip f m) f r tt in
        Ok (true, r, tt)
      else Ok (true, r, tt)
  end.

(** lines 75-104: the ranges of a node; [i] is the loop index, the results
    are [matches] and [child_base_addr]. *)
Fixpoint parse_ranges (fuel : nat) (m : mode) (base addr : N) (i cnt : N)
  (matches : bool) (child_base : N) (r : reader) : res (bool * N * reader) :=
  match fuel with
  | O => NoFuel
  | S f =>
      if cnt =? i then Ok (matches, child_base, r)
      else
        let* '(offset, r) := ok_or EInvalidData (read_u64_leb128 m r) in
        let* '(size, r) := ok_or EInvalidData (read_u64_leb128 m r) in
        let* start := of_option EInvalidData (chk_add two64 base offset) in
        let* end_ := of_option EInvalidData (chk_add two64 start size) in
        let child_base := if i =? 0 then start else child_base in
        let matches := if (start <=? addr) && (addr <? end_) then true else matches in
        parse_ranges f m base addr (i + 1) cnt matches child_base r
  end.

(** lines 57-141 [parse_into_stack]; the stack grows at the end. *)
Fixpoint parse_into_stack (fuel : nat) (m : mode) (base addr : N)
  (r : reader) (stack : list inline_frame) : res (bool * reader * list inline_frame) :=
  match fuel with
  | O => NoFuel
  | S f =>
      let* '(cnt, r) := ok_or EInvalidData (read_u64_leb128 m r) in
      if cnt =? 0 then Ok (false, r, stack)
      else
      let* '(matches, child_base, r) :=
        parse_ranges (S (length r)) m base addr 0 cnt false 0 r in
      let* '(child_cnt, r) := ok_or EInvalidData (read_u8 r) in
      let has_children := negb (child_cnt =? 0) in
      let* '(name, r) := ok_or EInvalidData (read_u32 r) in
      let* '(call_file, r) := ok_or EInvalidData (read_u64_leb128 m r) in
      if negb (call_file <? two32) then Err EInvalidData
      else
      let* '(call_line, r) := ok_or EInvalidData (read_u64_leb128 m r) in
      let call_line := if call_line <? two32 then call_line else two32 - 1 in
      if matches then
        let stack := if 0 <? name
                     then stack ++ [InlineFrame name call_file call_line]
                     else stack in
        if has_children then
          let* '(r, stack) := while_more (parse_into_stack f m child_base addr) f r stack in
          Ok (true, r, stack)
        else Ok (true, r, stack)
      else if has_children then
        let* '(r, _) := while_more (skip f m) f r tt in
        Ok (true, r, stack)
      else Ok (true, r, stack)
  end.

(** lines 145-153 [parse_inline_stack] *)
Definition parse_inline_stack (m : mode) (data : list N) (base addr : N)
  (stack : list inline_frame) : res (list inline_frame) :=
  let* '(_, _, stack) := parse_into_stack (S (length data)) m base addr data stack in
  Ok stack.

(** ** resolver.rs *)

(** lines 105-131 [query_frame_code_info] *)
Definition query_frame_code_info (g : gsym) (file_idx line : N) : res code_info :=
  let* '(d, f) := of_option EInvalidData (nnth file_idx (g_file_tab g)) in
  let* dir := ok_or EInvalidData (get_str g d) in
  let* file := ok_or EInvalidData (get_str g f) in
  Ok (CodeInfo (Some dir) file (Some line) None).

(** lines 241-269: the loop over the address data entries. *)
Fixpoint scan_data (m : mode) (opts : find_opts) (sym_addr addr : N)
  (ents : list (N * list N)) (line : option lt_row) (stack : list inline_frame)
  : res (option lt_row * list inline_frame) :=
  match ents with
  | [] => Ok (line, stack)
  | (typ, d) :: ents =>
      if typ =? 1 then
        match line with
        | None =>
            let* line := parse_line_tab_info m d sym_addr addr in
            scan_data m opts sym_addr addr ents line stack
        | Some _ => scan_data m opts sym_addr addr ents line stack
        end
      else if (typ =? 2) && inlined_fns_opt opts then
        match stack with
        | [] =>
            let* stack := parse_inline_stack m d sym_addr addr stack in
            scan_data m opts sym_addr addr ents line stack
        | _ => scan_data m opts sym_addr addr ents line stack
        end
      else scan_data m opts sym_addr addr ents line stack
  end.

(** lines 297-322: the loop over the frames after the first one. *)
Fixpoint add_frames (g : gsym) (frames : list inline_frame)
  (line_info : code_info) (inlined : list inlined_fn)
  : res (code_info * list inlined_fn) :=
  match frames with
  | [] => Ok (line_info, inlined)
  | fr :: frames =>
      let* name := ok_or EInvalidData (get_utf8 g (fr_name fr)) in
      let* ci := query_frame_code_info g (fr_file fr) (fr_line fr) in
      match last_code inlined with
      | Some last =>
          add_frames g frames line_info
            (set_last_code inlined (Some ci) ++ [InlinedFn name last])
      | None =>
          add_frames g frames ci (inlined ++ [InlinedFn name (Some line_info)])
      end
  end.

(** lines 229-330 [fill_code_info] *)
Definition fill_code_info (m : mode) (g : gsym) (sym : resolved_sym) (addr : N)
  (opts : find_opts) (sym_addr : N) (info : addr_info) : res resolved_sym :=
  if negb (code_info_opt opts) then Ok sym
  else
  let* '(line, stack) :=
    scan_data m opts sym_addr addr (parse_address_data (ai_data info)) None [] in
  match line with
  | None => Ok sym
  | Some row =>
      let* line_info := query_frame_code_info g (lr_file row) (lr_line row) in
      match stack with
      | [] =>
          Ok (ResolvedSym (rs_name sym) (rs_module sym) (rs_addr sym) (rs_size sym)
                (rs_lang sym) (Some line_info) [])
      | first :: frames =>
          let* name := ok_or EInvalidData (get_utf8 g (fr_name first)) in
          let* '(line_info, inlined) := add_frames g frames line_info [] in
          Ok (ResolvedSym name (rs_module sym) (rs_addr sym) (rs_size sym)
                (rs_lang sym) (Some line_info) inlined)
      end
  end.

(** lines 175-225 [find_sym] *)
Definition find_sym (m : mode) (g : gsym) (addr : N) (opts : find_opts) : find_result :=
  match find_addr g addr with
  | Ok idx =>
      let* sym_addr := ok_or EInvalidData (addr_at g idx) in
      if addr <? sym_addr then Ok (inr UnknownAddr)
      else
      let* info := ok_or EInvalidData (get_addr_info g idx) in
      let* beyond :=
        (if 0 <? ai_size info then
           let* e := add64 m sym_addr (ai_size info) in Ok (e <=? addr)
         else Ok false) in
      if beyond : bool then Ok (inr UnknownAddr)
      else
      let* name := ok_or EInvalidData (get_utf8 g (ai_name info)) in
      let sym := ResolvedSym name None sym_addr (Some (ai_size info)) LangUnknown None [] in
      let* sym := fill_code_info m g sym addr opts sym_addr info in
      Ok (inl sym)
  | Err _ => Ok (inr UnknownAddr)
  | Panic => Panic
  | NoFuel => NoFuel
  end.

(** Opening data ([with_data], lines 92-103) and looking an address up. *)
Definition gsym_lookup (m : mode) (ptr : N) (data : list N) (addr : N) (opts : find_opts)
  : find_result :=
  let* g := parse_header ptr data in
  find_sym m g addr opts.
