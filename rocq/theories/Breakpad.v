(** * Model of the Breakpad symbol source: /repo/src/breakpad/*.rs *)

From Coq Require Import String.
From Verif Require Import Base Util Amap Text Sym Nom.
Local Open Scope N_scope.

(** ** types.rs lines 49-103 *)
Record source_line := SourceLine { sl_addr : N; sl_size : N; sl_file : N; sl_line : N }.
Record inlinee := Inlinee {
  in_depth : N; in_addr : N; in_size : N; in_file : N; in_line : N; in_origin : N }.
Record func := Func {
  fn_addr : N; fn_size : N; fn_name : list N;
  fn_lines : list source_line; fn_inlinees : list inlinee }.
(** lines 185-196; the name index is computed on demand *)
Record symbol_file := SymbolFile {
  sf_module : option (list N);
  sf_files : list (N * list N);
  sf_funcs : list func;
  sf_origins : list (N * list N) }.

(** ** parser.rs *)

(** lines 235-261 [hex_str]: [max] is twice the size of the integer type, in
    bytes. *)
Definition to_digit16 (b : N) : option N :=
  if (48 <=? b) && (b <=? 57) then Some (b - 48)
  else if (97 <=? b) && (b <=? 102) then Some (b - 87)
  else if (65 <=? b) && (b <=? 70) then Some (b - 55)
  else None.
Definition to_digit10 (b : N) : option N :=
  if (48 <=? b) && (b <=? 57) then Some (b - 48) else None.
(** The value of the digits and the number of digits; at most [max] ones. *)
Fixpoint digits (dig : N -> option N) (base : N) (max : nat) (acc : N) (k : nat) (i : list N)
  : N * nat * list N :=
  match max, i with
  | S max, b :: i' =>
      match dig b with
      | Some d => digits dig base max (acc * base + d) (S k) i'
      | None => (acc, k, i)
      end
  | _, _ => (acc, k, i)
  end.
Definition hex_str (max : nat) : parser N :=
  fun i => match digits to_digit16 16 max 0 0 i with
           | (_, O, _) => PErr
           | (v, _, r) => POk r v
           end.
Definition hex64 := hex_str 16.
Definition hex32 := hex_str 8.
(** lines 270-293 [decimal_u32] *)
Definition decimal_u32 : parser N :=
  fun i => match digits to_digit10 10 10 0 0 i with
           | (_, O, _) => PErr
           | (v, _, r) => if v <? two32 then POk r v else PErr
           end.

(** lines 296-314 *)
Definition non_space : parser (list N) := take_while (fun c => negb (c =? 32)).
Definition my_eol : parser unit :=
  fun i => parse* i, _x := take_while (fun b => b =? 13) i in tag [10] i.
Definition not_my_eol : parser (list N) := take_while (fun b => negb (b =? 13) && negb (b =? 10)).

(** [terminated(map_res(not_my_eol, str::from_utf8), my_eol)] *)
Definition rest_of_line : parser (list N) := terminated (pcheck not_my_eol utf8_valid) my_eol.
(** [terminated(tag(..), space1)] *)
Definition keyword (s : list N) : parser unit := terminated (tag s) space1.
(** [cut(terminated(not_my_eol, my_eol))] after a keyword *)
Definition ignored (s : list N) : parser unit :=
  fun i => parse* i, _x := keyword s i in
           pmap (cut (terminated not_my_eol my_eol)) (fun _ => tt) i.

(** lines 317-328 *)
Definition module_line : parser (list N) :=
  fun i => parse* i, _x := keyword (bs "MODULE") i in
    cut (fun i =>
      parse* i, _x := terminated non_space space1 i in
      parse* i, _y := terminated non_space space1 i in
      parse* i, _z := terminated non_space space1 i in
      terminated not_my_eol my_eol i) i.
(** lines 331-341 *)
Definition info_url := ignored (bs "INFO URL").
Definition info_line := ignored (bs "INFO").
(** lines 344-361 *)
Definition numbered (s : list N) : parser (N * list N) :=
  fun i => parse* i, _x := keyword s i in
    cut (fun i =>
      parse* i, id := terminated decimal_u32 space1 i in
      parse* i, name := rest_of_line i in
      POk i (id, name)) i.
Definition file_line := numbered (bs "FILE").
Definition inline_origin_line := numbered (bs "INLINE_ORIGIN").
(** lines 364-381; public symbols are not used *)
Definition public_line : parser unit :=
  fun i => parse* i, _x := keyword (bs "PUBLIC") i in
    cut (fun i =>
      parse* i, _m := popt (keyword (bs "m")) i in
      parse* i, _a := terminated hex64 space1 i in
      parse* i, _p := terminated hex32 space1 i in
      parse* i, _n := rest_of_line i in
      POk i tt) i.
(** lines 384-400 *)
Definition func_line_data : parser source_line :=
  fun i =>
    parse* i, addr := terminated hex64 space1 i in
    parse* i, size := terminated hex32 space1 i in
    parse* i, line := terminated decimal_u32 space1 i in
    parse* i, file := terminated decimal_u32 my_eol i in
    POk i (SourceLine addr size file line).
(** lines 403-423 *)
Definition func_line : parser func :=
  fun i => parse* i, _x := keyword (bs "FUNC") i in
    cut (fun i =>
      parse* i, _m := popt (keyword (bs "m")) i in
      parse* i, addr := terminated hex64 space1 i in
      parse* i, size := terminated hex32 space1 i in
      parse* i, _p := terminated hex32 space1 i in
      parse* i, name := rest_of_line i in
      POk i (Func addr size name [] [])) i.
(** lines 427-462 *)
Definition inline_address_range : parser (N * N) :=
  fun i =>
    parse* i, addr := terminated hex64 space1 i in
    parse* i, size := hex32 i in
    POk i (addr, size).
Definition inline_line : parser (list inlinee) :=
  fun i => parse* i, _x := keyword (bs "INLINE") i in
    cut (fun i =>
      parse* i, depth := terminated decimal_u32 space1 i in
      parse* i, call_line := terminated decimal_u32 space1 i in
      parse* i, call_file := terminated decimal_u32 space1 i in
      parse* i, origin := terminated decimal_u32 space1 i in
      parse* i, ranges := terminated (separated_list1 space1 inline_address_range) my_eol i in
      POk i (map (fun '(addr, size) => Inlinee depth addr size call_file call_line origin) ranges)) i.
(** lines 465-488 *)
Definition stack_win_line := ignored (bs "STACK WIN").
Definition stack_cfi := ignored (bs "STACK CFI").
Definition stack_cfi_init := ignored (bs "STACK CFI INIT").

(** lines 222-232 [Line], lines 491-506 [line] *)
Inductive line_item :=
| LModule (m : list N) | LInfo | LFile (id : N) (name : list N) | LOrigin (id : N) (name : list N)
| LPublic | LFunction (f : func) | LStackWin | LStackCfi.
Definition line : parser line_item :=
  terminated
    (palt [ pmap info_url (fun _ => LInfo);
            pmap info_line (fun _ => LInfo);
            pmap file_line (fun '(i, f) => LFile i f);
            pmap inline_origin_line (fun '(i, f) => LOrigin i f);
            pmap public_line (fun _ => LPublic);
            pmap func_line LFunction;
            pmap stack_win_line (fun _ => LStackWin);
            pmap stack_cfi_init (fun _ => LStackCfi);
            pmap module_line LModule ])
    multispace0.

(** lines 511-520 [SymbolParser]. A pending function has its lines and
    inlinees in the order of the file. *)
Inductive cur_item := CurNone | CurFunc (f : func) | CurCfi.
Record pstate := PState {
  p_module : option (list N);
  p_files : list (N * list N);
  p_origins : list (N * list N);
  p_funcs : list func;
  p_lines : N;
  p_cur : cur_item }.

(** The [sort_by_key] orders of lines 672-673 and 695-697. *)
Definition line_leb (a b : source_line) : bool :=
  (sl_addr a <? sl_addr b) || ((sl_addr a =? sl_addr b) && (sl_size a <=? sl_size b)).
Definition inl_leb (a b : inlinee) : bool :=
  (in_depth a <? in_depth b) || ((in_depth a =? in_depth b) && (in_addr a <=? in_addr b)).
Definition func_leb (a b : func) : bool :=
  (fn_addr a <? fn_addr b) || ((fn_addr a =? fn_addr b) && (fn_size a <=? fn_size b)).

(** lines 668-682 [finish_item] *)
Definition finish_func (f : func) : func :=
  Func (fn_addr f) (fn_size f) (fn_name f) (isort line_leb (fn_lines f)) (isort inl_leb (fn_inlinees f)).
Definition finish_cur (s : pstate) : pstate :=
  match p_cur s with
  | CurFunc f => PState (p_module s) (p_files s) (p_origins s) (p_funcs s ++ [finish_func f]) (p_lines s) CurNone
  | _ => PState (p_module s) (p_files s) (p_origins s) (p_funcs s) (p_lines s) CurNone
  end.

(** lines 643-666 [parse_func_subline]: the new origins and function *)
Definition parse_func_subline (s : pstate) (f : func) (i : list N)
  : pr (list (N * list N) * func) :=
  match strip_prefix (bs "INLINE_ORIGIN ") i with
  | Some _ =>
      parse* i, o := inline_origin_line i in
      POk i (aset N.eqb (fst o) (snd o) (p_origins s), f)
  | None =>
  match strip_prefix (bs "INLINE ") i with
  | Some _ =>
      parse* i, l := inline_line i in
      POk i (p_origins s, Func (fn_addr f) (fn_size f) (fn_name f) (fn_lines f) (fn_inlinees f ++ l))
  | None =>
      parse* i, l := func_line_data i in
      POk i (p_origins s, Func (fn_addr f) (fn_size f) (fn_name f) (fn_lines f ++ [l]) (fn_inlinees f))
  end
  end.

(** lines 605-636: storing a top level item *)
Definition store (s : pstate) (l : line_item) : res pstate :=
  let lines := p_lines s + 1 in
  match l with
  | LModule m =>
      if negb (p_lines s =? 0) then Err EInvalidInput
      else Ok (PState (Some m) (p_files s) (p_origins s) (p_funcs s) lines CurNone)
  | LInfo | LPublic | LStackWin =>
      Ok (PState (p_module s) (p_files s) (p_origins s) (p_funcs s) lines CurNone)
  | LFile id name =>
      Ok (PState (p_module s) (aset N.eqb id name (p_files s)) (p_origins s) (p_funcs s) lines CurNone)
  | LOrigin id name =>
      Ok (PState (p_module s) (p_files s) (aset N.eqb id name (p_origins s)) (p_funcs s) lines CurNone)
  | LFunction f => Ok (PState (p_module s) (p_files s) (p_origins s) (p_funcs s) lines (CurFunc f))
  | LStackCfi => Ok (PState (p_module s) (p_files s) (p_origins s) (p_funcs s) lines CurCfi)
  end.

(** lines 521-640 [parse]: the loop *)
Fixpoint parse_loop (fuel : nat) (s : pstate) (input : list N) : res pstate :=
  match fuel with
  | O => NoFuel
  | S fuel =>
      match input with
      | [] => Ok s
      | _ =>
          match p_cur s with
          | CurFunc f =>
              match parse_func_subline s f input with
              | POk input (origins, f) =>
                  parse_loop fuel
                    (PState (p_module s) (p_files s) origins (p_funcs s) (p_lines s + 1) (CurFunc f)) input
              | _ => parse_loop fuel (finish_cur s) input
              end
          | CurCfi =>
              match stack_cfi input with
              | POk input _ =>
                  parse_loop fuel
                    (PState (p_module s) (p_files s) (p_origins s) (p_funcs s) (p_lines s + 1) CurCfi) input
              | _ => parse_loop fuel (finish_cur s) input
              end
          | CurNone =>
              match line input with
              | POk input l => let* s := store s l in parse_loop fuel s input
              | _ => Err EInvalidInput
              end
          end
      end
  end.
(** lines 525-533: the input up to the last newline; [None] if there is
    none. *)
Fixpoint upto_last_newline (i : list N) : option (list N) :=
  match i with
  | [] => None
  | b :: i =>
      match upto_last_newline i with
      | Some r => Some (b :: r)
      | None => if b =? 10 then Some [b] else None
      end
  end.
Definition initial_state : pstate := PState None [] [] [] 0 CurNone.
(** The number of bytes consumed and the state. *)
Definition parse (input : list N) : res (N * pstate) :=
  match upto_last_newline input with
  | None => Ok (0, initial_state)
  | Some input =>
      let* s := parse_loop (2 * length input + 2) initial_state input in
      Ok (nlen input, s)
  end.
(** lines 687-705 [finish] *)
Definition finish (s : pstate) : symbol_file :=
  let s := finish_cur s in
  SymbolFile (p_module s) (p_files s) (isort func_leb (p_funcs s)) (p_origins s).

(** file.rs lines 37-58 [SymbolFile::parse], [from_bytes] *)
Definition from_bytes (bytes : list N) : res symbol_file :=
  let* '(consumed, s) := parse bytes in
  if consumed =? 0 then Err EInvalidInput
  else if negb (consumed =? nlen bytes) then Err EInvalidInput
  else Ok (finish s).

(** ** Lookups: types.rs *)

(** lines 110-120 and 202-212: the loop over the candidates *)
Fixpoint first_covering {A} (m : mode) (start size : A -> N) (addr : N) (l : list A)
  : res (option A) :=
  match l with
  | [] => Ok None
  | e :: l =>
      if addr <? start e then Ok None
      else
      let* hit :=
        (if (start e =? addr) && (size e =? 0) then Ok true
         else if start e <=? addr then
           let* e := add64 m (start e) (size e) in Ok (addr <? e)
         else Ok false) in
      if hit : bool then Ok (Some e) else first_covering m start size addr l
  end.
Definition find_covering {A} (m : mode) (start size : A -> N) (addr : N) (l : list A)
  : res (option A) :=
  match find_match_or_lower_bound_by_key l addr start with
  | None => Ok None
  | Some idx => first_covering m start size addr (skipn idx l)
  end.
(** lines 108-122 [find_line] *)
Definition find_line (m : mode) (f : func) (addr : N) := find_covering m sl_addr sl_size addr (fn_lines f).
(** lines 200-214 [find_function] *)
Definition find_function (m : mode) (sf : symbol_file) (addr : N) :=
  find_covering m fn_addr fn_size addr (sf_funcs sf).

(** [binary_search_by_key] on (depth, address): among several matches any one
    may be returned; [pick] decides. *)
Definition key_lt (depth addr : N) (i : inlinee) : bool :=
  (in_depth i <? depth) || ((in_depth i =? depth) && (in_addr i <? addr)).
Definition key_le (depth addr : N) (i : inlinee) : bool :=
  (in_depth i <? depth) || ((in_depth i =? depth) && (in_addr i <=? addr)).
Definition binary_search (pick : N -> N -> N) (l : list inlinee) (depth addr : N) : nat + nat :=
  let lo := partition_point (key_lt depth addr) l in
  let hi := partition_point (key_le depth addr) l in
  if (lo <? hi)%nat then inl (lo + N.to_nat (pick depth addr mod N.of_nat (hi - lo)))%nat
  else inr lo.
(** lines 150-172 [find_inlinee_at_depth] *)
Definition find_inlinee_at_depth (pick : N -> N -> N) (f : func) (depth addr : N) : option inlinee :=
  let cand :=
    match binary_search pick (fn_inlinees f) depth addr with
    | inl idx => nth_error (fn_inlinees f) idx
    | inr O => None
    | inr (S idx) => nth_error (fn_inlinees f) idx
    end in
  match cand with
  | None => None
  | Some i =>
      if negb (in_depth i =? depth) then None
      else match chk_add two64 (in_addr i) (in_size i) with
           | None => None
           | Some e => if addr <? e then Some i else None
           end
  end.
(** lines 174-180 [find_inlinees]; a depth is only found if some record has
    it, so that there are at most as many rounds as records. *)
Fixpoint find_inlinees_from (fuel : nat) (pick : N -> N -> N) (f : func) (depth addr : N)
  : res (list inlinee) :=
  match fuel with
  | O => NoFuel
  | S fuel =>
      match find_inlinee_at_depth pick f (depth mod two32) addr with
      | None => Ok []
      | Some i =>
          let* l := find_inlinees_from fuel pick f (depth + 1) addr in Ok (i :: l)
      end
  end.
Definition find_inlinees (pick : N -> N -> N) (f : func) (addr : N) : res (list inlinee) :=
  find_inlinees_from (S (length (fn_inlinees f))) pick f 0 addr.

(** lines 216-227 [create_by_name_idx], 230-258 [find_addr] *)
Definition name_leb (a b : func) : bool :=
  match bcmp (fn_name a) (fn_name b) with
  | Lt => true | Gt => false | Eq => fn_addr a <=? fn_addr b
  end.
Fixpoint take_named (name : list N) (l : list func) : list func :=
  match l with
  | [] => []
  | f :: l => if beq (fn_name f) name then f :: take_named name l else []
  end.
Definition find_addr (sf : symbol_file) (name : list N) : list func :=
  let idx := isort name_leb (sf_funcs sf) in
  match find_lowest_match_by idx (fun f => bcmp (fn_name f) name) with
  | None => []
  | Some i => take_named name (skipn i idx)
  end.

(** ** resolver.rs *)

(** [Path::components] from the back (Rust standard library): the last
    component and what [as_path] gives for the rest. *)
Fixpoint rev_span (f : N -> bool) (ri : list N) : list N * list N :=
  match ri with
  | [] => ([], [])
  | b :: r => if f b then let (p, q) := rev_span f r in (b :: p, q) else ([], ri)
  end.
(** Length of what comes before the body: the root or a leading "." *)
Definition len_before_body (p : list N) : nat :=
  match p with
  | 47 :: _ => 1
  | [46] => 1
  | 46 :: 47 :: _ => 1
  | _ => 0
  end.
(** The body, reversed: drop trailing separators and "." components. *)
Fixpoint trim_body (fuel : nat) (rb : list N) : list N :=
  match fuel with
  | O => rb
  | S fuel =>
      match rb with
      | 47 :: r => trim_body fuel r
      | [46] => []
      | 46 :: 47 :: r => trim_body fuel r
      | _ => rb
      end
  end.
Definition trimmed (rb : list N) : list N := trim_body (length rb) rb.
Definition split_path (p : list N) : option (list N * list N) :=
  let n := len_before_body p in
  let head := firstn n p in
  match trimmed (rev (skipn n p)) with
  | [] => match head with [] => None | h => Some ([], h) end
  | rb =>
      let (rf, rd) := rev_span (fun b => negb (b =? 47)) rb in
      Some (head ++ rev (trimmed rd), rev rf)
  end.

(** lines 96-115 [find_source_location] *)
Definition find_source_location (sf : symbol_file) (file : N) : res (option (list N) * list N) :=
  let* path := of_option EInvalidInput (aget N.eqb file (sf_files sf)) in
  let* '(dir, file) := of_option EInvalidInput (split_path path) in
  Ok (match dir with [] => None | d => Some d end, file).
(** lines 117-127 *)
Definition find_inlinee_name (sf : symbol_file) (origin : N) : res (list N) :=
  of_option EInvalidInput (aget N.eqb origin (sf_origins sf)).
Definition location (sf : symbol_file) (file line : N) : res code_info :=
  let* '(dir, file) := find_source_location sf file in
  Ok (CodeInfo dir file (Some line) None).

(** lines 159-183: the loop over the inlinees, as in the Gsym resolver *)
Fixpoint add_inlinees (sf : symbol_file) (stack : list inlinee) (direct : code_info)
  (inlined : list inlined_fn) : res (code_info * list inlined_fn) :=
  match stack with
  | [] => Ok (direct, inlined)
  | i :: stack =>
      let* name := find_inlinee_name sf (in_origin i) in
      let* ci := location sf (in_file i) (in_line i) in
      match last_code inlined with
      | Some last =>
          add_inlinees sf stack direct (set_last_code inlined (Some ci) ++ [InlinedFn name last])
      | None => add_inlinees sf stack ci (inlined ++ [InlinedFn name (Some direct)])
      end
  end.

(** lines 129-193 [fill_code_info], 196-224 [find_sym] *)
Definition fill_code_info (m : mode) (pick : N -> N -> N) (sf : symbol_file) (sym : resolved_sym)
  (addr : N) (opts : find_opts) (f : func) : res resolved_sym :=
  if negb (code_info_opt opts) then Ok sym
  else
  let* sl := find_line m f addr in
  match sl with
  | None => Ok sym
  | Some sl =>
      let* direct := location sf (sl_file sl) (sl_line sl) in
      let* '(direct, inlined) :=
        (if inlined_fns_opt opts then
           let* stack := find_inlinees pick f addr in
           add_inlinees sf stack direct []
         else Ok (direct, [])) in
      Ok (ResolvedSym (rs_name sym) (rs_module sym) (rs_addr sym) (rs_size sym) (rs_lang sym)
            (Some direct) inlined)
  end.
Definition find_sym (m : mode) (pick : N -> N -> N) (sf : symbol_file) (addr : N) (opts : find_opts)
  : find_result :=
  let* f := find_function m sf addr in
  match f with
  | None => Ok (inr (match sf_funcs sf with [] => MissingSyms | _ => UnknownAddr end))
  | Some f =>
      let* sym := fill_code_info m pick sf
        (ResolvedSym (fn_name f) (sf_module sf) (fn_addr f) (Some (fn_size f)) LangUnknown None [])
        addr opts f in
      Ok (inl sym)
  end.

(** lines 227-265: [Inspect::find_addr] and [for_each] (for functions) *)
Definition for_each (sf : symbol_file) : list func := sf_funcs sf.

Example parse_example :
  match from_bytes (bs "MODULE Linux x86 ffff0000 bar
FILE 53 src/bar.c
PUBLIC 1234 10 some public
FUNC 1000 30 10 another func
1000 30 7 53
INLINE 0 9 53 3 1000 10 1020 8
INLINE_ORIGIN 3 f
") with
  | Ok sf => find_sym Checked (fun _ _ => 0) sf 4104 WithInlined
      = Ok (inl (ResolvedSym (bs "another func") (Some (bs "bar")) 4096 (Some 48) LangUnknown
              (Some (CodeInfo (Some (bs "src")) (bs "bar.c") (Some 9) None))
              [InlinedFn (bs "f") (Some (CodeInfo (Some (bs "src")) (bs "bar.c") (Some 7) None))]))
  | _ => False
  end.
Proof. vm_compute. reflexivity. Qed.
