(** * DWARF debug information (/repo/src/dwarf)

    The bytes of the DWARF sections are decoded by the [gimli] crate. Its
    results are the input of the model: entries in the order in which they are
    stored, rows of line programs, lists of ranges. [None] is an error of
    [gimli]; all of them end up as [ErrorKind::InvalidDwarf] (error.rs lines
    104, 139, 530-538). *)

From Verif Require Import Base Util Text Search Sym Inspect Depmod.
Local Open Scope N_scope.

Definition g {A} (o : option A) : res A := of_option EInvalidDwarf o.

(** ** What gimli delivers *)

(** [gimli::Range] *)
Record range := Range { r_begin : N; r_end : N }.

(** [gimli::AttributeValue]: the variants that are told apart. A string form
    holds what [attr_string] makes of it, a form for range lists what
    [attr_ranges_offset] does. *)
Inductive value :=
| VAddr (a : N)
| VAddrIndex (i : N)
| VUdata (n : N)
| VStr (s : option (list N))
| VUnitRef (off : N)
| VInfoRef (off : N)
| VRanges (o : option (option N))
| VFileIndex (i : N)
| VLang (l : src_lang)
| VOther.
(** [DW_AT_*] *)
Inductive aname :=
| ALinkage | AMips | AName | AOrigin | ASpecification | ALow | AHigh | ARanges
| ACallFile | ACallLine | ACallColumn | ALanguage | AOther.
Record attr := Attr { a_name : aname; a_value : value }.
(** [DW_TAG_*] *)
Inductive dtag := TSubprogram | TInlined | TOther.
(** An entry: attributes may fail to be read. *)
Record die := Die { d_tag : dtag; d_children : bool; d_attrs : list (option attr) }.
(** What is stored at one place: the end of a list of siblings, an entry, or
    something that cannot be decoded; with offsets in the unit. *)
Inductive item := INull | IDie (d : die) | IBad.
Definition stream := list (N * item).

(** [gimli::FileEntry] of a line program's header: index and name of the
    directory, file name *)
Record fentry := FEntry { f_dir_index : N; f_dir : option (option (list N)); f_name : option (list N) }.
(** [gimli::LineRow] *)
Record prow := PRow {
  p_address : N;
  p_file : N;
  p_line : option N;
  p_column : option N;
  p_end : bool
}.
(** [gimli::IncompleteLineProgram]: its rows, [LineProgramHeader::file(0)] and
    [file(1)], [file(2)], … *)
Record lprog := LProg { lp_rows : option (list prow); lp_file0 : option fentry; lp_files : list fentry }.

(** [gimli::Unit] with its sections: all entries, those from some offset,
    addresses by index, range lists *)
Record body := Body {
  b_entries : option stream;
  b_at : N -> option stream;
  b_version : N;
  b_address : N -> option N;
  b_ranges : N -> option (list range);
  b_comp_dir : option (list N);
  b_lines : option lprog
}.

(** [attr_string] *)
Definition attr_string (v : value) : option (list N) :=
  match v with VStr s => s | _ => None end.
(** [udata_value] *)
Definition udata_value (v : value) : option N :=
  match v with VUdata n => Some n | _ => None end.
(** [attr_ranges_offset] *)
Definition attr_ranges_offset (v : value) : option (option N) :=
  match v with VRanges o => o | _ => Some None end.

(** [EntriesRaw::read_abbreviation]; [depth] is [next_depth] *)
Definition read_abbreviation (s : stream) (depth : Z) : res (option die * stream * Z) :=
  match s with
  | [] => Err EInvalidDwarf
  | (_, IBad) :: _ => Err EInvalidDwarf
  | (_, INull) :: s => Ok (None, s, (depth - 1)%Z)
  | (_, IDie d) :: s => Ok (Some d, s, if d_children d then (depth + 1)%Z else depth)
  end.
(** [EntriesRaw::skip_attributes] *)
Fixpoint skip_attributes (l : list (option attr)) : res unit :=
  match l with
  | [] => Ok tt
  | a :: l => let* _ := g a in skip_attributes l
  end.

(** ** range.rs *)

(** lines 30-35 [RangeAttributes] *)
Record rattrs := RAttrs {
  ra_low : option N;
  ra_high : option N;
  ra_size : option N;
  ra_ranges : option N
}.
Definition no_rattrs : rattrs := RAttrs None None None None.
Definition nonempty (r : range) : bool := r_begin r <? r_end r.

(** lines 49-71 [for_each_range]: the ranges passed on; whether there was any
    is what the function returns. *)
Definition for_each_range (m : mode) (b : body) (ra : rattrs) : res (list range) :=
  match ra_ranges ra with
  | Some off => let* rs := g (b_ranges b off) in Ok (filter nonempty rs)
  | None =>
      match ra_low ra, ra_high ra with
      | Some lo, Some hi => Ok (filter nonempty [Range lo hi])
      | _, _ =>
          match ra_low ra, ra_size ra with
          | Some lo, Some sz => let* hi := add64 m lo sz in Ok (filter nonempty [Range lo hi])
          | _, _ => Ok []
          end
      end
  end.
(** lines 73-86 [bounds] *)
Definition bounds (m : mode) (ra : rattrs) : res (option range) :=
  match ra_low ra, ra_high ra with
  | Some lo, Some hi => Ok (Some (Range lo hi))
  | _, _ =>
      match ra_low ra, ra_size ra with
      | Some lo, Some sz => let* hi := add64 m lo sz in Ok (Some (Range lo hi))
      | _, _ => Ok None
      end
  end.
(** function.rs lines 146-163, 480-497 and units.rs lines 152-171: attributes
    about ranges *)
Definition range_attr (b : body) (ra : rattrs) (a : attr) : res rattrs :=
  match a_name a with
  | ALow =>
      match a_value a with
      | VAddr v => Ok (RAttrs (Some v) (ra_high ra) (ra_size ra) (ra_ranges ra))
      | VAddrIndex i =>
          let* v := g (b_address b i) in Ok (RAttrs (Some v) (ra_high ra) (ra_size ra) (ra_ranges ra))
      | _ => Ok ra
      end
  | AHigh =>
      match a_value a with
      | VAddr v => Ok (RAttrs (ra_low ra) (Some v) (ra_size ra) (ra_ranges ra))
      | VAddrIndex i =>
          let* v := g (b_address b i) in Ok (RAttrs (ra_low ra) (Some v) (ra_size ra) (ra_ranges ra))
      | VUdata v => Ok (RAttrs (ra_low ra) (ra_high ra) (Some v) (ra_ranges ra))
      | _ => Ok ra
      end
  | ARanges =>
      let* o := g (attr_ranges_offset (a_value a)) in
      Ok (RAttrs (ra_low ra) (ra_high ra) (ra_size ra) o)
  | _ => Ok ra
  end.

(** ** lines.rs *)

(** lines 43-49 [path_push], the same as joining *)
Definition path_push (path p : list N) : list N :=
  match p with
  | 47 :: _ => p
  | _ => path_join path p
  end.
(** lines 51-74 [render_file]; conversions of bytes into paths never fail on
    Unix. *)
Definition render_file (b : body) (f : fentry) : res (list N * list N) :=
  let dir := match b_comp_dir b with Some d => d | None => [] end in
  let* dir :=
    (if negb (f_dir_index f =? 0) then
       match f_dir f with
       | Some d => let* d := g d in Ok (path_push dir d)
       | None => Ok dir
       end
     else Ok dir) in
  let* name := g (f_name f) in
  Ok (dir, name).

(** lines 77-95 [LineSequence], [LineRow], [Lines] *)
Record lrow := LRow { l_address : N; l_file : N; l_line : N; l_column : N }.
Record lseq := LSeq { s_start : N; s_end : N; s_rows : list lrow }.
Record lines := Lines { ls_files : list (list N * list N); ls_seqs : list lseq }.

(** lines 121-126: conversions of a row *)
Definition conv_row (r : prow) : lrow :=
  LRow (p_address r) (p_file r)
    ((match p_line r with Some n => n | None => 0 end) mod two32)
    ((match p_column r with Some n => n | None => 0 end) mod two32).
(** lines 102-145: the loop over rows; [rows] are those of the sequence so
    far, last first, [seqs] the sequences so far, last first. *)
Fixpoint parse_rows (l : list prow) (rows : list lrow) (seqs : list lseq) : list lseq :=
  match l with
  | [] => rev seqs
  | r :: l =>
      if p_end r then
        match rev rows with
        | [] => parse_rows l rows seqs
        | (first :: _) as rs => parse_rows l [] (LSeq (l_address first) (p_address r) rs :: seqs)
        end
      else
        match rows with
        | last :: rows' =>
            if l_address last =? p_address r then parse_rows l (conv_row r :: rows') seqs
            else parse_rows l (conv_row r :: rows) seqs
        | [] => parse_rows l [conv_row r] seqs
        end
  end.
(** lines 148-158: the loop over files *)
Fixpoint render_files (b : body) (l : list fentry) : res (list (list N * list N)) :=
  match l with
  | [] => Ok []
  | f :: l => let* x := render_file b f in let* xs := render_files b l in Ok (x :: xs)
  end.
(** lines 98-163 [Lines::parse] *)
Definition lines_parse (srt : sorter) (b : body) (p : lprog) : res lines :=
  let* rows := g (lp_rows p) in
  let seqs := srt _ (by_key s_start) (parse_rows rows [] []) in
  let* f0 := match lp_file0 p with Some f => render_file b f | None => Ok ([], []) end in
  let* fs := render_files b (lp_files p) in
  Ok (Lines (f0 :: fs) seqs).

(** location.rs [Location] *)
Record location := Location {
  lo_dir : list N;
  lo_file : list N;
  lo_line : option N;
  lo_column : option N
}.
(** lines 165-180 [row_location] *)
Definition row_location (ls : lines) (r : lrow) : res location :=
  let* df := unwrap (nnth (l_file r) (ls_files ls)) in
  Ok (Location (fst df) (snd df)
    (if l_line r =? 0 then None else Some (l_line r))
    (if l_line r =? 0 then None else Some (l_column r))).
(** lines 182-207 [find_location] *)
Definition seq_cmp (probe : N) (s : lseq) : comparison :=
  if probe <? s_start s then Gt else if s_end s <=? probe then Lt else Eq.
Definition lines_find_location (pick : N -> N) (ls : lines) (probe : N) : res (option location) :=
  match binary_search_by pick (ls_seqs ls) (seq_cmp probe) with
  | inr _ => Ok None
  | inl i =>
      let* s := unwrap (nth_error (ls_seqs ls) i) in
      match binary_search_by pick (s_rows s) (fun r => l_address r ?= probe) with
      | inl i => let* r := unwrap (nth_error (s_rows s) i) in
                 let* loc := row_location ls r in Ok (Some loc)
      | inr O => Ok None
      | inr (S i) => let* r := unwrap (nth_error (s_rows s) i) in
                     let* loc := row_location ls r in Ok (Some loc)
      end
  end.

(** ** unit.rs, units.rs: units *)

(** unit.rs lines 55-67 [Unit]: offset, size of header and of entries, what
    [gimli] makes of the unit, and of its split debug information if there is
    any. Values in cells are functions of these; the language differs between
    units created in either way. *)
Record dunit := DUnit {
  u_offset : N;
  u_header_size : N;
  u_entries_len : N;
  u_main : option body;
  u_dwo : option (option body);
  u_lang : option (option src_lang)
}.
(** unit.rs lines 146-173 [unit_ref] *)
Definition unit_ref (u : dunit) : res body :=
  let* b := g (u_main u) in
  let* dwo := g (u_dwo u) in
  match dwo with
  | Some d => Ok d
  | None => Ok b
  end.

(** unit.rs lines 46-50 [UnitRange] *)
Record urange := URange { ur_unit : N; ur_max : N; ur_range : range }.
(** units.rs lines 44-53 [Units] *)
Record units := Units { us_ranges : list urange; us_units : list dunit }.

(** units.rs lines 271-292 [find_unit] *)
Definition find_unit (pick : N -> N) (us : units) (off : N) : res (body * N) :=
  match binary_search_by pick (us_units us) (fun u => u_offset u ?= off) with
  | inl _ | inr O => Err EInvalidDwarf
  | inr (S i) =>
      let* u := unwrap (nth_error (us_units us) i) in
      let* uoff :=
        (let uoff := off - u_offset u in
         if (u_offset u <=? off) && (u_header_size u <=? uoff)
            && (uoff - u_header_size u <? u_entries_len u)
         then Ok uoff else Err EInvalidDwarf) in
      let* b := unit_ref u in
      Ok (b, uoff)
  end.

(** ** function.rs: names *)

(** lines 55-77: the attributes looked at by [name_entry]; a linkage name ends
    the search. *)
Fixpoint name_scan (l : list (option attr)) (name : option (list N)) (next : option value)
  : res (option (list N) * option value) :=
  match l with
  | [] => Ok (name, next)
  | a :: l =>
      let* a := g a in
      match a_name a with
      | ALinkage | AMips =>
          match attr_string (a_value a) with
          | Some s => Ok (Some s, None)
          | None => name_scan l name next
          end
      | AName =>
          match attr_string (a_value a) with
          | Some s => name_scan l (Some s) next
          | None => name_scan l name next
          end
      | AOrigin | ASpecification => name_scan l name (Some (a_value a))
      | _ => name_scan l name next
      end
  end.
(** lines 43-54 *)
Definition entry_at (b : body) (off : N) : res die :=
  let* s := g (b_at b off) in
  let* '(d, _, _) := read_abbreviation s 0%Z in
  g d.
(** lines 43-87 [name_entry], 90-109 [name_attr]; [limit] is the recursion
    limit. *)
Fixpoint name_attr (pick : N -> N) (us : units) (limit : nat) (v : value) (b : body)
  : res (option (list N)) :=
  match limit with
  | O => Ok None
  | S limit =>
      let entry (b : body) (off : N) :=
        let* d := entry_at b off in
        let* '(name, next) := name_scan (d_attrs d) None None in
        match name with
        | Some s => Ok (Some s)
        | None =>
            match next with
            | Some next => name_attr pick us limit next b
            | None => Ok None
            end
        end in
      match v with
      | VUnitRef off => entry b off
      | VInfoRef off => let* '(b, off) := find_unit pick us off in entry b off
      | _ => Ok None
      end
  end.
Definition name_limit : nat := 16.

(** lines 164-180 and 463-479: attributes about names of functions *)
Definition fn_name_attr (pick : N -> N) (us : units) (b : body) (name : option (list N)) (a : attr)
  : res (option (list N)) :=
  match a_name a with
  | ALinkage | AMips =>
      match attr_string (a_value a) with
      | Some s => Ok (Some s)
      | None => Ok name
      end
  | AName => match name with Some _ => Ok name | None => Ok (attr_string (a_value a)) end
  | AOrigin | ASpecification =>
      match name with
      | Some _ => Ok name
      | None => name_attr pick us name_limit (a_value a) b
      end
  | _ => Ok name
  end.

(** ** function.rs: inlined functions *)

(** lines 123-128 [InlinedFunction] *)
Record inl_fn := InlFn {
  in_name : option (list N);
  in_file : option N;
  in_line : N;
  in_column : N
}.
(** lines 229-234 [InlinedFunctionAddress] *)
Record inl_addr := InlAddr { ia_range : range; ia_depth : N; ia_fn : N }.

(** lines 181-209: attributes about calls *)
Definition call_attr (b : body) (c : option N * N * N) (a : attr) : option N * N * N :=
  let '(file, line, column) := c in
  match a_name a with
  | ACallFile =>
      match a_value a with
      | VFileIndex i => if (0 <? i) || (5 <=? b_version b) then (Some i, line, column) else c
      | _ => c
      end
  | ACallLine =>
      (file, (match udata_value (a_value a) with Some n => n | None => 0 end) mod two32, column)
  | ACallColumn =>
      (file, line, (match udata_value (a_value a) with Some n => n | None => 0 end) mod two32)
  | _ => c
  end.
(** lines 142-211: the loop over attributes *)
Fixpoint inl_attrs (pick : N -> N) (us : units) (b : body) (l : list (option attr))
    (name : option (list N)) (ra : rattrs) (c : option N * N * N)
  : res (option (list N) * rattrs * (option N * N * N)) :=
  match l with
  | [] => Ok (name, ra, c)
  | a :: l =>
      let* a := g a in
      let* name := fn_name_attr pick us b name a in
      let* ra := range_attr b ra a in
      inl_attrs pick us b l name ra (call_attr b c a)
  end.
(** lines 370-380 [Function::skip] after its first line *)
Fixpoint skip_children (s : stream) (cur depth : Z) : res (stream * Z) :=
  if (cur <=? depth)%Z then Ok (s, cur)
  else
    match s with
    | [] => Err EInvalidDwarf
    | (_, IBad) :: _ => Err EInvalidDwarf
    | (_, INull) :: s => skip_children s (cur - 1)%Z depth
    | (_, IDie d) :: s =>
        let* _ := skip_attributes (d_attrs d) in
        skip_children s (if d_children d then cur + 1 else cur)%Z depth
    end.
(** lines 112-121 [InlinedState]: what is left, functions and addresses so far,
    last first *)
Definition inl_state : Type := stream * Z * list inl_fn * list inl_addr.
(** lines 131-225 [InlinedFunction::parse] and 331-355
    [Function::parse_children] *)
Fixpoint parse_children (m : mode) (pick : N -> N) (us : units) (b : body) (fuel : nat)
    (st : inl_state) (depth : Z) (idepth : N) : res inl_state :=
  match fuel with
  | O => NoFuel
  | S fuel =>
      let '(s, cur, fns, addrs) := st in
      if (cur <=? depth)%Z then Ok st
      else
        let* '(d, s, cur') := read_abbreviation s cur in
        match d with
        | None => parse_children m pick us b fuel (s, cur', fns, addrs) depth idepth
        | Some d =>
            match d_tag d with
            | TSubprogram =>
                let* _ := skip_attributes (d_attrs d) in
                let* '(s, cur') := skip_children s cur' cur in
                parse_children m pick us b fuel (s, cur', fns, addrs) depth idepth
            | TInlined =>
                let* '(name, ra, (file, line, column)) :=
                  inl_attrs pick us b (d_attrs d) None no_rattrs (None, 0, 0) in
                let idx := nlen fns in
                let* rs := for_each_range m b ra in
                let addrs := rev (map (fun r => InlAddr r idepth idx) rs) ++ addrs in
                let fns := InlFn name file line column :: fns in
                let* st := parse_children m pick us b fuel (s, cur', fns, addrs) cur (idepth + 1) in
                parse_children m pick us b fuel st depth idepth
            | TOther =>
                let* _ := skip_attributes (d_attrs d) in
                parse_children m pick us b fuel (s, cur', fns, addrs) depth idepth
            end
        end
  end.
(** lines 237-244 [InlinedFunctions] *)
Record inlined := Inlined { i_fns : list inl_fn; i_addrs : list inl_addr }.
Definition inl_leb (a b : inl_addr) : bool :=
  (ia_depth a <? ia_depth b) ||
  ((ia_depth a =? ia_depth b) && (r_begin (ia_range a) <=? r_begin (ia_range b))).
(** lines 246-290 [InlinedFunctions::parse] *)
Definition inlined_parse (m : mode) (srt : sorter) (pick : N -> N) (us : units) (b : body) (off : N)
  : res inlined :=
  let* s := g (b_at b off) in
  let* '(d, s, cur) := read_abbreviation s 0%Z in
  let* d := unwrap d in
  let* _ := skip_attributes (d_attrs d) in
  let* '(_, _, fns, addrs) := parse_children m pick us b (S (length s)) (s, cur, [], []) 0%Z 0 in
  Ok (Inlined (rev fns) (srt _ inl_leb (rev addrs))).

(** lines 309-321 *)
Definition inl_cmp (depth probe : N) (a : inl_addr) : comparison :=
  if depth <? ia_depth a then Gt
  else if ia_depth a <? depth then Lt
  else if probe <? r_begin (ia_range a) then Gt
  else if r_end (ia_range a) <=? probe then Lt
  else Eq.
(** lines 293-328 [find_inlined_functions] *)
Fixpoint find_inlined_loop (fuel : nat) (pick : N -> N) (fns : list inl_fn) (addrs : list inl_addr)
    (probe : N) (depth : N) : res (list inl_fn) :=
  match fuel with
  | O => NoFuel
  | S fuel =>
      match binary_search_by pick addrs (inl_cmp depth probe) with
      | inl i =>
          let* a := unwrap (nth_error addrs i) in
          let* f := unwrap (nnth (ia_fn a) fns) in
          let* r := find_inlined_loop fuel pick fns (skipn (S i) addrs) probe (depth + 1) in
          Ok (f :: r)
      | inr _ => Ok []
      end
  end.
Definition find_inlined (pick : N -> N) (i : inlined) (probe : N) : res (list inl_fn) :=
  find_inlined_loop (S (length (i_addrs i))) pick (i_fns i) (i_addrs i) probe 0.

(** ** function.rs: functions *)

(** lines 337-341 [FunctionAddress], 344-353 [Function], 417-424 [Functions] *)
Record fn_addr := FnAddr { fa_range : range; fa_fn : N }.
Record dfn := DFn { f_off : N; f_fname : option (list N); f_range : option range }.
Record functions := Functions { fs_fns : list dfn; fs_addrs : list fn_addr }.

(** lines 459-502: the loop over attributes *)
Fixpoint fn_attrs (pick : N -> N) (us : units) (b : body) (l : list (option attr))
    (name : option (list N)) (ra : rattrs) : res (option (list N) * rattrs) :=
  match l with
  | [] => Ok (name, ra)
  | a :: l =>
      let* a := g a in
      let* name := fn_name_attr pick us b name a in
      let* ra := range_attr b ra a in
      fn_attrs pick us b l name ra
  end.
(** lines 450-523: the loop over entries *)
Fixpoint fns_loop (m : mode) (pick : N -> N) (us : units) (b : body) (s : stream)
    (fns : list dfn) (addrs : list fn_addr) : res (list dfn * list fn_addr) :=
  match s with
  | [] => Ok (rev fns, rev addrs)
  | (_, IBad) :: _ => Err EInvalidDwarf
  | (_, INull) :: s => fns_loop m pick us b s fns addrs
  | (off, IDie d) :: s =>
      match d_tag d with
      | TSubprogram =>
          let* '(name, ra) := fn_attrs pick us b (d_attrs d) None no_rattrs in
          let idx := nlen fns in
          let* rs := for_each_range m b ra in
          match rs with
          | [] => fns_loop m pick us b s fns addrs
          | _ =>
              let* bs := bounds m ra in
              fns_loop m pick us b s (DFn off name bs :: fns)
                (rev (map (fun r => FnAddr r idx) rs) ++ addrs)
          end
      | _ =>
          let* _ := skip_attributes (d_attrs d) in
          fns_loop m pick us b s fns addrs
      end
  end.
(** lines 443-535 [Functions::parse] *)
Definition functions_parse (m : mode) (srt : sorter) (pick : N -> N) (us : units) (b : body)
  : res functions :=
  let* s := g (b_entries b) in
  let* '(fns, addrs) := fns_loop m pick us b s [] [] in
  Ok (Functions fns (srt _ (by_key (fun a => r_begin (fa_range a))) addrs)).
(** lines 550-562 [find_address] *)
Definition fn_cmp (probe : N) (a : fn_addr) : comparison :=
  if probe <? r_begin (fa_range a) then Gt
  else if r_end (fa_range a) <=? probe then Lt
  else Eq.
Definition find_address (pick : N -> N) (fs : functions) (probe : N) : option nat :=
  match binary_search_by pick (fs_addrs fs) (fn_cmp probe) with
  | inl i => Some i
  | inr _ => None
  end.

(** ** unit.rs: lookups in a unit *)

(** lines 175-184, 237-247 [parse_functions] *)
Definition unit_functions (m : mode) (srt : sorter) (pick : N -> N) (us : units) (u : dunit)
  : res functions :=
  let* b := unit_ref u in functions_parse m srt pick us b.
(** lines 201-224 [parse_lines] *)
Definition unit_lines (srt : sorter) (u : dunit) : res (option lines) :=
  let* b := g (u_main u) in
  match b_lines b with
  | Some p => let* ls := lines_parse srt b p in Ok (Some ls)
  | None => Ok None
  end.
(** lines 226-235 [find_location] *)
Definition unit_find_location (srt : sorter) (pick : N -> N) (u : dunit) (probe : N)
  : res (option location) :=
  let* ls := unit_lines srt u in
  match ls with
  | Some ls => lines_find_location pick ls probe
  | None => Ok None
  end.
(** lines 249-266 [find_function] *)
Definition unit_find_function (m : mode) (srt : sorter) (pick : N -> N) (us : units) (u : dunit)
    (probe : N) : res (option dfn) :=
  let* fs := unit_functions m srt pick us u in
  match find_address pick fs probe with
  | Some i =>
      let* a := unwrap (nth_error (fs_addrs fs) i) in
      let* f := unwrap (nnth (fa_fn a) (fs_fns fs)) in
      Ok (Some f)
  | None => Ok None
  end.
(** lines 268-283 [find_name] *)
Definition has_name (name : list N) (f : dfn) : bool :=
  match f_fname f with Some n => beq n name | None => false end.
Definition unit_find_name (m : mode) (srt : sorter) (pick : N -> N) (us : units) (u : dunit)
    (name : list N) : res (option dfn) :=
  let* fs := unit_functions m srt pick us u in
  Ok (find (has_name name) (fs_fns fs)).
(** lines 298-321 [language] *)
Fixpoint first_lang (l : list (option attr)) : res (option src_lang) :=
  match l with
  | [] => Ok None
  | a :: l =>
      let* a := g a in
      match a_name a with
      | ALanguage => match a_value a with VLang v => Ok (Some v) | _ => Ok None end
      | _ => first_lang l
      end
  end.
Definition unit_language (u : dunit) : res (option src_lang) :=
  let* b := g (u_main u) in
  match u_lang u with
  | Some l => Ok l
  | None =>
      let* s := g (b_entries b) in
      let* '(d, _, _) := read_abbreviation s 0%Z in
      match d with
      | Some d => first_lang (d_attrs d)
      | None => Ok None
      end
  end.

(** ** units.rs *)

(** [gimli::UnitType] *)
Inductive ukind := KType | KPartial | KOther.
(** [gimli::UnitHeader] *)
Record uheader := UHeader {
  h_offset : option N;
  h_kind : ukind;
  h_size : N;
  h_len : N;
  h_unit : option body;
  h_dwo : option (option body)
}.
(** A set of [.debug_aranges]: the offset of the unit, and its entries: range
    and length, unless there is an error. The set itself may be bad. *)
Record aset := ASet { as_unit : N; as_entries : option (list (option (range * N))) }.
(** [gimli::Dwarf] *)
Record sections := Sections { sc_aranges : option (list aset); sc_units : option (list uheader) }.

Definition new_deferred (off : N) (h : uheader) : dunit :=
  DUnit off (h_size h) (h_len h) (h_unit h) (h_dwo h) None.

(** lines 110-113: to the first set of the unit *)
Fixpoint first_set (l : list aset) (off : N) (i : nat) : nat :=
  match i with
  | O => O
  | S i' =>
      match nth_error l i' with
      | Some a => if as_unit a =? off then first_set l off i' else i
      | None => i
      end
  end.
(** lines 115-137: entries of sets *)
Fixpoint sets_ranges (l : list aset) (off : N) : res (list range) :=
  match l with
  | [] => Ok []
  | a :: l =>
      if as_unit a =? off then
        let* es := g (as_entries a) in
        let* rs := sets_ranges l off in
        Ok (flat_map (fun e => match e with
                               | Some (r, len) => if len =? 0 then [] else [r]
                               | None => []
                               end) es ++ rs)
      else Ok []
  end.
(** lines 104-139 *)
Definition arange_ranges (pick : N -> N) (aranges : list aset) (off : N) : res (list range) :=
  match binary_search_by pick aranges (fun a => as_unit a ?= off) with
  | inl i => sets_ranges (skipn (first_set aranges off i) aranges) off
  | inr _ => Ok []
  end.
(** lines 150-184: the attributes of the unit's own entry *)
Fixpoint unit_attrs (b : body) (l : list (option attr)) (ra : rattrs) (lang : option src_lang)
  : res (rattrs * option src_lang) :=
  match l with
  | [] => Ok (ra, lang)
  | a :: l =>
      let* a := g a in
      let* ra := range_attr b ra a in
      unit_attrs b l ra
        (match a_name a, a_value a with
         | ALanguage, VLang v => Some v
         | _, _ => lang
         end)
  end.
(** lines 76-229: the loop over units; ranges and units so far, last first *)
Fixpoint units_loop (m : mode) (srt : sorter) (pick : N -> N) (aranges : list aset)
    (hs : list uheader) (ranges : list urange) (us : list dunit) : res (list urange * list dunit) :=
  match hs with
  | [] => Ok (rev ranges, rev us)
  | h :: hs =>
      let continue := units_loop m srt pick aranges hs in
      let id := nlen us in
      let push (rs : list range) := rev (map (fun r => URange id 0 r) rs) ++ ranges in
      match h_offset h, h_kind h with
      | None, _ => continue ranges us
      | _, KType => continue ranges us
      | Some off, KPartial => continue ranges (new_deferred off h :: us)
      | Some off, KOther =>
          let* rs := arange_ranges pick aranges off in
          match rs with
          | _ :: _ => continue (push rs) (new_deferred off h :: us)
          | [] =>
              match h_unit h with
              | None => continue ranges us
              | Some b =>
                  let* s := g (b_entries b) in
                  let* '(d, _, _) := read_abbreviation s 0%Z in
                  match d with
                  | None => continue ranges us
                  | Some d =>
                      let* '(ra, lang) := unit_attrs b (d_attrs d) no_rattrs None in
                      let* rs := for_each_range m b ra in
                      let rs :=
                        match rs with
                        | _ :: _ => rs
                        | [] =>
                            match b_lines b with
                            | Some p =>
                                match lines_parse srt b p with
                                | Ok ls => map (fun s => Range (s_start s) (s_end s)) (ls_seqs ls)
                                | _ => []
                                end
                            | None => []
                            end
                        end in
                      continue (push rs)
                        (DUnit off (h_size h) (h_len h) (h_unit h) (h_dwo h) (Some lang) :: us)
                  end
              end
          end
      end
  end.
(** lines 234-240: [max_end] *)
Fixpoint set_max (max : N) (l : list urange) : list urange :=
  match l with
  | [] => []
  | r :: l =>
      let max := N.max max (r_end (ur_range r)) in
      URange (ur_unit r) max (ur_range r) :: set_max max l
  end.
(** lines 56-249 [Units::parse] *)
Definition units_parse (m : mode) (srt : sorter) (pick : N -> N) (sc : sections) : res units :=
  let* aranges := g (sc_aranges sc) in
  let aranges := srt _ (by_key as_unit) aranges in
  let* hs := g (sc_units sc) in
  let* '(ranges, us) := units_loop m srt pick aranges hs [] [] in
  let ranges := srt _ (by_key (fun r => r_begin (ur_range r))) ranges in
  Ok (Units (set_max 0 ranges) us).

(** lines 314-352 [find_units_range] *)
Fixpoint take_while {A} (p : A -> bool) (l : list A) : list A :=
  match l with
  | [] => []
  | x :: l => if p x then x :: take_while p l else []
  end.
Definition find_units_range (pick : N -> N) (us : units) (low high : N) : list urange :=
  let pos := match binary_search_by pick (us_ranges us) (fun r => r_begin (ur_range r) ?= high) with
             | inl i => i
             | inr i => i
             end in
  filter (fun r => negb ((r_end (ur_range r) <=? low) || (high <=? r_begin (ur_range r))))
    (take_while (fun r => low <? ur_max r) (rev (firstn pos (us_ranges us)))).
(** lines 304-307 [find_units]; units are indexed when the iterator gets to
    them. *)
Definition find_units (m : mode) (pick : N -> N) (us : units) (probe : N) : res (list N) :=
  let* high := add64 m probe 1 in
  Ok (map ur_unit (find_units_range pick us probe high)).
Definition unit_at (us : units) (i : N) : res dunit := unwrap (nnth i (us_units us)).

(** lines 354-364 [find_function], 416-423 [find_location] *)
Fixpoint first_in {A} (f : dunit -> res (option A)) (us : units) (l : list N) : res (option (A * N)) :=
  match l with
  | [] => Ok None
  | i :: l =>
      let* u := unit_at us i in
      let* r := f u in
      match r with
      | Some x => Ok (Some (x, i))
      | None => first_in f us l
      end
  end.
Definition find_function (m : mode) (srt : sorter) (pick : N -> N) (us : units) (probe : N)
  : res (option (dfn * N)) :=
  let* l := find_units m pick us probe in
  first_in (fun u => unit_find_function m srt pick us u probe) us l.
Definition find_location (m : mode) (srt : sorter) (pick : N -> N) (us : units) (probe : N)
  : res (option location) :=
  let* l := find_units m pick us probe in
  let* r := first_in (fun u => unit_find_location srt pick u probe) us l in
  Ok (match r with Some (loc, _) => Some loc | None => None end).

(** lines 377-411: what is made of an inlined function *)
Definition inlined_info (srt : sorter) (u : dunit) (f : inl_fn) : res (list N * option location) :=
  let* name :=
    (match in_name f with
     | Some n => if utf8_valid n then Ok n else Err EInvalidDwarf
     | None => Ok []
     end) in
  match in_file f with
  | None => Ok (name, None)
  | Some file =>
      let* ls := unit_lines srt u in
      match ls with
      | None => Ok (name, None)
      | Some ls =>
          match nnth file (ls_files ls) with
          | Some (dir, file) => Ok (name, Some (Location dir file (Some (in_line f)) (Some (in_column f))))
          | None => Ok (name, None)
          end
      end
  end.
(** lines 367-413 [find_inlined_functions], without the mapping *)
Definition find_inlined_functions (m : mode) (srt : sorter) (pick : N -> N) (us : units) (u : dunit)
    (f : dfn) (probe : N) : res (list inl_fn) :=
  let* b := unit_ref u in
  let* i := inlined_parse m srt pick us b (f_off f) in
  find_inlined pick i probe.

(** lines 425-432 [find_name] *)
Fixpoint find_name (m : mode) (srt : sorter) (pick : N -> N) (us : units) (l : list dunit) (name : list N)
  : list (res dfn) :=
  match l with
  | [] => []
  | u :: l =>
      match unit_find_name m srt pick us u name with
      | Ok None => find_name m srt pick us l name
      | Ok (Some f) => Ok f :: find_name m srt pick us l name
      | Err e => Err e :: find_name m srt pick us l name
      | Panic => [Panic]
      | NoFuel => [NoFuel]
      end
  end.

(** ** resolver.rs *)

(** [DwarfResolver] lines 205-222: the ELF file (its module, its lookups of
    offsets), and the one looked at for symbols that are not in DWARF: the
    target of the debug link if there is one. *)
Record dresolver := DResolver {
  dr_units : units;
  dr_module : option (list N);
  dr_file_offset : N -> N -> res (option N);
  dr_find_sym : N -> find_opts -> find_result;
  dr_find_addr : list N -> find_addr_opts -> res (list sym_info)
}.

Definition to_code_info (l : location) : code_info :=
  CodeInfo (Some (lo_dir l)) (lo_file l) (lo_line l)
    (match lo_column l with Some c => Some (N.min c 65535) | None => None end).

(** lines 511-549: the loop over inlined functions; [code] is the direct code
    information *)
Fixpoint inline_loop (srt : sorter) (u : dunit) (l : list inl_fn) (code : code_info) (acc : list inlined_fn)
  : res (code_info * list inlined_fn) :=
  match l with
  | [] => Ok (code, acc)
  | f :: l =>
      let* '(name, loc) := inlined_info srt u f in
      let ci := match loc with Some loc => Some (to_code_info loc) | None => None end in
      match last_code acc with
      | Some last =>
          inline_loop srt u l code (set_last_code acc ci ++ [InlinedFn name last])
      | None =>
          match ci with
          | Some ci => inline_loop srt u l ci (acc ++ [InlinedFn name (Some code)])
          | None => inline_loop srt u l code (acc ++ [InlinedFn name None])
          end
      end
  end.
(** lines 473-566 [fill_code_info] *)
Definition fill_code_info (m : mode) (srt : sorter) (pick : N -> N) (us : units) (sym : resolved_sym)
    (addr : N) (opts : find_opts) (data : option (dfn * N)) : res resolved_sym :=
  if negb (code_info_opt opts) then Ok sym
  else
    let* loc := find_location m srt pick us addr in
    match loc with
    | None => Ok sym
    | Some loc =>
        let code := to_code_info loc in
        let* '(code, ifs) :=
          (if inlined_fns_opt opts then
             match data with
             | Some (f, i) =>
                 let* u := unit_at us i in
                 let* fns := find_inlined_functions m srt pick us u f addr in
                 inline_loop srt u fns code []
             | None => Ok (code, [])
             end
           else Ok (code, [])) in
        Ok (ResolvedSym (rs_name sym) (rs_module sym) (rs_addr sym) (rs_size sym) (rs_lang sym)
              (Some code) ifs)
    end.

(** lines 61-77 [SrcLang::from] *)
Definition src_lang_of (l : option src_lang) : src_lang :=
  match l with Some l => l | None => LangUnknown end.

(** lines 354-400 [find_sym] *)
Definition dwarf_find_sym (m : mode) (srt : sorter) (pick : N -> N) (r : dresolver) (addr : N)
    (opts : find_opts) : find_result :=
  let us := dr_units r in
  let* data := find_function m srt pick us addr in
  let* sym :=
    match data with
    | Some (f, i) =>
        let* u := unit_at us i in
        let* name :=
          (match f_fname f with
           | Some n => if utf8_valid n then Ok n else Err EInvalidDwarf
           | None => Ok []
           end) in
        let* size :=
          (match f_range f with
           | Some rg => let* n := sub64 m (r_end rg) (r_begin rg) in Ok (Some n)
           | None => Ok None
           end) in
        let* lang := unit_language u in
        Ok (inl (ResolvedSym name (dr_module r)
              (match f_range f with Some rg => r_begin rg | None => 0 end)
              size (src_lang_of lang) None []))
    | None => dr_find_sym r addr opts
    end in
  match sym with
  | inr reason => Ok (inr reason)
  | inl sym =>
      let* sym := fill_code_info m srt pick us sym addr opts data in
      Ok (inl sym)
  end.

(** lines 315-350 [function_to_sym_info] *)
Definition function_to_sym_info (r : dresolver) (f : dfn) (offset_in_file : bool)
  : res (option sym_info) :=
  match f_fname f with
  | None => Ok None
  | Some n =>
      if utf8_valid n then
        let addr := match f_range f with Some rg => r_begin rg | None => 0 end in
        let size := match f_range f with
                    | Some rg => if r_begin rg <=? r_end rg then r_end rg - r_begin rg else 0
                    | None => 0
                    end in
        let* fo := (if offset_in_file then dr_file_offset r addr size else Ok None) in
        Ok (Some (SymInfo n addr (Some size) TFunction fo (dr_module r)))
      else Panic
  end.
(** lines 408-434 [find_addr] *)
Fixpoint infos_of (r : dresolver) (off : bool) (l : list (res dfn)) : res (list sym_info) :=
  match l with
  | [] => Ok []
  | f :: l =>
      let* f := f in
      let* o := function_to_sym_info r f off in
      let* i := unwrap o in
      let* is := infos_of r off l in
      Ok (i :: is)
  end.
Definition dwarf_find_addr (m : mode) (srt : sorter) (pick : N -> N) (r : dresolver) (name : list N)
    (opts : find_addr_opts) : res (list sym_info) :=
  match fa_sym_type opts with
  | TVariable => Err EUnsupported
  | _ =>
      let us := dr_units r in
      let* syms := infos_of r (fa_file_offset opts) (find_name m srt pick us (us_units us) name) in
      match syms with
      | [] => dr_find_addr r name opts
      | _ => Ok syms
      end
  end.

(** lines 436-455 [for_each] with units.rs lines 434-448 *)
Fixpoint each_fn {S} (r : dresolver) (off : bool) (f : for_each_fn S) (l : list dfn) (s : S)
  : res (S * bool) :=
  match l with
  | [] => Ok (s, false)
  | fn :: l =>
      let* o := function_to_sym_info r fn off in
      match o with
      | None => each_fn r off f l s
      | Some i =>
          let '(s, stop) := f s i in
          if stop : bool then Ok (s, true) else each_fn r off f l s
      end
  end.
Fixpoint each_unit {S} (m : mode) (srt : sorter) (pick : N -> N) (r : dresolver) (off : bool)
    (f : for_each_fn S) (l : list dunit) (s : S) : res S :=
  match l with
  | [] => Ok s
  | u :: l =>
      let* fs := unit_functions m srt pick (dr_units r) u in
      let* '(s, stop) := each_fn r off f (fs_fns fs) s in
      if stop : bool then Ok s else each_unit m srt pick r off f l s
  end.
Definition dwarf_for_each {S} (m : mode) (srt : sorter) (pick : N -> N) (r : dresolver)
    (opts : find_addr_opts) (f : for_each_fn S) (s : S) : res S :=
  match fa_sym_type opts with
  | TVariable => Err EUnsupported
  | _ => each_unit m srt pick r (fa_file_offset opts) f (us_units (dr_units r)) s
  end.
