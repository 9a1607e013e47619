(** * What a Gsym file says, independent of the code reading it

    Layout after LLVM's GsymReader documentation; no definition of the model
    is used here. *)

From Verif Require Import Base UtilProofs Sym Text.
Local Open Scope N_scope.

(** [data] has the bytes [bs] at [off]. *)
Definition holds_at (data : list N) (off : N) (bs : list N) : Prop :=
  exists pre post, data = pre ++ bs ++ post /\ nlen pre = off.

(** [bs] is an encoding, padded or not, of an unsigned/signed number. *)
Definition is_uleb (v : N) (bs : list N) : Prop :=
  exists k, (k <= 9)%nat /\ v < 2 ^ 64 /\ v < 2 ^ (7 * N.of_nat (S k)) /\ bs = uleb_enc k v.
Definition is_sleb (v : Z) (bs : list N) : Prop :=
  exists k, (k <= 9)%nat /\ (- 2 ^ 63 <= v < 2 ^ 63)%Z /\
    (- 2 ^ (7 * Z.of_nat k + 6) <= v < 2 ^ (7 * Z.of_nat k + 6))%Z /\ bs = sleb_enc k v.

(** ** Line programs *)
Inductive lop :=
| OpFile (f : N) | OpAddr (d : N) | OpLine (d : Z) | OpSpecial (adj : N).

Inductive enc_op : lop -> list N -> Prop :=
| EncFile : forall f b, f < 2 ^ 32 -> is_uleb f b -> enc_op (OpFile f) (1 :: b)
| EncAddr : forall d b, is_uleb d b -> enc_op (OpAddr d) (2 :: b)
| EncLine : forall d b, is_sleb d b -> enc_op (OpLine d) (3 :: b)
| EncSpecial : forall a, a < 252 -> enc_op (OpSpecial a) [4 + a].
Inductive enc_ops : list lop -> list N -> Prop :=
| EncNil : enc_ops [] []
| EncCons : forall o ops b bs, enc_op o b -> enc_ops ops bs -> enc_ops (o :: ops) (b ++ bs).

(** Machine state: address, file, line. *)
Record lstate := LState { ls_addr : N; ls_file : N; ls_line : Z }.

Record lheader := LHeader { h_min : Z; h_max : Z; h_first : N }.

Definition step_op (h : lheader) (s : lstate) (o : lop) : lstate :=
  match o with
  | OpFile f => LState (ls_addr s) f (ls_line s)
  | OpAddr d => LState (ls_addr s + d) (ls_file s) (ls_line s)
  | OpLine d => LState (ls_addr s) (ls_file s) (ls_line s + d)%Z
  | OpSpecial a =>
      let range := (h_max h - h_min h + 1)%Z in
      LState (ls_addr s + Z.to_N (Z.of_N a / range)) (ls_file s)
        (ls_line s + h_min h + Z.of_N a mod range)%Z
  end.
Definition emits (o : lop) : bool :=
  match o with OpAddr _ | OpSpecial _ => true | _ => false end.

(** The rows a program describes. *)
Fixpoint rows (h : lheader) (s : lstate) (ops : list lop) : list lstate :=
  match ops with
  | [] => []
  | o :: ops =>
      let s := step_op h s o in
      if emits o then s :: rows h s ops else rows h s ops
  end.
(** No state leaves the value ranges of the format's fields. *)
Fixpoint states_fit (h : lheader) (s : lstate) (ops : list lop) : Prop :=
  ls_addr s < 2 ^ 64 /\ (0 <= ls_line s < 2 ^ 31)%Z /\
  match ops with
  | [] => True
  | o :: ops => states_fit h (step_op h s o) ops
  end.
Definition header_fits (h : lheader) : Prop :=
  (- 2 ^ 31 <= h_min h /\ h_min h <= h_max h /\ h_max h + 252 < 2 ^ 31)%Z.

(** An encoded line table: header, program, and either the end of the data
    or an end marker followed by anything. *)
Definition enc_line_table (h : lheader) (ops : list lop) (bs : list N) : Prop :=
  exists b1 b2 b3 b4 tail, is_sleb (h_min h) b1 /\ is_sleb (h_max h) b2 /\
    is_uleb (h_first h) b3 /\ enc_ops ops b4 /\
    (tail = [] \/ exists junk, tail = 0 :: junk) /\ bs = b1 ++ b2 ++ b3 ++ b4 ++ tail.

Definition initial (h : lheader) (symaddr : N) : lstate :=
  LState symaddr 1 (Z.of_N (h_first h)).
Definition table_rows (h : lheader) (symaddr : N) (ops : list lop) : list lstate :=
  rows h (initial h symaddr) ops.
(** The program ends with an operation that emits a row. *)
Definition ends_with_row (ops : list lop) : Prop :=
  ops = [] \/ exists ops' o, ops = ops' ++ [o] /\ emits o = true.

(** The row in effect at an address: the last one at or before it. *)
Definition in_effect (rs : list lstate) (addr : N) (r : lstate) : Prop :=
  exists i, nth_error rs i = Some r /\ ls_addr r <= addr /\
    forall j r', (i < j)%nat -> nth_error rs j = Some r' -> addr < ls_addr r'.
Definition monotone (rs : list lstate) : Prop :=
  StronglySorted (fun a b => ls_addr a <= ls_addr b) rs.

(** ** Inline trees *)
Inductive itree :=
| INode (ranges : list (N * N)) (name call_file call_line : N) (kids : iforest)
with iforest := INil | ICons (t : itree) (f : iforest).

Inductive enc_ranges : list (N * N) -> list N -> Prop :=
| EncR0 : enc_ranges [] []
| EncR : forall o s l b1 b2 b3, is_uleb o b1 -> is_uleb s b2 -> enc_ranges l b3 ->
    enc_ranges ((o, s) :: l) (b1 ++ b2 ++ b3).

(** A node: number of ranges, ranges, whether there are children, name, call
    file and line, and then, if announced, the children up to an entry
    without ranges. *)
Inductive enc_tree : itree -> list N -> Prop :=
| EncLeaf : forall ranges name file line b1 b2 b3 b4,
    ranges <> [] -> is_uleb (nlen ranges) b1 -> enc_ranges ranges b2 ->
    name < 2 ^ 32 -> file < 2 ^ 32 -> line < 2 ^ 32 -> is_uleb file b3 -> is_uleb line b4 ->
    enc_tree (INode ranges name file line INil)
      (b1 ++ b2 ++ [0] ++ le_bytes 4 name ++ b3 ++ b4)
| EncInner : forall ranges name file line kids b1 b2 flag b3 b4 b5,
    ranges <> [] -> is_uleb (nlen ranges) b1 -> enc_ranges ranges b2 ->
    0 < flag < 256 -> name < 2 ^ 32 -> file < 2 ^ 32 -> line < 2 ^ 32 ->
    is_uleb file b3 -> is_uleb line b4 -> enc_forest kids b5 ->
    enc_tree (INode ranges name file line kids)
      (b1 ++ b2 ++ [flag] ++ le_bytes 4 name ++ b3 ++ b4 ++ b5)
with enc_forest : iforest -> list N -> Prop :=
| EncFNil : forall b, is_uleb 0 b -> enc_forest INil b
| EncFCons : forall t f b bs, enc_tree t b -> enc_forest f bs -> enc_forest (ICons t f) (b ++ bs).

(** Ranges are relative to a base: the function's start for the root, the
    start of the parent's first range otherwise. *)
Definition covered (base addr : N) (ranges : list (N * N)) : bool :=
  existsb (fun '(o, s) => (base + o <=? addr) && (addr <? base + o + s)) ranges.
Definition first_start (base : N) (ranges : list (N * N)) : N :=
  match ranges with [] => base | (o, _) :: _ => base + o end.

(** The records covering [addr], outermost first; nothing below a record that
    does not cover it; records without a name are left out. *)
Record call := Call { c_name : N; c_file : N; c_line : N }.
Fixpoint tree_chain (base addr : N) (t : itree) : list call :=
  match t with
  | INode ranges name file line kids =>
      if covered base addr ranges then
        (if name =? 0 then [] else [Call name file line])
        ++ forest_chain (first_start base ranges) addr kids
      else []
  end
with forest_chain (base addr : N) (f : iforest) : list call :=
  match f with
  | INil => []
  | ICons t f => tree_chain base addr t ++ forest_chain base addr f
  end.
(** No address overflows. *)
Fixpoint tree_fits (base : N) (t : itree) : Prop :=
  match t with
  | INode ranges _ _ _ kids =>
      Forall (fun '(o, s) => base + o + s < 2 ^ 64) ranges /\
      forest_fits (first_start base ranges) kids
  end
with forest_fits (base : N) (f : iforest) : Prop :=
  match f with
  | INil => True
  | ICons t f => tree_fits base t /\ forest_fits base f
  end.

(** ** Whole files *)
Inductive info :=
| LineInfo (h : lheader) (ops : list lop)
| InlineInfo (t : itree)
| OtherInfo (typ : N) (bs : list N).

(** Payload of an address info: type, length, data, ... , end marker. *)
Inductive enc_info : info -> list N -> Prop :=
| EncLineI : forall h ops b, enc_line_table h ops b -> nlen b < 2 ^ 32 ->
    enc_info (LineInfo h ops) (le_bytes 4 1 ++ le_bytes 4 (nlen b) ++ b)
| EncInlineI : forall t b j, enc_tree t b -> nlen (b ++ j) < 2 ^ 32 ->
    enc_info (InlineInfo t) (le_bytes 4 2 ++ le_bytes 4 (nlen (b ++ j)) ++ b ++ j)
| EncOtherI : forall typ b, 2 < typ < 2 ^ 32 -> nlen b < 2 ^ 32 ->
    enc_info (OtherInfo typ b) (le_bytes 4 typ ++ le_bytes 4 (nlen b) ++ b).
Inductive enc_infos : list info -> list N -> Prop :=
| EncI0 : enc_infos [] (le_bytes 4 0)
| EncI : forall i l b bs, enc_info i b -> enc_infos l bs -> enc_infos (i :: l) (b ++ bs).

(** A function: start relative to the file's base address, size, offset of
    its name in the string table, offset of its record in the file. *)
Record fentry := FEntry {
  f_start : N; f_size : N; f_name : N; f_off : N; f_infos : list info }.
Record gfile := GFile {
  gf_width : N; gf_base : N; gf_funcs : list fentry;
  gf_files : list (N * N); gf_strs : list N; gf_str_off : N }.

Definition is_gsym (data : list N) (d : gfile) : Prop :=
  In (gf_width d) [1; 2; 4; 8] /\ gf_base d < 2 ^ 64 /\
  nlen (gf_funcs d) < 2 ^ 32 /\ nlen (gf_files d) < 2 ^ 32 /\
  nlen (gf_strs d) < 2 ^ 32 /\ gf_str_off d < 2 ^ 32 /\
  Forall (fun f => f_start f < 256 ^ gf_width d /\ f_size f < 2 ^ 32 /\ f_name f < 2 ^ 32 /\
                   f_off f < 2 ^ 32) (gf_funcs d) /\
  Forall (fun '(a, b) => a < 2 ^ 32 /\ b < 2 ^ 32) (gf_files d) /\
  (exists uuid_size uuid, uuid_size < 256 /\ nlen uuid = 20 /\
    holds_at data 0
      (le_bytes 4 1196644685 ++ le_bytes 2 1 ++ [gf_width d] ++ [uuid_size] ++
       le_bytes 8 (gf_base d) ++ le_bytes 4 (nlen (gf_funcs d)) ++
       le_bytes 4 (gf_str_off d) ++ le_bytes 4 (nlen (gf_strs d)) ++ uuid ++
       flat_map (fun f => le_bytes (N.to_nat (gf_width d)) (f_start f)) (gf_funcs d))) /\
  (** the tables after the addresses start at a multiple of four *)
  (exists p, 48 + nlen (gf_funcs d) * gf_width d <= p < 48 + nlen (gf_funcs d) * gf_width d + 4 /\
    p mod 4 = 0 /\
    holds_at data p
      (flat_map (fun f => le_bytes 4 (f_off f)) (gf_funcs d) ++
       le_bytes 4 (nlen (gf_files d)) ++
       flat_map (fun '(a, b) => le_bytes 4 a ++ le_bytes 4 b) (gf_files d))) /\
  holds_at data (gf_str_off d) (gf_strs d) /\
  Forall (fun f => exists b, enc_infos (f_infos f) b /\
            holds_at data (f_off f) (le_bytes 4 (f_size f) ++ le_bytes 4 (f_name f) ++ b))
    (gf_funcs d).

(** The string at an offset of the string table. *)
Definition str_at (d : gfile) (off : N) (s : list N) : Prop :=
  holds_at (gf_strs d) off (s ++ [0]) /\ Forall (fun b => b <> 0) s.
Definition name_at (d : gfile) (off : N) (s : list N) : Prop :=
  str_at d off s /\ exists cs, Forall is_scalar cs /\ s = utf8_enc cs.
(** The source location for a file index and a line. *)
Definition loc_at (d : gfile) (file line : N) (ci : code_info) : Prop :=
  exists a b dir name, nnth file (gf_files d) = Some (a, b) /\ str_at d a dir /\ str_at d b name /\
    ci = CodeInfo (Some dir) name (Some line) None.

(** Function starts ascend. *)
Definition sorted_funcs (d : gfile) : Prop :=
  StronglySorted (fun a b => f_start a < f_start b) (gf_funcs d).
(** The function an address belongs to: the closest one starting at or before
    it, provided it covers the address or has no size. *)
Definition nearest (d : gfile) (addr : N) (f : fentry) : Prop :=
  In f (gf_funcs d) /\ gf_base d + f_start f <= addr /\
  forall f', In f' (gf_funcs d) -> gf_base d + f_start f' <= addr -> f_start f' <= f_start f.
Definition covers (d : gfile) (addr : N) (f : fentry) : Prop :=
  gf_base d + f_start f <= addr /\ (f_size f = 0 \/ addr < gf_base d + f_start f + f_size f).
Definition no_wrap (d : gfile) : Prop :=
  Forall (fun f => gf_base d + f_start f + f_size f < 2 ^ 64) (gf_funcs d).

(** ** What is known about an address of a function starting at [start] *)

(** The row of the first line table that has one in effect. *)
Definition row_of (start addr : N) (infos : list info) (r : lstate) : Prop :=
  exists pre h ops post, infos = pre ++ LineInfo h ops :: post /\
    in_effect (table_rows h start ops) addr r /\
    forall h' ops', In (LineInfo h' ops') pre -> forall r', ~ in_effect (table_rows h' start ops') addr r'.
Definition no_row (start addr : N) (infos : list info) : Prop :=
  forall h ops, In (LineInfo h ops) infos -> forall r, ~ in_effect (table_rows h start ops) addr r.
(** The first non-empty chain of inlined calls. *)
Fixpoint chain_of (start addr : N) (infos : list info) : list call :=
  match infos with
  | [] => []
  | InlineInfo t :: l =>
      match tree_chain start addr t with
      | [] => chain_of start addr l
      | c => c
      end
  | _ :: l => chain_of start addr l
  end.
(** Values fit their fields, line programs have ascending addresses and do
    not end in state changes without effect. *)
Definition info_ok (start : N) (i : info) : Prop :=
  match i with
  | LineInfo h ops =>
      header_fits h /\ states_fit h (initial h start) ops /\ ends_with_row ops /\
      monotone (table_rows h start ops)
  | InlineInfo t => tree_fits start t
  | OtherInfo _ _ => True
  end.
