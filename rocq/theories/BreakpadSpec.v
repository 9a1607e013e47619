(** * The Breakpad text format, independent of the parser

    After docs/symbol_files.md of the Breakpad project. Only the result types
    of the model are used. *)

From Coq Require Import String.
From Verif Require Import Base Amap Text Sym Nom Breakpad.
Local Open Scope N_scope.

(** ** Tokens *)
Definition blank (b : N) : Prop := b = 32 \/ b = 9.
Definition white (b : N) : Prop := b = 32 \/ b = 9 \/ b = 13 \/ b = 10.
(** A separator: a space and possibly more white space. *)
Definition sep (s : list N) : Prop := exists t, s = 32 :: t /\ Forall blank t.
(** An end of line: "\n", "\r\n", ... *)
Definition eol (s : list N) : Prop := exists k, s = repeat 13 k ++ [10].
Definition hex_char (c d : N) : Prop :=
  (48 <= c <= 57 /\ d = c - 48) \/ (65 <= c <= 70 /\ d = c - 55) \/ (97 <= c <= 102 /\ d = c - 87).
Definition dec_char (c d : N) : Prop := 48 <= c <= 57 /\ d = c - 48.
(** [s] is a number of up to [max] digits. *)
Definition number (chr : N -> N -> Prop) (base : N) (max : nat) (v : N) (s : list N) : Prop :=
  exists ds, Forall2 chr s ds /\ (1 <= List.length s <= max)%nat /\
    v = fold_left (fun a d => a * base + d) ds 0.
Definition hex64_text := number hex_char 16 16.
Definition hex32_text := number hex_char 16 8.
Definition dec_text (v : N) (s : list N) : Prop := number dec_char 10 10 v s /\ v < 2 ^ 32.
(** Text up to the end of a line. *)
Definition line_char (b : N) : Prop := b <> 13 /\ b <> 10.
Definition starts_black (s : list N) : Prop :=
  match s with [] => True | b :: _ => ~ blank b end.
Definition name_text (s : list N) : Prop :=
  Forall line_char s /\ starts_black s /\ exists cs, Forall is_scalar cs /\ s = utf8_enc cs.
(** A word of the MODULE record. *)
Definition word (s : list N) : Prop :=
  s <> [] /\ starts_black s /\ Forall (fun b => b <> 32) s.

(** ** Records *)
Inductive brec :=
| RModule (os cpu id name : list N)
| RInfo (text : list N)
| RFile (id : N) (name : list N)
| ROrigin (id : N) (name : list N)
| RPublic (multiple : bool) (addr param : N) (name : list N)
| RFunc (multiple : bool) (addr size param : N) (name : list N)
| RLine (addr size line file : N)
| RInline (depth call_line call_file origin : N) (ranges : list (N * N))
| RStackWin (text : list N)
| RCfiInit (text : list N)
| RCfi (text : list N).

Definition multi (m : bool) (s : list N) : Prop :=
  if m then exists t, sep t /\ s = bs "m" ++ t else s = [].
Inductive enc_ranges : list (N * N) -> list N -> Prop :=
| EncR1 : forall a s b1 b2 b3, hex64_text a b1 -> sep b2 -> hex32_text s b3 ->
    enc_ranges [(a, s)] (b1 ++ b2 ++ b3)
| EncRC : forall a s l b1 b2 b3 b4 b5, hex64_text a b1 -> sep b2 -> hex32_text s b3 -> sep b4 ->
    enc_ranges l b5 -> enc_ranges ((a, s) :: l) (b1 ++ b2 ++ b3 ++ b4 ++ b5).

(** [e] is one line with the record. *)
Inductive enc_rec : brec -> list N -> Prop :=
| EncModule : forall os cpu id name s1 s2 s3 s4 e,
    sep s1 -> sep s2 -> sep s3 -> sep s4 -> eol e -> word os -> word cpu -> word id ->
    Forall line_char name -> starts_black name ->
    enc_rec (RModule os cpu id name)
      (bs "MODULE" ++ s1 ++ os ++ s2 ++ cpu ++ s3 ++ id ++ s4 ++ name ++ e)
| EncInfo : forall t s e, sep s -> eol e -> Forall line_char t ->
    enc_rec (RInfo t) (bs "INFO" ++ s ++ t ++ e)
| EncFile : forall id name s1 d s2 e, sep s1 -> sep s2 -> eol e -> dec_text id d -> name_text name ->
    enc_rec (RFile id name) (bs "FILE" ++ s1 ++ d ++ s2 ++ name ++ e)
| EncOrigin : forall id name s1 d s2 e, sep s1 -> sep s2 -> eol e -> dec_text id d -> name_text name ->
    enc_rec (ROrigin id name) (bs "INLINE_ORIGIN" ++ s1 ++ d ++ s2 ++ name ++ e)
| EncPublic : forall m addr param name s1 mt a s2 p s3 e,
    sep s1 -> multi m mt -> hex64_text addr a -> sep s2 -> hex32_text param p -> sep s3 ->
    name_text name -> eol e ->
    enc_rec (RPublic m addr param name) (bs "PUBLIC" ++ s1 ++ mt ++ a ++ s2 ++ p ++ s3 ++ name ++ e)
| EncFunc : forall m addr size param name s1 mt a s2 z s3 p s4 e,
    sep s1 -> multi m mt -> hex64_text addr a -> sep s2 -> hex32_text size z -> sep s3 ->
    hex32_text param p -> sep s4 -> name_text name -> eol e ->
    enc_rec (RFunc m addr size param name)
      (bs "FUNC" ++ s1 ++ mt ++ a ++ s2 ++ z ++ s3 ++ p ++ s4 ++ name ++ e)
| EncLine : forall addr size line file a s1 z s2 l s3 f e,
    hex64_text addr a -> sep s1 -> hex32_text size z -> sep s2 -> dec_text line l -> sep s3 ->
    dec_text file f -> eol e ->
    enc_rec (RLine addr size line file) (a ++ s1 ++ z ++ s2 ++ l ++ s3 ++ f ++ e)
| EncInline : forall depth cl cf origin ranges s1 d s2 l s3 f s4 o s5 r e,
    sep s1 -> dec_text depth d -> sep s2 -> dec_text cl l -> sep s3 -> dec_text cf f -> sep s4 ->
    dec_text origin o -> sep s5 -> enc_ranges ranges r -> eol e ->
    enc_rec (RInline depth cl cf origin ranges)
      (bs "INLINE" ++ s1 ++ d ++ s2 ++ l ++ s3 ++ f ++ s4 ++ o ++ s5 ++ r ++ e)
| EncWin : forall t s e, sep s -> eol e -> Forall line_char t ->
    enc_rec (RStackWin t) (bs "STACK WIN" ++ s ++ t ++ e)
| EncCfiInit : forall t s e, sep s -> eol e -> Forall line_char t ->
    enc_rec (RCfiInit t) (bs "STACK CFI INIT" ++ s ++ t ++ e)
| EncCfi : forall t s e, sep s -> eol e -> Forall line_char t ->
    enc_rec (RCfi t) (bs "STACK CFI" ++ s ++ t ++ e).

(** ** Files: line, inline, and CFI records only in their context *)
Inductive ctx := Top | InFunc | InCfi.
Definition next_ctx (c : ctx) (r : brec) : ctx :=
  match r, c with
  | RFunc _ _ _ _ _, _ => InFunc
  | RLine _ _ _ _, _ | RInline _ _ _ _ _, _ => InFunc
  | ROrigin _ _, InFunc => InFunc
  | RCfiInit _, _ | RCfi _, _ => InCfi
  | _, _ => Top
  end.
Definition allowed (first : bool) (c : ctx) (r : brec) : Prop :=
  match r with
  | RModule _ _ _ _ => first = true
  | RLine _ _ _ _ | RInline _ _ _ _ _ => c = InFunc
  | RCfi _ => c = InCfi
  | _ => True
  end.
(** Records belonging to a preceding one; these may not be followed by blank
    lines. *)
Definition sub_record (c : ctx) (r : brec) : bool :=
  match r, c with
  | RLine _ _ _ _, InFunc | RInline _ _ _ _ _, InFunc | ROrigin _ _, InFunc
  | RCfi _, InCfi | RCfiInit _, InCfi => true
  | _, _ => false
  end.
Inductive enc_file : bool -> ctx -> list brec -> list N -> Prop :=
| EncNil : forall first c, enc_file first c [] []
| EncCons : forall first c r rs b w bs,
    allowed first c r -> enc_rec r b -> Forall white w -> (sub_record c r = true -> w = []) ->
    enc_file false (next_ctx c r) rs bs ->
    enc_file first c (r :: rs) (b ++ w ++ bs).

(** ** What a file says *)
Fixpoint body (rs : list brec) : list source_line * list inlinee :=
  match rs with
  | RLine a s l f :: rs => let (ls, is) := body rs in (SourceLine a s f l :: ls, is)
  | RInline d l f o ranges :: rs =>
      let (ls, is) := body rs in
      (ls, map (fun '(a, s) => Inlinee d a s f l o) ranges ++ is)
  | ROrigin _ _ :: rs => body rs
  | _ => ([], [])
  end.
Fixpoint functions (rs : list brec) : list func :=
  match rs with
  | [] => []
  | RFunc _ a s _ n :: rs => Func a s n (fst (body rs)) (snd (body rs)) :: functions rs
  | _ :: rs => functions rs
  end.
(** The last definition of a file or origin counts. *)
Fixpoint file_of (id : N) (rs : list brec) : option (list N) :=
  match rs with
  | [] => None
  | RFile i n :: rs =>
      match file_of id rs with Some x => Some x | None => if i =? id then Some n else None end
  | _ :: rs => file_of id rs
  end.
Fixpoint origin_of (id : N) (rs : list brec) : option (list N) :=
  match rs with
  | [] => None
  | ROrigin i n :: rs =>
      match origin_of id rs with Some x => Some x | None => if i =? id then Some n else None end
  | _ :: rs => origin_of id rs
  end.
Definition module_of (rs : list brec) : option (list N) :=
  match rs with RModule _ _ _ n :: _ => Some n | _ => None end.

(** The same function, its lines and inlinees in the order of lookups. *)
Definition lines_sorted : list source_line -> Prop :=
  StronglySorted (fun a b => sl_addr a < sl_addr b \/ (sl_addr a = sl_addr b /\ sl_size a <= sl_size b)).
Definition inlinees_sorted : list inlinee -> Prop :=
  StronglySorted (fun a b => in_depth a < in_depth b \/ (in_depth a = in_depth b /\ in_addr a <= in_addr b)).
Definition funcs_sorted : list func -> Prop :=
  StronglySorted (fun a b => fn_addr a < fn_addr b \/ (fn_addr a = fn_addr b /\ fn_size a <= fn_size b)).
Definition same_func (f g : func) : Prop :=
  fn_addr f = fn_addr g /\ fn_size f = fn_size g /\ fn_name f = fn_name g /\
  Permutation (fn_lines f) (fn_lines g) /\ lines_sorted (fn_lines g) /\
  Permutation (fn_inlinees f) (fn_inlinees g) /\ inlinees_sorted (fn_inlinees g).
Definition describes (rs : list brec) (sf : symbol_file) : Prop :=
  sf_module sf = module_of rs /\
  (forall id, aget N.eqb id (sf_files sf) = file_of id rs) /\
  (forall id, aget N.eqb id (sf_origins sf) = origin_of id rs) /\
  funcs_sorted (sf_funcs sf) /\
  exists fs, Forall2 same_func (functions rs) fs /\ Permutation fs (sf_funcs sf).

(** ** Addresses *)
(** A range contains an address; an empty one contains its start. *)
Definition in_range (start size addr : N) : Prop :=
  start <= addr < start + size \/ (start = addr /\ size = 0).
Definition func_at (addr : N) (f : func) : Prop := in_range (fn_addr f) (fn_size f) addr.
Definition line_at (addr : N) (l : source_line) : Prop := in_range (sl_addr l) (sl_size l) addr.
(** No address in two of them. *)
Definition no_overlap {A} (at_ : N -> A -> Prop) (l : list A) : Prop :=
  ForallOrdPairs (fun a b => forall addr, ~ (at_ addr a /\ at_ addr b)) l.
(** Nothing extends past the end of the address space. *)
Definition fits (f : func) : Prop :=
  fn_addr f + fn_size f < 2 ^ 64 /\
  Forall (fun l => sl_addr l + sl_size l < 2 ^ 64) (fn_lines f) /\
  Forall (fun i => in_addr i + in_size i < 2 ^ 64) (fn_inlinees f).
(** The call inlined at the address at the depth. *)
Definition inlinee_at (depth addr : N) (i : inlinee) : Prop :=
  in_depth i = depth /\ in_addr i <= addr < in_addr i + in_size i.
(** No record of a function starts inside of another one of the same depth. *)
Definition inlinees_apart (l : list inlinee) : Prop :=
  ForallOrdPairs (fun a b => in_depth a = in_depth b ->
    ~ in_addr a <= in_addr b < in_addr a + in_size a /\
    ~ in_addr b <= in_addr a < in_addr b + in_size b) l.
(** The calls inlined at the address, outermost first. *)
Definition inlined_at (f : func) (addr : N) (calls : list inlinee) : Prop :=
  (forall k i, nth_error calls k = Some i -> In i (fn_inlinees f) /\ inlinee_at (N.of_nat k) addr i) /\
  (forall i, In i (fn_inlinees f) -> ~ inlinee_at (nlen calls) addr i).

(** ** Source files *)
(** Directory and file name of a path. *)
Inductive at_path : list N -> option (list N) -> list N -> Prop :=
| PathFile : forall file, at_path file None file
| PathRoot : forall file, at_path (47 :: file) (Some [47]) file
| PathDir : forall d file, d <> [] -> (forall x, d <> x ++ [47]) -> (forall x, d <> x ++ [47; 46]) ->
    at_path (d ++ [47] ++ file) (Some d) file.
Definition file_name (file : list N) : Prop := file <> [] /\ ~ In 47 file /\ file <> [46].
(** The location of a line of a numbered file. *)
Definition source_at (rs : list brec) (file line : N) (c : code_info) : Prop :=
  exists path dir name, file_of file rs = Some path /\ at_path path dir name /\ file_name name /\
    c = CodeInfo dir name (Some line) None.

(** ** Files *)
Definition is_breakpad (data : list N) (rs : list brec) : Prop :=
  enc_file true Top rs data /\ exists x, data = x ++ [10].
(** Opening a file and looking up an address. *)
Definition breakpad_lookup (m : mode) (pick : N -> N -> N) (data : list N) (addr : N) (opts : find_opts)
  : find_result :=
  let* sf := from_bytes data in find_sym m pick sf addr opts.
