(** * What the command line tool should print

    Independent of Cli.v: which lines of text show which answers. *)

From Verif Require Import Base Num Sym Inspect Symbolizer Normalize.
From Verif Require Import Nom.
From Coq Require Import String Permutation Sorted.
Local Close Scope string_scope.
Local Open Scope N_scope.
Local Notation length := List.length.

(** ** Numbers *)
Definition lower (b : N) : Prop := 48 <= b <= 57 \/ 97 <= b <= 102.
Definition shortest (s : list N) : Prop := length s = 1%nat \/ hd_error s <> Some 48.
Definition str_0x : list N := [48; 120].
(** Hexadecimal, and with leading zeros up to 16 characters *)
Inductive shown_hex (v : N) : list N -> Prop :=
| shex : forall s, hex_text v s -> Forall lower s -> shortest s -> shown_hex v (str_0x ++ s).
Inductive shown_addr (v : N) : list N -> Prop :=
| saddr : forall s, hex_text v s -> Forall lower s -> (14 <= length s)%nat -> length s = 14%nat \/ shortest s ->
    shown_addr v (str_0x ++ s).
Definition shown_dec (v : N) (s : list N) : Prop := dec_text v s /\ shortest s.

(** ** Symbols *)
Record place := Place { pl_path : list N; pl_line : option N; pl_column : option N }.
Record frame := Frame { fr_name : list N; fr_place : option place }.
Inductive answer := Nothing | Found (addr offset : N) (fn : frame) (inlined : list frame).

(** A path relative to another *)
Inductive joined : option (list N) -> list N -> list N -> Prop :=
| j_none : forall f, joined None f f
| j_absolute : forall d f, hd_error f = Some 47 -> joined (Some d) f f
| j_empty : forall f, joined (Some []) f f
| j_slash : forall d f, hd_error f <> Some 47 -> joined (Some (d ++ [47])) f (d ++ [47] ++ f)
| j_other : forall d b f, hd_error f <> Some 47 -> b <> 47 -> joined (Some (d ++ [b])) f (d ++ [b] ++ [47] ++ f).
Inductive place_of (c : code_info) : place -> Prop :=
| place_of_intro : forall p, joined (ci_dir c) (ci_file c) p ->
    place_of c (Place p (ci_line c) (match ci_line c with Some _ => ci_column c | None => None end)).
Inductive place_of_opt : option code_info -> option place -> Prop :=
| po_none : place_of_opt None None
| po_some : forall c p, place_of c p -> place_of_opt (Some c) (Some p).
Definition frame_of (name : list N) (c : option code_info) (f : frame) : Prop :=
  fr_name f = name /\ place_of_opt c (fr_place f).
Inductive answer_of : symbolized -> answer -> Prop :=
| ans_nothing : forall why, answer_of (Unknown why) Nothing
| ans_found : forall s fn fs, frame_of (sy_name s) (sy_code_info s) fn ->
    Forall2 (fun i f => frame_of (if_name i) (if_code_info i) f) (sy_inlined s) fs ->
    answer_of (Known s) (Found (sy_addr s) (sy_offset s) fn fs).

(** Lines, without the line feed *)
Inductive place_text : place -> list N -> Prop :=
| pt_path : forall p, place_text (Place p None None) p
| pt_line : forall p l tl, shown_dec l tl -> place_text (Place p (Some l) None) (p ++ [58] ++ tl)
| pt_column : forall p l tl c tc, shown_dec l tl -> shown_dec c tc ->
    place_text (Place p (Some l) (Some c)) (p ++ [58] ++ tl ++ [58] ++ tc).
Inductive after (sep : list N) : option place -> list N -> Prop :=
| af_none : after sep None []
| af_some : forall p t, place_text p t -> after sep (Some p) (sep ++ t).
Inductive header (a : N) : answer -> list N -> Prop :=
| h_nothing : forall ta, shown_addr a ta -> header a Nothing (ta ++ bs ": <no-symbol>"%string)
| h_found : forall addr off fn fs ta t1 t2 tp, shown_addr a ta -> shown_hex addr t1 -> shown_hex off t2 ->
    after [32] (fr_place fn) tp ->
    header a (Found addr off fn fs) (ta ++ bs ": "%string ++ fr_name fn ++ bs " @ "%string ++ t1 ++ [43] ++ t2 ++ tp).
Inductive inlined_line (f : frame) : list N -> Prop :=
| il : forall tp, after (bs " @ "%string) (fr_place f) tp ->
    inlined_line f (repeat 32 18 ++ fr_name f ++ tp ++ bs " [inlined]"%string).
Definition inlined_of (x : answer) : list frame := match x with Nothing => [] | Found _ _ _ fs => fs end.
Inductive report : list (N * answer) -> list (list N) -> Prop :=
| rep_nil : report [] []
| rep_cons : forall a x xs l ls rest, header a x l -> Forall2 inlined_line (inlined_of x) ls -> report xs rest ->
    report ((a, x) :: xs) (l :: ls ++ rest).
Definition text (lines : list (list N)) : list N := flat_map (fun l => l ++ [10]) lines.

(** Names and paths that cannot be mistaken for something else: no line feeds,
    no " @" in names and no colon in paths *)
Definition one_line (s : list N) : Prop := Forall (fun b => b <> 10) s.
Definition no_pair (c d : N) (s : list N) : Prop := forall a b, s <> a ++ c :: d :: b.
Definition clean_frame (f : frame) : Prop :=
  one_line (fr_name f) /\ no_pair 32 64 (fr_name f) /\
  match fr_place f with Some p => one_line (pl_path p) /\ Forall (fun b => b <> 58) (pl_path p) | None => True end.
Definition clean (x : answer) : Prop :=
  match x with Nothing => True | Found _ _ fn fs => clean_frame fn /\ Forall clean_frame fs end.

(** ** Normalized addresses *)
Inductive nanswer := NNowhere | NFile (path : list N) (offset : N) (build_id : option (list N)).
Inductive nanswer_of (y : N) : umeta sym -> nanswer -> Prop :=
| na_unknown : forall why, nanswer_of y (UUnknown why) NNowhere
| na_apk : forall p, nanswer_of y (UApk p) (NFile p y None)
| na_elf : forall p id, nanswer_of y (UElf p id) (NFile p y id).
(** Two digits per byte *)
Inductive hex_bytes : list N -> list N -> Prop :=
| hb_nil : hex_bytes [] []
| hb_cons : forall b c d l t, hex_text b [c; d] -> lower c -> lower d -> hex_bytes l t -> hex_bytes (b :: l) (c :: d :: t).
Inductive build_id_text : option (list N) -> list N -> Prop :=
| bi_none : build_id_text None []
| bi_some : forall b t, hex_bytes b t -> build_id_text (Some b) (bs " (build ID: "%string ++ t ++ [41]).
Inductive nline (a : N) : nanswer -> list N -> Prop :=
| nl_nowhere : forall ta, shown_addr a ta -> nline a NNowhere (ta ++ bs ": <unknown>"%string)
| nl_file : forall ta p off tof id ti, shown_addr a ta -> shown_hex off tof -> build_id_text id ti ->
    nline a (NFile p off id) (ta ++ bs ": file offset "%string ++ tof ++ bs " in "%string ++ p ++ ti).
Definition nclean (x : nanswer) : Prop :=
  match x with NNowhere => True | NFile p _ _ => one_line p /\ no_pair 32 40 p end.

(** ** Symbols of a file *)
Definition type_name (t : sym_type) : list N :=
  match t with
  | TFunction => bs "[FUNC]"%string
  | TVariable => bs "[VAR]"%string
  | TUndefined => bs "[UNDEF]"%string
  end.
Inductive size_text : option N -> list N -> Prop :=
| sz_none : size_text None (bs "N/A"%string)
| sz_some : forall n t, shown_dec n t -> size_text (Some n) t.
(** A line: name, address (preceded by the columns given), size, type *)
Inductive info_line (s : sym_info) : list N -> list N -> Prop :=
| inf : forall k j ta ts, shown_addr (si_addr s) ta -> size_text (si_size s) ts ->
    info_line s (si_name s ++ [58; 32] ++ repeat 32 k)
      (si_name s ++ [58; 32] ++ repeat 32 k ++ ta ++ bs " (size="%string ++ ts ++ [41; 32] ++ repeat 32 j ++ type_name (si_type s)).
(** Characters of UTF-8 text: bytes that do not continue one *)
Inductive char_count : list N -> nat -> Prop :=
| cc_nil : char_count [] 0
| cc_start : forall b s n, b < 128 \/ 192 <= b -> char_count s n -> char_count (b :: s) (S n)
| cc_more : forall b s n, 128 <= b < 192 -> char_count s n -> char_count (b :: s) n.
(** In ascending order of addresses, and those of the same address in the order
    found *)
Definition sorted_from (l l' : list sym_info) : Prop :=
  Permutation l l' /\ StronglySorted (fun a b => si_addr a <= si_addr b) l' /\
  forall a, filter (fun s => si_addr s =? a) l' = filter (fun s => si_addr s =? a) l.
Definition iclean (s : sym_info) : Prop := one_line (si_name s) /\ no_pair 58 32 (si_name s).
