(** * What debug information says about an address

    DWARF Debugging Information Format, version 5 *)

From Verif Require Import Base Sym Frames Dwarf DwarfSpec DwarfReadSpec PropDwUnits.
Local Open Scope N_scope.

(** Sections with units [us], from headers [hs], and sets of ranges are as they
    should be. *)
Definition info_ok (sc : sections) (us : units) (sets : list aset) (hs : list uheader) : Prop :=
  sc_aranges sc = Some sets /\ sc_units sc = Some hs /\ sets_readable sets /\
  (forall h, In h hs -> header_readable h /\ unit_wf h) /\ headers_follow hs /\
  forall u, In u (us_units us) -> unit_readable us name_limit u.
(** The unit the address is in is that of [h]. Its entries are [t], in [b]. *)
Definition only_unit (us : units) (sets : list aset) (hs : list uheader) (h : uheader) (b main : body) (t : tree) (a : N) : Prop :=
  In h hs /\ h_kind h = KOther /\ h_unit h = Some main /\
  (exists r, unit_range sets h r /\ covers r a) /\
  (forall h' r, In h' hs -> unit_range sets h' r -> covers r a -> h' = h) /\
  (exists off, h_offset h = Some off /\ forall u, unit_of h off u -> unit_body u b) /\
  unit_tree b t /\ tree_readable us name_limit b t /\ functions_apart b t.
(** It is in no unit. *)
Definition no_unit (sets : list aset) (hs : list uheader) (a : N) : Prop :=
  forall h r, In h hs -> unit_range sets h r -> ~ covers r a.
(** The function the address is in is [f], from [lo] to [hi]. *)
Definition only_function (b : body) (t f : tree) (lo hi a : N) : Prop :=
  is_function t f /\ low_of b (t_attrs f) lo /\ high_of b (t_attrs f) lo hi /\ (forall off, ~ list_of (t_attrs f) off) /\
  lo <= a < hi /\ forall f', is_function t f' -> entry_covers b f' a -> f' = f.
Definition no_function (b : body) (t : tree) (a : N) : Prop := forall f, is_function t f -> ~ entry_covers b f a.
Definition in_language (main : body) (lang : src_lang) : Prop :=
  exists attrs, root_attrs main attrs /\ unique attrs ALanguage /\
    (has attrs ALanguage (VLang lang) \/ (forall v, ~ has attrs ALanguage v) /\ lang = LangUnknown).
Definition has_name (us : units) (b : body) (f : tree) (s : list N) : Prop :=
  names_wf (t_attrs f) /\ names_function us name_limit b (t_attrs f) s.
(** The row of the line program [p] for the address *)
Definition row_at (p : lprog) (a : N) (r : prow) : Prop :=
  exists rows body e rg, lp_rows p = Some rows /\ seqs_wf rows /\ sequence rows body e /\ seq_range body e rg /\
    covers rg a /\ in_effect body a r.
Definition no_row (main : body) (a : N) : Prop :=
  forall p rows body e rg, b_lines main = Some p -> lp_rows p = Some rows -> sequence rows body e -> seq_range body e rg -> ~ covers rg a.
(** Code information from a row *)
Definition code_at (main : body) (p : lprog) (r : prow) (code : code_info) : Prop :=
  exists loc, row_loc main p r loc /\ code_of loc code.
(** [chain] are the calls inlined at the address, outermost first, and places
    are given for them. *)
Definition inlined_at (b main : body) (p : lprog) (f : tree) (a : N) (chain : list tree) : Prop :=
  calls_wf b f /\ active b a f chain /\ forall c, hd_error chain = Some c -> ~ call_loc b main p c None.
(** Frames: of the function, and of what was inlined into it. Each is where the
    next one was called, and the last one is at the address. *)
Definition frames_at (us : units) (b main : body) (p : lprog) (chain : list tree) (r : prow)
    (own : option code_info) (fns : list inlined_fn) (name : list N -> list N) : Prop :=
  exists locs cis code, Forall2 (call_loc b main p) chain locs /\ Forall2 code_opt locs cis /\ code_at main p r code /\
    frame_locs (Some code) cis (own :: map if_code_info fns) /\
    Forall2 (fun c n => forall s, has_name us b c s -> n = name s) chain (map if_name fns).
