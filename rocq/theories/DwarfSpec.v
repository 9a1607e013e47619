(** * What DWARF debug information means

    DWARF Debugging Information Format, version 5. *)

From Verif Require Import Base Dwarf Sym Search DepmodSpec.
From Coq Require Import Permutation.
Local Open Scope N_scope.

(** ** Ranges (sections 2.17 and 3.1.1) *)

Definition covers (r : range) (a : N) : Prop := r_begin r <= a < r_end r.
Definition disjoint (r1 r2 : range) : Prop := forall a, covers r1 a -> covers r2 a -> False.
Definition has (attrs : list (option attr)) (n : aname) (v : value) : Prop := In (Some (Attr n v)) attrs.
(** An entry has no two attributes of the same name. *)
Definition name_in (n : aname) (a : option attr) : Prop := exists v, a = Some (Attr n v).
Definition unique (attrs : list (option attr)) (n : aname) : Prop :=
  forall i j a b, nth_error attrs i = Some a -> nth_error attrs j = Some b ->
    name_in n a -> name_in n b -> i = j.

Definition is_address (b : body) (v : value) (a : N) : Prop :=
  v = VAddr a \/ exists i, v = VAddrIndex i /\ b_address b i = Some a.
Definition low_of (b : body) (attrs : list (option attr)) (lo : N) : Prop :=
  exists v, has attrs ALow v /\ is_address b v lo.
(** [DW_AT_high_pc] is an address or the distance from the low one. *)
Definition high_of (b : body) (attrs : list (option attr)) (lo hi : N) : Prop :=
  exists v, has attrs AHigh v /\ (is_address b v hi \/ exists n, v = VUdata n /\ hi = lo + n).
Definition list_of (attrs : list (option attr)) (off : N) : Prop :=
  has attrs ARanges (VRanges (Some (Some off))).
(** [r] is one of the ranges that an entry with these attributes describes. *)
Definition declares (b : body) (attrs : list (option attr)) (r : range) : Prop :=
  (exists off rs, list_of attrs off /\ b_ranges b off = Some rs /\ In r rs) \/
  ((forall off, ~ list_of attrs off) /\ exists lo hi, low_of b attrs lo /\ high_of b attrs lo hi /\ r = Range lo hi).
(** Attributes about ranges are there once, and ranges end below 2^64. *)
Definition ranges_wf (b : body) (attrs : list (option attr)) : Prop :=
  unique attrs ALow /\ unique attrs AHigh /\ unique attrs ARanges /\
  forall lo hi, low_of b attrs lo -> high_of b attrs lo hi -> hi < two64.

(** ** Line programs (section 6.2.2) *)

(** Rows are grouped in sequences: [rows] contains the one of [body], which is
    ended by [e]. *)
Definition sequence (rows body : list prow) (e : prow) : Prop :=
  body <> [] /\ Forall (fun r => p_end r = false) body /\ p_end e = true /\
  exists pre post, rows = pre ++ body ++ e :: post /\
    (pre = [] \/ exists pre' e', pre = pre' ++ [e'] /\ p_end e' = true).
(** Addresses in a sequence do not decrease. *)
Definition ordered (body : list prow) : Prop :=
  forall i j r1 r2, (i < j)%nat -> nth_error body i = Some r1 -> nth_error body j = Some r2 ->
    p_address r1 <= p_address r2.
(** The addresses that a sequence is about *)
Definition seq_range (body : list prow) (e : prow) (r : range) : Prop :=
  exists first, hd_error body = Some first /\ r = Range (p_address first) (p_address e).
(** [r] is in effect at address [a]: the last one at or before it. *)
Definition in_effect (body : list prow) (a : N) (r : prow) : Prop :=
  exists before after, body = before ++ r :: after /\ p_address r <= a /\
    Forall (fun r' => a < p_address r') after.
(** Sequences are about some addresses, different ones about different
    addresses, and in order. *)
Definition seqs_wf (rows : list prow) : Prop :=
  (forall body e r, sequence rows body e -> seq_range body e r -> ordered body /\ r_begin r < r_end r) /\
  (forall rows1 rows2 body1 e1 body2 e2 r1 r2, rows = rows1 ++ rows2 ->
     (exists l e, rows1 = l ++ [e] /\ p_end e = true) ->
     sequence rows1 body1 e1 -> sequence rows2 body2 e2 ->
     seq_range body1 e1 r1 -> seq_range body2 e2 r2 -> disjoint r1 r2).

(** The files of a line program: number 0 may be missing. *)
Definition file_at (p : lprog) (i : N) (f : option fentry) : Prop :=
  (i = 0 /\ f = lp_file0 p) \/ (0 < i /\ exists e, nnth (i - 1) (lp_files p) = Some e /\ f = Some e).
(** Directory and name of a file; directory 0 is that of the unit, others are
    relative to it unless they start with a slash ([under]). *)
Definition file_path (b : body) (f : option fentry) (dir name : list N) : Prop :=
  match f with
  | None => dir = [] /\ name = []
  | Some f =>
      f_name f = Some name /\
      exists comp, (b_comp_dir b = Some comp \/ b_comp_dir b = None /\ comp = []) /\
        (if f_dir_index f =? 0 then dir = comp
         else match f_dir f with
              | Some (Some d) => under comp d dir
              | Some None => False
              | None => dir = comp
              end)
  end.
(** The location a row stands for. There are no lines 0; column 0 is the left
    edge of a line. *)
Definition row_loc (b : body) (p : lprog) (r : prow) (l : location) : Prop :=
  exists f dir name, file_at p (p_file r) f /\ file_path b f dir name /\
    lo_dir l = dir /\ lo_file l = name /\
    (forall n, p_line r = Some n -> 0 < n -> n < two32 ->
       lo_line l = Some n /\
       forall c, (p_column r = Some c /\ c < two32 \/ p_column r = None /\ c = 0) -> lo_column l = Some c) /\
    (p_line r = None -> lo_line l = None /\ lo_column l = None).
(** All files of the program have a name. *)
Definition files_wf (b : body) (p : lprog) : Prop :=
  forall f, (lp_file0 p = Some f \/ In f (lp_files p)) ->
    f_name f <> None /\ (f_dir_index f = 0 \/ f_dir f <> Some None).

(** ** Units (sections 3.1.1 and 6.1.2) *)

(** Ranges that the lookup table lists for the unit at an offset *)
Definition listed (sets : list aset) (off : N) (r : range) : Prop :=
  exists a es len, In a sets /\ as_unit a = off /\ as_entries a = Some es /\
    In (Some (r, len)) es /\ len <> 0.
(** The attributes of the unit's own entry *)
Definition root_attrs (b : body) (attrs : list (option attr)) : Prop :=
  exists off tag ch s, b_entries b = Some ((off, IDie (Die tag ch attrs)) :: s).
(** [r] is a range of the unit: as listed in the table, or else as declared by
    the unit itself, or else one of a sequence of its line program. *)
Inductive unit_range (sets : list aset) (h : uheader) : range -> Prop :=
| RangeListed : forall off r, h_offset h = Some off -> listed sets off r -> unit_range sets h r
| RangeDeclared : forall off b attrs r, h_offset h = Some off -> (forall r, ~ listed sets off r) ->
    h_unit h = Some b -> root_attrs b attrs -> declares b attrs r -> unit_range sets h r
| RangeLines : forall off b attrs p rows body e r, h_offset h = Some off -> (forall r, ~ listed sets off r) ->
    h_unit h = Some b -> root_attrs b attrs ->
    (forall r a, declares b attrs r -> ~ covers r a) ->
    b_lines b = Some p -> files_wf b p -> lp_rows p = Some rows -> sequence rows body e ->
    seq_range body e r -> unit_range sets h r.
Definition unit_wf (h : uheader) : Prop :=
  forall b attrs, h_unit h = Some b -> root_attrs b attrs -> ranges_wf b attrs.

(** ** Names (sections 2.15 and 2.13) *)

(** What a unit's entries are: those of the split debug information if there
    is some *)
Definition unit_body (u : dunit) (b : body) : Prop :=
  (exists main, u_main u = Some main) /\
  (u_dwo u = Some (Some b) \/ u_dwo u = Some None /\ u_main u = Some b).
(** The entry that is referred to: in the same unit or in another one *)
Inductive refers (us : units) (b : body) : value -> body -> die -> Prop :=
| RefUnit : forall off o d s, b_at b off = Some ((o, IDie d) :: s) -> refers us b (VUnitRef off) b d
| RefInfo : forall off u b' o d s, In u (us_units us) -> unit_body u b' ->
    u_offset u + u_header_size u <= off -> off < u_offset u + u_header_size u + u_entries_len u ->
    b_at b' (off - u_offset u) = Some ((o, IDie d) :: s) ->
    refers us b (VInfoRef off) b' d.
(** Units follow each other. *)
Definition units_ordered (us : units) : Prop :=
  forall i j u1 u2, (i < j)%nat -> nth_error (us_units us) i = Some u1 -> nth_error (us_units us) j = Some u2 ->
    u_offset u1 + u_header_size u1 + u_entries_len u1 <= u_offset u2.
Definition headers_wf (us : units) : Prop := forall u, In u (us_units us) -> 0 < u_header_size u.

Definition is_linkage (a : aname) : Prop := a = ALinkage \/ a = AMips.
Definition is_ref (a : aname) : Prop := a = AOrigin \/ a = ASpecification.
(** All attributes can be read. Those of interest are there once, linkage names
    and references under one of their two names. *)
Definition readable (attrs : list (option attr)) : Prop := Forall (fun a => a <> None) attrs.
Definition names_wf (attrs : list (option attr)) : Prop :=
  readable attrs /\
  (forall i j n1 n2 v1 v2, nth_error attrs i = Some (Some (Attr n1 v1)) -> nth_error attrs j = Some (Some (Attr n2 v2)) ->
     (is_linkage n1 /\ is_linkage n2 \/ is_ref n1 /\ is_ref n2 \/ n1 = AName /\ n2 = AName) -> i = j).
Definition linkage_name (attrs : list (option attr)) (s : list N) : Prop :=
  exists n, is_linkage n /\ has attrs n (VStr (Some s)).
Definition plain_name (attrs : list (option attr)) (s : list N) : Prop := has attrs AName (VStr (Some s)).
Definition own_name (attrs : list (option attr)) (s : list N) : Prop :=
  linkage_name attrs s \/ (forall s', ~ linkage_name attrs s') /\ plain_name attrs s.
Definition nameless (attrs : list (option attr)) : Prop :=
  (forall s, ~ linkage_name attrs s) /\ (forall s, ~ plain_name attrs s).
Definition refers_on (attrs : list (option attr)) (v : value) : Prop := exists n, is_ref n /\ has attrs n v.

(** Headers of units that follow each other *)
Definition headers_follow (hs : list uheader) : Prop :=
  (forall i j h1 h2 o1 o2, (i < j)%nat -> nth_error hs i = Some h1 -> nth_error hs j = Some h2 ->
     h_offset h1 = Some o1 -> h_offset h2 = Some o2 -> o1 + h_size h1 + h_len h1 <= o2) /\
  (forall h, In h hs -> 0 < h_size h).

(** [named k]: following references from [v], a name is reached with the
    [k]th entry. *)
Inductive named (us : units) : nat -> body -> value -> list N -> Prop :=
| NamedHere : forall b v b' d s, refers us b v b' d -> names_wf (d_attrs d) -> own_name (d_attrs d) s ->
    named us 1 b v s
| NamedOn : forall k b v b' d v' s, refers us b v b' d -> names_wf (d_attrs d) -> nameless (d_attrs d) ->
    refers_on (d_attrs d) v' -> named us k b' v' s -> named us (S k) b v s.
(** There is a chain of [k] nameless entries. *)
Inductive nameless_chain (us : units) : nat -> body -> value -> Prop :=
| ChainNil : forall b v, nameless_chain us 0 b v
| ChainOn : forall k b v b' d v', refers us b v b' d -> names_wf (d_attrs d) -> nameless (d_attrs d) ->
    refers_on (d_attrs d) v' -> nameless_chain us k b' v' -> nameless_chain us (S k) b v.

(** The end of a chain without a name *)
Inductive chain_end (us : units) : nat -> body -> value -> Prop :=
| EndHere : forall b v b' d, refers us b v b' d -> names_wf (d_attrs d) -> nameless (d_attrs d) ->
    (forall v', ~ refers_on (d_attrs d) v') -> chain_end us 1 b v
| EndOn : forall k b v b' d v', refers us b v b' d -> names_wf (d_attrs d) -> nameless (d_attrs d) ->
    refers_on (d_attrs d) v' -> chain_end us k b' v' -> chain_end us (S k) b v.
(** [s] names the function with the attributes: as linkage name, or else as
    what comes first, a name or a reference to an entry that has or gets one. *)
Definition names_function (us : units) (limit : nat) (b : body) (attrs : list (option attr)) (s : list N) : Prop :=
  linkage_name attrs s \/
  (forall s', ~ linkage_name attrs s') /\
  exists pre n v post, attrs = pre ++ Some (Attr n v) :: post /\ nameless pre /\ (forall v', ~ refers_on pre v') /\
    (n = AName /\ v = VStr (Some s) \/ exists k, is_ref n /\ (k <= limit)%nat /\ named us k b v s).

(** ** Functions and inlined calls (sections 2.3 and 3.3) *)

(** Entries form a tree; an entry that can have children is followed by them
    and an end marker. *)
Inductive tree := Node (off : N) (tag : dtag) (attrs : list (option attr)) (children : option (list tree)).
Definition t_off (t : tree) : N := let 'Node o _ _ _ := t in o.
Definition t_tag (t : tree) : dtag := let 'Node _ g _ _ := t in g.
Definition t_attrs (t : tree) : list (option attr) := let 'Node _ _ a _ := t in a.
Definition t_children (t : tree) : list tree :=
  let 'Node _ _ _ c := t in match c with Some l => l | None => [] end.

Inductive stored : tree -> stream -> Prop :=
| StoredLeaf : forall off tag attrs,
    stored (Node off tag attrs None) [(off, IDie (Die tag false attrs))]
| StoredNode : forall off tag attrs l s o, stored_list l s ->
    stored (Node off tag attrs (Some l)) ((off, IDie (Die tag true attrs)) :: s ++ [(o, INull)])
with stored_list : list tree -> stream -> Prop :=
| StoredNil : stored_list [] []
| StoredCons : forall t l s1 s2, stored t s1 -> stored_list l s2 -> stored_list (t :: l) (s1 ++ s2).

(** The nodes of a tree *)
Inductive in_tree (x : tree) : tree -> Prop :=
| InHere : in_tree x x
| InChild : forall t c, In c (t_children t) -> in_tree x c -> in_tree x t.

(** A unit's entries are those of a tree, wherever one starts to read. *)
Definition unit_tree (b : body) (t : tree) : Prop :=
  exists s, stored t s /\ b_entries b = Some s /\
    forall pre o i post, s = pre ++ (o, i) :: post -> b_at b o = Some ((o, i) :: post).

(** What is known of a function: its offset, its name, and the range from its
    own attributes. *)
Definition fn_of (us : units) (limit : nat) (b : body) (x : tree) (f : dfn) : Prop :=
  f_off f = t_off x /\
  (forall s, names_wf (t_attrs x) -> names_function us limit b (t_attrs x) s -> f_fname f = Some s) /\
  (forall lo hi, low_of b (t_attrs x) lo -> high_of b (t_attrs x) lo hi -> f_range f = Some (Range lo hi)) /\
  ((forall lo hi, low_of b (t_attrs x) lo -> ~ high_of b (t_attrs x) lo hi) -> f_range f = None).
Definition is_function (t x : tree) : Prop := in_tree x t /\ t_tag x = TSubprogram.
Definition entry_covers (b : body) (x : tree) (a : N) : Prop :=
  exists r, declares b (t_attrs x) r /\ covers r a.
(** Ranges of functions are the same or do not overlap. *)
Definition functions_apart (b : body) (t : tree) : Prop :=
  forall x y r1 r2, is_function t x -> is_function t y -> declares b (t_attrs x) r1 -> declares b (t_attrs y) r2 ->
    r1 = r2 \/ disjoint r1 r2.

(** Inlined calls directly below an entry: other entries are looked through,
    functions declared inside are not. *)
Inductive calls (x : tree) : tree -> Prop :=
| CallHere : forall t, In x (t_children t) -> t_tag x = TInlined -> calls x t
| CallBelow : forall t c, In c (t_children t) -> t_tag c = TOther -> calls x c -> calls x t.
(** ... and at a depth *)
Inductive call_at : N -> tree -> tree -> Prop :=
| CallFirst : forall x t, calls x t -> call_at 0 x t
| CallNext : forall d x y t, calls y t -> call_at d x y -> call_at (d + 1) x t.
(** Calls at one depth do not overlap, ranges of one call neither; a call is
    inside of the one it is inlined into. *)
Definition calls_wf (b : body) (t : tree) : Prop :=
  (forall d x y a, call_at d x t -> call_at d y t -> entry_covers b x a -> entry_covers b y a -> x = y) /\
  (forall d x r1 r2, call_at d x t -> declares b (t_attrs x) r1 -> declares b (t_attrs x) r2 -> r1 = r2 \/ disjoint r1 r2) /\
  (forall d x y a, call_at d x t -> calls y x -> entry_covers b y a -> entry_covers b x a).
(** What is known of a call *)
Definition call_of (us : units) (limit : nat) (b : body) (x : tree) (f : inl_fn) : Prop :=
  (forall s, names_wf (t_attrs x) -> names_function us limit b (t_attrs x) s -> in_name f = Some s) /\
  (unique (t_attrs x) ACallFile -> forall i, has (t_attrs x) ACallFile (VFileIndex i) ->
     in_file f = if (i =? 0) && (b_version b <? 5) then None else Some i) /\
  ((forall i, ~ has (t_attrs x) ACallFile (VFileIndex i)) -> in_file f = None) /\
  (unique (t_attrs x) ACallLine -> forall n, has (t_attrs x) ACallLine (VUdata n) -> n < two32 -> in_line f = n) /\
  (unique (t_attrs x) ACallColumn -> forall n, has (t_attrs x) ACallColumn (VUdata n) -> n < two32 -> in_column f = n) /\
  ((forall v, ~ has (t_attrs x) ACallLine v) -> in_line f = 0) /\
  ((forall v, ~ has (t_attrs x) ACallColumn v) -> in_column f = 0).
(** [l] are the calls active at an address, outermost first. *)
Inductive active (b : body) (a : N) : tree -> list tree -> Prop :=
| ActiveNone : forall t, (forall x, calls x t -> ~ entry_covers b x a) -> active b a t []
| ActiveCall : forall t x l, calls x t -> entry_covers b x a -> active b a x l -> active b a t (x :: l).
(** Where a call is made: in a file of the line program [p] of the unit [main] *)
Definition call_loc (b main : body) (p : lprog) (x : tree) (l : option location) : Prop :=
  ((forall i, ~ has (t_attrs x) ACallFile (VFileIndex i)) -> l = None) /\
  (unique (t_attrs x) ACallFile -> forall i f, has (t_attrs x) ACallFile (VFileIndex i) -> file_at p i f ->
     (i = 0 /\ b_version b < 5 -> l = None) /\
     (~ (i = 0 /\ b_version b < 5) -> exists loc dir name, l = Some loc /\ file_path main f dir name /\
        lo_dir loc = dir /\ lo_file loc = name /\
        (unique (t_attrs x) ACallLine -> forall n, has (t_attrs x) ACallLine (VUdata n) -> n < two32 -> lo_line loc = Some n) /\
        (unique (t_attrs x) ACallColumn -> forall n, has (t_attrs x) ACallColumn (VUdata n) -> n < two32 -> lo_column loc = Some n) /\
        ((forall v, ~ has (t_attrs x) ACallColumn v) -> lo_column loc = Some 0))).
(** Location as reported: columns above 65535 are reported as that. *)
Definition code_of (l : location) (c : code_info) : Prop :=
  ci_dir c = Some (lo_dir l) /\ ci_file c = lo_file l /\ ci_line c = lo_line l /\
  match lo_column l with
  | None => ci_column c = None
  | Some n => exists n', ci_column c = Some n' /\ (n <= 65535 -> n' = n) /\ (65535 < n -> n' = 65535)
  end.
Definition code_opt (l : option location) (c : option code_info) : Prop :=
  match l, c with
  | Some l, Some c => code_of l c
  | None, None => True
  | _, _ => False
  end.
(** Nothing is wrong with a unit as far as functions are concerned. *)
Definition unit_good (u : dunit) (b : body) (t : tree) : Prop :=
  unit_body u b /\ unit_tree b t /\ (forall x, is_function t x -> ranges_wf b (t_attrs x)) /\ functions_apart b t.
