(** * Debug information without errors

    DWARF Debugging Information Format, version 5: what has to hold for
    everything that can be looked up to be readable. *)

From Verif Require Import Base Dwarf DwarfSpec Text.
Local Open Scope N_scope.

(** Addresses and lists of ranges that attributes refer to exist. *)
Definition ranges_readable (b : body) (attrs : list (option attr)) : Prop :=
  (forall n i, n = ALow \/ n = AHigh -> has attrs n (VAddrIndex i) -> b_address b i <> None) /\
  (forall o, has attrs ARanges (VRanges o) -> o <> None) /\
  (forall off, list_of attrs off -> b_ranges b off <> None).
(** Names are text. *)
Definition names_text (attrs : list (option attr)) : Prop :=
  forall n s, is_linkage n \/ n = AName -> has attrs n (VStr (Some s)) -> utf8_valid s = true.
(** Entries that are referred to for want of a name exist; [k] of them. *)
Fixpoint followable (us : units) (k : nat) (b : body) (v : value) : Prop :=
  match k with
  | O => True
  | S k =>
      match v with
      | VUnitRef _ | VInfoRef _ =>
          exists b' d, refers us b v b' d /\ readable (d_attrs d) /\ names_text (d_attrs d) /\
            (nameless (d_attrs d) -> forall v', refers_on (d_attrs d) v' -> followable us k b' v')
      | _ => True
      end
  end.
(** What is needed of functions and inlined calls *)
Definition entry_readable (us : units) (limit : nat) (b : body) (attrs : list (option attr)) : Prop :=
  ranges_readable b attrs /\ ranges_wf b attrs /\ names_text attrs /\
  (forall lo hi, low_of b attrs lo -> high_of b attrs lo hi -> lo <= hi) /\
  (forall v, refers_on attrs v -> followable us limit b v).
Definition tree_readable (us : units) (limit : nat) (b : body) (t : tree) : Prop :=
  forall x, in_tree x t -> readable (t_attrs x) /\ (t_tag x <> TOther -> entry_readable us limit b (t_attrs x)).
(** Rows are about files of the program. *)
Definition lines_readable (b : body) (p : lprog) : Prop :=
  exists rows, lp_rows p = Some rows /\ files_wf b p /\
    forall r, In r rows -> p_end r = false -> exists f, file_at p (p_file r) f.
Definition unit_readable (us : units) (limit : nat) (u : dunit) : Prop :=
  (exists b t, unit_body u b /\ unit_tree b t /\ tree_readable us limit b t) /\
  (exists main attrs, u_main u = Some main /\ root_attrs main attrs /\ readable attrs /\
     forall p, b_lines main = Some p -> lines_readable main p).

(** The same for what is looked at to find units *)
Definition header_readable (h : uheader) : Prop :=
  h_kind h = KOther -> forall b, h_unit h = Some b ->
    exists attrs, root_attrs b attrs /\ readable attrs /\ ranges_readable b attrs /\ ranges_wf b attrs.
Definition sets_readable (sets : list aset) : Prop := forall a, In a sets -> as_entries a <> None.
