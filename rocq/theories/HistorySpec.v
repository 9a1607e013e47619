(** * What is expected of files looked up by objects that live for long: the
      same as by new ones

    Nothing in here knows of caches. [actual] is the path to open and [repr]
    the one to report. *)

From Verif Require Import Base FileCache Symbolizer.
Local Open Scope N_scope.

Section Spec.
  Context {File Parser : Type}.
  Notation world := (world File Parser).
  Implicit Types (w : world).

  (** ** Reading files, in a given world *)
  Definition opened w (actual : path) : res File :=
    let* _ := of_outcome (fs_stat (w_fs w) actual) in of_outcome (fs_open (w_fs w) actual).
  Definition parsed w (actual repr : path) : res Parser :=
    let* f := opened w actual in of_outcome (w_elf_parse w f repr).

  (** The file a debug link names has to be there, and be the right one; a
      package of debug information need not be there. *)
  Definition linked w (P : Parser) : res (option Parser) :=
    let* l := w_link w P in
    match l with
    | None => Ok None
    | Some (q, sum) =>
        let* D := parsed w q q in
        if w_crc w D =? sum then Ok (Some D) else Err EInvalidData
    end.
  Definition packaged w (P : Parser) : res (option Parser) :=
    match w_dwp w P with
    | None => Ok None
    | Some q =>
        match parsed w q q with
        | Ok D => Ok (Some D)
        | Err ENotFound => Ok None
        | Err k => Err k
        | Panic => Panic
        | NoFuel => NoFuel
        end
    end.
  Definition with_debug w (P : Parser) : res resolver :=
    let* l := linked w P in
    let* d := packaged w P in
    of_outcome (w_dwarf w P l d).
  Definition elf_alone w (actual repr : path) (debug : bool) : res resolver :=
    let* P := parsed w actual repr in
    if debug then with_debug w P else Ok (w_elf_plain w P).
  (** Formats of single files *)
  Definition file_alone w (init : File -> path -> outcome resolver) (p : path) : res resolver :=
    let* f := opened w p in of_outcome (init f p).

  (** ** Worlds and paths for which remembering is no problem *)

  Inductive debug_file w (P : Parser) : path -> Prop :=
  | DfLink : forall q sum, w_link w P = Ok (Some (q, sum)) -> debug_file w P q
  | DfPackage : forall q, w_dwp w P = Some q -> debug_file w P q.

  (** A file that did not change according to its identity did not change.
      It has one name. *)
  Definition identified (W : world -> Prop) (U : path -> path -> Prop) : Prop :=
    forall w w' p r p' r' m, W w -> W w' -> U p r -> U p' r' ->
    fs_stat (w_fs w) p = Good m -> fs_stat (w_fs w') p' = Good m ->
    r = r' /\ fs_open (w_fs w) p = fs_open (w_fs w') p'.
  (** The same program is used all the time. *)
  Definition one_program (W : world -> Prop) : Prop :=
    forall w w', W w -> W w' ->
    w_elf_parse w = w_elf_parse w' /\ w_elf_plain w = w_elf_plain w' /\ w_crc w = w_crc w' /\
    w_dwarf w = w_dwarf w' /\ w_breakpad w = w_breakpad w' /\ w_gsym w = w_gsym w' /\
    w_perf_map w = w_perf_map w' /\ w_archive w = w_archive w'.
  (** [D]: files to look up with debug information; [U]: files looked up. A
      file that did not change has the same debug information, in another
      file. *)
  Record lasting (W : world -> Prop) (D U : path -> path -> Prop) : Prop := Lasting {
    la_program : one_program W;
    la_identified : identified W U;
    la_sub : forall p r, D p r -> U p r;
    la_debug : forall w w' p r p' r' m P, W w -> W w' -> D p r -> D p' r' ->
      fs_stat (w_fs w) p = Good m -> fs_stat (w_fs w') p' = Good m ->
      parsed w p r = Ok P -> with_debug w P = with_debug w' P;
    la_other : forall w p r P q, W w -> D p r -> parsed w p r = Ok P -> debug_file w P q ->
      U q q /\ forall m, fs_stat (w_fs w) p = Good m -> fs_stat (w_fs w) q <> Good m
  }.
End Spec.
