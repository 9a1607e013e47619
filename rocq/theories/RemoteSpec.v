(** * Normalizing addresses of a process and symbolizing the outcome later *)

From Verif Require Import Base Maps Sym Normalize FileCache Symbolizer HistorySpec.
Local Open Scope N_scope.

Section Spec.
  Context {File Parser : Type}.
  Notation world := (world File Parser).
  Notation state := (state File Parser).

  (** What to do with the output of normalization, as documented for [Output]
      and [UserMeta]: look up the file offset in the file named, which is to be
      found at [at_] where that is done *)
  Definition later (m : mode) (cf : config) (w : world) (at_ : list N -> path) (debug : bool) (x : N) (mt : umeta sym) (s : state)
    : res symbolized :=
    match mt with
    | UElf path _ => fst (symbolize_single m cf w (SElf (at_ path) debug) FileOffset x s)
    | UApk path => fst (symbolize_single m cf w (SApk (at_ path) debug) FileOffset x s)
    | USym y => Ok (Known y)
    | UUnknown r => Ok (Unknown r)
    end.
  (** The same answer; the reasons for there not being one differ for memory
      that is anonymous, and for the parts of the vDSO that no segment
      covers. *)
  Inductive agree : res symbolized -> res symbolized -> Prop :=
  | AgSame : forall x, agree x x
  | AgAnonymous : agree (Ok (Unknown UnknownAddr)) (Ok (Unknown MissingComponent))
  | AgVdso : agree (Ok (Unknown InvalidFileOffset)) (Ok (Unknown Unmapped)).

  (** The vDSO is read in the same way, and its symbols look the same with the
      options in use and those of normalization. *)
  Definition same_vdso (m : mode) (cf : config) (w : world) (p : pid) (s : state) (env : nenv sym) (es : list maps_entry) : Prop :=
    forall e, In e es -> me_path e = Some (PComponent str_vdso) ->
    forall vd, nv_vdso env (me_start e) (me_end e) = Good vd ->
    exists r, fst (vdso_parser w p (me_start e) (me_end e) s) = Ok r /\
      (forall off, r_virt r off = vd_virt_offset vd off) /\
      forall va, with_resolver m cf va r =
        let* x := vd_symbolize vd va in Ok (match x with inl y => Known y | inr reason => Unknown reason end).

  (** Answers but for the name of the module *)
  Definition no_module (x : symbolized) : symbolized :=
    match x with
    | Known y => Known (Sym (sy_name y) None (sy_addr y) (sy_offset y) (sy_size y) (sy_code_info y) (sy_inlined y))
    | Unknown r => Unknown r
    end.
  Definition unnamed (x : res symbolized) : res symbolized := let* x := x in Ok (no_module x).
  (** The path reported for a file matters for nothing but the module. *)
  Definition strip (x : find_result) : find_result :=
    let* x := x in
    Ok (match x with
        | inl y => inl (ResolvedSym (rs_name y) None (rs_addr y) (rs_size y) (rs_lang y) (rs_code_info y) (rs_inlined y))
        | inr r => inr r
        end).
  Definition like (r r' : resolver) : Prop :=
    (forall off, r_virt r off = r_virt r' off) /\ forall a o, strip (r_find r a o) = strip (r_find r' a o).
  Definition outcomes_like {A} (f : A -> resolver) (x y : outcome A) : Prop :=
    match x, y with
    | Good a, Good b => like (f a) (f b)
    | Bad k, Bad k' => k = k'
    | _, _ => False
    end.
  Definition path_is_module (w : world) : Prop :=
    (forall f q q', outcomes_like (w_elf_plain w) (w_elf_parse w f q) (w_elf_parse w f q')) /\
    forall q q' mb, outcomes_like (fun r => r) (w_apk_default w q mb false) (w_apk_default w q' mb false).

  (** The same program, possibly elsewhere: only files differ. *)
  Definition same_program (w w' : world) : Prop :=
    (forall f q, w_elf_parse w f q = w_elf_parse w' f q) /\ (forall P, w_elf_plain w P = w_elf_plain w' P) /\
    (forall f, w_archive w f = w_archive w' f) /\ (forall q mb d, w_apk_default w q mb d = w_apk_default w' q mb d) /\
    w_apk_dispatch w = None /\ w_apk_dispatch w' = None.
  (** The files at two paths, if there are any, are the same. *)
  Definition same_file (w : world) (q : path) (w' : world) (q' : path) : Prop := opened w q = opened w' q'.
End Spec.
