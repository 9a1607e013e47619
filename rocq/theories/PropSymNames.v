(** * Properties of what is reported for a symbol

    Claim C58 of /verif/properties.jsonl. *)

From Verif Require Import Base Util UtilProofs Amap Maps FileCache Sym Symbolizer SymbolizerSpec PropSymBatch PropSymKinds Demangle.
Local Open Scope N_scope.

(** ** Specification *)

(** The name shown: as it is if names are not to be demangled or are not mangled;
    names in an unknown language are tried as Rust ones first. *)
Inductive shown_name (rust cpp : list N -> option (list N)) : bool -> src_lang -> list N -> list N -> Prop :=
| SnOff : forall lang n, shown_name rust cpp false lang n n
| SnRust : forall lang n x, lang <> LangCpp -> rust n = Some x -> shown_name rust cpp true lang n x
| SnCpp : forall n x, cpp n = Some x -> shown_name rust cpp true LangCpp n x
| SnUnknownCpp : forall n x, rust n = None -> cpp n = Some x -> shown_name rust cpp true LangUnknown n x
| SnPlain : forall lang n, (lang <> LangCpp -> rust n = None) -> (lang <> LangRust -> cpp n = None) -> shown_name rust cpp true lang n n.
Definition shown_fn rust cpp (demangle : bool) (lang : src_lang) (f g : inlined_fn) : Prop :=
  shown_name rust cpp demangle lang (if_name f) (if_name g) /\ if_code_info g = if_code_info f.
(** All else is what was found. *)
Definition shown rust cpp (demangle : bool) (z : resolved_sym) (y : sym) : Prop :=
  shown_name rust cpp demangle (rs_lang z) (rs_name z) (sy_name y) /\
  sy_module y = rs_module z /\ sy_addr y = rs_addr z /\ sy_size y = rs_size z /\ sy_code_info y = rs_code_info z /\
  Forall2 (shown_fn rust cpp demangle (rs_lang z)) (rs_inlined z) (sy_inlined y).
(** What is asked for: code information if enabled, inlined functions if both are *)
Definition asks (code_info inlined_fns : bool) (o : find_opts) : Prop :=
  code_info_opt o = code_info /\ inlined_fns_opt o = (code_info && inlined_fns)%bool.

(** There is one name to show. *)
Lemma shown_name_unique : forall rust cpp d lang n a b, shown_name rust cpp d lang n a -> shown_name rust cpp d lang n b -> a = b.
Proof.
  intros rust cpp d lang n a b Ha Hb. destruct lang; inversion Ha; subst; inversion Hb; subst; try congruence;
    repeat match goal with
    | H : ?x <> ?x |- _ => congruence
    | H : ?a <> ?b -> _ |- _ => specialize (H ltac:(discriminate))
    end; congruence.
Qed.
Lemma maybe_demangle_shown : forall rust cpp d lang n, shown_name rust cpp d lang n (maybe_demangle rust cpp n lang d).
Proof.
  intros rust cpp d lang n. unfold maybe_demangle, maybe_demangle_impl, or_else. destruct d; [|constructor].
  destruct lang.
  - destruct (rust n) eqn:Er; [apply SnRust; [discriminate|auto]|]. destruct (cpp n) eqn:Ec; [now apply SnUnknownCpp|].
    apply SnPlain; auto.
  - destruct (cpp n) eqn:Ec; [now apply SnCpp|]. apply SnPlain; auto; congruence.
  - destruct (rust n) eqn:Er; [apply SnRust; [discriminate|auto]|]. apply SnPlain; auto; congruence.
Qed.

Section Names.
  Context (rust cpp : list N -> option (list N)) (ci fns d : bool) (self : N).
  Let cf := build rust cpp ci fns d self.

  Lemma opts_asked : asks ci fns (cf_opts cf).
  Proof. split; unfold cf; destruct ci, fns; reflexivity. Qed.
  Lemma convert_shown : forall m addr z y, convert_sym m cf addr z = Ok y -> shown rust cpp d z y.
  Proof.
    intros m addr z y E. unfold convert_sym in E. ib E off Eo. injection E as <-.
    split; [apply maybe_demangle_shown|]. cbn [sy_module sy_addr sy_size sy_code_info sy_inlined]. repeat (split; [reflexivity|]).
    induction (rs_inlined z) as [|f fs IH]; [constructor|]. cbn [map]. constructor; [|exact IH].
    split; [apply maybe_demangle_shown|reflexivity].
  Qed.

  (** ** C58 *)

  (** What is reported for an address, given what a resolver finds with options
      that ask for what is enabled. [m] tells whether overflows panic. *)
  Definition reported_for (m : mode) (r : resolver) (addr : N) (x : res symbolized) : Prop :=
    exists o, asks ci fns o /\
      match r_find r addr o with
      | Ok (inl z) => (m = Wrapping \/ rs_addr z <= addr) -> exists y, x = Ok (Known y) /\ shown rust cpp d z y
      | Ok (inr reason) => x = Ok (Unknown reason)
      | Err k => x = Err k
      | Panic => x = Panic
      | NoFuel => x = NoFuel
      end.
  Theorem C58_reported : forall m r addr, reported_for m r addr (with_resolver m cf addr r).
  Proof.
    intros m r addr. exists (cf_opts cf). split; [exact opts_asked|]. unfold with_resolver.
    destruct (r_find r addr (cf_opts cf)) as [[z|reason]|k| |]; try reflexivity. cbn [bind]. intros Hm.
    assert (E : exists y, convert_sym m cf addr z = Ok y).
    { unfold convert_sym, sub64, usub. destruct (N.leb_spec (rs_addr z) addr) as [Hle|Hgt]; [cbn [bind]; eauto|].
      destruct Hm as [->|Hm]; [cbn [bind]; eauto|lia]. }
    destruct E as [y E]. rewrite E. cbn [bind]. exists y. split; [reflexivity|]. eapply convert_shown; eauto.
  Qed.

  (** The resolver that a source uses *)
  Context {File Parser : Type}.
  Notation world := (world File Parser).
  Notation state := (state File Parser).
  Definition used (w : world) (src : source) (s : state) (r : resolver) : Prop :=
    match src with
    | SBreakpad p => fst (file_resolver w (w_breakpad w) p (s_breakpad s)) = Ok r
    | SGsymFile p => fst (file_resolver w (w_gsym w) p (s_gsym s)) = Ok r
    | SGsymData data => w_gsym_data w data = Good r
    | SKernel n => w_kernel w n = Good r
    | SElf p debug => exists x, fst (elf_resolver w p p debug (s_elf s)) = Ok x /\ er_resolver x = r
    | SApk _ _ | SProcess _ _ => False
    end.
  (** In a batch, errors of addresses are reported as such. *)
  Definition reported_in_batch (m : mode) (r : resolver) (addr : N) (x : symbolized) : Prop :=
    exists z, reported_for m r addr z /\ reports z x.
  Lemma each_reported : forall S (f : N -> S -> res symbolized * S) (P : N -> res symbolized -> Prop) addrs s l,
    (forall a s, P a (fst (f a s))) -> fst (each f ignoring addrs s) = Ok l ->
    Forall2 (fun a x => exists z, P a z /\ reports z x) addrs l.
  Proof.
    intros S f P addrs s l Hf. revert s l. induction addrs as [|a addrs IH]; intros s l E; simpl in E.
    - injection E as <-. constructor.
    - specialize (Hf a s). destruct (f a s) as [r s1]. cbn [fst] in Hf.
      assert (G : forall x, reports r x -> fst (then_ (each f ignoring addrs s1) (fun l s => (Ok (x :: l), s))) = Ok l ->
        Forall2 (fun a x => exists z, P a z /\ reports z x) (a :: addrs) l).
      { intros x Hx Ex. specialize (IH s1). destruct (each f ignoring addrs s1) as [[l'|k| |] s2]; try discriminate.
        cbn [then_ fst] in *. injection Ex as <-. constructor; eauto. }
      destruct r as [x|k| |]; cbn [then_ ignoring] in E; try discriminate.
      + apply (G x); [constructor|auto].
      + apply (G (Unknown IgnoredError)); [constructor|auto].
  Qed.
  Theorem C58_batch : forall m (w : world) src k addrs (s : state) l, as_is src k ->
    fst (symbolize m cf w src k addrs s) = Ok l ->
    exists r, used w src s r /\ Forall2 (reported_in_batch m r) addrs l.
  Proof.
    intros m w src k addrs s l [Ha Hk] E. unfold symbolize in E. fold ignoring in E.
    assert (G : forall r s1, fst (each (fun a (s : state) => (with_resolver m cf a r, s)) ignoring addrs s1) = Ok l ->
      Forall2 (reported_in_batch m r) addrs l).
    { intros r s1 Ex. apply (each_reported _ (fun a (s : state) => (with_resolver m cf a r, s)) (fun a => reported_for m r a) addrs s1); auto.
      intros a s2. cbn [fst]. apply C58_reported. }
    destruct Ha as [p dd|p|p dd|p dd|n|p o|data|p]; cbn [symbolize_impl] in E; try tauto; unfold on_breakpad, on_gsym, on_elf in E.
    - cbn [used]. destruct (file_resolver w (w_breakpad w) p (s_breakpad s)) as [[r|e| |] c]; try discriminate.
      cbn [then_] in E. exists r. split; [reflexivity|]. eauto.
    - cbn [used]. destruct (elf_resolver w p p dd (s_elf s)) as [[x|e| |] c]; try discriminate.
      cbn [then_] in E. exists (er_resolver x). split; [exists x; auto|]. eauto.
    - cbn [used]. destruct (w_kernel w n) as [r|e]; try discriminate. cbn [of_outcome then_] in E. exists r. split; [reflexivity|]. eauto.
    - cbn [used]. destruct (w_gsym_data w data) as [r|e]; try discriminate. cbn [of_outcome then_] in E. exists r. split; [reflexivity|]. eauto.
    - cbn [used]. destruct (file_resolver w (w_gsym w) p (s_gsym s)) as [[r|e| |] c]; try discriminate.
      cbn [then_] in E. exists r. split; [reflexivity|]. eauto.
  Qed.
  Theorem C58_elf_offset : forall m (w : world) p debug offs (s : state) l,
    fst (symbolize m cf w (SElf p debug) FileOffset offs s) = Ok l ->
    exists r, used w (SElf p debug) s r /\
      Forall2 (fun off x =>
        match r_virt r off with
        | Ok (Some v) => reported_in_batch m r v x
        | Ok None => x = Unknown InvalidFileOffset
        | _ => x = Unknown IgnoredError
        end) offs l.
  Proof.
    intros m w p debug offs s l E. unfold symbolize in E. fold ignoring in E. cbn [symbolize_impl] in E. unfold on_elf in E.
    cbn [used]. destruct (elf_resolver w p p debug (s_elf s)) as [[x|e| |] c]; try discriminate. cbn [then_] in E.
    exists (er_resolver x). split; [exists x; auto|].
    assert (H : Forall2 (fun off y => exists z, z = translated m cf off (er_resolver x) /\ reports z y) offs l).
    { eapply (each_reported _ _ (fun off z => z = translated m cf off (er_resolver x))); [|exact E]. reflexivity. }
    clear - H. induction H as [|off y offs l (z & -> & Hr) H IH]; constructor; auto.
    unfold translated in Hr. destruct (r_virt (er_resolver x) off) as [[v|]|k| |]; cbn [bind] in Hr.
    - exists (with_resolver m cf v (er_resolver x)). split; [apply C58_reported|exact Hr].
    - inversion Hr. reflexivity.
    - inversion Hr. reflexivity.
    - inversion Hr.
    - inversion Hr.
  Qed.
End Names.
Theorem C58_one_name : forall rust cpp d lang n a b, shown_name rust cpp d lang n a -> shown_name rust cpp d lang n b -> a = b.
Proof. exact shown_name_unique. Qed.

(** ** Example: a C++ name shown, with a call of a Rust function inlined *)
Definition ex_rust (n : list N) : option (list N) := match n with 82 :: n => Some n | _ => None end.
Definition ex_cpp (n : list N) : option (list N) := match n with 90 :: n => Some n | _ => None end.
Definition ex_found (lang : src_lang) : resolved_sym :=
  ResolvedSym [90; 1] (Some [7]) 100 (Some 5) lang None [InlinedFn [82; 2] (Some (CodeInfo None [9] (Some 3) None)); InlinedFn [65] None].
Definition ex_resolver (lang : src_lang) : resolver :=
  Resolver (fun a o => match o with WithInlined => Ok (inl (ex_found lang)) | _ => Ok (inr UnknownAddr) end) (fun _ => Ok None) no_find_addr no_for_each.
Example C58_example :
  let ask d lang := with_resolver Checked (build ex_rust ex_cpp true true d 0) 103 (ex_resolver lang) in
  let f := CodeInfo None [9] (Some 3) None in
  let sym n i := Ok (Known (Sym n (Some [7]) 100 3 (Some 5) None [InlinedFn i (Some f); InlinedFn [65] None])) in
  ask true LangUnknown = sym [1] [2] /\ ask true LangCpp = sym [1] [82; 2] /\ ask true LangRust = sym [90; 1] [2] /\
  ask false LangUnknown = sym [90; 1] [82; 2].
Proof. repeat split; reflexivity. Qed.
Print Assumptions C58_reported.
Print Assumptions C58_batch.
Print Assumptions C58_elf_offset.
Print Assumptions C58_one_name.
