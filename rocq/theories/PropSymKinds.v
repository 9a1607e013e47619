(** * C44: input kinds. C45: offsets into symbols *)

From Verif Require Kernel.
From Verif Require Import Base Util UtilProofs Amap Maps FileCache FileCacheProofs CacheViews Sym Normalize
  NormalizeProofs
  Symbolizer SymbolizerSpec SymbolizerElf SymbolizerApk SymbolizerState SymbolizerProcess SymbolizerDemo PropSymBatch.
Local Open Scope N_scope.

Section Kinds.
  Context {File Parser : Type}.
  Notation world := (world File Parser).
  Notation state := (state File Parser).

  (** ** C44 *)

  (** Nothing is looked up for an input kind that is not accepted, and nothing
      changes. *)
  Theorem C44_rejected : forall m cf (w : world) src k addrs (s : state), ~ accepts src k -> is_elf src = false ->
    symbolize m cf w src k addrs s = (Err EUnsupported, s).
  Proof.
    intros m cf w src k addrs s Ha He. unfold symbolize.
    destruct src; destruct k; try discriminate; try reflexivity; exfalso; apply Ha; constructor.
  Qed.
  Theorem C44_rejected_single : forall m cf (w : world) src k addr (s : state), ~ accepts src k -> is_elf src = false ->
    symbolize_single m cf w src k addr s = (Err EUnsupported, s).
  Proof.
    intros m cf w src k addr s Ha He. unfold symbolize_single.
    destruct src; destruct k; try discriminate; try reflexivity; exfalso; apply Ha; constructor.
  Qed.
  (** ELF files are opened first: without a problem there, the same error. *)
  Theorem C44_elf : forall m cf (w : world) p debug k addrs (s s' : state) l, ~ accepts (SElf p debug) k ->
    symbolize m cf w (SElf p debug) VirtOffset [] s = (Ok l, s') ->
    symbolize m cf w (SElf p debug) k addrs s = (Err EUnsupported, s').
  Proof.
    intros m cf w p debug k addrs s s' l Ha E. destruct k; try (exfalso; apply Ha; constructor; fail).
    unfold symbolize in *. cbn [symbolize_impl] in *.
    destruct (on_elf (elf_resolver w p p debug) s) as [[x|e| |] s1]; cbn [then_] in *; try discriminate.
    simpl in E. injection E as _ <-. reflexivity.
  Qed.
  (** What is documented as accepted is. *)
  Definition accepting : Symbolizer.world N N :=
    let r := Resolver (fun _ _ => Ok (inr UnknownAddr)) (fun off => Ok (Some off)) no_find_addr no_for_each in
    World (Fs (fun _ => Good (meta_of 0)) (fun p => Good p)) (fun f _ => Good f) (fun _ => r) (fun _ => Good tt)
      (fun _ => Ok None) (fun _ => 0) (fun _ => None) (fun _ _ _ => Good r) (fun _ => Good []) None
      (fun _ _ _ => Good r) (fun _ _ => Good r) (fun _ _ => Good r) (fun _ _ => Good r) (fun _ => Good r) (fun _ => Good r)
      (fun _ => Good [Ok (MapsEntry 0 1 0 0 None None)]) (fun _ _ => r) None.
  Theorem C44_accepted : forall src k, accepts src k ->
    exists w : Symbolizer.world N N, forall m cf addrs auto_reload, exists l,
      fst (symbolize m cf w src k addrs (s_new auto_reload)) = Ok l.
  Proof.
    intros src k Ha. exists accepting. intros m cf addrs auto. set (s := s_new auto).
    assert (Hok : state_ok s) by apply new_ok.
    assert (Hr : reachable s) by (exists auto, []; reflexivity).
    assert (G : is_process src = false ->
      (forall a, exists x, fst (symbolize_single m cf accepting src k a s) = Ok x) ->
      exists l, fst (symbolize m cf accepting src k addrs s) = Ok l).
    { intros Hp Hs. pose proof (C43_batch m cf accepting src k addrs s Hr Hp) as B.
      destruct (fst (symbolize m cf accepting src k addrs s)) as [l|e| |]; cbn [batch_agrees] in B; eauto; exfalso.
      - destruct (Hs 0) as [x E]. rewrite B in E. discriminate.
      - destruct B as [B|(a & _ & B)]; [destruct (Hs 0) as [x E]|destruct (Hs a) as [x E]]; rewrite B in E; discriminate.
      - destruct B as [B|(a & _ & B)]; [destruct (Hs 0) as [x E]|destruct (Hs a) as [x E]]; rewrite B in E; discriminate. }
    destruct Ha as [p d|p|p d|p d|n|p o|l|p]; try (apply G; [reflexivity|]; intros a; try destruct d; eexists; reflexivity).
    - set (es := [MapsEntry 0 1 0 0 None None]).
      assert (Hset : settled accepting p o es s).
      { assert (Ht : forall a e q r, In e es -> ~ target_paths a o e q r).
        { intros a e q r [<-|[]] (mf & sy & E & _). discriminate. }
        assert (Hl : forall q r, ~ looked_up accepting o es s q r).
        { intros q r [e q' r' He H|e q' r' P q2 Hd He H]; eapply Ht; eauto. }
        constructor.
        - intros q r q' r' mt H. exfalso. eapply Hl; eauto.
        - intros _ e q r P q2 e' q' r' mt He H. exfalso. eapply Ht; eauto.
        - intros e q r e' q' r' mt He H. exfalso. eapply Ht; eauto.
        - intros _ e e' [<-|[]]; discriminate.
        - discriminate. }
      assert (Hord : ordered es) by (repeat constructor; simpl; lia).
      pose proof (user_addrs_ok m cf accepting p o es s Hset addrs Hok eq_refl Hord ltac:(discriminate)) as V.
      assert (Ho : forall a, exists x, one m cf accepting p o es a s = Ok x).
      { intros a. unfold one. destruct (lookup es a) as [e|] eqn:El; [|eauto].
        apply lookup_some in El. destruct El as [[<-|[]] Hb]. simpl in Hb. replace a with 0 by lia.
        unfold entry_view. destruct m; simpl; unfold default_view; simpl; destruct (po_perf_map o); eexists; reflexivity. }
      unfold symbolize. cbn [symbolize_impl].
      destruct (user_addrs m cf accepting p o addrs s) as [[l|e| |] s']; cbn [fst] in *; eauto;
        destruct V as (a & _ & E); destruct (Ho a) as [x Ex]; congruence.
  Qed.

  (** ** C45 *)

  (** With overflow checks, the offset is that from the symbol's address. *)
  Lemma with_resolver_known : forall m cf addr r y, with_resolver m cf addr r = Ok (Known y) ->
    exists s, r_find r addr (cf_opts cf) = Ok (inl s) /\ sy_addr y = rs_addr s /\ sub64 m addr (rs_addr s) = Ok (sy_offset y).
  Proof.
    intros m cf addr r y E. unfold with_resolver in E. ib E x Ex. destruct x as [s|rs]; [|discriminate].
    ib E y' Ey. injection E as ->. unfold convert_sym in Ey. ib Ey off Eo. injection Ey as <-. eauto.
  Qed.
  Lemma with_resolver_checked : forall cf addr r y, with_resolver Checked cf addr r = Ok (Known y) ->
    sy_addr y + sy_offset y = addr.
  Proof.
    intros cf addr r y E. apply with_resolver_known in E. destruct E as (s & _ & -> & E).
    unfold sub64, usub in E. destruct (rs_addr s <=? addr) eqn:El; [|discriminate]. apply N.leb_le in El. injection E as <-. lia.
  Qed.
  (** Without: as arithmetic on 64 bits has it. *)
  Theorem C45_wrapping : forall cf addr r y, addr < 2 ^ 64 -> sy_addr y < 2 ^ 64 ->
    with_resolver Wrapping cf addr r = Ok (Known y) ->
    (sy_addr y + sy_offset y) mod 2 ^ 64 = addr /\ (sy_addr y <= addr -> sy_addr y + sy_offset y = addr).
  Proof.
    intros cf addr r y Ha Hy E. apply with_resolver_known in E. destruct E as (s & _ & Es & E). rewrite <- Es in E.
    unfold sub64, usub in E. destruct (sy_addr y <=? addr) eqn:El.
    - apply N.leb_le in El. injection E as <-. replace (sy_addr y + (addr - sy_addr y)) with addr by lia.
      split; auto. now apply N.mod_small.
    - apply N.leb_gt in El. injection E as <-. change two64 with (2 ^ 64). split; [|lia].
      rewrite (N.mod_small (sy_addr y - addr)) by lia.
      replace (sy_addr y + (2 ^ 64 - (sy_addr y - addr))) with (addr + 1 * 2 ^ 64) by lia.
      rewrite N.mod_add by lia. now apply N.mod_small.
  Qed.

  (** Sources that look up addresses as they are *)
  Definition as_is (src : source) (k : kind) : Prop :=
    accepts src k /\ match src, k with SApk _ _, _ | SElf _ _, FileOffset | SProcess _ _, _ => False | _, _ => True end.
  Lemma each_forall : forall S (P : N -> symbolized -> Prop) (f : N -> S -> res symbolized * S) addrs s l,
    (forall a s x, fst (f a s) = Ok x -> P a x) -> (forall a, P a (Unknown IgnoredError)) ->
    fst (each f ignoring addrs s) = Ok l -> Forall2 P addrs l.
  Proof.
    intros S P f addrs s l Hf Hu. revert s l. induction addrs as [|a addrs IH]; intros s l E; simpl in E.
    - injection E as <-. constructor.
    - specialize (Hf a s). destruct (f a s) as [r s1]. cbn [fst] in Hf.
      assert (G : forall x, P a x -> fst (then_ (each f ignoring addrs s1) (fun l s => (Ok (x :: l), s))) = Ok l -> Forall2 P (a :: addrs) l).
      { intros x Hx Ex. specialize (IH s1). destruct (each f ignoring addrs s1) as [[l'|k| |] s2]; try discriminate.
        cbn [then_ fst] in *. injection Ex as <-. constructor; auto. }
      destruct r as [x|k| |]; cbn [then_ ignoring] in E; try discriminate.
      + apply (G x); auto.
      + apply (G (Unknown IgnoredError)); auto.
  Qed.
  Definition offset_from (v : N) (x : symbolized) : Prop := forall y, x = Known y -> sy_addr y + sy_offset y = v.

  Theorem C45_as_is : forall cf (w : world) src k addrs (s : state) l, as_is src k ->
    fst (symbolize Checked cf w src k addrs s) = Ok l -> Forall2 offset_from addrs l.
  Proof.
    intros cf w src k addrs s l [Ha Hk] E. unfold symbolize in E. fold ignoring in E.
    assert (G : forall A (x : res A * state) (r : A -> resolver),
      fst (then_ x (fun y s => each (fun a s => (with_resolver Checked cf a (r y), s)) ignoring addrs s)) = Ok l ->
      Forall2 offset_from addrs l).
    { intros A [[y|e| |] s1] r Ex; try discriminate. cbn [then_] in Ex. eapply each_forall; [| |exact Ex].
      - cbn [fst]. intros a _ x0 Ea y0 ->. eapply with_resolver_checked; eauto.
      - intros a y0 H. discriminate. }
    destruct Ha as [p d|p|p d|p d|n|p o|data|p]; cbn [symbolize_impl] in E; try tauto.
    - apply (G _ _ (fun y => y) E).
    - apply (G _ _ (fun y => er_resolver y) E).
    - apply (G _ _ (fun y => y) E).
    - apply (G _ _ (fun y => y) E).
    - apply (G _ _ (fun y => y) E).
  Qed.
  (** Offsets into ELF files: the address that the file's segments give *)
  Theorem C45_elf_offset : forall cf (w : world) p debug offs (s : state) l,
    fst (symbolize Checked cf w (SElf p debug) FileOffset offs s) = Ok l ->
    exists x, fst (elf_resolver w p p debug (s_elf s)) = Ok x /\
      Forall2 (fun off z => forall y, z = Known y ->
        r_virt (er_resolver x) off = Ok (Some (sy_addr y + sy_offset y))) offs l.
  Proof.
    intros cf w p debug offs s l E. unfold symbolize in E. fold ignoring in E. cbn [symbolize_impl] in E. unfold on_elf in E.
    destruct (elf_resolver w p p debug (s_elf s)) as [[x|e| |] c]; try discriminate. cbn [then_] in E.
    exists x. split; auto. eapply each_forall; [| |exact E].
    - cbn [fst]. intros a _ z Ez y ->. unfold translated in Ez. ib Ez v Ev. rewrite Ev. destruct v as [v|]; [|discriminate].
      apply with_resolver_checked in Ez. now subst.
    - intros a y H. discriminate.
  Qed.
  (** Offsets into archives *)
  Theorem C45_apk : forall cf (w : world) p debug off (s : state) y,
    fst (symbolize_single Checked cf w (SApk p debug) FileOffset off s) = Ok (Known y) ->
    exists r, fst (apk_resolver Checked w p p off debug (s_apk s)) = Ok (Some (r, sy_addr y + sy_offset y)).
  Proof.
    intros cf w p debug off s y E. unfold symbolize_single in E. cbn [symbolize_impl] in E. rewrite each_single in E.
    unfold on_apk in E. destruct (apk_resolver Checked w p p off debug (s_apk s)) as [[[[r v]|]|e| |] c]; try discriminate.
    cbn [then_ fst] in *. apply with_resolver_checked in E. subst v. eauto.
  Qed.
  (** Addresses of processes *)
  Theorem C45_process : forall cf (w : world) p o es a (s : state) y, reachable s -> uses_vmas w p s es -> ordered es ->
    settled w p o es s ->
    fst (symbolize_single Checked cf w (SProcess p o) AbsAddr a s) = Ok (Known y) ->
    exists e, In e es /\ me_start e <= a < me_end e /\ looks_at w p o s e a (sy_addr y + sy_offset y).
  Proof.
    intros cf w p o es a s y Hr Hu Hord Hset E. apply reachable_ok in Hr.
    assert (Hne : es <> []).
    { intros ->. unfold symbolize_single in E. simpl in E. unfold user_addrs in E. unfold uses_vmas in Hu.
      destruct (aget pid_eqb p (s_vmas s)); [subst|rewrite Hu in E]; discriminate. }
    rewrite (user_single Checked cf w p o es a s) in E by auto.
    pose proof (settled_joint w p o es s Hset Hr) as J.
    unfold one in E. destruct (lookup es a) as [e|] eqn:El; [|discriminate]. apply lookup_some in El. destruct El as [He Hb].
    exists e. split; auto. split; auto. unfold entry_view in E. ib E off Eoff.
    assert (Ho : off = entry_offset e a).
    { ib Eoff d Ed. unfold sub64, usub in Ed. destruct (me_start e <=? a) eqn:Es; [|discriminate]. injection Ed as <-.
      unfold add64, uadd, wrap in Eoff. destruct (_ - _ + _ <? two64); [|discriminate]. now injection Eoff as <-. }
    subst off. assert (Ht : forall r, translated Checked cf (entry_offset e a) r = Ok (Known y) ->
      r_virt r (entry_offset e a) = Ok (Some (sy_addr y + sy_offset y))).
    { intros r Er. unfold translated in Er. ib Er v Ev. destruct v as [v|]; [|discriminate].
      apply with_resolver_checked in Er. now subst v. }
    assert (Hd : default_view Checked cf w p o a (entry_offset e a) e s = Ok (Known y) ->
      looks_at w p o s e a (sy_addr y + sy_offset y)).
    { intros D. unfold default_view in D. destruct (me_path e) as [[mf sy|comp]|] eqn:Ep.
      - destruct (is_archive sy) eqn:Ea.
        + ib D x Ex. destruct x as [[r v]|]; [|discriminate]. apply with_resolver_checked in D. subst v.
          eapply LaApk; [do 2 eexists; eauto|].
          match goal with |- fst (apk_resolver _ _ ?q ?r ?f ?d _) = _ =>
            pose proof (apk_resolver_ok Checked w q r f d (s_apk s) (so_apk _ Hr)) as V end.
          destruct (apk_resolver _ _ _ _ _ _ _) as [x c]. destruct V as (-> & _). exact Ex.
        + ib D x Ex. eapply LaElf; [do 2 eexists; eauto| |apply Ht; exact D].
          match goal with |- fst (elf_resolver _ ?q ?r _ _) = _ =>
            pose proof (elf_step Checked cf w p o es s s q r J) as V end.
          unfold on_elf in V. destruct (elf_resolver _ _ _ _ _) as [x0 c].
          cbn [fst]. destruct V as (-> & _); auto. exists e. split; auto. do 2 eexists; eauto.
      - destruct (po_vdso o && beq comp str_vdso) eqn:Eb; [|discriminate].
        apply andb_true_iff in Eb. destruct Eb as [Eb Ec]. apply beq_eq in Ec. subst comp. ib D r Er.
        eapply LaVdso; eauto. pose proof (vdso_step Checked cf w p o es s Hset s e J He Ep) as V.
        destruct (vdso_parser _ _ _ _ _) as [x c]. destruct V as (-> & _). exact Er.
      - destruct (po_perf_map o) eqn:Eo; [|discriminate]. ib D r Er. destruct r as [r|]; [|discriminate].
        apply with_resolver_checked in D. rewrite D. now constructor. }
    destruct (me_path e) as [name|] eqn:Ep; [|auto]. ib E r Er. destruct r as [r|]; [|auto].
    eapply LaDispatch; eauto. pose proof (dispatch_step Checked cf w p o es s Hset s e name J He Ep) as V.
    destruct (dispatch_resolver _ _ _ _ _) as [x c]. destruct V as (-> & _). exact Er.
  Qed.
End Kinds.

(** ** Examples *)
Example C44_ex :
  accepts (SGsymFile 3) VirtOffset /\ ~ accepts (SGsymFile 3) FileOffset /\
  fst (symbolize Checked demo_config (demo plain_setup) (SGsymFile 3) FileOffset [4200] demo_new) = Err EUnsupported /\
  brief_all (fst (symbolize Checked demo_config (demo plain_setup) (SGsymFile 3) VirtOffset [4200] demo_new)) =
    Ok [inl ([3; 4192], 4192, 8)] /\
  fst (symbolize Checked demo_config (demo plain_setup) (SElf 3 false) AbsAddr [4200] demo_new) = Err EUnsupported.
Proof.
  split; [constructor|]. split; [intros H; inversion H|]. split; [reflexivity|]. split; vm_compute; reflexivity.
Qed.
Example C45_ex :
  brief_all (fst (symbolize Checked demo_config (demo plain_setup) (SElf 3 false) FileOffset [100] demo_new)) =
    Ok [inl ([3; 4192], 4192, 4)] /\
  r_virt (demo_resolver 3) 100 = Ok (Some 4196) /\
  brief_one (fst (symbolize_single Checked demo_config ex_process (SProcess Slf ex_opts) AbsAddr 3004 demo_new)) =
    Ok (inl ([99; 4144], 4144, 6)) /\
  looks_at ex_process Slf ex_opts demo_new (ent 3000 4000 50 (Some name_b)) 3004 4150.
Proof.
  split; [vm_compute; reflexivity|]. split; [reflexivity|]. split; [vm_compute; reflexivity|].
  eapply LaElf; [do 2 eexists; repeat split| |]; vm_compute; reflexivity.
Qed.

(** ** Not so *)

(** An ELF file that is not there, or is no ELF file: its error is reported
    instead of the input kind being unsupported. *)
Theorem C44_elf_refuted : exists (w : Symbolizer.world N N) p addrs (s : Symbolizer.state N N), reachable s /\
  ~ accepts (SElf p false) AbsAddr /\
  fst (symbolize Checked demo_config w (SElf p false) AbsAddr addrs s) = Err ENotFound.
Proof.
  exists (demo (with_file (fun _ => None) plain_setup)), 3, [4200], demo_new. split; [apply demo_reachable|].
  split; [intros H; inversion H|]. vm_compute. reflexivity.
Qed.
(** A resolver reporting a symbol after the address (as seen for functions in
    several pieces, C39): a panic with overflow checks, an offset of almost
    2^64 without. *)
Theorem C45_after_refuted : exists r addr y,
  r_find r addr (cf_opts demo_config) = Ok (inl (fn 1 (addr + 16))) /\
  with_resolver Checked demo_config addr r = Panic /\
  with_resolver Wrapping demo_config addr r = Ok (Known y) /\ sy_offset y = 2 ^ 64 - 16.
Proof.
  exists (Resolver (fun a _ => Ok (inl (fn 1 (a + 16)))) (fun _ => Ok None) no_find_addr no_for_each), 4096. eexists.
  split; [reflexivity|]. split; [reflexivity|]. split; reflexivity.
Qed.
(** The kernel with an offset: the symbol's address is that in the file, but
    the offset is taken from the address in memory. For a function of 16 bytes,
    an offset of 2097160 is reported. *)
Definition image : resolver := Resolver (fun a _ => Ok (inl (fn 1 (16 * (a / 16))))) (fun _ => Ok None) no_find_addr no_for_each.
Definition shifted : Kernel.kernel := Kernel.Kernel None (Some (r_find image)) 0x200000 false.
Definition no_modules : Kernel.kenv :=
  let e := fun _ => Err ENotFound in Kernel.KEnv (Ok []) (Err ENotFound) e e e e (fun _ _ _ => Err ENotFound).
Definition kernel_world : Symbolizer.world N N :=
  let w := demo plain_setup in
  World (w_fs w) (w_elf_parse w) (w_elf_plain w) (w_elf_cache w)
    (w_link w) (w_crc w) (w_dwp w) (w_dwarf w) (w_archive w) (w_apk_dispatch w) (w_apk_default w) (w_breakpad w)
    (w_gsym w) (w_perf_map w) (w_gsym_data w)
    (fun _ => Good (Resolver (Kernel.kernel_find_sym Checked no_modules shifted) (fun _ => Ok None) no_find_addr no_for_each))
    (w_maps w) (w_image w) (w_dispatch w).
Theorem C45_kernel_refuted : exists (w : Symbolizer.world N N) (s : Symbolizer.state N N) n addr y sz, reachable s /\
  fst (symbolize_single Checked demo_config w (SKernel n) AbsAddr addr s) = Ok (Known y) /\
  sy_size y = Some sz /\ sy_addr y <= addr - 0x200000 < sy_addr y + sz /\
  sz < sy_offset y /\ sy_addr y + sy_offset y <> addr - 0x200000.
Proof.
  exists kernel_world, demo_new, 0, (0x200000 + 4104). eexists _, 16. split; [apply demo_reachable|].
  split; [vm_compute; reflexivity|]. simpl. split; auto. lia.
Qed.
Print Assumptions C44_rejected.
Print Assumptions C44_rejected_single.
Print Assumptions C44_elf.
Print Assumptions C44_accepted.
Print Assumptions C44_elf_refuted.
Print Assumptions C45_wrapping.
Print Assumptions C45_as_is.
Print Assumptions C45_elf_offset.
Print Assumptions C45_apk.
Print Assumptions C45_process.
Print Assumptions C45_after_refuted.
Print Assumptions C45_kernel_refuted.
