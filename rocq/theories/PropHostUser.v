(** * C77: addresses of programs, libraries and processes, from the contents of
      files, for a symbolizer used for many calls *)

From Verif Require Import Base Util UtilProofs Bytes Amap Maps Sym Frames Elf ElfSpec Normalize NormalizeProofs FileCache FileCacheProofs
  Symbolizer SymbolizerSpec SymbolizerState SymbolizerProcess HistorySpec SymHistorySpec PropRemote Host HostSpec HostUserSpec PropHost.
From Verif Require PropSymBatch PropSymHistory PropElf PropNormalize PropMaps PropGsym PropBreakpad PropPerf GsymSpec BreakpadSpec PerfSpec Gsym Breakpad PerfMap.
Local Open Scope N_scope.
Local Notation length := List.length.

Section User.
  Context (x : ext) (m : mode) (pick : N -> N -> N) (rest : world (N * list N) parser) (h : host) (cf : config).
  Notation w := (host_world x m pick rest h).
  Context (Hx : sorts x) (Hnd : w_apk_dispatch rest = None) (Hdi : w_dispatch rest = None).

  (** ** Lines and inlined functions *)
  Lemma found_frames : forall (r : resolver) addr y loc names sites, r_find r addr (cf_opts cf) = Ok (inl y) -> rs_addr y <= addr ->
    rs_lang y = LangUnknown -> map if_name (rs_inlined y) = names ->
    frame_locs (Some loc) (map Some sites) (rs_code_info y :: map if_code_info (rs_inlined y)) ->
    forall size, rs_size y = Some size ->
    exists z, with_resolver m cf addr r = Ok z /\ framed cf (rs_name y) (rs_module y) addr (rs_addr y) size loc names sites z.
  Proof.
    intros r addr y loc names sites E Hle Hl Hn Hf size Hs. unfold with_resolver. rewrite E. cbn [bind]. unfold convert_sym, sub64.
    rewrite usub_small by lia. cbn [bind]. eexists. split; [reflexivity|]. eexists. split; [reflexivity|].
    cbn [sy_name sy_module sy_addr sy_offset sy_size sy_code_info sy_inlined]. rewrite Hl, Hs. repeat (split; [reflexivity|]).
    rewrite !map_map. cbn [if_name if_code_info]. split; [rewrite <- Hn, map_map; reflexivity|]. exact Hf.
  Qed.
  Lemma no_frames : forall loc : code_info, frame_locs (Some loc) (map Some []) (Some loc :: map if_code_info []).
  Proof. intros loc. split; [reflexivity|]. split; [intros [|i] c; discriminate|reflexivity]. Qed.

  Lemma gsym_found : forall ptr data d addr P, gsym_ok ptr data d -> gsym_describes cf d addr P ->
    exists y, Gsym.gsym_lookup m ptr data addr (cf_opts cf) = Ok y /\
      forall r : resolver, r_find r addr (cf_opts cf) = Ok y -> exists z, with_resolver m cf addr r = Ok z /\ P z.
  Proof.
    intros ptr data d addr P (Hg & Hp & Hs & Hw) [Hno|f name (Hn & Hc & Hna) Ho|f name loc (Hn & Hc & Hna) Hi (r & Hr & Hl) Ho|f name loc root calls rname names sites (Hn & Hc & Hna) Hi (r & Hr & Hl) Ho Hch Hrn Hns Hss].
    - eexists. split; [exact (PropGsym.C16_unknown m ptr data d addr (cf_opts cf) Hg Hp Hs Hw Hno)|].
      intros q Hq. eexists. split; [exact (unknown m cf q addr _ Hq)|reflexivity].
    - exists (inl (ResolvedSym name None (GsymSpec.gf_base d + GsymSpec.f_start f) (Some (GsymSpec.f_size f)) LangUnknown None [])).
      split; [destruct Ho as [->|[Hi Hr]]; [now apply PropGsym.C16_found|now apply PropGsym.C18_no_row]|].
      intros q Hq. eexists. split; [apply (known m pick cf q addr _ Hq); auto; exact (proj1 (proj2 Hn))|reflexivity].
    - exists (inl (ResolvedSym name None (GsymSpec.gf_base d + GsymSpec.f_start f) (Some (GsymSpec.f_size f)) LangUnknown (Some loc) [])).
      split; [destruct Ho as [->|[-> Hch]]; [now apply (PropGsym.C18_line m ptr data d addr f name r)|now apply (PropGsym.C19_no_chain m ptr data d addr f name r)]|].
      intros q Hq. exact (found_frames q addr _ loc [] [] Hq (proj1 (proj2 Hn)) eq_refl eq_refl (no_frames loc) _ eq_refl).
    - destruct (PropGsym.C19_chain m ptr data d addr f name r loc root calls rname names sites) as (y & E & E1 & E2 & E3 & E4 & E5 & E6 & E7); auto.
      exists (inl y). rewrite Ho. split; [exact E|]. intros q Hq. rewrite <- Ho in Hq. subst. rewrite <- E2, <- E3.
      refine (found_frames q addr y loc _ sites Hq _ E5 eq_refl E7 _ E4). rewrite E3. exact (proj1 (proj2 Hn)).
  Qed.
  Lemma breakpad_found : forall data rs addr P, breakpad_ok data rs -> breakpad_describes cf rs addr P ->
    exists y, BreakpadSpec.breakpad_lookup m pick data addr (cf_opts cf) = Ok y /\
      forall r : resolver, r_find r addr (cf_opts cf) = Ok y -> exists z, with_resolver m cf addr r = Ok z /\ P z.
  Proof.
    intros data rs addr P (Hb & Hov & Hfit) [Hno|f (Hin & Hat) Ho|f loc (Hin & Hat) (Hl & l & H1 & H2 & H3) Ho|f loc calls names sites (Hin & Hat) (Hl & l & H1 & H2 & H3) Ho Hia Hil Hc Hn Hs].
    - assert (Hfn : Forall (fun f => Breakpad.fn_addr f + Breakpad.fn_size f < 2 ^ 64) (BreakpadSpec.functions rs)) by (eapply Forall_impl; [|exact Hfit]; intros f Hf; apply Hf).
      eexists. split; [exact (PropBreakpad.C21_unknown m pick data rs addr (cf_opts cf) Hb Hfn Hno)|].
      intros q Hq. eexists. split; [exact (unknown m cf q addr _ Hq)|reflexivity].
    - exists (inl (ResolvedSym (Breakpad.fn_name f) (BreakpadSpec.module_of rs) (Breakpad.fn_addr f) (Some (Breakpad.fn_size f)) LangUnknown None [])).
      split; [destruct Ho as [->|Hr]; [apply PropBreakpad.C21_found; auto; eapply Forall_impl; [|exact Hfit]; intros g Hg; apply Hg|exact (PropBreakpad.C22_no_line m pick data rs Hb Hov Hfit f addr _ Hin Hat Hr)]|].
      intros q Hq. eexists. split; [apply (known m pick cf q addr _ Hq); auto; cbn [rs_addr]; unfold BreakpadSpec.func_at, BreakpadSpec.in_range in Hat; lia|reflexivity].
    - exists (inl (ResolvedSym (Breakpad.fn_name f) (BreakpadSpec.module_of rs) (Breakpad.fn_addr f) (Some (Breakpad.fn_size f)) LangUnknown (Some loc) [])).
      split; [rewrite Ho; exact (PropBreakpad.C22_line m pick data rs Hb Hov Hfit f addr l loc Hin Hat Hl H1 H2 H3)|].
      intros q Hq. refine (found_frames q addr _ loc [] [] Hq _ eq_refl eq_refl (no_frames loc) _ eq_refl). cbn [rs_addr]. unfold BreakpadSpec.func_at, BreakpadSpec.in_range in Hat. lia.
    - destruct (PropBreakpad.C22_inlined m pick data rs Hb Hov Hfit f addr l loc calls names sites) as (y & E & E1 & E2 & E3 & E4 & E5 & E6 & E7); auto.
      exists (inl y). rewrite Ho. split; [exact E|]. intros q Hq. rewrite <- Ho in Hq. subst. rewrite <- E1, <- E2, <- E3.
      refine (found_frames q addr y loc _ sites Hq _ E5 eq_refl E7 _ E4). rewrite E3. unfold BreakpadSpec.func_at, BreakpadSpec.in_range in Hat. lia.
  Qed.

  (** ** With a new symbolizer *)
  Lemma fresh : forall src k a P, describes x h cf src k a P ->
    exists r, fst (symbolize_single m cf w src k a (s_new true)) = Ok r /\ P r.
  Proof.
    intros src k a P [p ptr data e st dt addr Hb Hf He|p ptr data off P0 Hb Hf [e st dt He]|p ptr data off P0 Hb Hf Ha|p ptr data d addr P0 Hf Hg Hd|data d addr P0 Hg Hd|p ptr data rs addr P0 Hf Hg Hd|p o vs a0 P0 Hp Hv Hdb Hd].
    - eapply C72_elf; eauto.
    - eapply C72_elf_offset; eauto.
    - destruct Ha as [rs1 c rs2 name start contents P1 H1 H2 H3 H4 [e st dt He]|rs H1 H2].
      + eapply C72_apk; eauto.
      + eexists. split; [eapply C72_apk_none; eauto|reflexivity].
    - destruct (gsym_found ptr data d addr P0 Hg Hd) as (y & E & H). destruct (gsym_file x m pick rest h cf true p ptr data addr y Hf E) as (r & Er & ->). auto.
    - destruct (gsym_found _ data d addr P0 Hg Hd) as (y & E & H). destruct (gsym_data x m pick rest h cf true data addr y E) as (r & Er & ->). auto.
    - destruct (breakpad_found data rs addr P0 Hg Hd) as (y & E & H). destruct (breakpad_file x m pick rest h cf true p ptr data addr y Hf E) as (r & Er & ->). auto.
    - destruct Hd as [v q ptr data P1 H1 H2 H3 H4 H5 [[Hq [rs1 c rs2 name start contents P2 G1 G2 G3 G4 [e st dt He]|rs G1 G2]]|[Hq [e st dt He]]]|v start data P1 H1 H2 H3 H4 H5 [e st dt He]|v ptr data es f H1 H2 H3 H4 H5 H6 H7 H8 H9 H10|Hno].
      + eapply C72_process_apk; eauto.
      + eexists. split; [eapply C72_process_apk_none; eauto|reflexivity].
      + eapply C72_process; eauto.
      + eapply C72_vdso; eauto.
      + eexists. split; [eapply C72_perf; eauto|reflexivity].
      + eexists. split; [eapply C72_unmapped; eauto|reflexivity].
  Qed.

  (** ** After any history *)
  Theorem C77_single : forall hist src k a P, Forall unforced hist -> undisturbed (hist ++ [OSingle m cf w src k a]) ->
    describes x h cf src k a P ->
    exists r, fst (symbolize_single m cf w src k a (run hist (s_new true))) = Ok r /\ P r.
  Proof. intros hist src k a P Hu Hd H. rewrite PropSymHistory.C65_single by auto. now apply fresh. Qed.

  Lemma undisturbed_settled : forall hist cf' (w' : world (N * list N) parser) p o es, undisturbed hist -> asked hist cf' w' (SProcess p o) ->
    w_maps w' p = Good (map Ok es) -> w_dispatch w' = None -> w_apk_dispatch w' = None -> po_debug o = false -> settled w' p o es (s_new true).
  Proof.
    intros hist cf' w' p o es U Ha Em Hd Hk Hb.
    assert (Hw : worlds hist w') by (exists cf', (SProcess p o); exact Ha).
    assert (Hs : forall e, In e es -> sees hist w' p o e) by (intros e He; exists cf', (map Ok es); split; auto; split; auto; now apply in_map).
    assert (Hre : forall e q r, In e es -> target_paths false o e q r -> reads_elf hist q r (po_debug o)) by (intros e q r He Ht; eapply ReEntry; eauto).
    constructor.
    - assert (Hl : forall q r, looked_up w' o es (s_new true) q r -> any_elf hist q r).
      { intros q r [e q' r' He Ht|]; [|congruence]. eapply AeFile, Hre; eauto. }
      intros q r q' r' mt H1 H2 E1 E2. exact (la_identified _ _ _ (ud_elf _ U) w' w' q r q' r' mt Hw Hw (Hl _ _ H1) (Hl _ _ H2) E1 E2).
    - congruence.
    - intros e q r e' q' r' mt He Ht He' Ht' E1 E2.
      assert (R1 : reads_apk hist q r (po_debug o)) by exact (RaEntry _ _ _ _ _ _ _ (Hs e He) Ht).
      assert (R2 : reads_apk hist q' r' (po_debug o)) by exact (RaEntry _ _ _ _ _ _ _ (Hs e' He') Ht').
      destruct (ud_apk _ U w' w' q r (po_debug o) q' r' (po_debug o) mt Hw Hw R1 R2 E1 E2) as (G1 & _ & G2 & _ & _).
      split; auto. split; auto. intros d mb E. congruence.
    - intros -> e e' He He' E E'. destruct (ud_vdso _ U) as (image & Hi). destruct (Hi w' Slf o e (Hs e He) E) as (es' & Em' & _ & H).
      assert (es' = es) by (rewrite Em in Em'; injection Em' as Em'; clear - Em'; revert es' Em'; induction es as [|z es IH]; intros [|z' es'] E; try discriminate; auto; injection E as -> E; f_equal; auto).
      subst es'. now rewrite (H e He E), (H e' He' E').
    - intros d e e' name E. congruence.
  Qed.
  Theorem C77_symbolize : forall hist src k addrs Ps, Forall unforced hist -> undisturbed (hist ++ [OSymbolize m cf w src k addrs]) ->
    addrs <> [] -> Forall2 (describes x h cf src k) addrs Ps ->
    exists rs, fst (symbolize m cf w src k addrs (run hist (s_new true))) = Ok rs /\ Forall2 (fun P r => P r) Ps rs.
  Proof.
    intros hist src k addrs Ps Hu HU Hne HF. rewrite PropSymHistory.C65_symbolize by auto.
    assert (Hre : reachable (s_new (File := N * list N) (Parser := parser) true)) by (exists true, []; reflexivity).
    set (single := fun a => fst (symbolize_single m cf w src k a (s_new true))).
    assert (HS : Forall2 (fun a (P : symbolized -> Prop) => exists r, single a = Ok r /\ P r) addrs Ps) by (eapply Forall2_impl; [|exact HF]; intros a P; apply fresh).
    assert (Hgood : forall a, In a addrs -> exists r, single a = Ok r).
    { intros a Ha. clear - HS Ha. induction HS as [|a0 P l Ps0 (r & E & _) _ IH]; [easy|]. destruct Ha as [<-|Ha]; eauto. }
    assert (Hsome : exists a, In a addrs) by (destruct addrs as [|a l]; [congruence|exists a; now left]).
    assert (Hend : forall l, Forall2 (fun a z => single a = Ok z) addrs l -> Forall2 (fun (P : symbolized -> Prop) r => P r) Ps l).
    { clear - HS. intros l. revert l. induction HS as [|a P l Ps0 (r & E & H) _ IH]; intros l' Hl; inversion Hl; subst; constructor; auto.
      match goal with E' : single a = Ok ?z |- _ => rewrite E in E'; injection E' as <- end. exact H. }
    assert (G : match fst (symbolize m cf w src k addrs (s_new true)) with Ok l => Forall2 (fun a z => single a = Ok z) addrs l | _ => False end).
    { destruct (is_process src) eqn:Es.
      - destruct addrs as [|a0 al]; [congruence|]. inversion HF as [|? P0 ? ? H0]; subst.
        destruct H0 as [| | | | | |p o vs a0 P0 Hp Hv Hdb _]; try discriminate.
        destruct (process_maps x m pick rest h p vs Hp) as (Em & Hw).
        assert (Hset : settled w p o (entries_of h p vs) (s_new true)).
        { eapply (undisturbed_settled _ cf w p o); eauto. left. eexists _, _, _. apply in_or_app. right. now left. }
        pose proof (PropSymBatch.C43_process m cf w p o (entries_of h p vs) (a0 :: al) (s_new true) Hre Em (proj1 Hw) Hset) as B.
        destruct (fst (symbolize _ _ _ _ _ _ _)) as [l|e| |]; cbn [batch_all] in B.
        + exact B.
        + destruct B as [B|(a & Ha & B)]; [destruct Hsome as (a & Ha); specialize (B a)|]; destruct (Hgood a Ha) as (r & E); unfold single in E; congruence.
        + destruct B as (a & Ha & B). destruct (Hgood a Ha) as (r & E); unfold single in E; congruence.
        + destruct B as (a & Ha & B). destruct (Hgood a Ha) as (r & E); unfold single in E; congruence.
      - pose proof (PropSymBatch.C43_batch m cf w src k addrs (s_new true) Hre Es) as B. fold single in B.
        destruct (fst (symbolize m cf w src k addrs (s_new true))) as [l|e| |]; cbn [batch_agrees] in B.
        + clear - B Hgood. induction B as [|a z al l Hz _ IH]; constructor; [|apply IH; intros; apply Hgood; now right].
          destruct (Hgood a (or_introl eq_refl)) as (r & E). rewrite E in Hz |- *. now inversion Hz.
        + destruct Hsome as (a & Ha). destruct (Hgood a Ha) as (r & E). specialize (B a). congruence.
        + destruct B as [B|(a & Ha & B)]; [destruct Hsome as (a & Ha); specialize (B a)|]; destruct (Hgood a Ha) as (r & E); congruence.
        + destruct B as [B|(a & Ha & B)]; [destruct Hsome as (a & Ha); specialize (B a)|]; destruct (Hgood a Ha) as (r & E); congruence. }
    destruct (fst (symbolize m cf w src k addrs (s_new true))) as [l|e| |]; try easy. exists l. split; auto.
  Qed.
End User.
Print Assumptions C77_single.
Print Assumptions C77_symbolize.

(** ** Example: the files and the process of C72's, looked at over and over
    again *)
Section Example_.
  Definition ex_opts := POpts false true true true.
  Definition ex_sources : list source :=
    [SElf (path_of ex_q) false; SGsymFile (path_of [47; 103]); SGsymData PropGsym.ex_data; SBreakpad (path_of [47; 98]); SProcess (Pid 7) ex_opts].
  Definition usual (o : @op (N * list N) parser) : Prop :=
    match o with
    | OSymbolize _ _ w src _ _ | OSingle _ _ w src _ _ => w = ex_w /\ In src ex_sources
    | OEvict _ _ => True
    | OCache _ _ | ORegister _ _ _ => False
    end.
  Lemma ex_asked : forall hist cf w src, Forall usual hist -> asked hist cf w src -> w = ex_w /\ In src ex_sources.
  Proof.
    intros hist cf w src HF [(m & k & addrs & H)|(m & k & addr & H)]; rewrite Forall_forall in HF; exact (HF _ H).
  Qed.
  Definition ex_es := Eval vm_compute in entries_of ex_host (Pid 7) ex_vs.
  Definition ex_own_es := Eval vm_compute in entries_of ex_host Slf ex_own.
  Lemma ex_maps : w_maps ex_w (Pid 7) = Good (map Ok ex_es) /\ w_maps ex_w Slf = Good (map Ok ex_own_es).
  Proof.
    destruct ex_process as (H1 & H2). unfold ex_w. split.
    - rewrite (proj1 (process_maps ElfExample.no_ext Checked (fun _ _ => 0) ex_rest ex_host (Pid 7) ex_vs H1)). vm_compute. reflexivity.
    - rewrite (proj1 (process_maps ElfExample.no_ext Checked (fun _ _ => 0) ex_rest ex_host Slf ex_own H2)). vm_compute. reflexivity.
  Qed.
  Definition ex_paths : list (path * path) := Eval vm_compute in
    [(path_of ex_q, path_of ex_q); (path_of (map_files_path 7 4194304 4198400), path_of ex_q);
     (path_of (map_files_path 7 5242880 5246976), path_of ex_gone); (path_of (map_files_path 7 6291456 6299648), path_of ex_apk)].
  Lemma ex_sees : forall hist w p o e, Forall usual hist -> sees hist w p o e -> w = ex_w /\ p = Pid 7 /\ o = ex_opts /\ In e ex_es.
  Proof.
    intros hist w p o e HF (cf & items & Ha & Em & Hin). destruct (ex_asked _ _ _ _ HF Ha) as (-> & Hs).
    destruct Hs as [E|[E|[E|[E|[E|[]]]]]]; try discriminate. injection E as <- <-. repeat (split; [reflexivity|]).
    rewrite (proj1 ex_maps) in Em. assert (Ei : items = map Ok ex_es) by congruence. rewrite Ei in Hin. apply in_map_iff in Hin. destruct Hin as (e' & [= ->] & H). exact H.
  Qed.
  Lemma ex_targets : forall b e p r, In e ex_es -> target_paths b ex_opts e p r -> In (p, r) ex_paths.
  Proof.
    intros b e p r He (f & s & E & _ & -> & ->). unfold ex_es in He.
    repeat (destruct He as [<-|He]; [cbn [me_path] in E; try discriminate; injection E as <- <-; vm_compute; auto|]). destruct He.
  Qed.
  Lemma ex_unique : forall p r r', In (p, r) ex_paths -> In (p, r') ex_paths -> r = r'.
  Proof.
    intros p r r' H H'. unfold ex_paths in *.
    repeat (destruct H as [H|H]; [injection H as <- <-; repeat (destruct H' as [H'|H']; [first [discriminate H'|injection H' as <-; reflexivity]|]); destruct H'|]). destruct H.
  Qed.
  Lemma ex_undisturbed : forall hist, Forall usual hist -> undisturbed hist.
  Proof.
    intros hist HF.
    assert (Hw : forall w, worlds hist w -> w = ex_w) by (intros w (cf & src & Ha); exact (proj1 (ex_asked _ _ _ _ HF Ha))).
    assert (Hst : forall p q mt, fs_stat (w_fs ex_w) p = Good mt -> fs_stat (w_fs ex_w) q = Good mt -> p = q).
    { intros p q mt. cbn [ex_w host_world w_fs fs_stat ex_host h_stat]. destruct (ex_find p) as [f|]; [|discriminate]. destruct (ex_find q) as [f'|]; [|discriminate].
      intros [= <-] [= ->]. reflexivity. }
    assert (He : forall p r d, reads_elf hist p r d -> d = false /\ In (p, r) ex_paths).
    { intros p r d [cf w q d0 Ha|w pid o e q r0 Hs Ht].
      - destruct (ex_asked _ _ _ _ HF Ha) as (_ & Hs). destruct Hs as [E|[E|[E|[E|[E|[]]]]]]; try discriminate. injection E as <- <-. split; [reflexivity|]. left. reflexivity.
      - destruct (ex_sees _ _ _ _ _ HF Hs) as (_ & _ & -> & Hi). split; [reflexivity|]. exact (ex_targets _ _ _ _ Hi Ht). }
    assert (Ha : forall p r, any_elf hist p r -> In (p, r) ex_paths).
    { intros p r [p0 r0 d H|w p0 r0 P q H _ _ _]; [exact (proj2 (He _ _ _ H))|]. destruct (He _ _ _ H). discriminate. }
    assert (Hid : forall U : path -> path -> Prop, (forall p r r', U p r -> U p r' -> r = r') -> identified (worlds hist) U).
    { intros U HU w w' p r p' r' mt H1 H2 Hp Hp' E E'. rewrite (Hw w H1) in E |- *. rewrite (Hw w' H2) in E' |- *. pose proof (Hst _ _ _ E E'). subst p'. split; [now apply (HU p)|reflexivity]. }
    constructor.
    - constructor.
      + intros w w' H1 H2. rewrite (Hw w H1), (Hw w' H2). repeat split.
      + apply Hid. intros p r r' H1 H2. exact (ex_unique p r r' (Ha _ _ H1) (Ha _ _ H2)).
      + intros p r H. exact (AeFile _ _ _ _ H).
      + intros w w' p r p' r' mt P _ _ H. destruct (He _ _ _ H). discriminate.
      + intros w p r P q _ H. destruct (He _ _ _ H). discriminate.
    - apply Hid. intros p r r' (-> & _) (-> & _). reflexivity.
    - apply Hid. intros p r r' (-> & _) (-> & _). reflexivity.
    - apply Hid. intros p r r' (-> & _) (-> & _). reflexivity.
    - assert (Hk : forall p r d, reads_apk hist p r d -> d = false /\ In (p, r) ex_paths).
      { intros p r d [cf w q d0 H|w pid o e q r0 Hs Ht].
        - destruct (ex_asked _ _ _ _ HF H) as (_ & Hs). destruct Hs as [E|[E|[E|[E|[E|[]]]]]]; discriminate.
        - destruct (ex_sees _ _ _ _ _ HF Hs) as (_ & _ & -> & Hi). split; [reflexivity|]. exact (ex_targets _ _ _ _ Hi Ht). }
      intros w w' p r d p' r' d' mt H1 H2 R R' E E'. rewrite (Hw w H1) in E |- *. rewrite (Hw w' H2) in E' |- *. pose proof (Hst _ _ _ E E'). subst p'.
      destruct (Hk _ _ _ R) as (-> & I1), (Hk _ _ _ R') as (-> & I2). split; [exact (ex_unique p r r' I1 I2)|]. repeat split.
    - exists (w_image ex_w 4096 8192). intros w p o e Hs _. destruct (ex_sees _ _ _ _ _ HF Hs) as (-> & _). exists ex_own_es. split; [exact (proj2 ex_maps)|].
      split; [eexists; split; [now left|reflexivity]|]. intros e' [<-|[]] _. reflexivity.
    - intros w w' p p' o o' e e' name f f' H _ _ _ E. destruct (ex_sees _ _ _ _ _ HF H) as (-> & _). discriminate E.
  Qed.

  Definition ex_addrs : list N := [4194304 + 178; 6291456 + 71 + 178; 4294967290; 7340032 + 178; 0; 4194304 + 178].
  Definition program_at (module : list N) : symbolized -> Prop :=
    elf_offset_answer ex_cf module PropElf.ex_e PropElf.ex_st PropElf.ex_dt 178.
  Lemma ex_mapped : forall i v, nth_error (map fst ex_vs) i = Some v -> N.testbit (vma_flags v) 0 = true ->
    forall a, vma_start v <= a < vma_end v -> mapped_at ex_vs v a.
  Proof. intros i v E Hb a Ha. split; [eapply nth_error_In; eauto|]. split; [now left|exact Ha]. Qed.
  Lemma ex_described : Forall2 (describes ElfExample.no_ext ex_host ex_cf (SProcess (Pid 7) ex_opts) AbsAddr) ex_addrs
    [program_at ex_q; program_at (ex_apk ++ [33; 47; 98; 47; 99]);
     eq (answer ex_cf [108; 97; 115; 116] None 4294967290 4294967280 (Some 15)); program_at str_vdso; eq (Unknown Unmapped); program_at ex_q].
  Proof.
    assert (Hd : forall a P, process_describes ElfExample.no_ext ex_host ex_cf (Pid 7) ex_opts ex_vs a P ->
      describes ElfExample.no_ext ex_host ex_cf (SProcess (Pid 7) ex_opts) AbsAddr a P).
    { intros a P H. apply (DsProcess _ _ _ (Pid 7) ex_opts ex_vs a P (proj1 ex_process)); auto. eexists. split; [now left|now left]. }
    assert (Hfile : forall s e q, is_bytes q -> forall ptr data, h_open ex_host (path_of (map_files_path 7 s e)) = Good (ptr, data) ->
      mapped_file ex_host ex_opts (Pid 7) (Vma s e 5 0 q []) q ptr data).
    { intros s e q Hq ptr data E f Hf. rewrite (map_file_unique _ _ _ f (map_files_path 7 s e) Hf (PropMaps.map_files_path_ok 7 s e)). cbn [po_map_files ex_opts].
      split; [|exact E]. cbn [ex_host h_stat h_open] in *. destruct (ex_find _) as [f'|]; [eauto|discriminate]. }
    assert (Hq : process_describes ElfExample.no_ext ex_host ex_cf (Pid 7) ex_opts ex_vs (4194304 + 178) (program_at ex_q)).
    { refine (PdFile _ _ _ (Pid 7) ex_opts ex_vs (4194304 + 178) (Vma 4194304 4198400 5 0 ex_q []) ex_q 4096 PropElf.ex_data _ _ eq_refl _ _ _ (or_intror (conj _ (OdElf _ _ _ _ _ _ _ _ _ ex_program)))).
      - apply (ex_mapped 0); [reflexivity|reflexivity|]. cbn. lia.
      - split; [reflexivity|]. left. split; [reflexivity|]. intros r E. apply (f_equal (@rev N)) in E. rewrite rev_app_distr in E. discriminate E.
      - repeat constructor.
      - apply Hfile; [repeat constructor|vm_compute; reflexivity].
      - intros (pre & c & ext & E & _ & Hext). destruct pre as [|? [|? [|? ?]]]; cbn in E; try discriminate; destruct Hext as [->| ->]; discriminate. }
    constructor; [now apply Hd|]. constructor; [apply Hd|]. 2: constructor; [apply Hd|]. 3: constructor; [apply Hd|]. 4: constructor; [apply Hd|constructor; [now apply Hd|constructor]].
    - refine (PdFile _ _ _ (Pid 7) ex_opts ex_vs (6291456 + 71 + 178) (Vma 6291456 6299648 5 0 ex_apk []) ex_apk (4096 - 71) ex_zip _ _ eq_refl _ _ _ (or_introl (conj _
        (AdMember ElfExample.no_ext ex_cf ex_apk (4096 - 71) ex_zip 249 [PropZip.sample_record 0 [97]] (PropZip.sample_record 36 [98; 47; 99]) [] [98; 47; 99] 71 PropElf.ex_data _ ex_archive _ (proj2 ex_stored) _ (OdElf ElfExample.no_ext ex_cf (PropNormalize.member_path ex_apk [98; 47; 99]) 4096 PropElf.ex_data 178 _ _ _ ex_program))))).
      + apply (ex_mapped 2); [reflexivity|reflexivity|]. cbn. lia.
      + split; [reflexivity|]. left. split; [reflexivity|]. intros r E. apply (f_equal (@rev N)) in E. rewrite rev_app_distr in E. discriminate E.
      + repeat constructor.
      + apply Hfile; [repeat constructor|vm_compute; reflexivity].
      + exists [47], 120, [97; 112; 107]. split; [reflexivity|]. split; [discriminate|now left].
      + constructor; [|constructor]. exists [97], 33, [1; 2; 3]. split; [exact (proj1 ex_stored)|]. vm_compute. intros [_ H]. discriminate H.
      + vm_compute. split; [discriminate|reflexivity].
    - refine (PdPerf _ _ _ (Pid 7) ex_opts ex_vs 4294967290 (Vma 4294963200 4294967296 7 0 [] []) 0 PropPerf.ex_text PropPerf.ex_fns (PerfMap.PFn [108; 97; 115; 116] 4294967280 15) _ eq_refl eq_refl eq_refl _
        PropPerf.ex_perf (proj1 (proj2 PropPerf.C37_example)) (proj1 (proj2 (proj2 PropPerf.C37_example))) _ _).
      + apply (ex_mapped 4); [reflexivity|reflexivity|]. cbn. lia.
      + exists [55]. split; [exists 1%nat; repeat split; auto|]. split; [eexists; vm_compute; reflexivity|vm_compute; reflexivity].
      + do 3 right. now left.
      + unfold PerfSpec.at_fn. cbn. lia.
    - refine (PdVdso _ _ _ (Pid 7) ex_opts ex_vs (7340032 + 178) (Vma 7340032 7344128 5 0 str_vdso []) 4096 PropElf.ex_data _ _ eq_refl eq_refl eq_refl _ (OdElf _ _ _ _ _ _ _ _ _ ex_program)).
      + apply (ex_mapped 3); [reflexivity|reflexivity|]. cbn. lia.
      + exists 8192. split; [reflexivity|]. exists ex_own, (Vma 4096 8192 5 0 str_vdso []). split; [exact (proj2 ex_process)|]. split; [now left|]. split; [now left|]. split; [reflexivity|].
        split; [|split; reflexivity]. intros u [<-|[]] _. reflexivity.
    - apply PdUnmapped. intros v (Hv & _ & Hs & _).
      repeat (destruct Hv as [<-|Hv]; [vm_compute in Hs; congruence|]). destruct Hv.
  Qed.
  Example C77_symbolize_example : forall hist, Forall usual hist -> exists rs,
    fst (symbolize Checked ex_cf ex_w (SProcess (Pid 7) ex_opts) AbsAddr ex_addrs (run hist (s_new true))) = Ok rs /\
    Forall2 (fun (P : symbolized -> Prop) r => P r)
      [program_at ex_q; program_at (ex_apk ++ [33; 47; 98; 47; 99]);
       eq (answer ex_cf [108; 97; 115; 116] None 4294967290 4294967280 (Some 15)); program_at str_vdso; eq (Unknown Unmapped); program_at ex_q] rs.
  Proof.
    intros hist HF. apply (C77_symbolize ElfExample.no_ext Checked (fun _ _ => 0) ex_rest ex_host ex_cf ElfExample.no_ext_sorts eq_refl eq_refl).
    - eapply Forall_impl; [|exact HF]. intros [] H; exact I || destruct H.
    - apply ex_undisturbed, Forall_app. split; auto. constructor; [|constructor]. split; [reflexivity|]. do 4 right. now left.
    - discriminate.
    - exact ex_described.
  Qed.
  (** The calls inlined at an address, with everything demangled *)
  Definition ex_inlined_cf : config := Config WithInlined (fun name _ => 42 :: name) 42.
  Example C77_inlined_example : forall hist, Forall usual hist -> exists r,
    fst (symbolize_single Checked ex_inlined_cf ex_w (SGsymFile (path_of [47; 103])) VirtOffset 4107 (run hist (s_new true))) = Ok r /\
    framed ex_inlined_cf [109; 97; 105; 110] None 4107 4096 32 (PropGsym.at_line [47; 115] [97; 46; 99] 14)
      [[102; 111; 111]; [98; 97; 114]] [PropGsym.at_line [47; 115] [97; 46; 99] 11; PropGsym.at_line [47; 115] [98; 46; 104] 21] r.
  Proof.
    intros hist HF. apply (C77_single ElfExample.no_ext Checked (fun _ _ => 0) ex_rest ex_host ex_inlined_cf ElfExample.no_ext_sorts eq_refl eq_refl).
    - eapply Forall_impl; [|exact HF]. intros [] H; exact I || destruct H.
    - apply ex_undisturbed, Forall_app. split; auto. constructor; [|constructor]. split; [reflexivity|]. right. now left.
    - apply (DsGsym _ _ _ [47; 103] 0 PropGsym.ex_data PropGsym.ex_file).
      + split; [eexists; vm_compute; reflexivity|vm_compute; reflexivity].
      + split; [exact PropGsym.ex_is_gsym|]. split; [reflexivity|]. split; [exact PropGsym.ex_sorted|exact PropGsym.ex_no_wrap].
      + refine (GdInlined ex_inlined_cf PropGsym.ex_file 4107 PropGsym.ex_main [109; 97; 105; 110] (PropGsym.at_line [47; 115] [97; 46; 99] 14)
          (GsymSpec.Call 1 0 0) [GsymSpec.Call 6 1 11; GsymSpec.Call 10 2 21] [109; 97; 105; 110] [[102; 111; 111]; [98; 97; 114]]
          [PropGsym.at_line [47; 115] [97; 46; 99] 11; PropGsym.at_line [47; 115] [98; 46; 104] 21] _ PropGsym.ex_infos_ok _ eq_refl PropGsym.ex_chain _ _ _).
        * split; [exact PropGsym.ex_nearest|]. split; [exact PropGsym.ex_covers|]. now apply PropGsym.ex_name_at.
        * exists (GsymSpec.LState 4104 1 14). split; [exact PropGsym.ex_row|]. exists 14, 17, [47;115], [97;46;99]. split; [reflexivity|]. split; [now apply PropGsym.ex_str_at|].
          split; [now apply PropGsym.ex_str_at|reflexivity].
        * now apply PropGsym.ex_name_at.
        * constructor; [now apply PropGsym.ex_name_at|]. constructor; [now apply PropGsym.ex_name_at|constructor].
        * constructor; [|constructor; [|constructor]].
          -- exists 14, 17, [47;115], [97;46;99]. split; [reflexivity|]. split; [now apply PropGsym.ex_str_at|]. split; [now apply PropGsym.ex_str_at|reflexivity].
          -- exists 14, 21, [47;115], [98;46;104]. split; [reflexivity|]. split; [now apply PropGsym.ex_str_at|]. split; [now apply PropGsym.ex_str_at|reflexivity].
  Qed.
End Example_.
